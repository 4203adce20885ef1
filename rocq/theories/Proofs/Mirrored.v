(** The rows of [get_full_list] list all neighbours. *)
From Verif Require Import Base Num Model.Cxx Model.Neighbor Spec.Neighbor Proofs.Cxx Proofs.NeighborList.

Lemma flat_map_app2 {A B} (f g : A -> list B) l : Permutation (flat_map (fun x => f x ++ g x) l) (flat_map f l ++ flat_map g l).
Proof.
  induction l as [|x l IH]; cbn [flat_map]; [constructor|]. rewrite IH, <- !app_assoc. apply Permutation_app_head.
  rewrite !app_assoc. apply Permutation_app_tail. apply Permutation_app_comm.
Qed.
Lemma flat_map_perm_in {A B} (f g : A -> list B) l : (forall x, In x l -> Permutation (f x) (g x)) -> Permutation (flat_map f l) (flat_map g l).
Proof. induction l as [|x l IH]; intros H; cbn; [constructor|]. apply Permutation_app; [apply H; now left|apply IH; intros; apply H; now right]. Qed.
Lemma flat_map_nil {A B} (f : A -> list B) l : (forall x, In x l -> f x = []) -> flat_map f l = [].
Proof. induction l as [|x l IH]; intros H; cbn; [reflexivity|]. rewrite H by (now left). apply IH. intros; apply H; now right. Qed.
Lemma flat_map_flat_map {A B C} (f : A -> list B) (g : B -> list C) l : flat_map g (flat_map f l) = flat_map (fun x => flat_map g (f x)) l.
Proof. induction l as [|x l IH]; cbn; [reflexivity|]. now rewrite flat_map_app, IH. Qed.
Lemma flat_map_map2 {A B C} (f : A -> B) (g : B -> list C) l : flat_map g (map f l) = flat_map (fun x => g (f x)) l.
Proof. induction l as [|x l IH]; cbn; [reflexivity|]. now rewrite IH. Qed.
Lemma flat_map_pick {B} (f : nat -> list B) a n : forall s, s <= a < s + n -> flat_map (fun k => if k =? a then f k else []) (seq s n) = f a.
Proof.
  induction n as [|n IH]; intros s H; [lia|]. cbn [seq flat_map]. destruct (Nat.eqb_spec s a) as [<-|E].
  - rewrite flat_map_nil; [apply app_nil_r|]. intros k Hk. apply in_seq in Hk. destruct (Nat.eqb_spec k s); [lia|reflexivity].
  - cbn. apply IH. lia.
Qed.

Section Mirrored.
  Context {F : Type} {N : Num F} {NO : NumOrd F}.
  Variable rows : list (list (nat * v3 F)).
  Hypothesis HR : half_list rows.
  Let n := length rows.
  Theorem mirrored_perm i : i < n -> Permutation (row (get_full_list n (csr_of rows)) i) (mirrored rows i).
  Proof.
    intros Hi. rewrite (full_row n rows eq_refl HR i Hi). unfold events. rewrite (half_pairs_rows n rows eq_refl HR).
    assert (E : forall l, sel (flat_map mirror l) i = flat_map (fun e => (if fst (fst e) =? i then [(snd (fst e), snd e)] else []) ++ (if snd (fst e) =? i then [(fst (fst e), vneg (snd e))] else [])) l).
    { induction l as [|[[a b] d] l IH]; [reflexivity|]. cbn [flat_map]. rewrite sel_app, IH. f_equal. unfold sel, mirror. cbn. destruct (a =? i), (b =? i); reflexivity. }
    rewrite E. rewrite flat_map_flat_map. rewrite (flat_map_perm_in _ (fun k => (if k =? i then nth k rows [] else []) ++ flat_map (fun jd => if fst jd =? i then [(k, vneg (snd jd))] else []) (nth k rows []))).
    - rewrite flat_map_app2. unfold mirrored. apply Permutation_app_tail. rewrite flat_map_pick by lia. apply Permutation_refl.
    - intros k _. rewrite flat_map_map2. rewrite flat_map_app2. cbn [fst snd]. apply Permutation_app_tail.
      destruct (k =? i).
      + induction (nth k rows []) as [|[j d] l IH]; cbn; [constructor|now constructor].
      + rewrite flat_map_nil; [constructor|reflexivity].
  Qed.
End Mirrored.
