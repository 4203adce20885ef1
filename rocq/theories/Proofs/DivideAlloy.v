(** Groups of alloys: compositions, offsets, and the group of the lowest energy. *)
From Verif Require Import Base Num Model.Split Model.Divide Proofs.Split Proofs.GridOptimal Proofs.Divide.

Lemma set_at_length l i v : length (set_at l i v) = length l.
Proof. revert i. induction l as [|x l IH]; intros [|i]; cbn; auto. Qed.
Lemma set_at_nth l i v j : nth_error (set_at l i v) j = if (j =? i) && (i <? length l) then Some v else nth_error l j.
Proof.
  revert i j. induction l as [|x l IH]; intros [|i] [|j]; cbn [set_at length nth_error]; try reflexivity.
  - now rewrite andb_false_r.
  - rewrite IH. reflexivity.
Qed.
Lemma scatter_length ivs g : length (scatter g ivs) = length g.
Proof. unfold scatter. revert g. induction ivs as [|[i v] ivs IH]; intros g; cbn; [reflexivity|]. now rewrite IH, set_at_length. Qed.
Lemma scatter_other ivs g j : ~ In j (map fst ivs) -> nth_error (scatter g ivs) j = nth_error g j.
Proof.
  unfold scatter. revert g. induction ivs as [|[i v] ivs IH]; intros g H; cbn; [reflexivity|]. cbn in H. rewrite IH by tauto. rewrite set_at_nth.
  destruct (Nat.eqb_spec j i) as [->|]; [tauto|reflexivity].
Qed.
Lemma scatter_in ivs g n i v : NoDup (map fst ivs) -> nth_error ivs n = Some (i, v) -> i < length g -> nth_error (scatter g ivs) i = Some v.
Proof.
  unfold scatter. revert g n. induction ivs as [|[i' v'] ivs IH]; intros g [|n] HN Hn Hi; cbn in *; try discriminate; inversion HN as [|? ? H1 H2]; subst.
  - injection Hn as -> ->. fold (scatter (set_at g i v) ivs). rewrite scatter_other by exact H1. rewrite set_at_nth, Nat.eqb_refl. apply Nat.ltb_lt in Hi. now rewrite Hi.
  - apply (IH _ n H2 Hn). now rewrite set_at_length.
Qed.

Section Keys.
  Variables (F K : Type) (keqb : K -> K -> bool).
  Hypothesis keqb_eq : forall a b, keqb a b = true <-> a = b.
  Definition ids_of (d : list (K * list nat)) (k : K) : list nat := match find (fun kl => keqb k (fst kl)) d with Some (_, l) => l | None => [] end.
  Lemma keqb_refl k : keqb k k = true. Proof. now apply keqb_eq. Qed.
  Lemma ids_add k i d k' : ids_of (dict_add K keqb k i d) k' = if keqb k' k then ids_of d k ++ [i] else ids_of d k'.
  Proof.
    unfold ids_of. induction d as [|[k1 l] d IH]; cbn [dict_add find fst].
    - destruct (keqb k' k); reflexivity.
    - destruct (keqb k k1) eqn:E; cbn [find fst].
      + apply keqb_eq in E. subst k1. destruct (keqb k' k); reflexivity.
      + destruct (keqb k' k1) eqn:E1.
        * destruct (keqb k' k) eqn:E2; [|reflexivity]. apply keqb_eq in E1, E2. subst. rewrite keqb_refl in E. discriminate.
        * exact IH.
  Qed.
  Lemma add_keys k i d : map fst (dict_add K keqb k i d) = map fst d \/ (~ In k (map fst d) /\ map fst (dict_add K keqb k i d) = map fst d ++ [k]).
  Proof.
    induction d as [|[k1 l] d IH]; cbn [dict_add map fst In]; [right; split; [tauto|reflexivity]|]. destruct (keqb k k1) eqn:E; [left; reflexivity|]. cbn [map fst].
    destruct IH as [->|[H ->]]; [left; reflexivity|]. right. split; [|reflexivity]. intros [->|H2]; [|auto]. rewrite keqb_refl in E. discriminate.
  Qed.
  Lemma dict_entry d k ids : NoDup (map fst d) -> In (k, ids) d -> ids_of d k = ids.
  Proof.
    unfold ids_of. induction d as [|[k1 l] d IH]; cbn [map fst find In]; [intros _ []|]. intros HN HI. inversion HN as [|? ? H1 H2]; subst. destruct HI as [[= -> ->]|HI]; [now rewrite keqb_refl|].
    destruct (keqb k k1) eqn:E; [apply keqb_eq in E; subst k1; exfalso; apply H1; exact (in_map fst _ _ HI)|]. now apply IH.
  Qed.
  Definition good (d : list (K * list nat)) : Prop := NoDup (map fst d) /\ Forall (fun kl => snd kl <> []) d.
  Lemma good_add k i d : good d -> good (dict_add K keqb k i d).
  Proof.
    intros [H1 H2]. split.
    - destruct (add_keys k i d) as [-> | [H ->]]; [exact H1|]. apply nodup_app; [exact H1|repeat constructor; intros []|]. intros x Hx [<-|[]]. auto.
    - clear H1. induction H2 as [|[k1 l] d Hl H2 IH]; cbn [dict_add]; [repeat constructor; discriminate|]. destruct (keqb k k1); constructor; auto. cbn. now destruct l.
  Qed.
  Lemma comp_ids_good (dft : list (calc F K)) : good (comp_ids K keqb dft).
  Proof.
    unfold comp_ids. assert (G : good []) by (split; constructor). revert G. generalize (@nil (K * list nat)). generalize (combine (seq 0 (length dft)) dft).
    intros l. induction l as [|[i c] l IH]; intros d G; cbn; [exact G|]. apply IH. now apply good_add.
  Qed.
  Lemma comp_ids_of (dft : list (calc F K)) k : ids_of (comp_ids K keqb dft) k = where_ (fun c => keqb k (c_key K c)) dft.
  Proof.
    unfold comp_ids, where_. assert (G : forall l b d, ids_of (fold_left (fun d ic => dict_add K keqb (c_key K (snd ic)) (fst ic) d) (combine (seq b (length l)) l) d) k = ids_of d k ++ where_from b (fun c : calc F K => keqb k (c_key K c)) l).
    { induction l as [|c l IH]; intros b d; cbn [length seq combine fold_left where_from]; [now rewrite app_nil_r|]. rewrite IH, ids_add. cbn [fst snd].
      destruct (keqb k (c_key K c)) eqn:E; [|reflexivity]. apply keqb_eq in E. subst k. rewrite <- app_assoc. reflexivity. }
    rewrite G. reflexivity.
  Qed.
  Lemma comp_ids_entry (dft : list (calc F K)) k ids : In (k, ids) (comp_ids K keqb dft) -> ids = where_ (fun c => keqb k (c_key K c)) dft /\ ids <> [].
  Proof.
    intros H. destruct (comp_ids_good dft) as [H1 H2]. split; [now rewrite <- (dict_entry _ _ _ H1 H), comp_ids_of|]. rewrite Forall_forall in H2. exact (H2 _ H).
  Qed.
  Lemma comp_ids_all (dft : list (calc F K)) i c : nth_error dft i = Some c -> exists ids, In (c_key K c, ids) (comp_ids K keqb dft) /\ In i ids.
  Proof.
    intros H. assert (HI : In i (ids_of (comp_ids K keqb dft) (c_key K c))). { rewrite comp_ids_of. apply where_In. exists c. split; [exact H|apply keqb_refl]. }
    unfold ids_of in HI. destruct (find _ _) as [[k l]|] eqn:E; [|destruct HI]. apply find_some in E. destruct E as [E1 E2]. cbn in E2. apply keqb_eq in E2. subst k. eauto.
  Qed.
  Lemma comp_ids_disjoint (dft : list (calc F K)) : NoDup (concat (map snd (comp_ids K keqb dft))).
  Proof.
    pose proof (comp_ids_entry dft) as HE. destruct (comp_ids_good dft) as [H1 _]. revert HE H1. generalize (comp_ids K keqb dft). intros d. induction d as [|[k ids] d IH]; intros HE H1; cbn [map concat snd]; [constructor|].
    inversion H1 as [|? ? Hk H2]; subst. destruct (HE k ids ltac:(now left)) as [E _]. apply nodup_app; [rewrite E; apply where_nodup|apply IH; [intros; apply HE; now right|exact H2]|].
    intros x Hx Hy. apply in_concat in Hy. destruct Hy as [l [Hl Hy]]. apply in_map_iff in Hl. destruct Hl as [[k2 ids2] [<- Hin]]. cbn [snd] in Hy. destruct (HE k2 ids2 ltac:(now right)) as [E2 _].
    rewrite E in Hx. rewrite E2 in Hy. apply where_In in Hx, Hy. destruct Hx as [c [Hc Ec]], Hy as [c2 [Hc2 Ec2]]. rewrite Hc in Hc2. injection Hc2 as <-. apply keqb_eq in Ec, Ec2. apply Hk. rewrite Ec, <- Ec2. exact (in_map fst _ _ Hin).
  Qed.
End Keys.
Lemma offset_multiple {K} (keqb : K -> K -> bool) is_end n keys k : exists q, offset K keqb (end_comp K is_end n n keys) k = q * n.
  Proof.
    assert (G : forall keys s, (exists q, s = q * n) -> exists q, offset K keqb (end_comp K is_end s n keys) k = q * n).
    { clear keys. unfold offset. induction keys as [|k1 keys IH]; intros s Hs; cbn [end_comp find]; [exists 0; reflexivity|]. destruct (is_end k1); [|now apply IH]. cbn [find fst]. destruct (keqb k k1); [exact Hs|].
      apply IH. destruct Hs as [q ->]. exists (q + 1). lia. }
    apply G. exists 1. lia.
  Qed.

Section Loop.
  Context {F : Type} {N : Num F} {O : NumOrd F}.
  Variables (pow2 : F -> F) (K : Type) (keqb : K -> K -> bool).
  Lemma alloy_loop_ok es fs ec n d groups : 1 <= n -> length es = length groups -> length fs = length groups -> NoDup (concat (map snd d)) -> Forall (fun kl => snd kl <> []) d -> (forall i, In i (concat (map snd d)) -> i < length groups) ->
    exists res, alloy_loop pow2 K keqb es fs ec n d groups = Ok res /\ length res = length groups /\ (forall i, ~ In i (concat (map snd d)) -> nth_error res i = nth_error groups i) /\
      forall k ids, In (k, ids) d -> exists e f local, mapM (get es) ids = Ok e /\ mapM (get fs) ids = Ok f /\ split pow2 e f n = Ok local /\ length local = length ids /\ (forall g, In g local -> g < n) /\
        forall j i g, nth_error ids j = Some i -> nth_error local j = Some g -> nth_error res i = Some (g + offset K keqb ec k).
  Proof.
    intros Hn. revert groups. induction d as [|[k ids] d IH]; intros groups HE HF HD HN HB; cbn [alloy_loop].
    - exists groups. repeat split; auto. intros k ids [].
    - cbn [map concat snd] in *. inversion HN as [|? ? HI HN2]; subst. cbn [snd] in HI.
      assert (HNI : NoDup ids) by (clear - HD; induction ids as [|x ids IH]; [constructor|]; cbn in HD; inversion HD; subst; constructor; [rewrite in_app_iff in *; tauto|auto]).
      assert (HND : NoDup (concat (map snd d))) by (clear - HD; induction ids as [|x ids IH]; [exact HD|]; cbn in HD; inversion HD; auto).
      assert (HDJ : forall x, In x ids -> ~ In x (concat (map snd d))).
      { clear - HD. induction ids as [|x ids IH]; cbn in *; [intros ? []|]. inversion HD as [|? ? H1 H2]; subst. intros y [<-|Hy]; [rewrite in_app_iff in H1; tauto|now apply IH]. }
      destruct (mapM_get_ok es ids) as [e EE]; [intros i Hi; rewrite HE; apply HB; rewrite in_app_iff; auto|].
      destruct (mapM_get_ok fs ids) as [f EF]; [intros i Hi; rewrite HF; apply HB; rewrite in_app_iff; auto|].
      rewrite EE, EF. cbn [bind]. pose proof (mapM_length _ _ _ EE) as LE. pose proof (mapM_length _ _ _ EF) as LF.
      destruct (split_ok pow2 e f n) as [local [ES [LL HLt]]]; [destruct e; [destruct ids; [congruence|discriminate]|discriminate]|lia|exact Hn|]. rewrite ES. cbn [bind].
      set (vals := combine ids (map (fun g => g + offset K keqb ec k) local)).
      assert (HV : map fst vals = ids). { unfold vals. assert (L : length (map (fun g => g + offset K keqb ec k) local) = length ids) by (rewrite map_length; lia). revert L. generalize (map (fun g => g + offset K keqb ec k) local). clear. induction ids as [|x ids IH]; intros [|y l]; cbn; intros L; try discriminate; [reflexivity|]. f_equal. apply IH. lia. }
      destruct (IH (scatter groups vals)) as [r [ER [LR [RO RI]]]]; [now rewrite scatter_length|now rewrite scatter_length|exact HND|exact HN2|intros i Hi; rewrite scatter_length; apply HB; rewrite in_app_iff; auto|].
      exists r. split; [exact ER|]. split; [rewrite LR; apply scatter_length|]. split.
      { intros i Hi. rewrite in_app_iff in Hi. rewrite RO by tauto. apply scatter_other. rewrite HV. tauto. }
      intros k2 ids2 [[= <- <-]|HI2]; [|now apply RI]. exists e, f, local. repeat split; [exact EE|exact EF|exact ES|lia|exact HLt|].
      intros j i g Hj Hg. assert (Hin : In i ids) by (eapply nth_error_In; eassumption). rewrite RO by (now apply HDJ). apply (scatter_in _ _ j); [now rewrite HV| |apply HB; rewrite in_app_iff; auto].
      unfold vals. assert (HC : forall {A B} (a : list A) (b : list B) k x y, nth_error a k = Some x -> nth_error b k = Some y -> nth_error (combine a b) k = Some (x, y)).
      { clear. induction a as [|? a IH]; intros [|? b] [|k] x y; cbn; try discriminate; [congruence|apply IH]. }
      apply HC; [exact Hj|]. rewrite nth_error_map, Hg. reflexivity.
  Qed.
End Loop.
