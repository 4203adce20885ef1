(** Sums, products and accumulation loops. *)
From Verif Require Import Base Num Complex Spec.Poly Model.Cxx Model.Features Model.Compute Proofs.Cxx.
From Coq Require Import Ring.

Section Sums.
  Context {T : Type} {NT : Num T} {L : RingLaws T}.
  Local Open Scope num_scope.
  Add Ring Tring : (ring_laws (F:=T)).

  Lemma fold_sum {A} (f : A -> T) l s : fold_left (fun s x => s + f x) l s = s + nsumf f l.
  Proof. revert s. induction l as [|x l IH]; intros s; cbn [fold_left]; rewrite ?nsumf_nil, ?nsumf_cons; [ring|]. rewrite IH. ring. Qed.

  Lemma accum_from l (v : nat -> T) k :
    fold_left (fun v e => acc v (fst e) (snd e)) l v k = v k + nsumf (fun e => if fst e =? k then snd e else 0) l.
  Proof.
    revert v. induction l as [|[i x] l IH]; intros v; cbn [fold_left fst snd]; rewrite ?nsumf_nil, ?nsumf_cons; [ring|].
    rewrite IH. unfold acc. cbn [fst snd]. rewrite (Nat.eqb_sym k i). destruct (i =? k); ring.
  Qed.
  Lemma accum_spec l k : accum l k = nsumf (fun e : nat * T => if fst e =? k then snd e else 0) l.
  Proof. unfold accum. rewrite accum_from. ring. Qed.

  Lemma fold_prod l (x : T) (el : nat -> T) : fold_left (fun v i => v * el i) l x = x * nprod (map el l).
  Proof. revert x. induction l as [|i l IH]; intros x; cbn [fold_left map nprod fold_right]; [ring|]. rewrite IH. unfold nprod. ring. Qed.
  Lemma compute_product_spec p (el : nat -> T) : compute_product p el = nprod (map el p).
  Proof. destruct p as [|i p]; [reflexivity|]. cbn [compute_product]. rewrite fold_prod. reflexivity. Qed.

  Lemma nprod_perm (l l' : list T) : Permutation l l' -> nprod l = nprod l'.
  Proof. unfold nprod. induction 1; cbn [fold_right]; [reflexivity|now rewrite IHPermutation|ring|congruence]. Qed.
  Lemma nprod_app (l l' : list T) : nprod (l ++ l') = nprod l * nprod l'.
  Proof. unfold nprod. induction l as [|x l IH]; cbn [app fold_right]; [ring|]. rewrite IH. ring. Qed.
  Lemma nprod_map_mul {A} (f g : A -> T) l : nprod (map (fun x => f x * g x) l) = nprod (map f l) * nprod (map g l).
  Proof. unfold nprod. induction l as [|x l IH]; cbn [map fold_right]; [ring|]. rewrite IH. ring. Qed.

  (** A factor taken out of a product. *)
  Lemma nprod_erase (el : nat -> T) ids j : j < length ids ->
    nprod (map el ids) = nprod (map el (erase j ids)) * el (nth j ids 0%nat).
  Proof.
    revert j. induction ids as [|i ids IH]; intros [|j] H; cbn [length] in H; try lia; cbn [erase map nprod fold_right nth].
    - unfold nprod. ring.
    - unfold nprod in IH. rewrite IH with (j := j) by lia. ring.
  Qed.
  Lemma nprod_erase_key (el : nat -> T) ids j : nprod (map el (erase_a_key ids j)) = nprod (map el (erase j ids)).
  Proof. apply nprod_perm, Permutation_map, sortn_perm. Qed.
  Lemma euler (el : nat -> T) ids :
    nsumf (fun j => nprod (map el (erase j ids)) * el (nth j ids 0%nat)) (seq 0 (length ids)) = nnat (length ids) * nprod (map el ids).
  Proof.
    rewrite (nsumf_ext _ (fun _ => nprod (map el ids))); [|intros j Hj; apply in_seq in Hj; symmetry; apply nprod_erase; lia].
    rewrite nsumf_const, seq_length. reflexivity.
  Qed.

  Lemma nsumf_seq_nth {A} (f : A -> T) l d : nsumf (fun i => f (nth i l d)) (seq 0 (length l)) = nsumf f l.
  Proof.
    induction l as [|x l IH]; [reflexivity|]. cbn [length seq]. rewrite nsumf_cons. cbn [nth].
    rewrite nsumf_cons. f_equal. rewrite <- IH, <- seq_shift, nsumf_map. reflexivity.
  Qed.
  Lemma nsumf_combine_seq {A} (f : nat -> A -> T) l d :
    nsumf (fun ka => f (fst ka) (snd ka)) (combine (seq 0 (length l)) l) = nsumf (fun i => f i (nth i l d)) (seq 0 (length l)).
  Proof.
    assert (G : forall l b, nsumf (fun ka => f (fst ka) (snd ka)) (combine (seq b (length l)) l) = nsumf (fun i => f (b + i)%nat (nth i l d)) (seq 0 (length l))).
    { clear l. induction l as [|x l IH]; intros b; [reflexivity|]. cbn [length seq combine]. rewrite !nsumf_cons. cbn [fst snd nth].
      rewrite Nat.add_0_r. f_equal. rewrite IH, <- seq_shift, nsumf_map. apply nsumf_ext'. intros i. cbn [nth]. f_equal. lia. }
    apply (G l 0%nat).
  Qed.
  (** Sum over the values of an index: at most one term. *)
  Lemma nsumf_delta n (f : nat -> T) i : i < n -> nsumf (fun k => if i =? k then f k else 0) (seq 0 n) = f i.
  Proof.
    induction n as [|n IH]; intros H; [lia|]. rewrite seq_S, nsumf_app, nsumf_cons, nsumf_nil, Nat.add_0_l.
    destruct (Nat.eqb_spec i n) as [Q|Q].
    - subst i. rewrite (nsumf_ext _ (fun _ => 0)); [rewrite nsumf_zero; ring|].
      intros k Hk. apply in_seq in Hk. destruct (Nat.eqb_spec n k); [lia|reflexivity].
    - rewrite IH by lia. ring.
  Qed.
  (** Linear functionals of an accumulated vector. *)
  Lemma accum_pair n (l : list (nat * T)) (w : nat -> T) : Forall (fun e => fst e < n) l ->
    nsumf (fun k => accum l k * w k) (seq 0 n) = nsumf (fun e => snd e * w (fst e)) l.
  Proof.
    intros H. rewrite (nsumf_ext' _ (fun k => nsumf (fun e : nat * T => if fst e =? k then snd e * w k else 0) l)).
    2:{ intros k. rewrite accum_spec, <- nsumf_scale_r. apply nsumf_ext'. intros e. destruct (fst e =? k); ring. }
    rewrite nsumf_swap. apply nsumf_ext. intros e He. rewrite Forall_forall in H. now rewrite (nsumf_delta n (fun k => snd e * w k)) by auto.
  Qed.
End Sums.

(** The derivative part of a product of dual numbers. *)
Section Dual.
  Context {T : Type} {NT : Num T} {L : RingLaws T}.
  Local Open Scope num_scope.
  Add Ring Tring2 : (ring_laws (F:=T)).
  Lemma dval_prod (a d : nat -> T) ids : dval (nprod (map (fun h => D (a h) (d h)) ids)) = nprod (map a ids).
  Proof.
    induction ids as [|i ids IH]; [reflexivity|].
    transitivity (a i * dval (nprod (map (fun h => D (a h) (d h)) ids))); [reflexivity|]. rewrite IH. reflexivity.
  Qed.
  Lemma dder_prod (a d : nat -> T) ids : dder (nprod (map (fun h => D (a h) (d h)) ids)) =
    nsumf (fun j => nprod (map a (erase j ids)) * d (nth j ids 0%nat)) (seq 0 (length ids)).
  Proof.
    induction ids as [|i ids IH]; [reflexivity|]. cbn [map nprod fold_right length seq]. rewrite nsumf_cons. cbn [erase nth].
    transitivity (d i * nprod (map a ids) + a i * dder (nprod (map (fun h => D (a h) (d h)) ids))).
    { rewrite <- (dval_prod a d). reflexivity. }
    rewrite IH, <- seq_shift, nsumf_map. unfold nprod. cbn [dder dval].
    rewrite <- nsumf_scale_l. rewrite (nsumf_ext' (fun x => fold_right nmul n1 (map a (erase (S x) (i :: ids))) * d (nth (S x) (i :: ids) 0%nat))
      (fun x => a i * (fold_right nmul n1 (map a (erase x ids)) * d (nth x ids 0%nat)))).
    2:{ intros x. cbn [erase map fold_right nth]. ring. }
    ring.
  Qed.
End Dual.

(** Maps filled by accumulation: a weighted sum over the entries is the weighted sum over the updates. *)
Section Maps.
  Context {F : Type} {N : Num F} {L : RingLaws F}.
  Local Open Scope num_scope.
  Add Ring Fring : (ring_laws (F:=F)).
  Lemma um_alter_sum {V} (val : V -> F) (g : list nat -> F) (add : V -> option V -> V) c k m :
    val (add c None) = val c -> (forall x, val (add c (Some x)) = val x + val c) ->
    nsumf (fun kv => val (snd kv) * g (fst kv)) (um_alter k (add c) m) = nsumf (fun kv => val (snd kv) * g (fst kv)) m + val c * g k.
  Proof.
    intros H0 H1. induction m as [|[k' v] m IH]; cbn [um_alter].
    - rewrite nsumf_cons, nsumf_nil. cbn [fst snd]. rewrite H0. ring.
    - destruct (leqb k k') eqn:E.
      + apply leqb_eq in E. subst k'. rewrite !nsumf_cons. cbn [fst snd]. rewrite H1. ring.
      + rewrite !nsumf_cons, IH. ring.
  Qed.
  Lemma plus_at_sum (g : list nat -> F) k c m :
    nsumf (fun kv => snd kv * g (fst kv)) (plus_at k c m) = nsumf (fun kv => snd kv * g (fst kv)) m + c * g k.
  Proof. apply (um_alter_sum (fun x => x) g (fun c o => match o with None => c | Some x => x + c end)); reflexivity. Qed.
  Lemma fold_plus_at {A} (g : list nat -> F) (key : A -> list nat) (val : A -> F) l m :
    nsumf (fun kv => snd kv * g (fst kv)) (fold_left (fun m x => plus_at (key x) (val x) m) l m) =
    nsumf (fun kv => snd kv * g (fst kv)) m + nsumf (fun x => val x * g (key x)) l.
  Proof.
    revert m. induction l as [|x l IH]; intros m; cbn [fold_left]; rewrite ?nsumf_nil, ?nsumf_cons; [ring|].
    rewrite IH, plus_at_sum. ring.
  Qed.
End Maps.
