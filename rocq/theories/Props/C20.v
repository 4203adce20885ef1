(** C20: half and full neighbour lists. *)
From Verif Require Import Base Num NumR Model.Cxx Model.Neighbor Spec.Neighbor Proofs.NeighborList Proofs.Mirrored Proofs.HalfFull.
From Coq Require Import Reals Lra QArith Qcanon.
Local Open Scope nat_scope.

(** The list that [get_full_list] makes from the half list has for every atom the neighbours (with displacement and
    multiplicity) of NeighborFull. Condition: no lattice translation has a length in (tol, sqrt 3 tol). *)
Theorem C20_half_full (tol : R) (A : cell R) (pos : list (v3 R)) (cutoff : R) : (0 < tol)%R ->
  (forall t, In t (fst (neighbor_cell A pos cutoff)) -> (tol * tol < norm2 t -> 3 * (tol * tol) <= norm2 t)%R) ->
  forall i, i < length pos ->
    Permutation (row (get_full_list (length pos) (neighbor_half tol A pos cutoff)) i) (row (neighbor_full tol A pos cutoff) i).
Proof.
  intros Ht HB. apply half_full; [exact Ht|]. intros t Hin H. specialize (HB t Hin H). destruct (Rlt_le_dec (Rabs (vx t)) tol) as [X|X]; [|now left].
  destruct (Rlt_le_dec (Rabs (vy t)) tol) as [Y|Y]; [|now right; left]. destruct (Rlt_le_dec (Rabs (vz t)) tol) as [Z|Z]; [|now right; right].
  exfalso. assert (S : forall x, (Rabs x < tol -> x * x < tol * tol)%R). { intros x Hx. rewrite <- (Rabs_pos_eq (x * x)) by apply Rle_0_sqr. rewrite Rabs_mult. apply Rmult_le_0_lt_compat; try apply Rabs_pos; exact Hx. }
  apply S in X, Y, Z. unfold norm2, vdot in HB. cbn in HB. lra.
Qed.
Print Assumptions C20_half_full.

(** The same for any list of translations closed under negation; the mirrored half list as an abstract list. *)
Theorem C20_translations (tol : R) (trans pos : list (v3 R)) (cutoff : R) : (0 < tol)%R -> Permutation (map vneg trans) trans ->
  (forall t, In t trans -> (tol * tol < norm2 t -> tol <= Rabs (vx t) \/ tol <= Rabs (vy t) \/ tol <= Rabs (vz t))%R) ->
  forall i, i < length pos -> Permutation (mirrored (half_rows tol trans pos cutoff) i) (nth i (full_rows tol trans pos cutoff) []).
Proof. intros Ht HN HB i Hi. now apply mirrored_full. Qed.
Print Assumptions C20_translations.
(** The translations of a cell are closed under negation. *)
Theorem C20_negation (A : cell R) (pos : list (v3 R)) (cutoff : R) :
  let trans := fst (neighbor_cell A pos cutoff) in Permutation (map vneg trans) trans.
Proof. cbn. unfold neighbor_cell. destruct (ref_any A); apply translations_opp. Qed.
Print Assumptions C20_negation.

(** Without the condition the claim fails: a translation (9, 9, 0) with tol = 10 is in the full list only. *)
Definition q (z : Z) : Qc := Q2Qc (inject_Z z).
Theorem C20_short_refuted :
  ~ (forall (trans : list (v3 Qc)) (i : nat), Permutation (map vneg trans) trans ->
       Permutation (mirrored (half_rows (q 10) trans [v0] (q 100)) i) (nth i (full_rows (q 10) trans [v0] (q 100)) [])).
Proof.
  intros H. specialize (H [V3 (q 9) (q 9) (q 0); V3 (q (-9)) (q (-9)) (q 0)] 0). assert (P : Permutation (map vneg [V3 (q 9) (q 9) (q 0); V3 (q (-9)) (q (-9)) (q 0)]) [V3 (q 9) (q 9) (q 0); V3 (q (-9)) (q (-9)) (q 0)]).
  { assert (E : map vneg [V3 (q 9) (q 9) (q 0); V3 (q (-9)) (q (-9)) (q 0)] = [V3 (q (-9)) (q (-9)) (q 0); V3 (q 9) (q 9) (q 0)]).
    { cbn [map]. unfold vneg. cbn [vx vy vz]. repeat (f_equal; try (apply Qc_is_canon; vm_compute; reflexivity)). }
    rewrite E. apply perm_swap. }
  apply H, Permutation_length in P. vm_compute in P. discriminate.
Qed.
Print Assumptions C20_short_refuted.

(** A cubic cell of edge 4 meets the condition for any positions and cutoff. *)
Lemma nz_abs z : nz z = 0%R \/ (1 <= Rabs (nz z))%R.
Proof.
  assert (P : forall p, (1 <= nnat (Pos.to_nat p))%R). { intros p. rewrite nnat_INR. apply (le_INR 1). lia. }
  destruct z as [|p|p]; cbn [nz]; [now left|right|right]; [|change nopp with Ropp; rewrite Rabs_Ropp]; (rewrite Rabs_pos_eq; [apply P|pose proof (P p); cbn in *; lra]).
Qed.
Example C20_cubic pos cutoff : let A := Cell (V3 4 0 0)%R (V3 0 4 0)%R (V3 0 0 4)%R in
  forall t, In t (fst (neighbor_cell A pos cutoff)) -> ((1 / 10 * (1 / 10)) < norm2 t -> 3 * (1 / 10 * (1 / 10)) <= norm2 t)%R.
Proof.
  intros A t. assert (N : forall a b : v3 R, vdot a b = 0%R -> (0 <= vdot a a)%R -> (0 <= vdot b b)%R -> need_ref a b = false).
  { intros a b E Ha Hb. unfold need_ref. rewrite E. unfold nhalf, two. apply orb_false_intro; apply Rltb_false; cbn [nabs R_ord]; rewrite Rabs_R0; cbn in *; lra. }
  unfold neighbor_cell. replace (ref_any A) with false by (unfold ref_any, ref01, ref02, ref12; rewrite !N; cbn; lra || reflexivity). cbn [fst].
  unfold translations. intros H L. apply filter_In in H. destruct H as [H _]. apply in_map_iff in H. destruct H as [[[i j] k] [<- _]].
  unfold cart_z, to_cartesian, norm2, vdot, vadd, vscale in *. cbn [vx vy vz ax0 ax1 ax2 A nadd nmul n0 R_num] in *.
  assert (S : forall x, x = 0%R \/ (1 <= Rabs x)%R -> x = 0%R \/ (1 <= x * x)%R).
  { intros x [->|Hx]; [now left|right]. rewrite <- (Rabs_pos_eq (x * x)) by apply Rle_0_sqr. rewrite Rabs_mult. rewrite <- (Rmult_1_l 1). apply Rmult_le_compat; lra. }
  pose proof (Rle_0_sqr (nz i)) as Pi. pose proof (Rle_0_sqr (nz j)) as Pj. pose proof (Rle_0_sqr (nz k)) as Pk. unfold Rsqr in *.
  destruct (S _ (nz_abs i)) as [Ei|Ei]; destruct (S _ (nz_abs j)) as [Ej|Ej]; destruct (S _ (nz_abs k)) as [Ek|Ek]; try (rewrite ?Ei, ?Ej, ?Ek in *); lra.
Qed.
