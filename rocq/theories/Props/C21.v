(** C21: the neighbour list holds every periodic image in range. *)
From Verif Require Import Base Num NumR Model.Cxx Model.Neighbor Spec.Neighbor Spec.Lattice Proofs.NeighborList Proofs.HalfFull Proofs.NeighborCell Proofs.CellRefine Props.C20.
From Coq Require Import Reals Lra.
Local Open Scope R_scope.

(** Row [i] of the full list holds [(j, d)] iff [d] is the displacement of an image of atom [j] with a length between [tol]
    and the cutoff, and holds it once. Conditions: for the axes used (refined if the metric asks for it) the number
    ceil(cutoff / |axis|) + 1 reaches the cutoff across the lattice planes; if there is no refinement, positions are not wrapped
    and fractional coordinates have to differ by less than one. *)
Theorem C21_full (tol : R) (A : cell R) (pos : list (v3 R)) (cutoff : R) : volume A <> 0 -> 0 <= cutoff ->
  (forall c, (c < 3)%nat -> cutoff * norm (recip (used A) c) <= IZR (reach (used A) cutoff c)) ->
  (ref_any A = false -> forall i j c, (i < length pos)%nat -> (j < length pos)%nat -> (c < 3)%nat ->
     -1 < frac A (vsub (nth j pos v0) (nth i pos v0)) c < 1) ->
  forall i j d, (i < length pos)%nat -> (j < length pos)%nat ->
    NoDup (row (neighbor_full tol A pos cutoff) i) /\
    (In (j, d) (row (neighbor_full tol A pos cutoff) i) <->
     exists t, lattice A t /\ d = vadd (vsub (nth j pos v0) (nth i pos v0)) t /\ tol * tol < norm2 d < cutoff * cutoff).
Proof. intros. split; [now apply row_nodup|now apply complete]. Qed.
Print Assumptions C21_full.

(** Refinement never changes the lattice or the volume. *)
Theorem C21_refined_cell (A : cell R) : (forall t, lattice (refine_axis A) t <-> lattice A t) /\ volume (refine_axis A) = volume A.
Proof. apply refine_same. Qed.
Print Assumptions C21_refined_cell.

(** Refinement makes no axis longer, and makes the cell strictly more compact whenever the metric asks for it. *)
Theorem C21_shorter (A : cell R) : volume A <> 0 ->
  (forall c, (c < 3)%nat -> norm2 (axis (refine_axis A) c) <= norm2 (axis A c)) /\
  ((exists c c', (c < c' < 3)%nat /\ (norm2 (axis A c) < 2 * Rabs (vdot (axis A c) (axis A c')) \/ norm2 (axis A c') < 2 * Rabs (vdot (axis A c) (axis A c')))) ->
   norm2 (axis (refine_axis A) 0) + norm2 (axis (refine_axis A) 1) + norm2 (axis (refine_axis A) 2) < norm2 (axis A 0) + norm2 (axis A 1) + norm2 (axis A 2)).
Proof.
  intros HV. destruct (refine_shorter A HV) as [[H0 [H1 H2]] H]. split.
  - intros c Hc. destruct c as [|[|[|]]]; [exact H0|exact H1|exact H2|lia].
  - intros (c & c' & Hc & G). apply H. assert (K : forall a b : v3 R, norm2 a < 2 * Rabs (vdot a b) \/ norm2 b < 2 * Rabs (vdot a b) -> need_ref a b = true).
    { intros a b K. unfold need_ref, nhalf, two. fold (norm2 a) (norm2 b). cbn [nabs R_ord nmul ndiv nadd n1 R_num]. apply orb_true_iff.
      destruct K as [K|K]; [left|right]; apply Rltb_true; lra. }
    unfold ref_any, ref01, ref02, ref12. destruct c as [|[|c]]; [| |lia]; (destruct c' as [|[|[|c']]]; try lia); cbn [axis] in G; rewrite (K _ _ G), ?orb_true_r; reflexivity.
Qed.
Print Assumptions C21_shorter.
Example C21_skewed : volume (Cell (V3 1 0 0) (V3 3 1 0) (V3 0 0 2)) <> 0 /\ norm2 (V3 1 0 0) < 2 * Rabs (vdot (V3 1 0 0) (V3 3 1 0)).
Proof. unfold volume, norm2, vdot, cross. cbn. split; [lra|]. rewrite Rabs_right; lra. Qed.

(** Orthogonal axes meet the condition on the axes. *)
Lemma lagrange (a b : v3 R) : norm2 (cross a b) = norm2 a * norm2 b - vdot a b * vdot a b.
Proof. unfold norm2, vdot, cross. cbn. ring. Qed.
Lemma gram (a b c : v3 R) : vdot a (cross b c) * vdot a (cross b c) =
  norm2 a * norm2 b * norm2 c + 2 * vdot a b * vdot b c * vdot a c - norm2 a * (vdot b c * vdot b c) - norm2 b * (vdot a c * vdot a c) - norm2 c * (vdot a b * vdot a b).
Proof. unfold norm2, vdot, cross. cbn. ring. Qed.
Definition orthogonal (A : cell R) : Prop := vdot (ax0 A) (ax1 A) = 0 /\ vdot (ax0 A) (ax2 A) = 0 /\ vdot (ax1 A) (ax2 A) = 0.
Lemma need_ref_orth (a b : v3 R) : vdot a b = 0 -> need_ref a b = false.
Proof.
  intros E. pose proof (norm2_nonneg a) as Ha. pose proof (norm2_nonneg b) as Hb. unfold norm2 in *. unfold need_ref. rewrite E. unfold nhalf, two.
  revert Ha Hb. generalize (vdot a a) (vdot b b). intros x y Hx Hy. apply orb_false_intro; apply Rltb_false; cbn [nabs R_ord]; rewrite Rabs_R0; cbn; lra.
Qed.
Lemma orth_ref A : orthogonal A -> ref_any A = false.
Proof. intros [E0 [E1 E2]]. unfold ref_any, ref01, ref02, ref12. now rewrite !need_ref_orth. Qed.
Lemma orth_recip A c : orthogonal A -> volume A <> 0 -> norm2 (recip A c) * norm2 (axis A c) = 1.
Proof.
  intros [E0 [E1 E2]] HV. pose proof (gram (ax0 A) (ax1 A) (ax2 A)) as G. rewrite E0, E1, E2 in G. fold (volume A) in G.
  assert (S : forall k v, norm2 (vscale k v : v3 R) = k * k * norm2 v). { intros k v. unfold norm2, vdot, vscale. cbn. ring. }
  assert (I : / volume A * / volume A * (volume A * volume A) = 1) by (field; exact HV).
  unfold recip. rewrite S. destruct c as [|[|c]]; cbn [axis]; rewrite lagrange.
  - rewrite E2. rewrite <- I, G. ring.
  - assert (E1' : vdot (ax2 A) (ax0 A) = 0) by (rewrite <- E1; unfold vdot; cbn; ring). rewrite E1'. rewrite <- I, G. ring.
  - rewrite E0. rewrite <- I, G. ring.
Qed.
Lemma ceil_ge x : x <= IZR (nceil (F := R) x).
Proof. unfold nceil. rewrite opp_IZR. change (nfloor (nopp x)) with (Int_part (- x)). pose proof (base_Int_part (- x)). lra. Qed.
Lemma orth_reach A cutoff c : orthogonal A -> volume A <> 0 -> 0 <= cutoff -> cutoff * norm (recip A c) <= IZR (reach A cutoff c).
Proof.
  intros HO HV Hc. pose proof (orth_recip A c HO HV) as E. rewrite <- !norm_sq in E.
  pose proof (norm_nonneg (recip A c)) as N1. pose proof (norm_nonneg (axis A c)) as N2.
  assert (P : norm (recip A c) * norm (axis A c) = 1).
  { assert (Q : (norm (recip A c) * norm (axis A c)) * (norm (recip A c) * norm (axis A c)) = 1 * 1) by lra.
    apply Rsqr_inj in Q; [exact Q|now apply Rmult_le_pos|lra]. }
  assert (NZ : norm (axis A c) <> 0) by (intros Z; rewrite Z in P; lra).
  assert (R : norm (recip A c) = / norm (axis A c)) by (apply (Rmult_eq_reg_r (norm (axis A c))); [rewrite P; field; exact NZ|exact NZ]).
  rewrite R. unfold reach. rewrite plus_IZR. pose proof (ceil_ge (cutoff / norm (axis A c))) as G. unfold Rdiv in *. revert G. generalize (cutoff * / norm (axis A c)). intros x. generalize (IZR (nceil x)). intros y. lra.
Qed.
Theorem C21_orthogonal (tol : R) (A : cell R) (pos : list (v3 R)) (cutoff : R) : volume A <> 0 -> 0 <= cutoff -> orthogonal A ->
  (forall p c, In p pos -> (c < 3)%nat -> 0 <= frac A p c < 1) ->
  forall i j d, (i < length pos)%nat -> (j < length pos)%nat ->
    NoDup (row (neighbor_full tol A pos cutoff) i) /\
    (In (j, d) (row (neighbor_full tol A pos cutoff) i) <->
     exists t, lattice A t /\ d = vadd (vsub (nth j pos v0) (nth i pos v0)) t /\ tol * tol < norm2 d < cutoff * cutoff).
Proof.
  intros HV Hc HO HP. apply C21_full; [exact HV|exact Hc| |].
  - intros c _. unfold used. rewrite (orth_ref _ HO). now apply orth_reach.
  - intros _ i j c Hi Hj Hc'. rewrite frac_sub. pose proof (HP _ c (nth_In pos v0 Hi) Hc') as H1. pose proof (HP _ c (nth_In pos v0 Hj) Hc') as H2.
    revert H1 H2. generalize (frac A (nth i pos v0) c) (frac A (nth j pos v0) c). intros x y. lra.
Qed.
Print Assumptions C21_orthogonal.

(** A cubic cell with two atoms: the image of atom 1 at (-2, 2, 2) is found. *)
Definition cubic : cell R := Cell (V3 4 0 0) (V3 0 4 0) (V3 0 0 4).
Example C21_cubic : In (1%nat, V3 (-2) 2 2) (row (neighbor_full (1 / 10) cubic [V3 0 0 0; V3 2 2 2] 5) 0).
Proof.
  assert (HV : volume cubic = 64) by (unfold volume, cubic, vdot, cross; cbn; ring).
  apply (C21_orthogonal (1 / 10) cubic [V3 0 0 0; V3 2 2 2] 5); try (cbn; lia); try lra.
  - unfold orthogonal, cubic, vdot. cbn. repeat split; ring.
  - intros p c H Hc. unfold frac, recip. rewrite HV. destruct H as [<-|[<-|[]]]; destruct c as [|[|[|c]]]; try lia; unfold cubic, vdot, vscale, cross; cbn; lra.
  - exists (V3 (-4) 0 0). split; [|split].
    + exists (-1)%Z, 0%Z, 0%Z. unfold comb, cubic, vadd, vscale. cbn. f_equal; lra.
    + unfold vadd, vsub. cbn. f_equal; ring.
    + unfold norm2, vdot. cbn. lra.
Qed.

(** For flat axes the search misses images: here (0, 0, 18) = 6 (a + b + c) is within 20 and not in the list. *)
Definition flat : cell R := Cell (V3 6 0 1) (V3 (-3) 5 1) (V3 (-3) (-5) 1).
Lemma need_ref_le (a b : v3 R) : Rabs (vdot a b) <= vdot a a / 2 -> Rabs (vdot a b) <= vdot b b / 2 -> need_ref a b = false.
Proof. intros H1 H2. unfold need_ref, nhalf, two. apply orb_false_intro; apply Rltb_false; cbn [nabs R_ord nmul ndiv n1 nadd R_num] in *; unfold Rdiv in *; lra. Qed.
Lemma flat_ref : ref_any flat = false.
Proof.
  unfold ref_any, ref01, ref02, ref12, flat. cbn [ax0 ax1 ax2]. rewrite !need_ref_le; try reflexivity; unfold vdot; cbn;
    match goal with |- Rabs ?x <= _ => (replace x with (Ropp 17) by ring) || (replace x with (Ropp 15) by ring) end; rewrite ?Rabs_Ropp, ?Rabs_pos_eq; lra.
Qed.
Lemma ceil4 x : 3 < x <= 4 -> nceil (F := R) x = 4%Z.
Proof. intros H. unfold nceil. change (nfloor (nopp x)) with (Int_part (- x)). pose proof (base_Int_part (- x)) as [B1 B2].
  assert (L1 : IZR (-5) < IZR (Int_part (- x))) by lra. assert (L2 : IZR (Int_part (- x)) < IZR (-3)) by lra. apply lt_IZR in L1, L2. lia. Qed.
Lemma flat_reach c : (c < 3)%nat -> reach flat 20 c = 5%Z.
Proof.
  intros Hc. unfold reach. rewrite ceil4; [reflexivity|].
  assert (B : forall v : v3 R, 35 <= norm2 v <= 37 -> 3 < 20 / norm v <= 4).
  { intros v H. pose proof (norm_sq v) as E. pose proof (norm_nonneg v) as P. revert E P. generalize (norm v). intros n E P. assert (5 <= n) by nra. assert (n < 20 / 3) by nra.
    split; [apply (Rmult_lt_reg_r n)|apply (Rmult_le_reg_r n)]; try lra; unfold Rdiv; rewrite Rmult_assoc, Rinv_l by lra; lra. }
  apply B. destruct c as [|[|[|c]]]; try lia; unfold flat, norm2, vdot; cbn; lra.
Qed.
Theorem C21_flat_refuted (tol : R) : volume flat <> 0 /\ lattice flat (V3 0 0 18) /\ norm2 (V3 0 0 18) < 20 * 20 /\
  ~ In (0%nat, V3 0 0 18) (row (neighbor_full tol flat [v0] 20) 0).
Proof.
  split; [|split; [|split]].
  - unfold volume, flat, vdot, cross. cbn. lra.
  - exists 6%Z, 6%Z, 6%Z. unfold comb, flat, vadd, vscale. cbn. f_equal; lra.
  - unfold norm2, vdot. cbn. lra.
  - unfold neighbor_full, neighbor_cell. rewrite flat_ref. rewrite row_csr by (cbn; lia). rewrite in_row by (cbn; lia).
    intros [_ [t [Ht [E _]]]]. assert (E' : t = V3 0 0 18).
    { destruct t as [x y z]. unfold vadd, vsub, v0 in E. cbn in E. injection E as E1 E2 E3. f_equal; lra. }
    subst t. clear E. unfold translations in Ht. apply filter_In in Ht. destruct Ht as [Ht _]. apply in_map_iff in Ht. destruct Ht as [[[i j] k] [E B]].
    destruct (max_exp_reach flat 20) as [R0 [R1 R2]]. rewrite R0, R1, R2 in B. rewrite !flat_reach in B by lia. apply box_in in B.
    rewrite cart_comb in E. unfold comb, flat, vadd, vscale in E. cbn in E. injection E as E1 E2 E3.
    assert (I : IZR i = 6) by lra. apply eq_IZR in I. lia.
Qed.
Print Assumptions C21_flat_refuted.
