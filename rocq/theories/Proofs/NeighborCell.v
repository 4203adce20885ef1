(** Translations found by NeighborCell. *)
From Verif Require Import Base Num NumR Model.Cxx Model.Neighbor Spec.Lattice Proofs.NeighborList Proofs.HalfFull.
From Coq Require Import Reals Lra Lia.
Local Open Scope R_scope.

Ltac v3ring := unfold comb, vadd, vsub, vneg, vscale, cross; cbn [vx vy vz]; f_equal; cbn; ring.
Lemma nz_IZR z : nz z = IZR z.
Proof.
  destruct z as [|p|p]; cbn [nz]; [reflexivity| |]; rewrite nnat_INR, INR_IPR; reflexivity.
Qed.
Lemma cart_comb (A : cell R) i j k : cart_z A i j k = comb A (IZR i) (IZR j) (IZR k).
Proof. unfold cart_z, to_cartesian, comb. now rewrite !nz_IZR. Qed.

Lemma lattice_0 A : lattice A v0.
Proof. exists 0%Z, 0%Z, 0%Z. unfold v0. v3ring. Qed.
Lemma lattice_add A s t : lattice A s -> lattice A t -> lattice A (vadd s t).
Proof. intros (i & j & k & ->) (i' & j' & k' & ->). exists (i + i')%Z, (j + j')%Z, (k + k')%Z. rewrite !plus_IZR. v3ring. Qed.
Lemma lattice_neg A t : lattice A t -> lattice A (vneg t).
Proof. intros (i & j & k & ->). exists (- i)%Z, (- j)%Z, (- k)%Z. rewrite !opp_IZR. v3ring. Qed.
Lemma lattice_sub A s t : lattice A s -> lattice A t -> lattice A (vsub s t).
Proof. intros (i & j & k & ->) (i' & j' & k' & ->). exists (i - i')%Z, (j - j')%Z, (k - k')%Z. rewrite !minus_IZR. v3ring. Qed.

(** Replacing an axis by a combination with coefficient one of itself. *)
Definition same_lattice (A A' : cell R) : Prop := (forall t, lattice A' t <-> lattice A t) /\ volume A' = volume A.
Lemma same_refl A : same_lattice A A.
Proof. split; [reflexivity|reflexivity]. Qed.
Lemma same_trans A B C : same_lattice A B -> same_lattice B C -> same_lattice A C.
Proof. intros [H1 E1] [H2 E2]. split; [intros t; now rewrite H2|congruence]. Qed.
Ltac vol := unfold volume, replace0, replace1, replace2; rewrite cart_comb; unfold comb, vdot, cross, vadd, vscale; cbn [ax0 ax1 ax2 vx vy vz]; cbn; ring.
Lemma same0 A m n : same_lattice A (replace0 A 1 m n).
Proof.
  split; [|vol]. intros t. split; intros (i & j & k & ->).
  - exists i, (j + i * m)%Z, (k + i * n)%Z. unfold replace0. rewrite cart_comb, !plus_IZR, !mult_IZR. v3ring.
  - exists i, (j - i * m)%Z, (k - i * n)%Z. unfold replace0. rewrite cart_comb, !minus_IZR, !mult_IZR. v3ring.
Qed.
Lemma same1 A m n : same_lattice A (replace1 A m 1 n).
Proof.
  split; [|vol]. intros t. split; intros (i & j & k & ->).
  - exists (i + j * m)%Z, j, (k + j * n)%Z. unfold replace1. rewrite cart_comb, !plus_IZR, !mult_IZR. v3ring.
  - exists (i - j * m)%Z, j, (k - j * n)%Z. unfold replace1. rewrite cart_comb, !minus_IZR, !mult_IZR. v3ring.
Qed.
Lemma same2 A m n : same_lattice A (replace2 A m n 1).
Proof.
  split; [|vol]. intros t. split; intros (i & j & k & ->).
  - exists (i + k * m)%Z, (j + k * n)%Z, k. unfold replace2. rewrite cart_comb, !plus_IZR, !mult_IZR. v3ring.
  - exists (i - k * m)%Z, (j - k * n)%Z, k. unfold replace2. rewrite cart_comb, !minus_IZR, !mult_IZR. v3ring.
Qed.
Lemma refine_same A : same_lattice A (refine_axis A).
Proof.
  unfold refine_axis. generalize 100%nat. intros n. revert A. induction n as [|n IH]; intros A; [apply same_refl|]. cbn [refine_loop]. destruct (ref_any A); [|apply same_refl].
  apply (same_trans _ (refine01 A)); [unfold refine01; destruct (ref01 A); [destruct (nltb _ _); [apply same0|apply same1]|apply same_refl]|].
  set (A1 := refine01 A). apply (same_trans _ (refine02 A1)); [unfold refine02; destruct (ref02 A1); [destruct (nltb _ _); [apply same0|apply same2]|apply same_refl]|].
  set (A2 := refine02 A1). apply (same_trans _ (refine12 A2)); [unfold refine12; destruct (ref12 A2); [destruct (nltb _ _); [apply same1|apply same2]|apply same_refl]|].
  apply IH.
Qed.

Section Cell.
  Variable A : cell R.
  Hypothesis HV : volume A <> 0.
  Lemma det_volume : det A = volume A.
  Proof. unfold det, volume, vdot, cross. cbn. ring. Qed.
  Lemma to_frac_is p : to_frac A p = V3 (frac A p 0) (frac A p 1) (frac A p 2).
  Proof.
    unfold to_frac. rewrite det_volume. unfold frac, recip, vdot, vscale, cross. cbn [vx vy vz]. generalize (volume A) HV. intros w Hw. f_equal; cbn; field; exact Hw.
  Qed.
  Lemma comb_frac p : comb A (frac A p 0) (frac A p 1) (frac A p 2) = p.
  Proof.
    destruct p as [x y z]. pose proof HV as H. unfold volume in H. unfold comb, frac, recip, volume. unfold vdot, vadd, vscale, cross in *. cbn in *. f_equal; field; exact H.
  Qed.
  Lemma frac_comb x y z c : frac A (comb A x y z) c = match c with 0%nat => x | 1%nat => y | _ => z end.
  Proof.
    pose proof HV as H. unfold volume in H. unfold comb, frac, recip, volume. unfold vdot, vadd, vscale, cross in *. destruct c as [|[|c]]; cbn in *; field; exact H.
  Qed.
  Lemma frac_add p p' c : frac A (vadd p p') c = frac A p c + frac A p' c.
  Proof. unfold frac, vdot, vadd. cbn. ring. Qed.
  Lemma frac_sub p p' c : frac A (vsub p p') c = frac A p c - frac A p' c.
  Proof. unfold frac, vdot, vsub. cbn. ring. Qed.

  (** wrapping moves by a lattice vector and gives coordinates in [0, 1) *)
  Lemma wrap1_range x : 0 <= wrap1 x < 1.
  Proof. unfold wrap1, nfloor, R_int. rewrite nz_IZR. pose proof (base_Int_part x). cbn. lra. Qed.
  Lemma wrap_is p : wrap A p = comb A (wrap1 (frac A p 0)) (wrap1 (frac A p 1)) (wrap1 (frac A p 2)).
  Proof. unfold wrap. rewrite to_frac_is. reflexivity. Qed.
  Lemma wrap_frac p c : 0 <= frac A (wrap A p) c < 1.
  Proof. rewrite wrap_is, frac_comb. destruct c as [|[|c]]; apply wrap1_range. Qed.
  Lemma wrap_lattice p : lattice A (vsub p (wrap A p)).
  Proof.
    rewrite wrap_is. exists (Int_part (frac A p 0)), (Int_part (frac A p 1)), (Int_part (frac A p 2)). rewrite <- (comb_frac p) at 1.
    unfold wrap1, nfloor, R_int. rewrite !nz_IZR. generalize (frac A p 0), (frac A p 1), (frac A p 2). intros x y z. v3ring.
  Qed.

  (** norms *)
  Lemma norm2_nonneg (v : v3 R) : 0 <= norm2 v.
  Proof. unfold norm2, vdot. cbn. pose proof (Rle_0_sqr (vx v)). pose proof (Rle_0_sqr (vy v)). pose proof (Rle_0_sqr (vz v)). unfold Rsqr in *. lra. Qed.
  Lemma norm_sq (v : v3 R) : norm v * norm v = norm2 v.
  Proof. unfold norm. cbn. apply sqrt_sqrt. apply norm2_nonneg. Qed.
  Lemma norm_nonneg (v : v3 R) : 0 <= norm v.
  Proof. apply sqrt_pos. Qed.
  Lemma norm_le (v w : v3 R) : norm2 v <= norm2 w -> norm v <= norm w.
  Proof. intros H. apply sqrt_le_1_alt. exact H. Qed.
  Lemma cauchy (v w : v3 R) : Rabs (vdot v w) <= norm v * norm w.
  Proof.
    rewrite <- sqrt_Rsqr_abs. unfold norm. cbn [nsqrt R_ord]. rewrite <- sqrt_mult by apply norm2_nonneg. apply sqrt_le_1_alt. unfold Rsqr, norm2, vdot. cbn.
    destruct v as [a b c], w as [x y z]. cbn.
    pose proof (Rle_0_sqr (a * y - b * x)). pose proof (Rle_0_sqr (a * z - c * x)). pose proof (Rle_0_sqr (b * z - c * y)). unfold Rsqr in *. lra.
  Qed.
  Lemma norm_triangle (v w : v3 R) : norm (vadd v w) <= norm v + norm w.
  Proof.
    pose proof (norm_nonneg v) as Nv. pose proof (norm_nonneg w) as Nw. apply Rsqr_incr_0_var; [|lra]. unfold Rsqr. rewrite norm_sq.
    replace (norm2 (vadd v w)) with (norm2 v + 2 * vdot v w + norm2 w) by (unfold norm2, vdot, vadd; cbn; ring).
    rewrite <- !norm_sq. pose proof (cauchy v w) as C. pose proof (Rle_abs (vdot v w)). lra.
  Qed.
  Lemma norm_neg (v : v3 R) : norm (vneg v) = norm v.
  Proof. unfold norm. now rewrite norm2_vneg. Qed.

  (** points of the parallelepiped are no longer than its longest corner *)
  Lemma seg (u a : v3 R) x m : -1 <= x <= 1 -> norm (vadd u a) <= m -> norm (vadd u (vneg a)) <= m -> norm (vadd u (vscale x a)) <= m.
  Proof.
    intros Hx H1 H2. replace (vadd u (vscale x a)) with (vadd (vscale ((1 + x) / 2) (vadd u a)) (vscale ((1 - x) / 2) (vadd u (vneg a)))).
    - eapply Rle_trans; [apply norm_triangle|].
      assert (S : forall s (v : v3 R), 0 <= s -> norm (vscale s v) = s * norm v).
      { intros s v Hs. unfold norm. replace (norm2 (vscale s v)) with (s * s * norm2 v) by (unfold norm2, vdot, vscale; cbn; ring). cbn [nsqrt R_ord]. rewrite sqrt_mult_alt by apply Rle_0_sqr. now rewrite sqrt_square. }
      rewrite !S by lra.
      pose proof (Rmult_le_compat_l ((1 + x) / 2) _ _ ltac:(lra) H1). pose proof (Rmult_le_compat_l ((1 - x) / 2) _ _ ltac:(lra) H2). lra.
    - unfold vadd, vneg, vscale. cbn [vx vy vz]. cbn. f_equal; field.
  Qed.
  Lemma max_diag_ge i j k : In (i, j, k) (box 1 1 1) -> norm (comb A (IZR i) (IZR j) (IZR k)) <= max_diag A.
  Proof.
    unfold max_diag. set (f := fun m (ijk : Z * Z * Z) => let '(i, j, k) := ijk in let d := distance A i j k in if nltb m d then d else m).
    assert (G : forall l m, m <= fold_left f l m /\ (In (i, j, k) l -> norm (comb A (IZR i) (IZR j) (IZR k)) <= fold_left f l m)).
    { induction l as [|[[i' j'] k'] l IH]; intros m; [split; [cbn; lra|intros []]|]. cbn [fold_left].
      assert (F : m <= f m (i', j', k') /\ distance A i' j' k' <= f m (i', j', k')). { unfold f. destruct (nltb m (distance A i' j' k')) eqn:T; [apply Rltb_true in T|apply Rltb_false in T]; lra. }
      destruct (IH (f m (i', j', k'))) as [I1 I2]. split; [lra|]. intros [E|E]; [|now apply I2]. injection E as -> -> ->. unfold distance in F. rewrite cart_comb in F. lra. }
    intros H. now apply G.
  Qed.
  Lemma corner_in s1 s2 s3 : (s1 = 1 \/ s1 = -1)%Z -> (s2 = 1 \/ s2 = -1)%Z -> (s3 = 1 \/ s3 = -1)%Z -> In (s1, s2, s3) (box 1 1 1).
  Proof. intros [->| ->] [->| ->] [->| ->]; vm_compute; tauto. Qed.
  Lemma inside_diag x y z : -1 <= x <= 1 -> -1 <= y <= 1 -> -1 <= z <= 1 -> norm (comb A x y z) <= max_diag A.
  Proof.
    intros Hx Hy Hz.
    assert (C : forall s1 s2 s3, (s1 = 1 \/ s1 = -1)%Z -> (s2 = 1 \/ s2 = -1)%Z -> (s3 = 1 \/ s3 = -1)%Z -> norm (comb A (IZR s1) (IZR s2) (IZR s3)) <= max_diag A).
    { intros. apply max_diag_ge. now apply corner_in. }
    assert (C1 : forall s1 s2, (s1 = 1 \/ s1 = -1)%Z -> (s2 = 1 \/ s2 = -1)%Z -> norm (comb A (IZR s1) (IZR s2) z) <= max_diag A).
    { intros s1 s2 H1 H2. unfold comb. apply seg; [exact Hz| |].
      - replace (vadd _ (ax2 A)) with (comb A (IZR s1) (IZR s2) (IZR 1)) by (destruct (ax2 A) eqn:E2; unfold comb; rewrite E2; v3ring). apply C; auto.
      - replace (vadd _ (vneg (ax2 A))) with (comb A (IZR s1) (IZR s2) (IZR (-1))) by (destruct (ax2 A) eqn:E2; unfold comb; rewrite E2; v3ring). apply C; auto. }
    assert (C2 : forall s1, (s1 = 1 \/ s1 = -1)%Z -> norm (comb A (IZR s1) y z) <= max_diag A).
    { intros s1 H1. replace (comb A (IZR s1) y z) with (vadd (vadd (vscale (IZR s1) (ax0 A)) (vscale z (ax2 A))) (vscale y (ax1 A))) by v3ring. apply seg; [exact Hy| |].
      - replace (vadd _ (ax1 A)) with (comb A (IZR s1) (IZR 1) z) by (destruct (ax1 A) eqn:E2; unfold comb; rewrite E2; v3ring). apply C1; auto.
      - replace (vadd _ (vneg (ax1 A))) with (comb A (IZR s1) (IZR (-1)) z) by (destruct (ax1 A) eqn:E2; unfold comb; rewrite E2; v3ring). apply C1; auto. }
    replace (comb A x y z) with (vadd (vadd (vscale y (ax1 A)) (vscale z (ax2 A))) (vscale x (ax0 A))) by v3ring. apply seg; [exact Hx| |].
    - replace (vadd _ (ax0 A)) with (comb A (IZR 1) y z) by (destruct (ax0 A) eqn:E2; unfold comb; rewrite E2; v3ring). apply C2; auto.
    - replace (vadd _ (vneg (ax0 A))) with (comb A (IZR (-1)) y z) by (destruct (ax0 A) eqn:E2; unfold comb; rewrite E2; v3ring). apply C2; auto.
  Qed.

  (** the box *)
  Lemma zrange_in m z : In z (zrange m) <-> (- m <= z <= m)%Z.
  Proof.
    unfold zrange. rewrite in_map_iff. split.
    - intros [k [<- Hk]]. apply in_seq in Hk. lia.
    - intros H. exists (Z.to_nat (z + m)). split; [lia|]. apply in_seq. lia.
  Qed.
  Lemma box_in m0 m1 m2 i j k : In (i, j, k) (box m0 m1 m2) <-> (- m0 <= i <= m0 /\ - m1 <= j <= m1 /\ - m2 <= k <= m2)%Z.
  Proof.
    unfold box. rewrite in_flat_map. split.
    - intros [i' [Hi H]]. apply in_flat_map in H. destruct H as [j' [Hj H]]. apply in_map_iff in H. destruct H as [k' [E Hk]]. injection E as -> -> ->.
      apply zrange_in in Hi, Hj, Hk. tauto.
    - intros (Hi & Hj & Hk). exists i. split; [now apply zrange_in|]. apply in_flat_map. exists j. split; [now apply zrange_in|]. apply in_map. now apply zrange_in.
  Qed.

  Variable cutoff : R.
  (** The number of repetitions along an axis reaches the plane distance. *)
  Definition reach (c : nat) : Z := (nceil (cutoff / norm (axis A c))%R + 1)%Z.
  Hypothesis Hreach : forall c, (c < 3)%nat -> cutoff * norm (recip A c) <= IZR (reach c).
  Lemma max_exp_reach : max_exp A cutoff 1 0 0 = reach 0 /\ max_exp A cutoff 0 1 0 = reach 1 /\ max_exp A cutoff 0 0 1 = reach 2.
  Proof.
    unfold max_exp, reach, distance. rewrite !cart_comb. cbn [axis].
    replace (comb A (IZR 1) (IZR 0) (IZR 0)) with (ax0 A) by (unfold comb; destruct (ax0 A); v3ring).
    replace (comb A (IZR 0) (IZR 1) (IZR 0)) with (ax1 A) by (unfold comb; destruct (ax1 A); v3ring).
    replace (comb A (IZR 0) (IZR 0) (IZR 1)) with (ax2 A) by (unfold comb; destruct (ax2 A); v3ring). unfold Z.succ. repeat split.
  Qed.
  Lemma in_trans i j k : (- reach 0 <= i <= reach 0)%Z -> (- reach 1 <= j <= reach 1)%Z -> (- reach 2 <= k <= reach 2)%Z ->
    norm (cart_z A i j k) < max_diag A + cutoff -> In (cart_z A i j k) (translations A cutoff).
  Proof.
    intros H0 H1 H2 Hn. unfold translations. destruct max_exp_reach as [E0 [E1 E2]]. rewrite E0, E1, E2.
    revert H0 H1 H2. generalize (reach 0) (reach 1) (reach 2). intros r0 r1 r2 H0 H1 H2.
    apply filter_In. split; [|now apply Rltb_true].
    apply (in_map (fun ijk => let '(i, j, k) := ijk in cart_z A i j k) _ (i, j, k)). apply box_in. auto.
  Qed.
  Lemma reach_bound p t c z : (c < 3)%nat -> -1 < frac A p c < 1 -> norm (vadd p t) < cutoff -> frac A t c = IZR z -> (- reach c <= z <= reach c)%Z.
  Proof.
    intros Hc Hp Hn Ez. pose proof (Hreach c Hc) as HR. revert HR. generalize (reach c). intros r HR.
    assert (L' : Rabs (frac A p c + IZR z) <= IZR r).
    { rewrite <- Ez, <- frac_add. unfold frac. eapply Rle_trans; [apply cauchy|]. eapply Rle_trans; [|exact HR].
      rewrite Rmult_comm. apply Rmult_le_compat_r; [apply norm_nonneg|now apply Rlt_le]. }
    assert (Z1 : IZR z < IZR (r + 1)). { rewrite plus_IZR. pose proof (Rle_abs (frac A p c + IZR z)). lra. }
    assert (Z2 : IZR (- r - 1) < IZR z). { rewrite minus_IZR, opp_IZR. pose proof (Rle_abs (- (frac A p c + IZR z))). rewrite Rabs_Ropp in *. lra. }
    apply lt_IZR in Z1, Z2. lia.
  Qed.
  Lemma norm_bound p t : (forall c, (c < 3)%nat -> -1 < frac A p c < 1) -> norm (vadd p t) < cutoff -> norm t < max_diag A + cutoff.
  Proof.
    intros Hp Hn. assert (D : norm p <= max_diag A).
    { pose proof (Hp 0%nat ltac:(lia)). pose proof (Hp 1%nat ltac:(lia)). pose proof (Hp 2%nat ltac:(lia)).
      pose proof (inside_diag (frac A p 0) (frac A p 1) (frac A p 2)) as I. rewrite (comb_frac p) in I. apply I; split; apply Rlt_le; tauto. }
    revert D. generalize (max_diag A). intros m D.
    pose proof (norm_triangle (vneg p) (vadd p t)) as T. rewrite norm_neg in T.
    replace (vadd (vneg p) (vadd p t)) with t in T by (unfold vadd, vneg; destruct t; cbn; f_equal; ring).
    eapply Rle_lt_trans; [exact T|]. apply Rplus_le_lt_compat; [exact D|exact Hn].
  Qed.
  Lemma in_translations p t : (forall c, (c < 3)%nat -> -1 < frac A p c < 1) -> lattice A t -> norm (vadd p t) < cutoff -> In t (translations A cutoff).
  Proof.
    intros Hp (i & j & k & Et) Hn. pose proof (norm_bound p t Hp Hn) as NB. rewrite Et, <- cart_comb in *. apply in_trans; [| | |exact NB].
    - apply (reach_bound p (cart_z A i j k) 0); [lia|apply Hp; lia|exact Hn|]. rewrite cart_comb. apply (frac_comb (IZR i) (IZR j) (IZR k)).
    - apply (reach_bound p (cart_z A i j k) 1); [lia|apply Hp; lia|exact Hn|]. rewrite cart_comb. apply (frac_comb (IZR i) (IZR j) (IZR k)).
    - apply (reach_bound p (cart_z A i j k) 2); [lia|apply Hp; lia|exact Hn|]. rewrite cart_comb. apply (frac_comb (IZR i) (IZR j) (IZR k)).
  Qed.
  Lemma translations_lattice t : In t (translations A cutoff) -> lattice A t.
  Proof. intros H. apply filter_In in H. destruct H as [H _]. apply in_map_iff in H. destruct H as [[[i j] k] [<- _]]. exists i, j, k. apply cart_comb. Qed.
End Cell.

(** The cell used and the rows of the full list. *)
Definition used (A : cell R) : cell R := if ref_any A then refine_axis A else A.
Lemma used_same A : same_lattice A (used A).
Proof. unfold used. destruct (ref_any A); [apply refine_same|apply same_refl]. Qed.
Lemma full_row_is tol trans pos cutoff i : (i < length pos)%nat ->
  nth i (full_rows (F := R) tol trans pos cutoff) [] = flat_map (pair_rows tol trans pos cutoff i) (seq 0 (length pos)).
Proof.
  intros Hi. unfold full_rows. rewrite (nth_indep _ [] (flat_map (pair_rows tol trans pos cutoff 0) (seq 0 (length pos)))) by (rewrite map_length, seq_length; exact Hi).
  rewrite (map_nth (fun i => flat_map (pair_rows tol trans pos cutoff i) (seq 0 (length pos)))). now rewrite seq_nth.
Qed.
Lemma in_row tol trans pos cutoff i j d : (i < length pos)%nat ->
  In (j, d) (nth i (full_rows (F := R) tol trans pos cutoff) []) <->
  (j < length pos)%nat /\ exists t, In t trans /\ d = vadd (vsub (nth j pos v0) (nth i pos v0)) t /\ tol * tol < norm2 d < cutoff * cutoff.
Proof.
  intros Hi. rewrite full_row_is by exact Hi. rewrite in_flat_map. split.
  - intros [k [Hk H]]. apply in_seq in Hk. unfold pair_rows in H. apply in_map_iff in H. destruct H as [d' [E H]]. injection E as -> ->.
    apply filter_In in H. destruct H as [H R]. apply in_map_iff in H. destruct H as [t [<- Ht]]. apply andb_true_iff in R. destruct R as [R1 R2]. apply Rltb_true in R1, R2.
    split; [lia|]. exists t. auto.
  - intros [Hj [t [Ht [-> [R1 R2]]]]]. exists j. split; [apply in_seq; lia|]. unfold pair_rows. apply in_map. apply filter_In. split; [now apply in_map|].
    apply andb_true_iff. split; now apply Rltb_true.
Qed.
Lemma lt_sq x y : 0 <= x -> 0 <= y -> x * x < y * y -> x < y.
Proof. intros Hx Hy H. apply Rsqr_incrst_0; assumption. Qed.
Lemma nth_wrap A pos i : (i < length pos)%nat -> nth i (map (wrap (F := R) A) pos) v0 = wrap A (nth i pos v0).
Proof. intros Hi. rewrite (nth_indep _ v0 (wrap A v0)) by now rewrite map_length. apply map_nth. Qed.

Lemma complete_core (tol : R) (L : v3 R -> Prop) (I : v3 R -> Prop) trans pos pos' cutoff i j d :
  (forall a b, L a -> L b -> L (vadd a b)) -> (forall a b, L a -> L b -> L (vsub a b)) ->
  (forall t, In t trans -> L t) -> (forall p t, I p -> L t -> norm (vadd p t) < cutoff -> In t trans) ->
  length pos' = length pos -> (forall i, (i < length pos)%nat -> L (vsub (nth i pos v0) (nth i pos' v0))) ->
  (forall i j, (i < length pos)%nat -> (j < length pos)%nat -> I (vsub (nth j pos' v0) (nth i pos' v0))) ->
  0 <= cutoff -> (i < length pos)%nat -> (j < length pos)%nat ->
  In (j, d) (row (csr_of (full_rows (F := R) tol trans pos' cutoff)) i) <->
  exists t, L t /\ d = vadd (vsub (nth j pos v0) (nth i pos v0)) t /\ tol * tol < norm2 d < cutoff * cutoff.
Proof.
  intros LA LS TL LT EL WL WI Hc Hi Hj. rewrite row_csr by (unfold full_rows; rewrite map_length, seq_length, EL; exact Hi).
  rewrite in_row by now rewrite EL. rewrite EL.
  pose proof (WI i j Hi Hj) as IJ. pose proof (WL i Hi) as Li. pose proof (WL j Hj) as Lj. revert IJ Li Lj.
  generalize (nth i pos v0) (nth j pos v0) (nth i pos' v0) (nth j pos' v0). intros p p' w w' IJ Li Lj.
  split.
  - intros [_ [t [Ht [-> R]]]]. exists (vadd (vsub (vsub p w) (vsub p' w')) t). split; [apply LA; [now apply LS|now apply TL]|]. split; [unfold vadd, vsub; cbn; f_equal; ring|exact R].
  - intros [t [Ht [-> R]]]. split; [exact Hj|]. exists (vsub t (vsub (vsub p w) (vsub p' w'))).
    assert (E : vadd (vsub p' p) t = vadd (vsub w' w) (vsub t (vsub (vsub p w) (vsub p' w')))) by (unfold vadd, vsub; cbn; f_equal; ring).
    split; [|split; [exact E|exact R]]. apply (LT (vsub w' w)); [exact IJ|apply LS; [exact Ht|now apply LS]|]. rewrite <- E. apply lt_sq; [apply norm_nonneg|exact Hc|]. rewrite norm_sq. apply R.
Qed.
Theorem complete (tol : R) (A : cell R) pos cutoff i j d :
  volume A <> 0 -> 0 <= cutoff ->
  (forall c, (c < 3)%nat -> cutoff * norm (recip (used A) c) <= IZR (reach (used A) cutoff c)) ->
  (ref_any A = false -> forall i j c, (i < length pos)%nat -> (j < length pos)%nat -> (c < 3)%nat -> -1 < frac A (vsub (nth j pos v0) (nth i pos v0)) c < 1) ->
  (i < length pos)%nat -> (j < length pos)%nat ->
  In (j, d) (row (neighbor_full tol A pos cutoff) i) <->
  exists t, lattice A t /\ d = vadd (vsub (nth j pos v0) (nth i pos v0)) t /\ tol * tol < norm2 d < cutoff * cutoff.
Proof.
  intros HV Hc HR HP Hi Hj. unfold neighbor_full, neighbor_cell. pose proof (used_same A) as [SL SV]. unfold used in *.
  destruct (ref_any A) eqn:ER.
  - revert SL SV HR. generalize (refine_axis A). intros A' SL SV HR. assert (HV' : volume A' <> 0) by now rewrite SV.
    apply (complete_core tol (lattice A) (fun p => forall c, (c < 3)%nat -> -1 < frac A' p c < 1)).
    + apply lattice_add.
    + apply lattice_sub.
    + intros t Ht. apply SL. exact (translations_lattice _ _ _ Ht).
    + intros p t Hp Ht Hn. apply SL in Ht. exact (in_translations A' HV' cutoff HR p t Hp Ht Hn).
    + apply map_length.
    + intros k Hk. rewrite nth_wrap by exact Hk. apply SL. now apply wrap_lattice.
    + intros k l Hk Hl c Hc'. rewrite !nth_wrap by assumption. rewrite frac_sub. pose proof (wrap_frac A' HV' (nth k pos v0) c) as W1. pose proof (wrap_frac A' HV' (nth l pos v0) c) as W2.
      revert W1 W2. generalize (frac A' (wrap A' (nth k pos v0)) c) (frac A' (wrap A' (nth l pos v0)) c). intros x y. lra.
    + exact Hc.
    + exact Hi.
    + exact Hj.
  - apply (complete_core tol (lattice A) (fun p => forall c, (c < 3)%nat -> -1 < frac A p c < 1)).
    + apply lattice_add.
    + apply lattice_sub.
    + apply translations_lattice.
    + exact (in_translations A HV cutoff HR).
    + reflexivity.
    + intros k Hk. replace (vsub _ _) with (v0 : v3 R) by (unfold vsub, v0; cbn; f_equal; ring). apply lattice_0.
    + intros k l Hk Hl c Hc'. now apply HP.
    + exact Hc.
    + exact Hi.
    + exact Hj.
Qed.

(** Every image once. *)
Lemma zrange_nodup m : NoDup (zrange m).
Proof. unfold zrange. apply FinFun.Injective_map_NoDup; [intros x y H; lia|apply seq_NoDup]. Qed.
Lemma nodup_app {T} (l l' : list T) : NoDup l -> (forall y, In y l -> ~ In y l') -> NoDup l' -> NoDup (l ++ l').
Proof.
  intros N H N'. induction N as [|x l Hx N IH]; [exact N'|]. cbn. constructor.
  - rewrite in_app_iff. intros [I|I]; [now apply Hx|]. now apply (H x (or_introl eq_refl)).
  - apply IH. intros y Hy. apply H. now right.
Qed.
Lemma flat_map_nodup {T U} (f : T -> list U) (g : U -> T) l : NoDup l -> (forall x, In x l -> NoDup (f x)) -> (forall x y, In y (f x) -> g y = x) -> NoDup (flat_map f l).
Proof.
  intros N H G. induction N as [|x l Hx N IH]; [constructor|]. cbn. apply nodup_app.
  - apply H. now left.
  - intros y Hy Hy'. apply in_flat_map in Hy'. destruct Hy' as [x' [Hx' Hy']]. apply G in Hy, Hy'. congruence.
  - apply IH. intros; apply H; now right.
Qed.
Lemma box_nodup a b c : NoDup (box a b c).
Proof.
  unfold box. apply (flat_map_nodup _ (fun t => fst (fst t))); [apply zrange_nodup| |].
  - intros i _. apply (flat_map_nodup _ (fun t => snd (fst t))); [apply zrange_nodup| |].
    + intros j _. apply FinFun.Injective_map_NoDup; [intros x y H; congruence|apply zrange_nodup].
    + intros j y H. apply in_map_iff in H. now destruct H as [k [<- _]].
  - intros i y H. apply in_flat_map in H. destruct H as [j [_ H]]. apply in_map_iff in H. now destruct H as [k [<- _]].
Qed.
Lemma translations_nodup A cutoff : volume A <> 0 -> NoDup (translations (F := R) A cutoff).
Proof.
  intros HV. unfold translations. apply NoDup_filter. apply FinFun.Injective_map_NoDup; [|apply box_nodup].
  intros [[i j] k] [[i' j'] k'] H. rewrite !cart_comb in H.
  pose proof (f_equal (fun p => frac A p 0) H) as H0. pose proof (f_equal (fun p => frac A p 1) H) as H1. pose proof (f_equal (fun p => frac A p 2) H) as H2.
  cbn beta in *. rewrite !frac_comb in H0, H1, H2 by exact HV. apply eq_IZR in H0, H1, H2. congruence.
Qed.
Lemma row_nodup tol A pos cutoff i : volume A <> 0 -> (i < length pos)%nat -> NoDup (row (neighbor_full (F := R) tol A pos cutoff) i).
Proof.
  intros HV Hi.
  assert (G : forall trans p, length p = length pos -> NoDup trans -> NoDup (row (csr_of (full_rows (F := R) tol trans p cutoff)) i)).
  { intros trans p E N. rewrite row_csr by (unfold full_rows; rewrite map_length, seq_length, E; exact Hi). rewrite full_row_is by now rewrite E.
    apply (flat_map_nodup _ fst); [apply seq_NoDup| |].
    - intros j _. unfold pair_rows. apply FinFun.Injective_map_NoDup; [intros x y H; congruence|]. apply NoDup_filter. apply FinFun.Injective_map_NoDup; [|exact N].
      intros [x y z] [x' y' z'] H. unfold vadd in H. cbn in H. injection H as H1 H2 H3. f_equal; lra.
    - intros j y H. unfold pair_rows in H. apply in_map_iff in H. now destruct H as [d [<- _]]. }
  unfold neighbor_full, neighbor_cell. pose proof (used_same A) as [_ SV]. unfold used in SV. destruct (ref_any A); apply G; try apply map_length; try reflexivity; apply translations_nodup; congruence.
Qed.
