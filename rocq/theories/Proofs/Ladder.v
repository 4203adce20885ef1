(** Spherical harmonics under infinitesimal rotations: the ladder relations. *)
From Verif Require Import Base Num NumR Complex Spec.Deriv Spec.Harmonics Spec.Rotation Model.Neighbor Model.Compute Model.Harmonics Proofs.Deriv Proofs.Legendre Proofs.HarmonicArrays Proofs.Harmonics.
From Coq Require Import Reals Lra Factorial.
Local Open Scope R_scope.

(** Legendre's differential equation, differentiated k times. *)
Lemma U_ode l k x : (1 - x * x) * U l (S (S k)) x - 2 * INR (S k) * x * U l (S k) x + (INR l + INR (S k)) * (INR l - INR k) * U l k x = 0.
Proof.
  destruct l as [|l].
  - rewrite !U_00. destruct k as [|k]; cbn [INR]; ring.
  - pose proof (rel_b l (S k) x) as B1. pose proof (rel_c l (S k) x) as C1. pose proof (rel_b l k x) as B0. rewrite !S_INR in *.
    set (u2 := U (S l) (S (S k)) x) in *. set (u1 := U (S l) (S k) x) in *. set (u0 := U (S l) k x) in *. set (v2 := U l (S (S k)) x) in *. set (v1 := U l (S k) x) in *.
    assert (E1 : v1 = x * u1 - (INR l + 1 - INR k) * u0) by lra. assert (E2 : v2 = x * u2 - (INR l + 1 - (INR k + 1)) * u1) by lra. rewrite E1, E2 in C1.
    assert (E3 : u2 - x * (x * u2 - (INR l + 1 - (INR k + 1)) * u1) - (INR l + 1 + (INR k + 1)) * (x * u1 - (INR l + 1 - INR k) * u0) = 0) by lra.
    rewrite <- E3. ring.
Qed.

(** Rotation in the plane of the axes [a] and [b]: the rate of change of a direction is x_a e_b - x_b e_a. *)
Definition plane (c : nat) : nat * nat := match c with 0%nat => (1, 2)%nat | 1%nat => (2, 0)%nat | _ => (0, 1)%nat end.
Definition rate (a b e : nat) (d : v3 R) : R := (if (e =? b)%nat then vc a d else 0) - (if (e =? a)%nat then vc b d else 0).
Definition sph_rot (l m a b : nat) (d : v3 R) : Cx R :=
  let r := norm d in let x e := vc e d / r in
  let w : Cx R := (x 0%nat, - x 1%nat) in
  nadd (cscale (ynorm l m * U l (S m) (x 2%nat) * (rate a b 2 d / r)) (cpow w m))
    (cscale (ynorm l m * U l m (x 2%nat) * INR m) (nmul (cpow w (m - 1)) (rate a b 0 d / r, - (rate a b 1 d / r)))).
Lemma sph_rot_d l m a b d : norm d <> 0 -> (a < 3)%nat -> (b < 3)%nat ->
  nsub (cscale (vc a d) (sph_d l m b d)) (cscale (vc b d) (sph_d l m a d)) = sph_rot l m a b d.
Proof.
  intros Hd Ha Hb. unfold sph_d, sph_rot, rate. set (P := cpow _ m). set (Q := cpow _ (m - 1)). clearbody P Q. destruct P as [p q], Q as [p' q'].
  set (K := ynorm l m). set (u := U l (S m) _). set (u' := U l m _). clearbody K u u'. set (r := norm d) in *. set (k := INR m). clearbody k. clearbody r.
  set (xa := vc a d). set (xb := vc b d). set (x0 := vc 0 d). set (x1 := vc 1 d). set (x2 := vc 2 d). clearbody xa xb x0 x1 x2.
  destruct (0 =? b)%nat, (1 =? b)%nat, (2 =? b)%nat, (0 =? a)%nat, (1 =? a)%nat, (2 =? a)%nat;
  apply cx_eq; cbn [re im of_real cscale conj fst snd n1 n0 nopp nadd nmul nsub cadd cmul csub copp Cx_num R_num]; field; exact Hd.
Qed.

(** Y_{l,m} for both signs of m = i - (l*l + l). *)
Definition sph (l i : nat) (d : v3 R) : Cx R :=
  if (i <=? l * l + l)%nat then sph_neg l (l * l + l - i) d else cscale ((-1) ^ (i - (l * l + l))) (conj (sph_neg l (i - (l * l + l)) d)).
Definition sph_r (l i a b : nat) (d : v3 R) : Cx R :=
  if (i <=? l * l + l)%nat then sph_rot l (l * l + l - i) a b d else cscale ((-1) ^ (i - (l * l + l))) (conj (sph_rot l (i - (l * l + l)) a b d)).
(** The generators of the rotations about the axes. *)
Definition gen (c l : nat) (v : nat -> Cx R) (i : nat) : Cx R :=
  match c with
  | 0%nat => nmul (0, 1 / 2) (nadd (cscale (weight true l i) (v (S i))) (cscale (weight false l i) (v (pred i))))
  | 1%nat => cscale (1 / 2) (nsub (cscale (weight true l i) (v (S i))) (cscale (weight false l i) (v (pred i))))
  | _ => nmul (0, m_of l i) (v i)
  end.

Lemma sph_neg_U l k d : sph_neg l k d = cscale (ynorm l k * U l k (vz d / norm d)) (cpow (vx d / norm d, - (vy d / norm d)) k).
Proof. unfold sph_neg. rewrite U_derive. reflexivity. Qed.
Lemma m_neg l k : (k <= l)%nat -> m_of l (l * l + l - k) = - INR k.
Proof. intros H. unfold m_of. rewrite minus_INR by nia. ring. Qed.
Lemma m_pos l k : m_of l (l * l + l + k) = INR k.
Proof. unfold m_of. rewrite plus_INR. ring. Qed.
Definition wd (l k : nat) : R := sqrt (INR ((l - k) * (l + k + 1))).
Definition wu (l k : nat) : R := sqrt (INR ((l + k) * (l - k + 1))).
Lemma wd_eq l k : (k <= l)%nat -> INR ((l - k) * (l + k + 1)) = INR l * (INR l + 1) - INR k * (INR k + 1).
Proof. intros H. rewrite mult_INR, minus_INR, !plus_INR by exact H. cbn [INR]. ring. Qed.
Lemma wu_eq l k : (k <= l)%nat -> INR ((l + k) * (l - k + 1)) = INR l * (INR l + 1) - INR k * (INR k - 1).
Proof. intros H. rewrite mult_INR, !plus_INR, minus_INR by exact H. cbn [INR]. ring. Qed.
Lemma weight_neg l k : (k <= l)%nat -> weight false l (l * l + l - k) = wd l k /\ weight true l (l * l + l - k) = wu l k.
Proof. intros H. unfold weight, wd, wu. rewrite m_neg, wd_eq, wu_eq by exact H. split; f_equal; ring. Qed.
Lemma weight_pos l k : (k <= l)%nat -> weight true l (l * l + l + k) = wd l k /\ weight false l (l * l + l + k) = wu l k.
Proof. intros H. unfold weight, wd, wu. rewrite m_pos, wd_eq, wu_eq by exact H. split; f_equal; ring. Qed.
Lemma wd_top l : wd l l = 0.
Proof. unfold wd. rewrite Nat.sub_diag. cbn. apply sqrt_0. Qed.
Lemma ynorm_wd l k : (k < l)%nat -> ynorm l k = wd l k * ynorm l (S k).
Proof. apply ynorm_up. Qed.
Lemma wu_S l k : (k < l)%nat -> wu l (S k) = wd l k.
Proof. intros H. unfold wu, wd. do 2 f_equal. nia. Qed.
Lemma wd_sq l k : (k <= l)%nat -> wd l k * wd l k = (INR l - INR k) * (INR l + INR (S k)).
Proof. intros H. unfold wd. rewrite sqrt_sqrt by apply pos_INR. rewrite wd_eq by exact H. rewrite S_INR. ring. Qed.

Lemma unit_sum d : norm d <> 0 -> (vx d / norm d) * (vx d / norm d) + (vy d / norm d) * (vy d / norm d) = 1 - (vz d / norm d) * (vz d / norm d).
Proof.
  intros H. assert (E : norm d * norm d = vx d * vx d + vy d * vy d + vz d * vz d).
  { unfold norm. cbn [nsqrt R_ord]. rewrite sqrt_sqrt; [reflexivity|]. unfold norm2, vdot. cbn. nra. }
  apply Rmult_eq_reg_r with (norm d * norm d); [|now apply Rmult_integral_contrapositive]. transitivity (vx d * vx d + vy d * vy d); [field; exact H|].
  transitivity (norm d * norm d - vz d * vz d); [lra|field; exact H].
Qed.
Lemma down_neg l k d : norm d <> 0 -> (k <= l)%nat ->
  nsub (nmul (0, -1) (sph_rot l k 1 2 d)) (sph_rot l k 2 0 d) = cscale (wd l k) (sph_neg l (S k) d).
Proof.
  intros Hd Hk. rewrite sph_neg_U. unfold sph_rot, rate. cbn [Nat.eqb vc]. rewrite cpow_S.
  set (r := norm d) in *. replace (vz d - 0) with (vz d) by ring. replace (vy d - 0) with (vy d) by ring.
  set (x := vx d / r). set (y := vy d / r). set (z := vz d / r).
  replace ((0 - vx d) / r) with (- x) by (unfold x; field; exact Hd). replace ((0 - vz d) / r) with (- z) by (unfold z; field; exact Hd).
  replace ((0 - 0) / r) with 0 by (field; exact Hd).
  assert (E : ynorm l k * U l (S k) z = wd l k * (ynorm l (S k) * U l (S k) z)).
  { destruct (Nat.eq_dec k l) as [->|N]; [rewrite U_above by lia; ring|]. rewrite (ynorm_wd l k) by lia. ring. }
  set (A := ynorm l k * U l (S k) z) in *. set (A' := ynorm l (S k) * U l (S k) z) in *. set (C := ynorm l k * U l k z * INR k). clearbody A A' C. subst A.
  destruct (cpow (x, - y) k) as [p q], (cpow (x, - y) (k - 1)) as [p' q']. clearbody x y z. set (o := wd l k). clearbody o.
  apply cx_eq; cbn [re im of_real cscale conj fst snd n1 n0 nopp nadd nmul nsub cadd cmul csub copp Cx_num R_num]; ring.
Qed.
Lemma up_neg l k d : norm d <> 0 -> (S k <= l)%nat ->
  nadd (nmul (0, -1) (sph_rot l (S k) 1 2 d)) (sph_rot l (S k) 2 0 d) = cscale (wu l (S k)) (sph_neg l k d).
Proof.
  intros Hd Hk. rewrite sph_neg_U. unfold sph_rot, rate. cbn [Nat.eqb vc]. rewrite cpow_S. rewrite wu_S by lia. replace (S k - 1)%nat with k by lia. pose proof (unit_sum d Hd) as Q.
  set (r := norm d) in *. replace (vz d - 0) with (vz d) by ring. replace (vy d - 0) with (vy d) by ring.
  set (x := vx d / r) in *. set (y := vy d / r) in *. set (z := vz d / r) in *.
  replace ((0 - vx d) / r) with (- x) by (unfold x; field; exact Hd). replace ((0 - vz d) / r) with (- z) by (unfold z; field; exact Hd).
  replace ((0 - 0) / r) with 0 by (field; exact Hd).
  pose proof (U_ode l k z) as O. pose proof (wd_sq l k ltac:(lia)) as W.
  rewrite (ynorm_wd l k) by lia.
  set (u2 := U l (S (S k)) z) in *. set (u1 := U l (S k) z) in *. set (u0 := U l k z) in *. set (n := INR (S k)) in *. set (K := ynorm l (S k)). set (o := wd l k) in *.
  assert (E : - (x * x + y * y) * u2 + 2 * n * z * u1 = o * o * u0) by (rewrite Q, W; lra).
  clearbody x y z u2 u1 u0 n K o. clear O W Q Hd. destruct (cpow (x, - y) k) as [p q].
  apply cx_eq; cbn [re im of_real cscale conj fst snd n1 n0 nopp nadd nmul nsub cadd cmul csub copp Cx_num R_num].
  - transitivity (K * p * (- (x * x + y * y) * u2 + 2 * n * z * u1)); [ring|rewrite E; ring].
  - transitivity (K * q * (- (x * x + y * y) * u2 + 2 * n * z * u1)); [ring|rewrite E; ring].
Qed.
Lemma up_zero l d : norm d <> 0 ->
  nadd (nmul (0, -1) (sph_rot l 0 1 2 d)) (sph_rot l 0 2 0 d) = cscale (wd l 0) (nopp (conj (sph_neg l 1 d))).
Proof.
  intros Hd. rewrite sph_neg_U. unfold sph_rot, rate. cbn [Nat.eqb vc cpow INR Nat.sub].
  set (r := norm d) in *. replace (vz d - 0) with (vz d) by ring. replace (vy d - 0) with (vy d) by ring.
  set (x := vx d / r). set (y := vy d / r). set (z := vz d / r).
  replace ((0 - vx d) / r) with (- x) by (unfold x; field; exact Hd). replace ((0 - vz d) / r) with (- z) by (unfold z; field; exact Hd).
  replace ((0 - 0) / r) with 0 by (field; exact Hd).
  assert (E : ynorm l 0 * U l 1 z = wd l 0 * (ynorm l 1 * U l 1 z)).
  { destruct (Nat.eq_dec l 0) as [->|N]; [rewrite U_above by lia; ring|]. rewrite (ynorm_wd l 0) by lia. ring. }
  set (A := ynorm l 0 * U l 1 z) in *. set (A' := ynorm l 1 * U l 1 z) in *. rewrite !Rmult_0_r. clearbody A A'. subst A.
  clearbody x y z. set (o := wd l 0). clearbody o.
  apply cx_eq; cbn [re im of_real cscale conj fst snd n1 n0 nopp nadd nmul nsub cadd cmul csub copp Cx_num R_num]; ring.
Qed.
Lemma about_z l k d : norm d <> 0 -> sph_rot l k 0 1 d = nmul (0, - INR k) (sph_neg l k d).
Proof.
  intros Hd. rewrite sph_neg_U. unfold sph_rot, rate. cbn [Nat.eqb vc].
  set (r := norm d) in *. replace (vx d - 0) with (vx d) by ring. set (x := vx d / r). set (y := vy d / r). set (z := vz d / r).
  replace ((0 - vy d) / r) with (- y) by (unfold y; field; exact Hd). replace ((0 - 0) / r) with 0 by (field; exact Hd).
  set (K := ynorm l k). set (u := U l k z). set (u' := U l (S k) z). clearbody K u u' x y z. destruct k as [|k].
  - cbn [INR]. apply cx_eq; cbn; ring.
  - replace (S k - 1)%nat with k by lia. rewrite cpow_S. set (n := INR (S k)). clearbody n. destruct (cpow (x, - y) k) as [p q].
    apply cx_eq; cbn [re im of_real cscale conj fst snd n1 n0 nopp nadd nmul nsub cadd cmul csub copp Cx_num R_num]; ring.
Qed.

(** All values of m. *)
Lemma sph_below l k d : (k <= l)%nat -> sph l (l * l + l - k) d = sph_neg l k d /\ forall a b, sph_r l (l * l + l - k) a b d = sph_rot l k a b d.
Proof.
  intros H. unfold sph, sph_r. destruct (l * l + l - k <=? l * l + l)%nat eqn:E; [|apply Nat.leb_gt in E; lia].
  replace (l * l + l - (l * l + l - k))%nat with k by nia. now split.
Qed.
Lemma real_zero l d : norm d <> 0 -> conj (sph_neg l 0 d) = sph_neg l 0 d /\ forall a b, conj (sph_rot l 0 a b d) = sph_rot l 0 a b d.
Proof. intros H. split; [rewrite sph_neg_U|intros a b; unfold sph_rot]; cbn [cpow INR]; apply cx_eq; cbn; ring. Qed.
Lemma sph_above l k d : norm d <> 0 -> sph l (l * l + l + k) d = cscale ((-1) ^ k) (conj (sph_neg l k d)) /\ forall a b, sph_r l (l * l + l + k) a b d = cscale ((-1) ^ k) (conj (sph_rot l k a b d)).
Proof.
  intros Hd. unfold sph, sph_r. destruct (l * l + l + k <=? l * l + l)%nat eqn:E.
  - apply Nat.leb_le in E. replace k with 0%nat by lia. replace (l * l + l - (l * l + l + 0))%nat with 0%nat by lia. destruct (real_zero l d Hd) as [E1 E2]. rewrite E1.
    split; [apply cx_eq; cbn; ring|]. intros a b. rewrite E2. apply cx_eq; cbn; ring.
  - replace (l * l + l + k - (l * l + l))%nat with k by lia. now split.
Qed.
(** L_+ and L_-. *)
Lemma ladder l i d : norm d <> 0 -> (l * l <= i <= l * l + 2 * l)%nat ->
  nadd (nmul (0, -1) (sph_r l i 1 2 d)) (sph_r l i 2 0 d) = cscale (weight true l i) (sph l (S i) d) /\
  nsub (nmul (0, -1) (sph_r l i 1 2 d)) (sph_r l i 2 0 d) = cscale (weight false l i) (sph l (pred i) d).
Proof.
  intros Hd Hi. destruct (le_lt_dec i (l * l + l)) as [L|L].
  - set (k := (l * l + l - i)%nat). assert (Hk : (k <= l)%nat) by lia. replace i with (l * l + l - k)%nat by lia. destruct (weight_neg l k Hk) as [-> ->].
    destruct (sph_below l k d Hk) as [_ E]. rewrite !E. clear E. split.
    + destruct k as [|k]; [|].
      * rewrite up_zero by exact Hd. replace (S (l * l + l - 0)) with (l * l + l + 1)%nat by lia. destruct (sph_above l 1 d Hd) as [-> _].
        assert (E : wu l 0 = wd l 0) by (unfold wu, wd; do 2 f_equal; nia). rewrite E. apply cx_eq; cbn; ring.
      * rewrite up_neg by assumption. replace (S (l * l + l - S k)) with (l * l + l - k)%nat by nia. now rewrite (proj1 (sph_below l k d ltac:(lia))).
    + rewrite down_neg by assumption. destruct (Nat.eq_dec k l) as [E|N].
      * rewrite E, wd_top. apply cx_eq; cbn; ring.
      * replace (pred (l * l + l - k)) with (l * l + l - S k)%nat by lia. now rewrite (proj1 (sph_below l (S k) d ltac:(lia))).
  - set (k := (i - (l * l + l))%nat). assert (Hk : (1 <= k <= l)%nat) by lia. replace i with (l * l + l + k)%nat by lia. destruct (weight_pos l k ltac:(lia)) as [-> ->].
    destruct (sph_above l k d Hd) as [_ E]. rewrite !E. clear E. destruct k as [|k]; [lia|]. split.
    + replace (S (l * l + l + S k)) with (l * l + l + S (S k))%nat by lia. rewrite (proj1 (sph_above l (S (S k)) d Hd)).
      pose proof (down_neg l (S k) d Hd ltac:(lia)) as D. destruct (sph_rot l (S k) 1 2 d) as [p q], (sph_rot l (S k) 2 0 d) as [p' q'], (sph_neg l (S (S k)) d) as [s t].
      pose proof (f_equal re D) as D1. pose proof (f_equal im D) as D2. cbn in D1, D2. set (o := wd l (S k)) in *. clearbody o. cbn [pow]. set (e := (-1) ^ k). clearbody e.
      apply cx_eq; cbn [re im of_real cscale conj fst snd n1 n0 nopp nadd nmul nsub cadd cmul csub copp Cx_num R_num].
      * transitivity (e * (0 * p - -1 * q - p')); [ring|rewrite D1; ring].
      * transitivity (- e * (0 * q + -1 * p - q')); [ring|rewrite D2; ring].
    + replace (pred (l * l + l + S k)) with (l * l + l + k)%nat by lia. rewrite (proj1 (sph_above l k d Hd)).
      pose proof (up_neg l k d Hd ltac:(lia)) as D. destruct (sph_rot l (S k) 1 2 d) as [p q], (sph_rot l (S k) 2 0 d) as [p' q'], (sph_neg l k d) as [s t].
      pose proof (f_equal re D) as D1. pose proof (f_equal im D) as D2. cbn in D1, D2. set (o := wu l (S k)) in *. clearbody o. cbn [pow]. set (e := (-1) ^ k). clearbody e.
      apply cx_eq; cbn [re im of_real cscale conj fst snd n1 n0 nopp nadd nmul nsub cadd cmul csub copp Cx_num R_num].
      * transitivity (e * (0 * p - -1 * q + p')); [ring|rewrite D1; ring].
      * transitivity (- e * (0 * q + -1 * p + q')); [ring|rewrite D2; ring].
Qed.
Lemma sph_gen c l i d : norm d <> 0 -> (l * l <= i <= l * l + 2 * l)%nat ->
  sph_r l i (fst (plane c)) (snd (plane c)) d = gen c l (fun j => sph l j d) i.
Proof.
  intros Hd Hi. destruct c as [|[|c]]; cbn [plane fst snd gen].
  - destruct (ladder l i d Hd Hi) as [<- <-]. destruct (sph_r l i 1 2 d), (sph_r l i 2 0 d). apply cx_eq; cbn; field.
  - destruct (ladder l i d Hd Hi) as [<- <-]. destruct (sph_r l i 1 2 d), (sph_r l i 2 0 d). apply cx_eq; cbn; field.
  - destruct (le_lt_dec i (l * l + l)) as [L|L].
    + set (k := (l * l + l - i)%nat). assert (Hk : (k <= l)%nat) by lia. replace i with (l * l + l - k)%nat by lia.
      destruct (sph_below l k d Hk) as [-> ->]. rewrite m_neg by exact Hk. now apply about_z.
    + set (k := (i - (l * l + l))%nat). replace i with (l * l + l + k)%nat by lia. destruct (sph_above l k d Hd) as [-> ->]. rewrite m_pos, about_z by exact Hd.
      destruct (sph_neg l k d). apply cx_eq; cbn; ring.
Qed.
