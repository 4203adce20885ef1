(** C53: derivatives, parity and scaling of the spherical harmonics of the code. *)
From Verif Require Import Base Num NumR Complex Spec.Deriv Spec.Gtinv Model.Cxx Model.Neighbor Model.Compute Model.Radial Model.Harmonics Spec.Harmonics Proofs.Harmonics Proofs.Radial Props.C24.
From Coq Require Import Reals Lra.
Local Open Scope R_scope.

(** compute_ylm_der gives the Cartesian derivatives of the entries of compute_ylm, on the z axis too. *)
Theorem C53_derivative (lmax key c : nat) (d : v3 R) :
  (c < 3)%nat -> 0 < norm2 d ->
  has_cderiv (fun s => get_ylm lmax key (along c s d)) 0 (get_ylm_d lmax c key d).
Proof. apply ylm_deriv. Qed.
Print Assumptions C53_derivative.

(** Parity (-1)^l of values, (-1)^(l+1) of derivatives, and real values for m = 0. *)
Theorem C53_parity (cutoff : R) (lmax maxl : nat) : (maxl <= lmax)%nat -> basis_ok (real_basis cutoff lmax) maxl.
Proof.
  intros HL. split; cbn [b_ylm b_ylm_d real_basis].
  - intros l k d H. rewrite index_same. destruct (Req_dec (norm d) 0) as [Z|Z].
    + rewrite !(proj1 (get_ylm_zero lmax _ _ Z)), (proj1 (get_ylm_zero lmax _ _ (zero_norm_neg d Z))). destruct (Nat.even l); apply cx_eq; cbn; lra.
    + rewrite !get_ylm_closed by (try rewrite norm_neg; try lia; exact Z). apply sph_parity.
  - intros c l k d H. rewrite index_same. destruct (Req_dec (norm d) 0) as [Z|Z].
    + rewrite !(proj2 (get_ylm_zero lmax _ _ Z)), (proj2 (get_ylm_zero lmax _ _ (zero_norm_neg d Z))). destruct (Nat.even l); apply cx_eq; cbn; lra.
    + assert (G : forall c, (c < 3)%nat -> get_ylm_d lmax c (lm2i_negm l k) (vneg d) = if Nat.even l then nopp (get_ylm_d lmax c (lm2i_negm l k) d) else get_ylm_d lmax c (lm2i_negm l k) d).
      { intros c' Hc'. rewrite !get_ylm_d_closed by (try rewrite norm_neg; try lia; exact Z). apply sph_d_parity. }
      destruct c as [|[|c]]; [apply G; lia|apply G; lia|exact (G 2%nat ltac:(lia))].
  - intros l d H. rewrite index_same. destruct (Req_dec (norm d) 0) as [Z|Z]; [now rewrite (proj1 (get_ylm_zero lmax _ _ Z))|].
    rewrite get_ylm_closed by (try lia; exact Z). apply sph_real.
  - intros c l d H. rewrite index_same. destruct (Req_dec (norm d) 0) as [Z|Z]; [now rewrite (proj2 (get_ylm_zero lmax _ _ Z))|].
    assert (G : forall c, (c < 3)%nat -> im (get_ylm_d lmax c (lm2i_negm l 0) d) = 0).
    { intros c' Hc'. rewrite get_ylm_d_closed by (try lia; exact Z). apply sph_d_real. }
    destruct c as [|[|c]]; [apply G; lia|apply G; lia|exact (G 2%nat ltac:(lia))].
Qed.
Print Assumptions C53_parity.

(** Values depend on the direction only; derivatives go with the inverse length. With the radial functions this is what
    the conversion of units needs (C24). *)
Theorem C53_scaling (cutoff len inv : R) (lmax : nat) :
  0 < cutoff -> 0 < len -> len * inv = 1 ->
  converted len inv (real_basis cutoff lmax) (real_basis (cutoff * len) lmax).
Proof.
  intros Hc Hl Hi. apply C24_gaussian; try assumption.
  - intros key d. destruct (key_dec lmax key) as [[l [m [H <-]]]|H]; [|now rewrite !(proj1 (get_ylm_out lmax key _ H))].
    destruct (Req_dec (norm d) 0) as [Z|Z].
    + rewrite !(proj1 (get_ylm_zero lmax _ _ Z)), (proj1 (get_ylm_zero lmax _ (vscale len d) ltac:(rewrite norm_vscale, Z by exact Hl; ring))). reflexivity.
    + rewrite !get_ylm_closed by (try exact H; try exact Z; rewrite norm_vscale by exact Hl; apply Rmult_integral_contrapositive; lra). now apply sph_scale.
  - intros c key d. destruct (key_dec lmax key) as [[l [m [H <-]]]|H]; [|rewrite !(proj2 (get_ylm_out lmax key _ H)); apply cx_eq; cbn; ring].
    destruct (Req_dec (norm d) 0) as [Z|Z].
    + rewrite !(proj2 (get_ylm_zero lmax _ _ Z)), (proj2 (get_ylm_zero lmax _ (vscale len d) ltac:(rewrite norm_vscale, Z by exact Hl; ring))). apply cx_eq; cbn; ring.
    + assert (G : forall c, (c < 3)%nat -> get_ylm_d lmax c (lm2i_negm l m) (vscale len d) = cscale inv (get_ylm_d lmax c (lm2i_negm l m) d)).
      { intros c' Hc'. rewrite !get_ylm_d_closed by (try exact H; try exact Hc'; try exact Z; rewrite norm_vscale by exact Hl; apply Rmult_integral_contrapositive; lra). now apply sph_d_scale. }
      destruct c as [|[|c]]; [apply G; lia|apply G; lia|exact (G 2%nat ltac:(lia))].
Qed.
Print Assumptions C53_scaling.

(** On the z axis at height 2, moving along x changes the real part of Y_{1,-1} at the rate sqrt (3 / 8 pi) / 2. *)
Module Example.
  Definition pole : v3 R := V3 0 0 2.
  Lemma pole_pos : 0 < norm2 pole.
  Proof. unfold norm2, vdot. cbn. lra. Qed.
  Lemma pole_norm : norm pole = 2.
  Proof. rewrite norm_R. cbn. replace (0 * 0 + 0 * 0 + 2 * 2) with (2 * 2) by ring. apply sqrt_square. lra. Qed.
  Lemma rate : get_ylm_d 1 0 1 pole = (sqrt (3 / (8 * PI)) / 2, 0) /\ get_ylm 1 1 pole = (0, 0) /\
    get_ylm 1 1 (vscale 3 (V3 1 2 2)) = get_ylm 1 1 (V3 1 2 2).
  Proof.
    assert (E : ynorm 1 1 = sqrt (3 / (8 * PI))) by (unfold ynorm; f_equal; change (INR (Factorial.fact (1 - 1))) with 1; change (INR (Factorial.fact (1 + 1))) with 2; cbn [INR]; pose proof PI_RGT_0; field; lra).
    split; [|split].
    - change 1%nat with (lm2i_negm 1 1) at 2. rewrite get_ylm_d_closed by (try lia; rewrite pole_norm; lra). unfold sph_d. rewrite pole_norm, Legendre.U_1, E. cbn. apply cx_eq; cbn; field.
    - change 1%nat with (lm2i_negm 1 1) at 2. rewrite get_ylm_closed by (try lia; rewrite pole_norm; lra). unfold sph_neg. cbn [vx vy pole cpow]. unfold Rdiv. rewrite !Rmult_0_l. apply cx_eq; cbn; ring.
    - assert (C : converted 3 (/ 3) (real_basis 6 1) (real_basis (6 * 3) 1)) by (apply C53_scaling; lra). exact (cv_ylm _ _ _ _ C 1%nat (V3 1 2 2)).
  Qed.
End Example.
