(** C52: the spherical harmonics computed by the recurrences are the textbook functions. *)
From Verif Require Import Base Num NumR Complex Model.Neighbor Model.Harmonics Spec.Harmonics Proofs.Legendre Proofs.HarmonicArrays Proofs.Harmonics.
From Coq Require Import Reals Lra Factorial.
From Coquelicot Require Import Derive.
Local Open Scope R_scope.

(** Entry l (l + 1) / 2 + l - k of the array is Y_{l,-k}, for every direction, the poles included. *)
Theorem C52_values (lmax l k : nat) (d : v3 R) :
  (k <= l <= lmax)%nat -> 0 < norm2 d ->
  get_ylm lmax (l * (l + 1) / 2 + l - k) d = sph_neg l k d.
Proof. intros H Hd. apply get_ylm_closed; [exact H|]. pose proof (norm_pos d Hd). lra. Qed.
Print Assumptions C52_values.

(** These are all the entries of the array, and no entry is used twice. *)
Theorem C52_index (lmax : nat) :
  (forall key, (key < (lmax + 1) * (lmax + 2) / 2)%nat -> exists l k, (k <= l <= lmax)%nat /\ key = (l * (l + 1) / 2 + l - k)%nat) /\
  (forall l k l' k', (k <= l)%nat -> (k' <= l')%nat -> (l * (l + 1) / 2 + l - k = l' * (l' + 1) / 2 + l' - k')%nat -> l = l' /\ k = k').
Proof.
  split; [|exact negm_inj]. replace ((lmax + 1) * (lmax + 2))%nat with (S lmax * (S lmax + 1))%nat by lia. induction lmax as [|m IH]; intros key Hk.
  - exists 0%nat, 0%nat. change (1 * (1 + 1) / 2)%nat with 1%nat in Hk. change (0 * (0 + 1) / 2)%nat with 0%nat. lia.
  - rewrite tri_S in Hk. destruct (le_lt_dec (S m * (S m + 1) / 2) key) as [L|L].
    + exists (S m), (S m * (S m + 1) / 2 + S m - key)%nat. lia.
    + destruct (IH key L) as [l [k [H E]]]. exists l, k. lia.
Qed.
Print Assumptions C52_index.

(** The first functions written out; P_2 as a polynomial. *)
Lemma norm_1 l m a : ynorm l m = sqrt a -> 0 <= a -> ynorm l m * ynorm l m = a.
Proof. intros -> H. now apply sqrt_sqrt. Qed.
Example C52_first (d : v3 R) :
  let r := sqrt (vx d * vx d + vy d * vy d + vz d * vz d) in
  sph_neg 0 0 d = (sqrt (1 / (4 * PI)), 0) /\
  sph_neg 1 0 d = (sqrt (3 / (4 * PI)) * (vz d / r), 0) /\
  sph_neg 1 1 d = (sqrt (3 / (8 * PI)) * (vx d / r), - (sqrt (3 / (8 * PI)) * (vy d / r))) /\
  (forall x, legendre 2 x = (3 * x * x - 1) / 2).
Proof.
  intros r. pose proof PI_RGT_0 as P.
  assert (E0 : ynorm 0 0 = sqrt (1 / (4 * PI))) by (unfold ynorm; f_equal; change (INR (fact (0 - 0))) with 1; change (INR (fact (0 + 0))) with 1; cbn [INR]; field; lra).
  assert (E1 : ynorm 1 0 = sqrt (3 / (4 * PI))) by (unfold ynorm; f_equal; change (INR (fact (1 - 0))) with 1; change (INR (fact (1 + 0))) with 1; cbn [INR]; field; lra).
  assert (E2 : ynorm 1 1 = sqrt (3 / (8 * PI))) by (unfold ynorm; f_equal; change (INR (fact (1 - 1))) with 1; change (INR (fact (1 + 1))) with 2; cbn [INR]; field; lra).
  unfold sph_neg. fold r. rewrite !U_derive, !U_00, !U_1, E0, E1, E2. repeat split; try (apply cx_eq; cbn; ring). intros x. unfold legendre. cbn. lra.
Qed.

(** lmax = 2 at the pole (0, 0, 2): Y_{2,0} = sqrt (5 / 4 pi), Y_{2,-1} = 0. *)
Module Example.
  Definition pole : v3 R := V3 0 0 2.
  Lemma pole_pos : 0 < norm2 pole.
  Proof. unfold norm2, vdot. cbn. lra. Qed.
  Lemma ratio : vz pole / sqrt (vx pole * vx pole + vy pole * vy pole + vz pole * vz pole) = 1.
  Proof. cbn. replace (0 * 0 + 0 * 0 + 2 * 2) with (2 * 2) by ring. rewrite sqrt_square by lra. lra. Qed.
  Lemma values : get_ylm 2 5 pole = (sqrt (5 / (4 * PI)), 0) /\ get_ylm 2 4 pole = (0, 0).
  Proof.
    split.
    - change 5%nat with (2 * (2 + 1) / 2 + 2 - 0)%nat. rewrite C52_values by (try lia; apply pole_pos). unfold sph_neg. rewrite ratio, U_derive.
      assert (E : ynorm 2 0 = sqrt (5 / (4 * PI))) by (unfold ynorm; f_equal; change (INR (fact (2 - 0))) with 2; change (INR (fact (2 + 0))) with 2; cbn [INR]; pose proof PI_RGT_0; field; lra).
      rewrite E, U_SS, U_1, U_00. cbn [INR]. apply cx_eq; cbn; field.
    - change 4%nat with (2 * (2 + 1) / 2 + 2 - 1)%nat. rewrite C52_values by (try lia; apply pole_pos). unfold sph_neg. cbn [vx vy pole]. unfold Rdiv. rewrite !Rmult_0_l. apply cx_eq; cbn; ring.
  Qed.
End Example.
