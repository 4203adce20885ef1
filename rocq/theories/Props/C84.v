(** C84: the radial functions and their derivatives. *)
From Coq Require Import String Reals Lra Lia.
From Coquelicot Require Import Coquelicot.
From Verif Require Import Base Num NumR Model.Radial Model.BasisFunctions Props.C23.
Local Open Scope R_scope.

(** [v] gives the values of f, and [d] gives them with those of its derivative. *)
Definition radial (f v : R -> R) (d : R -> R * R) : Prop :=
  forall r, 0 < r -> v r = f r /\ fst (d r) = f r /\ is_derive f r (snd (d r)).

Lemma Rpower_derive p r : 0 < r -> is_derive (fun r => Rpower r p) r (p * Rpower r p / r).
Proof.
  intros H. unfold Rpower. auto_derive; [exact H|]. field. lra.
Qed.
Lemma Rpower_less p r : 0 < r -> Rpower r (p - 1) = Rpower r p / r.
Proof.
  intros H. replace (p - 1) with (p + - (1)) by ring. rewrite Rpower_plus, Rpower_Ropp, Rpower_1 by exact H. reflexivity.
Qed.

Theorem C84_cosine p : radial (fun r => cos (p * r)) (fun r => cosine r p) (fun r => cosine_d r p).
Proof. intros r H. split; [reflexivity|]. split; [reflexivity|]. unfold cosine_d. cbn [snd]. auto_derive; [trivial|ring]. Qed.
Theorem C84_sine p r : is_derive (fun r => cosine r p) r (- p * sine r p) /\ is_derive (fun r => sine r p) r (p * cosine r p).
Proof. unfold cosine, sine. split; (auto_derive; [trivial|ring]). Qed.
Theorem C84_exp1 p : radial (fun r => exp (- p * r)) (fun r => exp1 r p) (fun r => exp1_d r p).
Proof. intros r H. split; [reflexivity|]. split; [reflexivity|]. unfold exp1_d, exp1. cbn [snd]. auto_derive; [trivial|ring]. Qed.
Theorem C84_exp2 p : radial (fun r => exp (- p * r) / r) (fun r => exp2 r p) (fun r => exp2_d r p).
Proof. intros r H. split; [reflexivity|]. split; [reflexivity|]. unfold exp2_d, exp2. cbn [snd]. auto_derive; [lra|field; lra]. Qed.
Theorem C84_exp3 p : radial (fun r => exp (- p * r) * r) (fun r => exp3 r p) (fun r => exp3_d r p).
Proof. intros r H. split; [reflexivity|]. split; [reflexivity|]. unfold exp3_d, exp3. cbn [snd]. auto_derive; [trivial|field; lra]. Qed.
Theorem C84_sto p q : radial (fun r => Rpower r p * exp (- q * r)) (fun r => sto r p q) (fun r => sto_d r p q).
Proof.
  intros r H. split; [reflexivity|]. split; [reflexivity|]. unfold sto_d, sto. cbn [snd].
  apply (is_derive_ext (fun r => Rpower r p * exp (- q * r))); [reflexivity|].
  evar_last; [apply (is_derive_mult (fun r => Rpower r p) (fun r => exp (- q * r))); [now apply Rpower_derive|auto_derive; [trivial|reflexivity]|intros; apply Rmult_comm]|].
  unfold plus, mult; cbn. field. lra.
Qed.
Theorem C84_modified_morlet p : radial (fun r => cos (p * r) / cosh r) (fun r => modified_morlet r p) (fun r => modified_morlet_d r p).
Proof.
  intros r H. split; [reflexivity|]. split; [reflexivity|]. unfold modified_morlet_d, modified_morlet. cbn [snd].
  assert (C : 0 < cosh r) by (unfold cosh; pose proof (exp_pos r); pose proof (exp_pos (- r)); lra).
  unfold tanh. unfold cosh, sinh in *. auto_derive; [lra|]. field. lra.
Qed.
Theorem C84_mexican p : 0 < p -> radial (fun r => sqrt p * (1 - (p * r) ^ 2) * exp (- (p * r) ^ 2 / 2)) (fun r => mexican r p) (fun r => mexican_d r p).
Proof.
  intros P r H.
  assert (E : exp (- (1 / 2) * (r ^ 2 * p ^ 2)) = exp (- (p * r) ^ 2 / 2)) by (f_equal; field).
  assert (V : sqrt p * (1 - r ^ 2 * p ^ 2) * exp (- (1 / 2) * (r ^ 2 * p ^ 2)) = sqrt p * (1 - (p * r) ^ 2) * exp (- (p * r) ^ 2 / 2)) by (rewrite E; f_equal; ring).
  split; [exact V|]. split; [exact V|]. unfold mexican_d. cbn [snd]. rewrite E.
  assert (W : Rpower p (5 / 2) = sqrt p * p ^ 2).
  { replace (5 / 2) with (/ 2 + INR 2) by (cbn; field). now rewrite Rpower_plus, Rpower_sqrt, Rpower_pow. }
  rewrite W. auto_derive; [trivial|].
  replace (- (p * r * (p * r * 1)) * / 2) with (- (p * r) ^ 2 / 2) by field. field.
Qed.
Theorem C84_morse p q : radial (fun r => exp (- 2 * p * (r - q)) - 2 * exp (- p * (r - q))) (fun r => morse r p q) (fun r => morse_d r p q).
Proof.
  intros r H.
  assert (E : exp (2 * (- p * (r - q))) = exp (- 2 * p * (r - q))) by (f_equal; ring).
  unfold morse, morse_d. cbn [fst snd]. rewrite E. split; [reflexivity|]. split; [reflexivity|].
  auto_derive; [trivial|]. unfold Rminus. ring.
Qed.

(** A power: right for exponents that are zero or not below 1e-15. *)
Theorem C84_polynomial p r : 0 < r ->
  polynomial r p = Rpower r p /\ fst (polynomial_d r p) = Rpower r p /\
  (is_derive (fun r => Rpower r p) r (snd (polynomial_d r p)) <-> p = 0 \/ / 10 ^ 15 <= Rabs p).
Proof.
  intros H. split; [reflexivity|]. split; [reflexivity|]. pose proof (Rpower_derive p r H) as D. unfold polynomial_d. cbn [snd].
  rewrite Rpower_less by exact H. unfold small.
  destruct (Rltb (Rabs p) (1 / 10 ^ 15)) eqn:E.
  - apply Rltb_true in E. split.
    + intros D2. left. pose proof (is_derive_unique _ _ _ D) as U1. pose proof (is_derive_unique _ _ _ D2) as U2. rewrite U1 in U2.
      assert (Q : 0 < Rpower r p) by apply exp_pos. assert (Z : p * (Rpower r p / r) = 0) by (rewrite <- U2; field; lra).
      apply Rmult_integral in Z. destruct Z as [Z|Z]; [exact Z|]. assert (0 < Rpower r p / r) by (apply Rdiv_lt_0_compat; lra). lra.
    + intros [-> | L]; [|lra]. evar_last; [exact D|]. field. lra.
  - apply Rltb_false in E. split; [intros _; right; lra|]. intros _. replace (p * (Rpower r p / r)) with (p * Rpower r p / r) by (field; lra). exact D.
Qed.

(** The Gaussian-type orbital is called with two arguments of the Gaussian exchanged: the value is not the one meant, and the
    derivative (of the one meant) fits it at one distance only. *)
Theorem C84_gto p q r : 0 < r ->
  gto r p q = Rpower r p * exp (- q ^ 2 * r) /\ fst (gto_d r p q) = gto r p q /\
  (is_derive (fun r => gto r p q) r (snd (gto_d r p q)) <-> q = 0 \/ q = 2 * r) /\
  (gto r p q = Rpower r p * exp (- q * r ^ 2) <-> q = 0 \/ q = r).
Proof.
  intros H.
  assert (V : forall r, gto r p q = Rpower r p * exp (- q ^ 2 * r)).
  { intros x. unfold gto, gauss. cbn zeta. do 2 f_equal. ring. }
  split; [apply V|]. split; [reflexivity|].
  assert (Q : 0 < Rpower r p) by apply exp_pos. pose proof (exp_pos (- q ^ 2 * r)) as X. split.
  - assert (D : is_derive (fun r => gto r p q) r ((p - q ^ 2 * r) * gto r p q / r)).
    { apply (is_derive_ext (fun r => Rpower r p * exp (- q ^ 2 * r))); [intros; now rewrite V|]. rewrite V.
      evar_last; [apply (is_derive_mult (fun r => Rpower r p) (fun r => exp (- q ^ 2 * r))); [now apply Rpower_derive|auto_derive; [trivial|reflexivity]|intros; apply Rmult_comm]|].
      unfold plus, mult; cbn. field. lra. }
    unfold gto_d. cbn [snd]. assert (G : 0 < gto r p q) by (rewrite V; now apply Rmult_lt_0_compat). split.
    + intros D2. pose proof (is_derive_unique _ _ _ D) as U1. pose proof (is_derive_unique _ _ _ D2) as U2. rewrite U1 in U2.
      assert (Z : (q * (q - 2 * r)) * gto r p q = 0).
      { assert (Y : (p - q ^ 2 * r) * gto r p q = (p - 2 * q * r * r) * gto r p q).
        { apply (f_equal (fun x => x * r)) in U2. revert U2. unfold Rdiv. rewrite !Rmult_assoc, Rinv_l, !Rmult_1_r by lra. intros ->. ring. }
        assert (T : r * (q * (q - 2 * r) * gto r p q) = 0) by (replace (r * (q * (q - 2 * r) * gto r p q)) with ((p - 2 * q * r * r) * gto r p q - (p - q ^ 2 * r) * gto r p q) by ring; lra).
        apply Rmult_integral in T. destruct T; lra. }
      apply Rmult_integral in Z. destruct Z as [Z|Z]; [|lra]. apply Rmult_integral in Z. destruct Z as [Z|Z]; [now left|right; lra].
    + intros C. replace ((p - 2 * q * r * r) * gto r p q / r) with ((p - q ^ 2 * r) * gto r p q / r); [exact D|]. destruct C as [-> | ->]; [do 2 f_equal; ring|do 2 f_equal; ring].
  - rewrite V. split.
    + intros E. apply Rmult_eq_reg_l in E; [|lra]. apply exp_inv in E.
      assert (Z : r * (q * (q - r)) = 0) by (replace (r * (q * (q - r))) with (- q * r ^ 2 - - q ^ 2 * r) by ring; lra).
      apply Rmult_integral in Z. destruct Z as [Z|Z]; [lra|]. apply Rmult_integral in Z. destruct Z as [Z|Z]; [now left|right; lra].
    + intros [-> | ->]; do 2 f_equal; ring.
Qed.
Theorem C84_gto_refuted : exists p q r, 0 < q /\ 0 < r /\ gto r p q <> Rpower r p * exp (- q * r ^ 2) /\ ~ is_derive (fun r => gto r p q) r (snd (gto_d r p q)).
Proof.
  exists 0, 1, 3. destruct (C84_gto 0 1 3) as (_ & _ & A & B); [lra|]. split; [lra|]. split; [lra|]. split; [rewrite B; lra|rewrite A; lra].
Qed.
(** The Morlet function likewise: with parameter 1/2 the value is zero everywhere, and its derivative is said to be one. *)
Theorem C84_morlet_refuted : (forall r, morlet r (1 / 2) = 0) /\ (forall r, snd (morlet_d r (1 / 2)) = 1) /\
  (forall r, 0 < r -> exp (- (r - 1 / 2) ^ 2 / 2) - exp (- (r + 1 / 2) ^ 2 / 2) <> 0).
Proof.
  assert (G : forall x, gauss (1 / 2) x (1 / 2) = 1) by (intros x; unfold gauss; cbn zeta; replace (- x * (1 / 2 - 1 / 2) * (1 / 2 - 1 / 2)) with 0 by ring; apply exp_0).
  split; [intros r; unfold morlet; rewrite !G; ring|]. split; [intros r; unfold morlet_d; cbn [snd]; rewrite !G; field|].
  intros r H E. assert (E2 : exp (- (r - 1 / 2) ^ 2 / 2) = exp (- (r + 1 / 2) ^ 2 / 2)) by lra. apply exp_inv in E2. nra.
Qed.
Theorem C84_morlet p r : 0 < r ->
  morlet r p = exp (- r * (1 / 2 - p) ^ 2) - exp (r * (1 / 2 - p) ^ 2) /\ fst (morlet_d r p) = morlet r p /\ morlet r p <= 0.
Proof.
  intros H. assert (V : morlet r p = exp (- r * (1 / 2 - p) ^ 2) - exp (r * (1 / 2 - p) ^ 2)) by (unfold morlet, gauss; cbn zeta; f_equal; f_equal; ring).
  split; [exact V|]. split; [reflexivity|]. rewrite V. pose proof (pow2_ge_0 (1 / 2 - p)) as S.
  assert (L : - r * (1 / 2 - p) ^ 2 <= r * (1 / 2 - p) ^ 2) by nra. destruct L as [L|L]; [apply exp_increasing in L; lra|rewrite L; lra].
Qed.
(** The bump function: the one without derivative has another exponent, and the derivative is that in units of the cutoff. *)
Theorem C84_bump c r : 0 < r < c ->
  bump r c = exp (- / (1 - (r / c) ^ 2)) /\ fst (bump_d r c) = exp (- / (1 - (r / c) ^ 20)) /\
  bump r c < fst (bump_d r c) /\ is_derive (fun r => fst (bump_d r c)) r (snd (bump_d r c) / c).
Proof.
  intros H. assert (X : 0 < r / c < 1) by (split; [apply Rdiv_lt_0_compat; lra|apply Rlt_div_l; lra]).
  assert (P : forall n, 0 < (r / c) ^ S n < 1).
  { intros n. split; [apply pow_lt; lra|]. induction n as [|n IH]; [cbn; lra|]. change ((r / c) ^ S (S n)) with (r / c * (r / c) ^ S n). assert (0 < (r / c) ^ S n) by (apply pow_lt; lra). nra. }
  assert (V1 : bump r c = exp (- / (1 - (r / c) ^ 2))) by (unfold bump; cbn zeta; f_equal; unfold Rdiv at 1; replace (r / c * (r / c)) with ((r / c) ^ 2) by ring; ring).
  assert (V2 : fst (bump_d r c) = exp (- / (1 - (r / c) ^ 20))) by (unfold bump_d; cbn [fst]; f_equal; pose proof (P 19%nat); unfold Rdiv at 1; ring).
  split; [exact V1|]. split; [exact V2|]. split.
  - rewrite V1, V2. apply exp_increasing. apply Ropp_lt_contravar. pose proof (P 1%nat) as P2. pose proof (P 19%nat) as P20. apply Rinv_lt_contravar; [nra|].
    assert (L : (r / c) ^ 20 < (r / c) ^ 2). { replace ((r / c) ^ 20) with ((r / c) ^ 2 * (r / c) ^ 18) by ring. pose proof (P 17%nat). nra. } lra.
  - pose proof (P 19%nat) as P20. unfold bump_d. cbn [fst snd].
    set (g := fun x => 1 - (x / c) ^ 20). assert (Gd : is_derive g r (- (20 * (r / c) ^ 19 / c))).
    { unfold g. auto_derive; [trivial|]. cbn [INR]. field. lra. }
    assert (G0 : g r <> 0) by (unfold g; lra).
    assert (Ed : is_derive (fun y => exp (- (1) / y)) (g r) (exp (- (1) / g r) / (g r * g r))) by (generalize (g r) G0; clear; intros y Y; auto_derive; [exact Y|]; unfold Rdiv; rewrite !Ropp_mult_distr_l_reverse; field; exact Y).
    evar_last; [exact (is_derive_comp (fun y => exp (- (1) / y)) g r _ _ Ed Gd)|].
    change (- (20 * (r / c) ^ 19 / c) * (exp (- (1) / g r) / (g r * g r)) = - 20 * (r / c) ^ 19 * exp (- (1) / g r) / (g r * g r) / c).
    generalize (g r) G0 ((r / c) ^ 19). clear -H. intros y Y u. field. split; first [exact Y|lra].
Qed.

(** The choice: Gaussians are evaluated with and without derivatives; any other kind leaves what was in the output, or zeros. *)
Theorem C84_gaussian cutoff r params fn fn' fn_dr : 0 < cutoff ->
  get_fn_all "gaussian" cutoff r params fn = fst (get_fn_d_all "gaussian" cutoff r params fn' fn_dr) /\
  length (get_fn_all "gaussian" cutoff r params fn) = length params /\ length (snd (get_fn_d_all "gaussian" cutoff r params fn' fn_dr)) = length params /\
  forall n p, nth_error params n = Some p ->
    exists d, nth_error (snd (get_fn_d_all "gaussian" cutoff r params fn' fn_dr)) n = Some d /\
      is_derive (fun x => nth n (get_fn_all "gaussian" cutoff x params fn) 0) r d.
Proof.
  intros H. unfold get_fn_all, get_fn_d_all. cbn [String.eqb Ascii.eqb Bool.eqb fst snd].
  split; [apply map_ext; intros p; symmetry; apply (C23_derivative cutoff p r H)|]. split; [apply map_length|]. split; [apply map_length|].
  intros n p Hp. exists (snd (get_fn_d cutoff p r)). split; [now rewrite nth_error_map, Hp|].
  apply (is_derive_ext (fun x => get_fn cutoff p x)); [|apply is_derive_Reals; apply (C23_derivative cutoff p r H)].
  intros x. symmetry. apply nth_error_nth. now rewrite nth_error_map, Hp.
Qed.
Theorem C84_other kind cutoff r params fn fn_dr : kind <> "gaussian"%string ->
  (forall n, (n < length params)%nat -> nth_error (get_fn_all kind cutoff r params fn) n = Some (nth n fn 0)) /\
  get_fn_d_all kind cutoff r params fn fn_dr = (get_fn_all kind cutoff r params fn, get_fn_all kind cutoff r params fn_dr) /\
  length (get_fn_all kind cutoff r params fn) = length params.
Proof.
  intros H. apply String.eqb_neq in H. unfold get_fn_all, get_fn_d_all. rewrite H. unfold resize.
  assert (L : length (firstn (length params) fn ++ repeat 0 (length params - length fn)) = length params) by (rewrite app_length, firstn_length, repeat_length; lia).
  split; [|split; [reflexivity|exact L]]. intros n Hn. rewrite (nth_error_nth' _ 0) by (rewrite L; exact Hn). f_equal.
  destruct (Nat.lt_ge_cases n (length fn)) as [C|C].
  - rewrite app_nth1 by (rewrite firstn_length; lia). rewrite <- (firstn_skipn (length params) fn) at 2. rewrite app_nth1 by (rewrite firstn_length; lia). reflexivity.
  - rewrite app_nth2 by (rewrite firstn_length; lia). rewrite firstn_length, (nth_overflow fn) by exact C. rewrite nth_repeat. reflexivity.
Qed.

Print Assumptions C84_cosine.
Print Assumptions C84_sine.
Print Assumptions C84_exp1.
Print Assumptions C84_exp2.
Print Assumptions C84_exp3.
Print Assumptions C84_sto.
Print Assumptions C84_modified_morlet.
Print Assumptions C84_mexican.
Print Assumptions C84_morse.
Print Assumptions C84_polynomial.
Print Assumptions C84_gto.
Print Assumptions C84_gto_refuted.
Print Assumptions C84_morlet.
Print Assumptions C84_morlet_refuted.
Print Assumptions C84_bump.
Print Assumptions C84_gaussian.
Print Assumptions C84_other.

(** Example: Morse function at its minimum. *)
Example C84_example : morse 2 1 2 = -1 /\ morse_d 2 1 2 = (-1, 0) /\ is_derive (fun r => exp (- 2 * 1 * (r - 2)) - 2 * exp (- (1) * (r - 2))) 2 0.
Proof.
  assert (V : morse 2 1 2 = -1) by (unfold morse; cbn zeta; replace (2 * (- (1) * (2 - 2))) with 0 by ring; replace (- (1) * (2 - 2)) with 0 by ring; rewrite exp_0; ring).
  assert (D : morse_d 2 1 2 = (-1, 0)) by (unfold morse_d; cbn zeta; replace (2 * (- (1) * (2 - 2))) with 0 by ring; replace (- (1) * (2 - 2)) with 0 by ring; rewrite exp_0; f_equal; ring).
  split; [exact V|]. split; [exact D|]. destruct (C84_morse 1 2 2) as (_ & _ & X); [lra|]. rewrite D in X. exact X.
Qed.
