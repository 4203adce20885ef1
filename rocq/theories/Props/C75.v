(** C75: calculators between a reference state and a potential, and what is averaged over their trajectories. *)
From Verif Require Import Base Num NumR Model.FC2 Model.MD Spec.Harmonic Spec.MD Proofs.FC2 Proofs.MD Props.C43.
From Coq Require Import Reals Lra.
From Coquelicot Require Import Coquelicot.
Local Open Scope R_scope.

Section C75.
  Context {At St : Type}.
  Variables (structure_of : At -> St) (disps_of : At -> vec R).
  Notation potential := (St -> properties R).
  Notation fc2_calc := (calculate_fc2 (F:=R) structure_of disps_of).
  Notation ref_calc := (calculate_ref (F:=R) structure_of).
  Notation general_calc := (calculate_general (F:=R) structure_of disps_of).
  Notation idx a i := (3 * a + i)%nat.
  (** The energy of the harmonic model: that of the undisplaced structure and a quadratic form. *)
  Definition fc2_energy (n : nat) (fc : mat R) (base : St) (prop : potential) (at_ : At) : R :=
    p_energy (prop base) + sumn (F:=R) (3 * n) (fun p => sumn (F:=R) (3 * n) (fun q => disps_of at_ p * fc p q * disps_of at_ q)) / 2.
  Definition fc2_force (n : nat) (fc : mat R) (at_ : At) : nat -> nat -> R := force n fc (disps_of at_).
  Lemma fc2_energy_eq n fc base prop at_ :
    h_energy (eval_properties_fc2 (3 * n) fc (disps_of at_)) + p_energy (prop base) = fc2_energy n fc base prop at_.
  Proof. pose proof (proj1 (C43_energy (F:=R) n fc (disps_of at_))) as E. unfold energy in E. unfold fc2_energy. rewrite E. cbn [nadd ndiv nmul n1 R_num]. lra. Qed.
  Lemma sumn_zero k (f : nat -> R) : (forall i, (i < k)%nat -> f i = 0) -> sumn (F:=R) k f = 0.
  Proof. intros H. induction k as [|k IH]; [reflexivity|]. rewrite sumn_S, IH, (H k) by auto. cbn. ring. Qed.
  Lemma path_of e0 e1 f0 f1 (A : R -> answer R) :
    (forall x, a_energy (A x) = mix x e1 e0) -> (forall x, a_forces (A x) = mix_forces x f1 f0) ->
    (forall x, a_delta_10 (A x) = e1 - e0) -> (forall x, a_delta_1a (A x) = e1 - mix x e1 e0) ->
    linear_path e0 e1 f0 f1 (fun x => a_energy (A x)) (fun x => a_forces (A x)) (fun x => a_delta_10 (A x)) (fun x => a_delta_1a (A x)).
  Proof.
    intros E Fo D1 D2. unfold linear_path. split; [split|split; [intros i a; split|split; [|split; [intros x; split|intros x; split]]]].
    - rewrite E. unfold mix. cbn. ring.
    - rewrite E. unfold mix. cbn. ring.
    - rewrite Fo. unfold mix_forces, mix. cbn. ring.
    - rewrite Fo. unfold mix_forces, mix. cbn. ring.
    - intros x i a. rewrite Fo. unfold mix_forces, mix. cbn. ring.
    - apply D1.
    - apply is_derive_ext with (f := fun t => e1 * t + e0 * (1 - t)); [intros t; rewrite E; reflexivity|]. rewrite D1.
      auto_derive; [exact I|ring].
    - rewrite D2, !E. unfold mix. cbn. ring.
    - rewrite D2, D1. unfold mix. cbn. ring.
  Qed.
  (** Each calculator goes linearly, in its mixing parameter, from its reference state to its final state; the difference
      reported for thermodynamic integration is the derivative of the energy in the parameter, and that for
      perturbation is what is missing to the final state. *)
  Theorem C75_fc2 n fc base prop at_ : let A := fun x => fc2_calc (3 * n)%nat fc base prop x at_ in
    linear_path (fc2_energy n fc base prop at_) (p_energy (prop (structure_of at_))) (fc2_force n fc at_) (p_forces (prop (structure_of at_)))
      (fun x => a_energy (A x)) (fun x => a_forces (A x)) (fun x => a_delta_10 (A x)) (fun x => a_delta_1a (A x)).
  Proof. cbn zeta. apply path_of; intros x; rewrite <- ?fc2_energy_eq; reflexivity. Qed.
  Theorem C75_ref prop prop_ref at_ : let A := fun x => ref_calc prop prop_ref x at_ in let s := structure_of at_ in
    linear_path (p_energy (prop_ref s)) (p_energy (prop s)) (p_forces (prop_ref s)) (p_forces (prop s))
      (fun x => a_energy (A x)) (fun x => a_forces (A x)) (fun x => a_delta_10 (A x)) (fun x => a_delta_1a (A x)) /\
    forall x k s0 s1, nth_error (p_stress (prop_ref s)) k = Some s0 -> nth_error (p_stress (prop s)) k = Some s1 ->
      exists l, a_stress (A x) = Some l /\ nth_error l k = Some (s0 + x * (s1 - s0)).
  Proof.
    cbn zeta. split; [apply path_of; reflexivity|]. intros x k s0 s1 H0 H1. unfold calculate_ref. eexists. split; [reflexivity|].
    revert k H0 H1. generalize (p_stress (prop_ref (structure_of at_))), (p_stress (prop (structure_of at_))).
    intros l0 l1. revert l0. induction l1 as [|y l1 IH]; intros l0 k H0 H1; [destruct k; discriminate|].
    destruct l0 as [|z l0]; [destruct k; discriminate|]. destruct k as [|k]; cbn in *.
    - injection H0 as <-. injection H1 as <-. f_equal. unfold mix. cbn. ring.
    - now apply IH.
  Qed.
  (** The general one goes between two points of paths that start at the same harmonic model. *)
  Theorem C75_general n fc base final ref xf xr at_ : let A := fun x => general_calc (3 * n)%nat fc base final ref xf xr x at_ in
    let start := fun p y => fc2_calc (3 * n)%nat fc base p y at_ in
    linear_path (a_energy (start ref xr)) (a_energy (start final xf)) (a_forces (start ref xr)) (a_forces (start final xf))
      (fun x => a_energy (A x)) (fun x => a_forces (A x)) (fun x => a_delta_10 (A x)) (fun x => a_delta_1a (A x)).
  Proof. cbn zeta. apply path_of; intros x; reflexivity. Qed.
  (** The displacement that is reported: the root of the mean square over all coordinates *)
  Definition root_mean_square (n : nat) (d : nat -> R) (r : R) : Prop := 0 <= r /\ r ^ 2 * INR n = sum_f_R0 (fun k => d k ^ 2) (n - 1).
  Theorem C75_displacement n fc base prop ref xf xr x at_ : (0 < n)%nat ->
    (exists r, a_disp (fc2_calc (3 * n)%nat fc base prop x at_) = Some r /\ root_mean_square (3 * n) (disps_of at_) r) /\
    (exists r, a_disp (general_calc (3 * n)%nat fc base prop ref xf xr x at_) = Some r /\ root_mean_square (3 * n) (disps_of at_) r) /\
    a_disp (ref_calc prop ref x at_) = None.
  Proof.
    intros Hn. assert (G : root_mean_square (3 * n) (disps_of at_) (rms_disp (3 * n) (disps_of at_))).
    { assert (E : forall m (d : nat -> R), sumn (F:=R) (S m) (fun k => d k * d k) = sum_f_R0 (fun k => d k ^ 2) m).
      { clear. induction m as [|m IH]; intros d; [cbn; ring|]. rewrite sumn_S, IH. cbn [sum_f_R0 nadd nmul R_num]. ring. }
      unfold root_mean_square, rms_disp. cbn [nsqrt R_ord nmul ndiv R_num]. rewrite nnat_INR. split; [apply sqrt_pos|].
      assert (P : 0 < INR (3 * n)) by (apply lt_0_INR; lia). set (q := (3 * n)%nat) in *. assert (Q : q = S (q - 1)) by (unfold q; lia).
      assert (Z : 0 <= sumn (F:=R) q (fun k => disps_of at_ k * disps_of at_ k)).
      { clear. induction q as [|q IH]; [cbn; lra|]. rewrite sumn_S. cbn [nadd R_num]. pose proof (Rle_0_sqr (disps_of at_ q)) as Y. unfold Rsqr in Y. lra. }
      cbn [nmul R_num] in E. rewrite pow2_sqrt; [|apply Rmult_le_pos; [exact Z|left; now apply Rinv_0_lt_compat]].
      rewrite <- E, <- Q. field. lra. }
    split; [|split]; [eexists; split; [reflexivity|exact G]|eexists; split; [reflexivity|exact G]|reflexivity].
  Qed.
  (** At the undisplaced structure the harmonic model agrees with the potential, whatever the parameter. *)
  Theorem C75_undisplaced n fc base prop x at_ : structure_of at_ = base -> (forall p, (p < 3 * n)%nat -> disps_of at_ p = 0) ->
    let a := fc2_calc (3 * n)%nat fc base prop x at_ in a_energy a = p_energy (prop base) /\ a_delta_10 a = 0 /\ a_delta_1a a = 0.
  Proof.
    intros Es Hd. cbn zeta.
    assert (Z : fc2_energy n fc base prop at_ = p_energy (prop base)).
    { unfold fc2_energy. rewrite sumn_zero; [lra|]. intros p Hp. apply sumn_zero. intros q Hq. rewrite (Hd p Hp). ring. }
    unfold calculate_fc2, eval_fc2_model. cbn [a_energy a_delta_10 a_delta_1a]. cbn [nadd R_num].
    rewrite fc2_energy_eq, Z, Es. unfold mix. cbn. repeat split; ring.
  Qed.
  (** Constructors refuse mixing parameters outside [0,1] and tables of another size. *)
  Theorem C75_constructor rows cols n (x : R) :
    (check_fc2 rows cols n x = Ok tt <-> rows = (n * 3)%nat /\ cols = (n * 3)%nat /\ 0 <= x <= 1) /\
    (check_fc2 rows cols n x <> Ok tt -> check_fc2 rows cols n x = Err AssertionError) /\
    forall xf xr, (check_general rows cols n xf xr x = Ok tt <-> check_fc2 rows cols n xf = Ok tt /\ 0 <= xr <= 1 /\ 0 <= x <= 1) /\
      (check_general rows cols n xf xr x <> Ok tt -> check_general rows cols n xf xr x = Err AssertionError).
  Proof.
    assert (U : forall y : R, in_unit y = true <-> 0 <= y <= 1).
    { intros y. unfold in_unit. rewrite Bool.andb_true_iff, !Bool.negb_true_iff. cbn [n0 n1 R_num].
      rewrite !Rltb_false. lra. }
    assert (V : forall y : R, in_unit y = false -> ~ 0 <= y <= 1) by (intros y Hy Hz; apply U in Hz; congruence).
    assert (A : forall y, check_fc2 rows cols n y = Ok tt <-> rows = (n * 3)%nat /\ cols = (n * 3)%nat /\ 0 <= y <= 1).
    { intros y. unfold check_fc2, py_assert. destruct (Nat.eqb_spec rows (n * 3)); cbn; [|split; [discriminate|intuition congruence]].
      destruct (Nat.eqb_spec cols (n * 3)); cbn; [|split; [discriminate|intuition congruence]].
      destruct (in_unit y) eqn:E; [apply U in E; intuition|]. apply V in E. split; [discriminate|intuition]. }
    assert (B : forall y, check_fc2 rows cols n y <> Ok tt -> check_fc2 rows cols n y = Err AssertionError).
    { intros y. unfold check_fc2, py_assert. destruct (rows =? n * 3)%nat, (cols =? n * 3)%nat, (in_unit y); cbn; congruence. }
    split; [apply A|]. split; [apply B|]. intros xf xr. unfold check_general.
    destruct (check_fc2 rows cols n xf) as [[]|k] eqn:E.
    - cbn [bind]. unfold py_assert. destruct (in_unit xr) eqn:E1; cbn; [|split; [apply V in E1; split; [discriminate|intuition]|reflexivity]].
      apply U in E1. destruct (in_unit x) eqn:E2; [apply U in E2|apply V in E2]; (split; [split; [|]|]; try congruence; intuition congruence).
    - assert (k = AssertionError) as -> by (specialize (B xf); rewrite E in B; assert (X : Err k = Err AssertionError :> res unit) by (apply B; discriminate); congruence).
      cbn. split; [split; [discriminate|intuition congruence]|reflexivity].
  Qed.
End C75.
Print Assumptions C75_fc2.
Print Assumptions C75_ref.
Print Assumptions C75_general.
Print Assumptions C75_undisplaced.
Print Assumptions C75_constructor.

Lemma derive_mix (f g : R -> R) x c a b : is_derive f 0 a -> is_derive g 0 b -> is_derive (fun t => f t * x + (g t + c) * (1 - x)) 0 (x * a + (1 - x) * b).
Proof.
  intros Hf Hg. auto_derive; [split; [now exists a|split; [now exists b|exact I]]|].
  replace (Derive (fun t : R => f t) 0) with a by (symmetry; exact (is_derive_unique f 0 a Hf)). replace (Derive (fun t : R => g t) 0) with b by (symmetry; exact (is_derive_unique g 0 b Hg)). ring.
Qed.
(** If the forces of the potential are minus the gradient of its energy, so are those of every mixture with symmetric
    force constants (atoms are given by their displacements). *)
Theorem C75_conservative {St} n fc (place : vec R -> St) base prop x : symmetric n fc ->
  conservative n (fun u => p_energy (prop (place u))) (fun u => p_forces (prop (place u))) ->
  conservative n (fun u => a_energy (calculate_fc2 place (fun u => u) (3 * n)%nat fc base prop x u))
                 (fun u => a_forces (calculate_fc2 place (fun u => u) (3 * n)%nat fc base prop x u)).
Proof.
  intros HS HC u v. pose proof (HC u v) as D1. pose proof (C43_derivative n fc u v HS) as D0.
  unfold calculate_fc2, eval_fc2_model, mix_forces, mix. cbn [a_energy a_forces nadd nsub nmul n1 R_num].
  fold (energy n fc). set (g1 := sumn n (fun a => sumn 3 (fun i => p_forces (prop (place u)) i a * v (3 * a + i)%nat))) in *.
  set (g0 := sumn n (fun a => sumn 3 (fun i => force n fc u i a * v (3 * a + i)%nat))) in *.
  assert (E : sumn (F:=R) n (fun a => sumn (F:=R) 3 (fun i => (p_forces (prop (place u)) i a * x + force n fc u i a * (1 - x)) * v (3 * a + i)%nat)) = x * g1 + (1 - x) * g0).
  { unfold g1, g0. change Rplus with (nadd (F:=R)). change Rmult with (nmul (F:=R)). rewrite <- !sumn_scale, <- sumn_add. apply sumn_ext. intros a _.
    rewrite <- !sumn_scale, <- sumn_add. apply sumn_ext. intros i _. cbn [nadd nmul R_num]. ring. }
  change (h_forces (eval_properties_fc2 (3 * n) fc u)) with (force n fc u). rewrite E.
  replace (- (x * g1 + (1 - x) * g0)) with (x * - g1 + (1 - x) * - g0) by ring.
  exact (derive_mix _ (fun t => energy n fc (fun p => u p + t * v p)) x _ _ _ D1 D0).
Qed.
Print Assumptions C75_conservative.

(** What is reported after a run: averages over the records after the first n_eq, and nothing for what is not recorded. *)
Notation averages_of := (calc_averages (F:=R) exp ln).
Theorem C75_averages atol kb evj av T n_atom n_eq es ts ds d10 d1a :
  let r := averages_of atol kb evj av T n_atom n_eq (Some (es, ts)) (Some ds) (Some d10) (Some d1a) in
  let m := fun l => mean (production n_eq l) in
  v_energy r = Some (m es) /\ v_total r = Some (m ts) /\ v_disp r = Some (m ds) /\ v_delta_10 r = Some (m d10) /\ v_delta_1a r = Some (m d1a) /\
  let none := averages_of atol kb evj av T n_atom n_eq None None None None in none = mk_av None None None None None None None None.
Proof. cbn zeta. unfold calc_averages. cbn [v_energy v_total v_disp v_delta_10 v_delta_1a option_map fst snd]. rewrite !average_mean. repeat split. Qed.
Print Assumptions C75_averages.
(** The heat capacity is the variance of the energy over kT^2: not negative, and zero when no energy differs; at
    temperature zero it is zero. *)
Theorem C75_heat_capacity atol kb evj av T n_atom n_eq es ts ds d10 d1a : production n_eq es <> [] -> 0 < kb -> 0 <= atol ->
  let r := averages_of atol kb evj av T n_atom n_eq (Some (es, ts)) ds d10 d1a in
  (atol < Rabs T -> (exists c, v_cv_ev r = Some c /\ c = variance (production n_eq es) / (kb * T ^ 2) /\ 0 <= c /\
      (c = 0 <-> forall x y, In x (production n_eq es) -> In y (production n_eq es) -> x = y) /\
      v_cv r = Some (c * (evj * av / INR n_atom)))) /\
  (Rabs T <= atol -> v_cv_ev r = Some 0 /\ v_cv r = Some 0).
Proof.
  intros HN Hk Ha. unfold calc_averages, production in *. cbn [v_cv_ev v_cv option_map fst]. unfold heat_capacity_ev. cbn [nltb nabs R_ord n0 n1 R_num nmul nsub ndiv].
  split; intros HT.
  - rewrite (proj2 (Rltb_true _ _) HT). cbn [negb]. rewrite !average_mean.
    assert (T0 : T <> 0) by (intros ->; rewrite Rabs_R0 in HT; lra).
    assert (P : 0 < kb * T ^ 2) by (apply Rmult_lt_0_compat; [exact Hk|]; pose proof (Rsqr_pos_lt T T0) as S; unfold Rsqr in S; cbn; lra).
    exists (variance (skipn n_eq es) / (kb * T ^ 2)).
    assert (E : (mean (map (fun e => e * e) (skipn n_eq es)) - mean (skipn n_eq es) * mean (skipn n_eq es)) / kb / (T * T) = variance (skipn n_eq es) / (kb * T ^ 2)).
    { rewrite (variance_formula _ HN). field. split; [exact T0|lra]. }
    rewrite E. split; [reflexivity|]. split; [reflexivity|]. split; [|split].
    + apply Rmult_le_pos; [apply variance_nonneg|apply Rlt_le, Rinv_0_lt_compat, P].
    + rewrite <- (variance_zero _ HN). split; intros Z; [|rewrite Z; unfold Rdiv; ring].
      unfold Rdiv in Z. apply Rmult_integral in Z. destruct Z as [Z|Z]; [exact Z|]. pose proof (Rinv_0_lt_compat _ P). lra.
    + now rewrite nnat_INR.
  - rewrite (proj2 (Rltb_false _ _) HT). cbn [negb]. split; [reflexivity|]. f_equal. ring.
Qed.
Print Assumptions C75_heat_capacity.
(** The perturbation is the free energy difference at the inverse temperature k T - the code multiplies where 1/(k T) is
    meant. It is never above the first order, and where k T <= 1 eV it is never below the difference at 1/(k T). *)
Theorem C75_perturbation atol kb evj av T n_atom n_eq es ds d10 d1a : production n_eq d1a <> [] -> 0 < kb * T ->
  exists f, v_perturb (averages_of atol kb evj av T n_atom n_eq es ds d10 (Some d1a)) = Some f /\
    let l := production n_eq d1a in
    f = free_difference (kb * T) l /\ f <= mean l /\
    (kb * T <= 1 -> free_difference (1 / (kb * T)) l <= f) /\
    (forall c, (forall x, In x l -> x = c) -> f = c /\ free_difference (1 / (kb * T)) l = c).
Proof.
  intros HN HT. unfold production in *. eexists. split; [unfold calc_averages; cbn [v_perturb option_map]; reflexivity|].
  cbn zeta. rewrite perturb_free. split; [reflexivity|]. split; [now apply free_below_mean|]. split.
  - intros H1. apply free_decreasing; [exact HN|]. split; [exact HT|].
    assert (1 <= 1 / (kb * T)); [|lra]. apply Rmult_le_reg_r with (kb * T); [exact HT|].
    replace (1 / (kb * T) * (kb * T)) with 1; [lra|]. generalize dependent (kb * T). intros z Hz _. field. lra.
  - intros c Hc. split; apply free_constant; try assumption; [lra|]. apply Rgt_not_eq, Rdiv_lt_0_compat; lra.
Qed.
Print Assumptions C75_perturbation.
(** So what is reported is not the free energy difference at the temperature of the run. *)
Theorem C75_beta_refuted : exists kb T d1a f, 0 < kb /\ 0 < T /\
  (forall atol evj av n_atom es ds d10, v_perturb (averages_of atol kb evj av T n_atom 0 es ds d10 (Some d1a)) = Some f) /\
  f <> free_difference (1 / (kb * T)) d1a.
Proof.
  exists (1 / 2), 1, [0; 1], (free_difference (1 / 2 * 1) [0; 1]). split; [lra|]. split; [lra|]. split.
  { intros. unfold calc_averages. cbn [v_perturb option_map skipn]. now rewrite perturb_free. }
  unfold free_difference. replace (1 / (1 / 2 * 1)) with 2 by field. replace (1 / 2 * 1) with (1 / 2) by field.
  cbn [map]. unfold mean, nsumf. cbn [nsum map fold_right length nadd n0 R_num].
  set (y := exp (- (1 / 2 * 1))).
  replace (exp (- (1 / 2 * 0))) with 1 by (rewrite <- exp_0; f_equal; ring).
  replace (exp (- (2 * 0))) with 1 by (rewrite <- exp_0; f_equal; ring).
  replace (exp (- (2 * 1))) with (y ^ 4) by (replace (y ^ 4) with (y * y * y * y) by ring; unfold y; rewrite <- !exp_plus; f_equal; lra).
  assert (Y0 : 0 < y) by apply exp_pos. 
  assert (Y1 : y < 1).
  { pose proof (exp_increasing (- (1 / 2 * 1)) 0 ltac:(lra)) as Q. rewrite exp_0 in Q. exact Q. }
  clearbody y. intros E.
  assert (E2 : 4 * ln ((1 + (y + 0)) / INR 2) = ln ((1 + (y ^ 4 + 0)) / INR 2)) by (cbn [INR] in *; lra).
  cbn [INR] in E2. apply (f_equal exp) in E2. rewrite exp_ln in E2; [|pose proof (pow_lt y 4 Y0); lra].
  replace (4 * ln ((1 + (y + 0)) / (1 + 1))) with (ln ((1 + (y + 0)) / (1 + 1)) + ln ((1 + (y + 0)) / (1 + 1)) + ln ((1 + (y + 0)) / (1 + 1)) + ln ((1 + (y + 0)) / (1 + 1))) in E2 by ring.
  rewrite !exp_plus, exp_ln in E2 by lra.
  assert (K : (1 - y) * (1 - y) * (7 * (y * y) + 10 * y + 7) = 0) by (cbn [pow] in E2; lra).
  assert (P1 : 0 < (1 - y) * (1 - y)) by (apply Rmult_lt_0_compat; lra).
  assert (P2 : 0 < 7 * (y * y) + 10 * y + 7) by (assert (0 < y * y) by (apply Rmult_lt_0_compat; lra); lra).
  pose proof (Rmult_lt_0_compat _ _ P1 P2). lra.
Qed.
Print Assumptions C75_beta_refuted.

(** A particle held by two springs of different strength: a quarter of the way from the softer (the force constants) to
    the stiffer one (the potential). *)
Definition stiff (x : vec R) : properties R := mk_props (x 0%nat * x 0%nat) (fun i a => if (i =? 0)%nat then - 2 * x 0%nat else 0) [].
Definition soft : mat R := fun p q => if (p =? 0)%nat && (q =? 0)%nat then 1 else 0.
Example C75_example : let a := calculate_fc2 (fun u : vec R => u) (fun u => u) 3 soft (fun _ => 0) stiff (1 / 4) (fun p => if (p =? 0)%nat then 2 else 0) in
  a_energy a = 5 / 2 /\ a_forces a 0%nat 0%nat = - (5 / 2) /\ a_delta_10 a = 2 /\ a_delta_1a a = 3 / 2 /\ symmetric 1 soft /\
  conservative 1 (fun u => p_energy (stiff u)) (fun u => p_forces (stiff u)).
Proof.
  cbn zeta. split; [|split; [|split; [|split; [|split]]]].
  - unfold calculate_fc2. cbn. unfold mix, nhalf. cbn. field.
  - unfold calculate_fc2. cbn. unfold mix_forces, mix. cbn. field.
  - unfold calculate_fc2. cbn. unfold nhalf. cbn. field.
  - unfold calculate_fc2. cbn. unfold mix, nhalf. cbn. field.
  - intros p q. unfold soft. intros _ _. now rewrite Bool.andb_comm.
  - intros u v. unfold stiff, sumn. cbn. auto_derive; [exact I|]. ring.
Qed.
(** Four records, the first before equilibrium. *)
Example C75_run : let r := averages_of 0 (1 / 10) 1 1 5 1 1 (Some ([9; 1; 2; 3], [9; 2; 2; 2])) None None (Some [7; 4; 4; 4]) in
  v_energy r = Some 2 /\ v_total r = Some 2 /\ v_cv_ev r = Some (4 / 15) /\ v_perturb r = Some 4 /\ v_disp r = None.
Proof.
  assert (M : forall a b c : R, mean [a; b; c] = (a + b + c) / 3).
  { intros a b c. unfold mean, nsumf. cbn [nsum map fold_right length nadd n0 R_num INR]. field. }
  cbn zeta. split; [|split; [|split; [|split]]].
  - unfold calc_averages. cbn [v_energy option_map fst skipn]. rewrite average_mean, M. f_equal. field.
  - unfold calc_averages. cbn [v_total option_map snd skipn]. rewrite average_mean, M. f_equal. field.
  - assert (HN : production 1 [9; 1; 2; 3] <> []) by discriminate.
    destruct (proj1 (C75_heat_capacity 0 (1 / 10) 1 1 5 1 1 [9; 1; 2; 3] [9; 2; 2; 2] None None (Some [7; 4; 4; 4]) HN ltac:(lra) ltac:(lra))) as [c [-> [-> _]]].
    { rewrite Rabs_right; lra. }
    f_equal. unfold variance, production. cbn [skipn map]. rewrite !M. field.
  - assert (HN : production 1 [7; 4; 4; 4] <> []) by discriminate.
    destruct (C75_perturbation 0 (1 / 10) 1 1 5 1 1 (Some ([9; 1; 2; 3], [9; 2; 2; 2])) None None [7; 4; 4; 4] HN ltac:(lra)) as [f [-> [_ [_ [_ K]]]]].
    f_equal. apply (K 4). unfold production. cbn [skipn]. intros x H. cbn in H. intuition congruence.
  - reflexivity.
Qed.
