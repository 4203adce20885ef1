(** C47: regression weights are positive and preserve exact solutions. *)
From Verif Require Import Base Num NumR Model.Structure Model.DatasetDFT Model.Dataset Model.Regress Model.Weights
  Spec.Dataset Spec.Structure Spec.Regress Proofs.Weights Proofs.WeightsProps.
From Coq Require Import Reals Lra.
From Coq Require String.
Import String.StringSyntax.
Local Open Scope string_scope.
Local Open Scope nat_scope.
Local Open Scope R_scope.

(** Every weight formula gives a number in (0, 1]; lower energies never count less. *)
Theorem C47_weight_range (tol : R) : 0 < tol ->
  (forall m e n, 0 < weight_energy m e n <= 1) /\ (forall f, 0 < weight_force tol f <= 1) /\
  (forall s, 0 < weight_stress_unit tol s <= 1).
Proof. exact (fun H => conj (fun m e n => weight_energy_range m e n) (conj (fun f => weight_force_range tol f H) (weight_stress_range tol))). Qed.
Print Assumptions C47_weight_range.
Theorem C47_energy_weight_mono m e1 e2 n : m <= 0 -> (0 < n)%nat -> e1 <= e2 -> weight_energy m e2 n <= weight_energy m e1 n.
Proof. exact (weight_energy_mono m e1 e2 n). Qed.
Print Assumptions C47_energy_weight_mono.
Theorem C47_force_weight tol f : 0 < tol <= 1 -> weight_force tol f = 1 / Rmax 1 (Rabs f).
Proof. exact (weight_force_value tol f). Qed.
Print Assumptions C47_force_weight.
(** Stress weights fall by a factor of five when the stress grows tenfold; small stresses have weight 1. *)
Theorem C47_stress_weight tol s : 0 < tol <= 1 ->
  (forall x, 0 <= x -> tol < Rpower 10 x -> Rabs s = Rpower 10 x -> weight_stress_unit tol s = Rpower 5 (- x)) /\ (Rabs s <= 1 -> weight_stress_unit tol s = 1).
Proof.
  intros Ht. assert (L10 : 0 < ln 10) by (rewrite <- ln_1; apply ln_increasing; lra). assert (L5 : 0 < ln 5) by (rewrite <- ln_1; apply ln_increasing; lra).
  assert (P : forall y, y <= 0 -> Rpower 5 (- y) < 1 -> False).
  { intros y Hy H. unfold Rpower in H. assert (0 <= - y * ln 5) by (apply Rmult_le_pos; lra). pose proof (exp_ineq1_le (- y * ln 5)). lra. }
  assert (LN : forall z, 0 < z <= 1 -> ln z <= 0) by (intros z [H1 H2]; rewrite <- ln_1; destruct H2 as [H2| ->]; [left; apply ln_increasing; lra|right; reflexivity]).
  split.
  - intros x Hx Hb Hs. unfold weight_stress_unit. rewrite Hs, (proj2 (Rltb_true _ _) Hb). unfold log10. unfold Rpower at 2. unfold Rpower at 3. rewrite ln_exp. replace (x * ln 10 / ln 10) with x by (field; lra).
    assert (Q : Rpower 5 (- x) <= 1). { unfold Rpower. rewrite <- exp_0. assert (- x * ln 5 <= 0) by (assert (0 <= x * ln 5) by (apply Rmult_le_pos; lra); lra). destruct H as [H| ->]; [left; now apply exp_increasing|right; reflexivity]. }
    cbv zeta. destruct (Rltb 1 (Rpower 5 (- x))) eqn:E; [|reflexivity]. apply Rltb_true in E. lra.
  - intros Hs. unfold weight_stress_unit. cbv zeta. set (y := if Rltb tol (Rabs s) then _ else _). assert (Hy : y <= 0).
    { unfold y, log10. destruct (Rltb tol (Rabs s)) eqn:E.
      - apply Rltb_true in E. apply (Rmult_le_reg_r (ln 10)); [exact L10|]. unfold Rdiv. rewrite Rmult_assoc, Rinv_l, Rmult_1_r, Rmult_0_l by lra. apply LN. lra.
      - apply (Rmult_le_reg_r (ln 10)); [exact L10|]. unfold Rdiv. rewrite Rmult_assoc, Rinv_l, Rmult_1_r, Rmult_0_l by lra. apply LN. lra. }
    destruct (Rltb 1 (Rpower 5 (- y))) eqn:E; [reflexivity|]. apply Rltb_false in E. destruct (Rtotal_order (Rpower 5 (- y)) 1) as [H|[H|H]]; [exfalso; exact (P y Hy H)|exact H|lra].
Qed.
Example C47_stress_ten : weight_stress_unit (1 / 1000) 10 = / 5.
Proof.
  destruct (C47_stress_weight (1 / 1000) 10 ltac:(lra)) as [H _]. rewrite (H 1); [rewrite Rpower_Ropp, Rpower_1 by lra; reflexivity|lra|rewrite Rpower_1; lra|rewrite Rpower_1, Rabs_right; lra].
Qed.
Print Assumptions C47_stress_weight.

(** Row and target of every observation carry the same weight, so the weighted system is
    solved exactly by the same coefficients as the unweighted one restricted to observations
    whose weight is not zero. *)
Theorem C47_exact_solutions {St} (s_natoms : St -> list nat) (fe : St -> vec R) (ff fs : St -> list (vec R))
    (tol big threshold : R) (r0 : vec R) ps scales min_energy ws p (c : vec R) :
  0 < tol -> 0 < ws -> Forall (usable ff fs s_natoms) ps ->
  exists t, calc_xy s_natoms fe ff fs r0 weight_energy (weight_force tol) (weight_stress_unit tol) big threshold
              (map fst ps) scales min_energy ws = Ok t /\
    let P := points fe ff fs weight_energy (weight_force tol) (weight_stress_unit tol) ws (t_min_e t) ps in
    let raw := fun j => match scales with Some s => s j | None => nsqrt (variance (energy_rows fe ps) j) end in
    let scaled := fun (x : vec R) j => if tiny threshold (any_force ps) (raw j) then 0 else x j / raw j in
    (exists T, Permutation T P /\ length (t_x t) = length T /\
       t_y t = map (fun u => pt_weight u * pt_value u) T /\ t_w t = map pt_weight T /\
       (forall k r u, nth_error (t_x t) k = Some r -> nth_error T k = Some u -> forall j, r j = pt_weight u * scaled (pt_row u) j)) /\
    ((forall k r y, nth_error (t_x t) k = Some r -> nth_error (t_y t) k = Some y -> dot p r c = y) <->
     (forall u, In u P -> pt_weight u <> 0 -> dot p (scaled (pt_row u)) c = pt_value u)).
Proof. exact (weighted_exact s_natoms fe ff fs tol big threshold r0 ps scales min_energy ws p c). Qed.
Print Assumptions C47_exact_solutions.

(** No weight is negative; weights are zero only for stresses of data sets with forces but
    without stresses. *)
Theorem C47_weights_positive {St} (fe : St -> vec R) (ff fs : St -> list (vec R)) (tol ws m : R) ps :
  0 < tol -> 0 < ws -> Forall (fun q : ds R St * list (rec R St) => 0 < ds_weight (fst q)) ps ->
  let P := points fe ff fs weight_energy (weight_force tol) (weight_stress_unit tol) ws m ps in
  Forall (fun u => 0 <= pt_weight u) P /\
  (Forall (fun q : ds R St * list (rec R St) => ds_force (fst q) = true -> ds_stress (fst q) = true) ps ->
   Forall (fun u => 0 < pt_weight u) P).
Proof. exact (weights_signs fe ff fs tol ws m ps). Qed.
Print Assumptions C47_weights_positive.

(** Stresses without forces: [send] is an unbound name, no normal equations are formed. *)
Theorem C47_stress_without_force {F St} {N : Num F} we wf wsf (x : list (vec F)) (y w : list F) (data : ds F St) d
    (first : nat * Z * Z) weight_stress min_e :
  ds_dft data = Some d -> ds_force data = false -> ds_stress data = true ->
  length x = length (energies d) -> length y = length x -> length w = length x ->
  length (total_n_atoms d) = length (energies d) -> fst (fst first) = 0%nat ->
  apply_weights we wf wsf (x, y, w) data first weight_stress min_e = Err UnboundLocalError.
Proof. exact (stress_without_force we wf wsf x y w data d first weight_stress min_e). Qed.
Print Assumptions C47_stress_without_force.

(** A data set with forces and stresses meets the hypotheses. *)
Module Example.
  Definition fe (s : nat) : vec R := fun j => INR (s * (j + 1)).
  Definition ff (s : nat) : list (vec R) := [fe s; fe s; fe s].
  Definition fs (s : nat) : list (vec R) := ff s ++ ff s.
  Definition r : rec R nat := mk_rec 2%nat (-3) [1; 2; 3] [1; 1; 1; 0; 0; 0] 1 1 None.
  Definition d : ds R nat := mk_ds Vasp (Single "a") true true 2 (Some (layout ["Al"] true true [r])) true.
  Definition ps := [(d, [r])].
  Lemma meets : Forall (usable ff fs (fun _ => [1%nat])) ps /\ Forall (fun q : ds R nat * list (rec R nat) => 0 < ds_weight (fst q)) ps /\
    Forall (fun q : ds R nat * list (rec R nat) => ds_force (fst q) = true -> ds_stress (fst q) = true) ps.
  Proof.
    split; [|split].
    - repeat constructor; cbn; try discriminate; try (eexists _, _, _; reflexivity).
    - repeat constructor. cbn. lra.
    - repeat constructor.
  Qed.
  (** The weight of a force of 4 is 1/4. *)
  Lemma value : weight_force 0.001 4 = 1 / 4.
  Proof. rewrite weight_force_value by lra. rewrite Rmax_right; rewrite Rabs_pos_eq; lra. Qed.
End Example.
