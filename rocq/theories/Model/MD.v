(** Calculators with a reference state, and averages over a molecular dynamics run.

    /repo/src/pypolymlp/calculator/utils/ase_calculator_ref.py L19-25, 33-156, 159-260, 263-447,
    /repo/src/pypolymlp/calculator/md/ase_md.py L260-304.

    Simplifications: float64 is an arbitrary number type [F], with [nexp], [nlog] for the exponential and
    the logarithm; ASE atoms and structures are values of arbitrary types, converted by [structure_of] and
    [disps_of] (the latter in Model/StructureUtils.v); the potential is a function of the structure; the
    trajectories recorded by ASE are arguments; the average of no numbers (NaN in numpy) is 0/0. *)
From Verif Require Import Base Num Model.FC2.

Section Calculators.
  Context {F : Type} {N : Num F} {NO : NumOrd F} {At St : Type}.
  Local Open Scope num_scope.
  Variable structure_of : At -> St.
  Variable disps_of : At -> vec F.
  (** Energy, forces (axis, atom) and stress of a structure *)
  Record properties := mk_props { p_energy : F; p_forces : nat -> nat -> F; p_stress : list F }.
  Notation potential := (St -> properties).

  (** What a calculator holds after [calculate] *)
  Record answer := mk_answer {
    a_energy : F; a_forces : nat -> nat -> F; a_stress : option (list F);
    a_delta_10 : F; a_delta_1a : F; a_disp : option F }.
  (** [x1 * alpha + x0 * (1 - alpha)] *)
  Definition mix (alpha x1 x0 : F) : F := x1 * alpha + x0 * (1 - alpha).
  Definition mix_forces (alpha : F) (f1 f0 : nat -> nat -> F) : nat -> nat -> F := fun i a => mix alpha (f1 i a) (f0 i a).
  Definition in_unit (alpha : F) : bool := (negb (nltb alpha 0) && negb (nltb 1 alpha))%bool.

  (** [np.sqrt(np.average(np.square(disps)))] *)
  Definition rms_disp (n3 : nat) (d : vec F) : F := nsqrt (sumn n3 (fun k => d k * d k) / nnat n3).

  (** ** PolymlpFC2ASECalculator (L33-156) *)
  Definition check_fc2 (rows cols n_atom : nat) (alpha : F) : res unit :=
    do _ <- py_assert (rows =? n_atom * 3)%nat;
    do _ <- py_assert (cols =? n_atom * 3)%nat;
    py_assert (in_unit alpha).
  Definition eval_fc2_model (n3 : nat) (fc2 : mat F) (static : F) (d : vec F) : F * (nat -> nat -> F) :=
    let h := eval_properties_fc2 n3 fc2 d in (h_energy h + static, h_forces h).
  (** [base]: the structure without displacements, whose energy is evaluated at construction *)
  Definition calculate_fc2 (n3 : nat) (fc2 : mat F) (base : St) (prop : potential) (alpha : F) (at_ : At) : answer :=
    let static := p_energy (prop base) in
    let d := disps_of at_ in
    let '(energy0, forces0) := eval_fc2_model n3 fc2 static d in
    let p1 := prop (structure_of at_) in
    let energy := mix alpha (p_energy p1) energy0 in
    mk_answer energy (mix_forces alpha (p_forces p1) forces0) None
      (p_energy p1 - energy0) (p_energy p1 - energy) (Some (rms_disp n3 d)).

  (** ** PolymlpRefASECalculator (L159-260) *)
  Definition calculate_ref (prop prop_ref : potential) (alpha : F) (at_ : At) : answer :=
    let st := structure_of at_ in
    let p0 := prop_ref st in
    let p1 := prop st in
    let energy := mix alpha (p_energy p1) (p_energy p0) in
    mk_answer energy (mix_forces alpha (p_forces p1) (p_forces p0))
      (Some (map (fun q => mix alpha (fst q) (snd q)) (combine (p_stress p1) (p_stress p0))))
      (p_energy p1 - p_energy p0) (p_energy p1 - energy) None.

  (** ** PolymlpGeneralRefASECalculator (L263-447) *)
  Definition check_general (rows cols n_atom : nat) (alpha_final alpha_ref alpha : F) : res unit :=
    do _ <- check_fc2 rows cols n_atom alpha_final;
    do _ <- py_assert (in_unit alpha_ref);
    py_assert (in_unit alpha).
  Definition linear_model (n3 : nat) (fc2 : mat F) (static : F) (prop : potential) (alpha : F) (at_ : At) : F * (nat -> nat -> F) :=
    let '(energy0, forces0) := eval_fc2_model n3 fc2 static (disps_of at_) in
    let p1 := prop (structure_of at_) in
    (mix alpha (p_energy p1) energy0, mix_forces alpha (p_forces p1) forces0).
  Definition calculate_general (n3 : nat) (fc2 : mat F) (base : St) (prop_final prop_ref : potential)
             (alpha_final alpha_ref alpha : F) (at_ : At) : answer :=
    let static_ref := p_energy (prop_ref base) in
    let static_final := p_energy (prop_final base) in
    let '(energy0, forces0) := linear_model n3 fc2 static_ref prop_ref alpha_ref at_ in
    let '(energy1, forces1) := linear_model n3 fc2 static_final prop_final alpha_final at_ in
    let energy := mix alpha energy1 energy0 in
    mk_answer energy (mix_forces alpha forces1 forces0) None
      (energy1 - energy0) (energy1 - energy) (Some (rms_disp n3 (disps_of at_))).
End Calculators.
Arguments answer : clear implicits. Arguments properties : clear implicits.

Section Averages.
  Context {F : Type} {N : Num F} {NO : NumOrd F}.
  Local Open Scope num_scope.
  Variables (nexp nlog : F -> F) (atol kb evj avogadro : F).   (** 1e-8, KbEV, EVtoJ, Avogadro *)
  Definition average (l : list F) : F := nsum l / nnat (length l).

  Record averages := mk_av {
    v_energy : option F; v_total : option F; v_cv_ev : option F; v_cv : option F;
    v_disp : option F; v_delta_10 : option F; v_delta_1a : option F; v_perturb : option F }.
  (** [_calc_averages] (L270-304) *)
  Definition heat_capacity_ev (temperature : F) (es : list F) : F :=
    if negb (nltb atol (nabs temperature)) then 0 else
    let a := average es in
    let var := average (map (fun e => e * e) es) - a * a in
    var / kb / (temperature * temperature).
  Definition perturb (temperature : F) (ds : list F) : F :=
    let beta := kb * temperature in
    let exp_delta_e := average (map (fun e => nexp (- beta * e)) ds) in
    - nlog exp_delta_e / beta.
  Definition calc_averages (temperature : F) (n_atom n_eq : nat) (energies : option (list F * list F))
             (disps delta_10 delta_1a : option (list F)) : averages :=
    let part (o : option (list F)) (f : list F -> F) := option_map (fun l => f (skipn n_eq l)) o in
    let es := option_map fst energies in
    let cv := part es (heat_capacity_ev temperature) in
    mk_av (part es average) (part (option_map snd energies) average) cv
      (option_map (fun c => c * (if negb (nltb atol (nabs temperature)) then 1 else evj * avogadro / nnat n_atom)) cv)
      (part disps average) (part delta_10 average) (part delta_1a average) (part delta_1a (perturb temperature)).
End Averages.
