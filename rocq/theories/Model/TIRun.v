(** A thermodynamic integration: the runs it makes, what it reports and saves, and how a reference is found.

    /repo/src/pypolymlp/calculator/md/api_ti.py L57-65, 67-132, 158-180, 212-283,
    /repo/src/pypolymlp/calculator/md/api_md.py L67-76, 297-345, 423-439,
    /repo/src/pypolymlp/calculator/md/ase_md.py L175-195, 260-304,
    /repo/src/pypolymlp/calculator/md/md_utils.py L10-65.

    Simplifications: float64 is an arbitrary number type [F]; a simulation is an oracle that may depend on
    everything simulated before (ASE keeps the positions of the atoms; velocities are random) and gives the recorded
    trajectories; scipy's p_roots is an oracle; the loaded yaml of a reference is a record with all keys; what is
    written before an error is raised in [save_ti_yaml] is left out, as are printing, logs on disk and units. *)
From Verif Require Import Base Num Model.MD Model.TI.
From Coq Require String.
Import String.StringSyntax.
Local Open Scope string_scope.
Local Open Scope list_scope.
Local Open Scope nat_scope.

Section TIRun.
  Context {F : Type} {N : Num F} {NO : NumOrd F}.
  Local Open Scope num_scope.
  Notation string := String.string.

  (** ** Quadrature (md_utils.py L46-65) *)
  Variable p_roots : nat -> res (list F * list F).
  Definition half : F := 1 / nnat 2.
  Definition get_p_roots (n : nat) (a b : F) : res (list F * list F) :=
    do (x, w) <- p_roots n;
    Ok (map (fun x => half * (b - a) * x + half * (a + b)) x, w).
  Definition calc_integral (w f : list F) (a b : F) : res F :=
    if (length w =? length f)%nat
    then Ok (nsum (map (fun q => half * (b - a) * fst q * snd q) (combine w f)))
    else Err ValueError.

  (** ** References (md_utils.py L10-43); [path]: of fc2.hdf5, in the order of sorted(glob) *)
  Record reference := mk_reference { f_path : string; f_converge : bool; f_imaginary : bool; f_temp : F }.
  Fixpoint scan_references (l : list reference) (best : option string) (temp_min : F) : option string * F :=
    match l with
    | [] => (best, temp_min)
    | r :: t =>
      if negb (f_converge r) then scan_references t best temp_min
      else if f_imaginary r then scan_references t best temp_min
      else if is_zero (f_temp r) then (Some (f_path r), 0)
      else if nltb (f_temp r) temp_min then scan_references t (Some (f_path r)) (f_temp r)
      else scan_references t best temp_min
    end.
  Definition find_reference (l : list reference) (target : F) : res string :=
    let '(best, temp_min) := scan_references l None (pow10 10) in
    match best with
    | None => Err RuntimeError
    | Some p => if nltb (target + dec 1 8) temp_min then Err RuntimeError else Ok p
    end.

  (** ** Simulations *)
  Inductive kind := Plain | WithFC2 | WithRef | WithGeneral.
  Definition has_reference (k : kind) : bool := match k with Plain => false | _ => true end.
  Definition has_fc2 (k : kind) : bool := match k with WithFC2 | WithGeneral => true | _ => false end.
  Record trajectory := mk_traj { tr_energies : list F; tr_totals : list F; tr_disps : list F; tr_10 : list F; tr_1a : list F }.
  (** Mixing parameter, temperature, steps of equilibration and production *)
  Record run := mk_run { u_alpha : option F; u_temp : F; u_eq : nat; u_steps : nat }.
  Variable simulate : kind -> list run -> run -> trajectory.
  Variables (nexp nlog : F -> F) (kb evj avogadro : F).
  Variables (n_atom : nat) (volume : F).

  (** The state of a PolymlpMD: calculator with its parameter, structures given, flags, last integrator (its
      temperature and averages); [m_past] is everything simulated *)
  Record md := mk_md { m_calc : option (kind * option F); m_unitcell : bool; m_supercell : bool; m_use_reference : bool;
                       m_fc2file : bool; m_integrator : option (F * averages (F:=F)); m_past : list run }.
  Definition with_calc (m : md) c := mk_md c (m_unitcell m) (m_supercell m) (m_use_reference m) (m_fc2file m) (m_integrator m) (m_past m).
  (** [set_ase_calculator] (api_md L67-76): the flag [_use_reference] stays as it is *)
  Definition set_plain (m : md) : md := with_calc m (Some (Plain, None)).
  (** [alpha] (L423-439): a RuntimeError is constructed outside [0,1] but not raised *)
  Definition set_alpha (alpha : F) (m : md) : res md :=
    match m_calc m with
    | None => Err AttributeError
    | Some (k, _) => Ok (with_calc m (Some (k, Some alpha)))
    end.
  Definition md_alpha (m : md) : option F := match m_calc m with Some (_, a) => a | None => None end.
  (** [run_md_nvt] (L297-338) with [run_Langevin], [run_Nose_Hoover_NVT], [_check_requisites] and the loggers *)
  Definition run_md_nvt (thermostat : string) (temperature : F) (n_eq n_steps : nat) (m : md) : res md :=
    if (String.eqb thermostat "Nose-Hoover" || String.eqb thermostat "Langevin")%bool then
      if negb (m_supercell m) then Err RuntimeError else
      match m_calc m with
      | None => Err RuntimeError
      | Some (k, alpha) =>
        let u := mk_run alpha temperature n_eq n_steps in
        let t := simulate k (m_past m) u in
        let on (b : bool) (l : list F) := if b then Some l else None in
        let av := calc_averages nexp nlog (dec 1 8) kb evj avogadro temperature n_atom n_eq
                    (Some (tr_energies t, tr_totals t)) (on (has_fc2 k) (tr_disps t))
                    (on (has_reference k) (tr_10 t)) (on (has_reference k) (tr_1a t)) in
        Ok (mk_md (m_calc m) (m_unitcell m) (m_supercell m) (m_use_reference m) (m_fc2file m) (Some (temperature, av)) (m_past m ++ [u]))
      end
    else Ok m.

  (** ** Thermodynamic integration *)
  Record log := mk_log { g_alpha : option F; g_energy : option F; g_total : option F; g_disp : option F;
                         g_delta : option F; g_perturb : option F; g_perturb1 : option F }.
  (** [_get_log] (L158-169) *)
  Definition get_log (m : md) : log :=
    let of (f : averages -> option F) := match m_integrator m with Some (_, a) => f a | None => None end in
    mk_log (md_alpha m) (of v_energy) (of v_total) (of v_disp) (of v_delta_10) (of v_perturb) (of v_delta_1a).
  (** [_check_md_instance] (L57-65) *)
  Definition check_md (m : md) : res unit :=
    if match m_calc m with None => true | _ => false end then Err RuntimeError
    else if negb (m_unitcell m) then Err RuntimeError
    else if negb (m_use_reference m) then Err RuntimeError
    else Ok tt.
  Record ti := mk_tirun { i_logs : list log; i_free : F; i_energy : F; i_entropy : F; i_perturb : option F; i_perturb1 : option F }.
  Definition number (o : option F) : res F := match o with Some x => Ok x | None => Err TypeError end.
  Section Run.
    Variables (thermostat : string) (temperature : F) (n_eq n_steps : nat).
    (** [_run] (L100-114) *)
    Definition run_at (const : nat) (m : md) (alpha : F) : res (md * log) :=
      do m <- set_alpha alpha m;
      do m <- run_md_nvt thermostat temperature n_eq (n_steps * const)%nat m;
      Ok (m, get_log m).
    Fixpoint run_all (m : md) (alphas : list F) : res (md * list log) :=
      match alphas with
      | [] => Ok (m, [])
      | a :: t => do (m, g) <- run_at 1 m a; do (m, gs) <- run_all m t; Ok (m, g :: gs)
      end.
    (** [run_thermodynamic_integration] (L67-132), [_calc_energy_entropy] (L171-180) *)
    Definition run_ti (n_alphas : nat) (max_alpha : F) (m : md) : res (md * ti) :=
      do (alphas, weights) <- get_p_roots n_alphas 0 max_alpha;
      do (m, logs) <- run_all m alphas;
      do de <- mapM (fun g => number (g_delta g)) logs;
      do free <- calc_integral weights de 0 max_alpha;
      do (m, first) <- run_at 3 m 0;
      do (m, final) <- run_at 3 m max_alpha;
      let logs := first :: logs ++ [final] in
      do (energy, entropy) <- (if is_zero temperature then Ok (0, 0) else
         do e1 <- number (g_energy final); do e0 <- number (g_energy first);
         let energy := e1 - e0 in Ok (energy, (energy - free) / temperature));
      Ok (m, mk_tirun logs free energy entropy (g_perturb final) (g_perturb1 final)).
  End Run.

  (** ** [save_ti_yaml] (L212-283): the parts that [load_ti_yaml] reads *)
  Variable round5 : F -> F.
  Definition save_entry (g : log) : res (entry F) :=
    do d <- number (g_disp g);
    Ok (mk_entry (g_alpha g) (g_delta g) (g_energy g) (Some (round5 d))).
  Definition save_ti (m : md) (r : ti) : res (file F) :=
    match m_integrator m with
    | None => Err AttributeError
    | Some (temperature, _) =>
      if negb (m_fc2file m) then Err TypeError else
      match m_calc m with
      | Some (WithGeneral, _) | None => Err AttributeError
      | Some _ =>
        do final <- last_item (i_logs r);
        do _ <- number (g_perturb final);
        do _ <- number (g_perturb1 final);
        do es <- mapM save_entry (i_logs r);
        Ok (mk_file (Some n_atom) (Some temperature) (Some volume) (Some (None, Some (i_energy r))) (Some es))
      end
    end.
End TIRun.
Arguments reference : clear implicits. Arguments run : clear implicits. Arguments trajectory : clear implicits.
Arguments md : clear implicits. Arguments log : clear implicits. Arguments ti : clear implicits.
