(** Energies at a sequence of volumes: the objects PolymlpEOS and PolymlpPhononQHA.

    /repo/src/pypolymlp/calculator/compute_eos.py L15-62 (construction, _set_eps), L64-87 (run_eos_fit), L112-143 (run),
    L145-179 (files);
    /repo/src/pypolymlp/calculator/compute_phonon.py L139-203 (PolymlpPhononQHA.__init__, run);
    /repo/src/pypolymlp/utils/structure_utils.py L61-67 (isotropic_volume_change).

    Simplifications: float64 is an arbitrary number type [F]; a structure is its axis, its volume and whatever else; the potential,
    the Vinet fit (eos_utils.py, Model/Equilibrium.v), phonopy and np.ceil are oracles; printing is left out; a file is the list
    of its sections; steps are not zero (np.arange would refuse them); run_eos_fit_pymatgen, which nothing calls, is left out. *)
From Verif Require Import Base Num Model.Structure Model.Readers Model.Transition.

Section EOS.
  Context {F : Type} {N : Num F} {NO : NumOrd F}.
  Variables (T : Type).
  Local Open Scope num_scope.
  Record cell := mk_cell { c_axis : nat -> nat -> F; c_volume : option F; c_rest : T }.
  Variable ceil : F -> nat.                        (** 0 for negative numbers *)
  Variable root : F -> F.                          (** pow(eps, 0.3333333333333) *)
  Definition frac (a b : nat) : F := nnat a / nnat b.

  (** [isotropic_volume_change] *)
  Definition isotropic (c : cell) (eps : F) : res cell :=
    match c_volume c with
    | None => Err TypeError                        (** None *= float *)
    | Some v => Ok (mk_cell (fun i j => c_axis c i j * root eps) (Some (v * eps)) (c_rest c))
    end.

  (** [_set_eps] *)
  Definition set_eps (lo hi step : F) (fine : bool) : list F :=
    let fine_step := step / nnat 3 in
    let a := frac 9 10 in let b := frac 11 10 in
    if negb fine then arange ceil lo (hi + frac 1 100) step
    else if nltb lo a && nltb b hi then arange ceil lo a step ++ arange ceil a b fine_step ++ arange ceil b hi step
    else if nltb lo a && nltb hi b then arange ceil lo a step ++ arange ceil a hi fine_step
    else if nltb a lo && nltb b hi then arange ceil lo b fine_step ++ arange ceil b hi step
    else arange ceil lo hi fine_step.

  (** ** PolymlpEOS *)
  Variable eval_multiple : list cell -> res (list F).                 (** energies *)
  Variable fit : list F -> list F -> res (F * F * F * (list F -> res (list F))).   (** EOS(volumes, energies): b0, e0, v0 and eval *)
  Record eos := mk_eos { e_cell : cell; e_data : option (list (F * F)); e_curve : option (list (F * F)); e_eq : option (F * F * F) }.
  Definition new_eos (c : cell) : eos := mk_eos c None None None.
  (** [np.array([volumes, energies]).T] *)
  Definition columns (a b : list F) : res (list (F * F)) := if (length a =? length b)%nat then Ok (combine a b) else Err ValueError.
  Definition min_of (l : list F) : res F := match l with [] => Err ValueError | x :: t => Ok (fold_left (fun m y => if nltb y m then y else m) t x) end.
  Definition max_of (l : list F) : res F := match l with [] => Err ValueError | x :: t => Ok (fold_left (fun m y => if nltb m y then y else m) t x) end.
  (** [run_eos_fit_phonopy]: the three numbers are assigned before the curve is computed *)
  Definition run_fit (volumes energies : list F) (s : eos) : eos * res (list (F * F)) :=
    match fit volumes energies with
    | Err e => (s, Err e)
    | Ok (eq, ev) =>
        (mk_eos (e_cell s) (e_data s) (e_curve s) (Some eq),
         do lo <- min_of volumes; do hi <- max_of volumes;
         let extra := (hi - lo) * frac 1 10 in
         let vs := arange ceil (lo - extra) (hi + extra) (frac 1 100) in
         do es <- ev vs; columns vs es)
    end.
  (** [run]: any exception of the fit is swallowed *)
  Definition run (lo hi step : F) (fine with_fit : bool) (s : eos) : eos * res unit :=
    match (do cells <- mapM (isotropic (e_cell s)) (set_eps lo hi step fine);
           do energies <- eval_multiple cells;
           do volumes <- mapM (fun c => some TypeError (c_volume c)) cells;
           do data <- columns volumes energies;
           Ok (volumes, energies, data)) with
    | Err e => (s, Err e)
    | Ok (volumes, energies, data) =>
        let s := mk_eos (e_cell s) (Some data) (e_curve s) (e_eq s) in
        if with_fit then
          match run_fit volumes energies s with
          | (s, Ok curve) => (mk_eos (e_cell s) (e_data s) (Some curve) (e_eq s), Ok tt)
          | (s, Err _) => (s, Ok tt)
          end
        else (s, Ok tt)
    end.
  (** [write_eos_yaml]: the sections that are written before the call ends, and how it ends *)
  Inductive section := Equilibrium (eq : F * F * F) | Data (l : list (F * F)) | Curve (l : list (F * F)).
  Definition write (with_curve : bool) (s : eos) : list section * res unit :=
    let head := match e_eq s with Some eq => [Equilibrium eq] | None => [] end in
    match e_data s with
    | None => (head, Err TypeError)
    | Some d => (head ++ [Data d] ++ (if with_curve then match e_curve s with Some c => [Curve c] | None => [] end else []), Ok tt)
    end.
  Record settings := mk_settings { q_lo : F; q_hi : F; q_step : F; q_fine : bool; q_fit : bool }.
  Definition call (s : eos) (q : settings) : eos * res unit := run (q_lo q) (q_hi q) (q_step q) (q_fine q) (q_fit q) s.
  (** A history of calls of [run]; a caller may go on after an exception *)
  Definition history (s : eos) (qs : list settings) : eos := fold_left (fun s q => fst (call s q)) qs s.

  (** ** PolymlpPhononQHA *)
  Record table := mk_table { t_volumes : list F; t_energies : list F; t_temps : list F; t_free : list (list F); t_entropy : list (list F); t_cv : list (list F) }.
  Record thermal := mk_thermal { h_temps : list F; h_free : list F; h_entropy : list F; h_cv : list F }.
  Variable phonon : cell -> res thermal.            (** PolymlpPhonon and phonopy for one cell *)
  (** [np.array(rows).T] *)
  Definition transpose (rows : list (list F)) : res (list (list F)) :=
    match rows with
    | [] => Ok []
    | r :: _ => if forallb (fun q => (length q =? length r)%nat) rows
                then Ok (map (fun t => map (fun q => nth t q 0) rows) (seq 0 (length r)))
                else Err ValueError
    end.
  (** What is handed to PhonopyQHA *)
  Definition qha_run (c : cell) (lo hi step : F) : res table :=
    do cells <- mapM (isotropic c) (arange ceil lo (hi + frac 1 1000) step);
    do energies <- eval_multiple cells;
    do volumes <- mapM (fun c => some TypeError (c_volume c)) cells;
    do th <- mapM phonon cells;
    do free <- transpose (map h_free th); do ent <- transpose (map h_entropy th); do cv <- transpose (map h_cv th);
    match rev th with
    | [] => Err UnboundLocalError
    | last :: _ => Ok (mk_table volumes energies (h_temps last) free ent cv)
    end.
End EOS.
