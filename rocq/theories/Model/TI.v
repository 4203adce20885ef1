(** Properties from the files of thermodynamic integration.

    /repo/src/pypolymlp/calculator/thermodynamics/ti_utils.py L14-52, 75-245,
    /repo/src/pypolymlp/calculator/thermodynamics/thermodynamics_parser.py L60-90,
    /repo/src/pypolymlp/mlp_dev/standard/solvers.py L9-83.

    Simplifications: float64 is an arbitrary number type [F] without NaN and infinities; a parsed file is a
    record whose missing keys are None; the number of atoms is not negative; what scipy.integrate.simpson returns
    and LAPACK's posv are oracles; [verbose] and the unused [_extrapolate_data_polynomial] (L55-72) are left out. *)
From Verif Require Import Base Num Model.Regress Model.Fit.
From Coq Require String.
Import String.StringSyntax.
Local Open Scope string_scope.
Local Open Scope list_scope.
Local Open Scope nat_scope.

Section TI.
  Context {F : Type} {N : Num F} {NO : NumOrd F}.
  Local Open Scope num_scope.

  (** Decimal constants: c / 10^k *)
  Fixpoint pow10 (k : nat) : F := match k with O => 1 | S k => nnat 10 * pow10 k end.
  Definition dec (c k : nat) : F := nnat c / pow10 k.
  (** [np.isclose(x, 0.0)] *)
  Definition is_zero (x : F) : bool := negb (nltb (dec 1 8) (nabs x)).

  (** One record of the log, and a polymlp_ti.yaml *)
  Record entry := mk_entry { e_alpha : option F; e_delta : option F; e_energy : option F; e_disp : option F }.
  Record file := mk_file {
    y_natom : option nat; y_temp : option F; y_volume : option F;
    (** [properties]: [delta_energies] and [energy] *)
    y_props : option (option (list entry) * option F);
    y_sampling : option (list entry) }.
  Definition key {X} (o : option X) : res X := match o with Some x => Ok x | None => Err KeyError end.

  (** [_is_success] (L14-18) *)
  Definition is_success (eng : F) : bool := negb (nltb eng (- nnat 100)).

  (** [_check_melting] (L21-40) *)
  Fixpoint jumps (threshold prev : F) (ds : list F) : list bool :=
    match ds with
    | [] => []
    | d :: t => if nltb threshold (nabs (d - prev)) then true :: jumps threshold prev t
                else false :: jumps threshold d t
    end.
  Definition check_melting (threshold : F) (ds : list F) : res (list bool) :=
    do d0 <- get ds 0;
    if is_zero d0 then Ok (map (fun _ => false) ds) else
    let bool1 := map (fun d => nltb (nnat 2) (d / d0)) ds in
    let bool2 := false :: jumps threshold d0 (tl ds) in
    Ok (map (fun q => fst q || snd q)%bool (combine bool1 bool2)).

  (** [integrate] (L43-52); trapezoid as numpy *)
  Fixpoint trapezoid (data : list (F * F)) : F :=
    match data with
    | p :: ((q :: _) as t) => (fst q - fst p) * (snd q + snd p) / nnat 2 + trapezoid t
    | _ => 0
    end.
  Variable simpson : list (F * F) -> F.
  Definition integrate (data : list (F * F)) (method : String.string) : res F :=
    if String.eqb method "trapezoid" then Ok (trapezoid data)
    else if String.eqb method "simpson" then Ok (simpson data)
    else Err RuntimeError.

  (** [_extrapolate_data] (L75-87) *)
  Variable posv : mat F -> vec F -> option (vec F).
  Variable huge : F.
  Definition last_points {X} (n : nat) (l : list X) : list X := skipn (length l - n) l.
  Definition extrapolate_data (data : list (F * F)) : res F :=
    let pts := last_points 3 data in
    let x := map (fun q => (fun j => if (j =? 1)%nat then fst q else 1) : vec F) pts in
    let y := map snd pts in
    do (coefs, _) <- solver_ridge (solve_linear_equation posv huge) (xtx_of x) (xty_of x y) [dec 1 10];
    do c <- get coefs 0;
    Ok (sumn 2 c).

  (** [_get_free_energy] (L90-101), [_get_energy] (L104-112), [_get_properties] (L115-143) *)
  Definition delta_of (l : entry) : res (F * F) := do a <- key (e_alpha l); do e <- key (e_delta l); Ok (a, e).
  Definition energy_of (l : entry) : res (F * F) := do a <- key (e_alpha l); do e <- key (e_energy l); Ok (a, e).
  Definition get_free_energy (log : list entry) (extrapolation : bool) (method : String.string) : res F :=
    do data <- mapM delta_of log;
    do data <- (if extrapolation then do de1 <- extrapolate_data data; Ok (data ++ [(1, de1)]) else Ok data);
    integrate data method.
  Definition last_item {X} (l : list X) : res X := get l (length l - 1).
  Definition get_energy (log : list entry) (extrapolation : bool) : res F :=
    do data <- mapM energy_of log;
    do first <- get data 0;
    do energy <- (if extrapolation then extrapolate_data data else do q <- last_item data; Ok (snd q));
    Ok (energy - snd first).
  Definition get_properties (log : list entry) (temperature : F) (n_atom : nat) (extrapolation : bool) : res (F * F * F) :=
    do free <- get_free_energy log extrapolation "simpson";
    let free := free / nnat n_atom in
    do energy <- get_energy log extrapolation;
    let energy := energy / nnat n_atom in
    let entropy := if is_zero temperature then 0 else (energy - free) / temperature in
    Ok (free, energy, entropy).

  (** [DataTI] (L146-155), [load_ti_yaml] (L158-245) *)
  Record data_ti := mk_ti { t_volume : F; t_temp : F; t_free : F; t_energy : F; t_entropy : F; t_log : list entry }.
  Definition count (bs : list bool) : nat := length (filter (fun b => b) bs).
  Definition load_ti (f : file) : res (option (data_ti * data_ti)) :=
    do n_atom <- key (y_natom f);
    do temperature <- key (y_temp f);
    do v <- key (y_volume f);
    if (n_atom =? 0)%nat then Err ZeroDivisionError else
    let volume := v / nnat n_atom in
    do props <- key (y_props f);
    do log <- match fst props, y_sampling f with
              | Some l, _ => Ok l
              | None, Some l => Ok l
              | None, None => Err RuntimeError
              end;
    do energy <- match snd props with
                 | Some e => Ok e
                 | None => do l0 <- get log 0; do e_ref <- key (e_energy l0);
                           do l1 <- last_item log; do e <- key (e_energy l1);
                           Ok ((e - e_ref) / nnat n_atom)
                 end;
    if negb (is_success energy) then Ok None else
    do disps <- mapM (fun l => key (e_disp l)) log;
    do is_melt <- check_melting (dec 5 2) disps;
    if (existsb (fun b => b) is_melt &&
        ((length is_melt <? 5 * count is_melt)%nat || forallb (fun b => b) (last_points 3 is_melt)))%bool then Ok None else
    let active := map fst (filter (fun q => negb (snd q)) (combine log is_melt)) in
    let make q := let '(f, e, s) := q in mk_ti volume temperature f e s active in
    do ext <- get_properties active temperature n_atom true;
    do raw <- get_properties active temperature n_atom false;
    Ok (Some (make raw, make ext)).

  (** [load_ti_yamls] (parser L60-90): files that cannot be loaded are left out *)
  Definition load_ti_files (fs : list file) : list data_ti * list data_ti :=
    let ok := flat_map (fun f => match load_ti f with Ok (Some r) => [r] | _ => [] end) fs in
    (map fst ok, map snd ok).
End TI.
Arguments entry : clear implicits. Arguments file : clear implicits. Arguments data_ti : clear implicits.
