(** Properties at equilibrium volumes, Gibbs free energies, and the file of thermodynamic properties.

    /repo/src/pypolymlp/calculator/thermodynamics/thermodynamics_utils.py L15-167,
    /repo/src/pypolymlp/calculator/thermodynamics/api_thermodynamics.py L29-52, 76-127, 129-200, 240-247,
    /repo/src/pypolymlp/calculator/thermodynamics/thermodynamics_io.py L32-98, 101-141,
    /repo/src/pypolymlp/calculator/utils/eos_utils.py L11-57.

    Simplifications: float64 is an arbitrary number type [F]; a fitted equation of state is the volume,
    bulk modulus (eV per cubic angstrom) and energy at its minimum, and its function; fits of entropies
    and heat capacities are a function and its derivative (Model/Polyfit.v); Python's None and NaN in
    arrays are told apart by [cell]; printing and reading a number is the identity; a division by zero
    is that of [F]; temperature indices are natural numbers. *)
From Verif Require Import Base Num Model.Structure Model.Readers.

Section Equilibrium.
  Context {F : Type} {N : Num F} {NO : NumOrd F}.
  Local Open Scope num_scope.
  Variables (gpa jmol : F).                   (** EVAngstromToGPa, EVtoJmol *)
  Variables (factor bm_thr : F).              (** 1.2, 1e-3 (thermodynamics_utils.py L27-28) *)
  Variable eps : F.                           (** 1e-4 (eos_utils.py L22) *)
  Variable atol : F.                          (** 1e-8 of [np.isclose(x, 0.0)] *)

  (** ** Fits *)
  Record eos := mk_eos { e_v0 : F; e_bm : F; e_e0 : F; e_eval : F -> F }.
  Record vfit := mk_vfit { f_eval : F -> F; f_deriv : F -> F }.
  (** [EOS.b0] (eos_utils.py L45-47) *)
  Definition b0 (e : eos) : F := e_bm e * gpa.
  (** [eval_gibbs_pressure] (L22-42): pairs of pressure and Gibbs free energy *)
  Definition gibbs_at (e : eos) (vol : F) : F * F :=
    let deriv := (e_eval e (vol + eps) - e_eval e (vol - eps)) / (nnat 2 * eps) in
    let press := - deriv in
    (press * gpa, e_eval e vol + press * vol).
  Definition eval_gibbs_pressure (e : eos) (volumes : list F) : list (F * F) := map (gibbs_at e) volumes.

  (** ** FittedModels (thermodynamics_utils.py L15-167) *)
  Record models := mk_models {
    m_temps : list F; m_thr : F;
    m_fv : option (list (option eos)); m_sv : option (list (option vfit)); m_cv : option (list (option vfit)) }.
  (** [max(volumes)] *)
  Definition py_max (l : list F) : res F :=
    match l with
    | [] => Err ValueError
    | x :: t => Ok (fold_left (fun m y => if nltb m y then y else m) t x)
    end.
  Definition new_models (volumes temps : list F) : res models :=
    do m <- py_max volumes; Ok (mk_models temps (m * factor) None None None).
  Definition item {X} (l : list X) (i : nat) : res X := some IndexError (nth_error l i).
  (** [extract] (L30-35) *)
  Definition extract_one {X} (l : option (list (option X))) (i : nat) : res (option X) :=
    match l with None => Ok None | Some l' => item l' i end.
  Definition extract (m : models) (i : nat) : res (option eos * option vfit * option vfit) :=
    do fv <- extract_one (m_fv m) i; do sv <- extract_one (m_sv m) i; do cv <- extract_one (m_cv m) i;
    Ok (fv, sv, cv).
  (** [_check_errors] (L37-47): the equation of state that may be used *)
  Definition usable (m : models) (i : nat) : res (option eos) :=
    match m_fv m with
    | None => Err RuntimeError
    | Some l =>
        do e <- item l i;
        match e with
        | None => Ok None
        | Some e =>
            if nltb (m_thr m) (e_v0 e) then Ok None
            else if nltb (b0 e / gpa) bm_thr then Ok None
            else Ok (Some e)
        end
    end.
  Definition eval_eq_free_energy (m : models) (i : nat) : res (option F) :=
    do e <- usable m i; Ok (option_map e_e0 e).
  (** [eval_eq_entropy] and [eval_eq_cv] (L56-80) *)
  Definition eval_eq (m : models) (fits : option (list (option vfit))) (i : nat) : res (option F) :=
    do e <- usable m i;
    match e with
    | None => Ok None
    | Some e =>
        match fits with
        | None => Err RuntimeError
        | Some l => do f <- item l i; Ok (option_map (fun f => f_eval f (e_v0 e)) f)
        end
    end.
  Definition eval_eq_entropy (m : models) (i : nat) : res (option F) := eval_eq m (m_sv m) i.
  Definition eval_eq_cv (m : models) (i : nat) : res (option F) := eval_eq m (m_cv m) i.
  (** [eval_eq_cp] (L82-106); every exception of the second part is turned into None *)
  Definition cp_add (m : models) (i : nat) : res (option F) :=
    do (fvsv, _) <- extract m i;
    let '(fv, sv) := fvsv in
    do e <- some AttributeError fv;
    do s <- some AttributeError sv;
    let s_deriv := f_deriv s (e_v0 e) in
    do temp <- item (m_temps m) i;
    let bm := b0 e / gpa in
    if nltb bm bm_thr then Ok None
    else if nltb (m_thr m) (e_v0 e) then Ok None
    else Ok (Some (temp * e_v0 e * (s_deriv * s_deriv) / bm * jmol)).
  Definition eval_eq_cp (m : models) (i : nat) : res (option F) :=
    do cv <- eval_eq_cv m i;
    match cv with
    | None => Ok None
    | Some cv =>
        match cp_add m i with
        | Ok (Some add) => Ok (Some (cv + add))
        | Ok None => Ok None
        | Err _ => Ok None
        end
    end.
  (** [eval_helmholtz_free_energies], [eval_entropies], [eval_heat_capacities] (L108-153): a row for every
      temperature (before the transposition) *)
  Definition eval_rows {X} (ev : X -> F -> F) (fits : option (list (option X))) (volumes : list F) : res (list (list F)) :=
    match fits with
    | None => Err RuntimeError
    | Some l => mapM (fun f => do f <- some AttributeError f; Ok (map (ev f) volumes)) l
    end.
  Definition eval_helmholtz (m : models) (volumes : list F) : res (list (list F)) := eval_rows e_eval (m_fv m) volumes.
  (** [eval_gibbs_free_energies] (L155-167) *)
  Definition eval_gibbs (m : models) (volumes : list F) : res (list (list (F * F))) :=
    match m_fv m with
    | None => Err RuntimeError
    | Some l => mapM (fun f => do f <- some AttributeError f; Ok (eval_gibbs_pressure f volumes)) l
    end.

  (** ** Thermodynamics (api_thermodynamics.py L29-127) *)
  (** A member of an array of objects: a number, NaN, or None *)
  Inductive cell := CNum (x : F) | CNan | CNone.
  Definition of_option (o : option F) : cell := match o with Some x => CNum x | None => CNone end.
  Definition eval_entropy_equilibrium (m : models) : res (list cell) :=
    mapM (fun i => do s <- eval_eq_entropy m i; Ok (of_option s)) (seq 0 (length (m_temps m))).
  Definition eval_cp_equilibrium (m : models) : res (list cell) :=
    mapM (fun i => do s <- eval_eq_cp m i; Ok (of_option s)) (seq 0 (length (m_temps m))).
  (** Difference of two members *)
  Definition cell_sub (a b : cell) : res (option F) :=
    match a, b with
    | CNone, _ => Err TypeError
    | _, CNone => Err TypeError
    | CNum x, CNum y => Ok (Some (x - y))
    | _, _ => Ok None
    end.
  (** [np.isclose(x, 0.0)] *)
  Definition near_zero (x : F) : bool := negb (nltb atol (nabs x)).
  (** L91-108; the array has one member for every temperature and begins with zeros *)
  Definition cp_inner (temps : list F) (s : list cell) (i : nat) : res cell :=
    do s1 <- item s (i + 1)%nat; do s0 <- item s (i - 1)%nat;
    do dS <- cell_sub s1 s0;
    do t1 <- item temps (i + 1)%nat; do t0 <- item temps (i - 1)%nat;
    do t <- item temps i;
    Ok (match dS with Some dS => CNum (dS / (t1 - t0) * t * jmol) | None => CNan end).
  Definition eval_cp_numerical (temps : list F) (entropies : option (list cell)) : res (list cell) :=
    match entropies with
    | None => Err RuntimeError
    | Some s =>
        let n := length temps in
        do inner <- mapM (cp_inner temps s) (seq 1 (n - 2)%nat);
        match temps with
        | [] => Err IndexError
        | [_] => Ok [CNan]
        | t0 :: _ => Ok ((if near_zero t0 then CNum 0 else CNan) :: inner ++ [CNan])
        end
    end.
  (** [ThermodynamicsData._run_standard] after the fits (L240-247) *)
  Definition run_standard (m : models) : res (list cell * list cell) :=
    do s <- eval_entropy_equilibrium m;
    do c <- eval_cp_numerical (m_temps m) (Some s);
    Ok (s, c).
  (** [Thermodynamics.eval_heat_capacities] (L174-186): the attribute [_is_heat_capacity] is never set *)
  Definition api_eval_heat_capacities (m : models) (volumes : list F) : res (list (list F)) := Err AttributeError.

  (** ** The file (thermodynamics_io.py) *)
  Record record_ := mk_record {
    r_temp : F; r_eos : option (F * F * F);   (** volume, bulk modulus, free energy: absent without a fit *)
    r_entropy : cell; r_cp : cell }.
  Record file := mk_file {
    y_records : list record_;
    y_volumes : list F; y_data : list (F * list (option F));            (** None is printed as the word None *)
    y_fit_volumes : list F; y_fit : list (F * list F);
    y_gibbs : list (F * (list F * list F)) }.
  (** [volumes_tofit] (L76-78) *)
  Variable tofit : list F -> list F.
  Definition cell_at (l : option (list cell)) (i : nat) : res cell :=
    match l with None => Ok CNone | Some l' => item l' i end.
  Definition scale (x : cell) (a : F) : cell := match x with CNum x => CNum (x * a) | y => y end.
  Definition save_record (m : models) (s c : option (list cell)) (q : nat * F) : res record_ :=
    let '(i, temp) := q in
    do (fvsv, _) <- extract m i;
    do s' <- cell_at s i; do c' <- cell_at c i;
    Ok (mk_record temp (option_map (fun e => (e_v0 e, b0 e, e_e0 e)) (fst fvsv)) (scale s' jmol) c').
  (** [free_energies]: one list over volumes for every temperature *)
  Definition save (volumes temps : list F) (m : models) (s c : option (list cell)) (free_energies : list (list (option F)))
      : res file :=
    do recs <- mapM (save_record m s c) (enumerate temps);
    do data <- mapM (fun q => do l <- item free_energies (fst q); Ok (snd q, l)) (enumerate temps);
    do _ <- py_max volumes;
    let vs := tofit volumes in
    do rows <- eval_helmholtz m vs;
    do fit <- mapM (fun q => do l <- item rows (fst q); Ok (snd q, l)) (enumerate temps);
    do gs <- eval_gibbs m vs;
    do gibbs <- mapM (fun q => do l <- item gs (fst q); Ok (snd q, (map fst l, map snd l))) (enumerate temps);
    Ok (mk_file recs volumes data vs fit gibbs).

  (** [float]: the word None is refused, nan is read *)
  Definition as_float (x : cell) : res cell := match x with CNone => Err ValueError | y => Ok y end.
  Record props := mk_props {
    t_temps : list F; t_volumes : list F; t_bm : list F; t_helmholtz : list F;
    t_entropy : list cell; t_cp : list cell;
    t_data : list (list (F * F)); t_fit : list (list (F * F)); t_gibbs : list (list (F * F)) }.
  Definition keep (q : F * option F) : list (F * F) := match snd q with Some f => [(fst q, f)] | None => [] end.
  Definition load (y : file) : res props :=
    do _ <- (match y_records y with [] => Err TypeError | _ => Ok tt end);
    let temps := map r_temp (y_records y) in
    do es <- mapM (fun r => some KeyError (r_eos r)) (y_records y);
    do ss <- mapM (fun r => as_float (r_entropy r)) (y_records y);
    do cs <- mapM (fun r => as_float (r_cp r)) (y_records y);
    Ok (mk_props temps (map (fun e => fst (fst e)) es) (map (fun e => snd (fst e)) es) (map snd es) ss cs
          (map (fun d => flat_map keep (combine (y_volumes y) (snd d))) (y_data y))
          (map (fun d => combine (y_fit_volumes y) (snd d)) (y_fit y))
          (map (fun d => combine (fst (snd d)) (snd (snd d))) (y_gibbs y))).
  (** [get_T_F] (L27-29) *)
  Definition get_T_F (p : props) : list (F * F) := combine (t_temps p) (t_helmholtz p).
End Equilibrium.
