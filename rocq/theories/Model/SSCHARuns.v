(** Self-consistent harmonic calculations: parameters, the runs over temperatures, and the objects that start them.

    /repo/src/pypolymlp/calculator/sscha/sscha_params.py L15-185 (construction, temperatures, numbers of samples), L222-256, L282-295 (setters);
    /repo/src/pypolymlp/calculator/sscha/api_sscha.py L13-172;
    /repo/src/pypolymlp/calculator/sscha/sscha_core.py L75-84 (_set_num_samples), L105-138 (set_initial_force_constants), L383-396 (save_results);
    /repo/src/pypolymlp/calculator/sscha/api_properties.py L19-46, L79-119, L187-197 (PropertiesSSCHA);
    /repo/src/pypolymlp/calculator/sscha/sscha_utils.py (symmetrize_properties);
    /repo/src/pypolymlp/api/pypolymlp_sscha.py L22-210, L265-315, L356-415.

    Simplifications: float64 is an arbitrary number type [F]; np.ceil, round, the Chebyshev nodes and the power 2.5 are functions of
    it; whether a temperature is held as int or float is left out; a supercell matrix is given as three numbers or as nine;
    [SSCHACore.run] and [SSCHACore.precondition] (Model/SSCHA.v) are functions of the potential, the parameters and the force constants, and of a state
    [W] that stands for the random numbers; sampling numbers that are None fail inside them; convergence scores are numbers;
    options handed over unchanged (mesh, mixing, max_iter, nac_params, use_mkl), printing and the content of the files are left out. *)
From Verif Require Import Base Num Model.Structure Model.Readers Model.Transition Model.EOS Model.PotentialFile.
From Coq Require Import Ascii String.

(** [Restart]: the file with the force constants (pypolymlp_sscha.py L88-91): "/".join(yaml.split("/")[:-1]) + "/fc2.hdf5" *)
Definition slash : ascii := "/"%char.
Fixpoint split_slash (t : text) : list text :=
  match t with
  | [] => [[]]
  | c :: t => if Ascii.eqb c slash then [] :: split_slash t else match split_slash t with w :: ws => (c :: w) :: ws | [] => [[c]] end
  end.
Fixpoint join_slash (l : list text) : text := match l with [] => [] | [a] => a | a :: t => a ++ slash :: join_slash t end.
Definition fc2_path (yaml : text) : text := join_slash (removelast (split_slash yaml)) ++ lit "/fc2.hdf5".

Section Params.
  Context {F : Type} {N : Num F} {NO : NumOrd F}.
  Local Open Scope num_scope.
  Variable ceil : F -> nat.
  Variable rnd : F -> Z.                            (** round, np.round *)
  Variable nodes : nat -> list F.                   (** np.cos(np.linspace(np.pi, 0, n)) *)
  Variable pow25 : F -> F.                          (** x ** 2.5 *)
  Definition nz (z : Z) : F := if (z <? 0)%Z then - nnat (Z.to_nat (- z)) else nnat (Z.to_nat z).
  Definition atol : F := frac 1 100 * frac 1 100 * (frac 1 100 * frac 1 100).
  Definition rtol : F := frac 1 100 * frac 1 1000.
  Definition isclose (a b : F) : bool := negb (nltb (atol + rtol * nabs b) (nabs (a - b))).
  Definition is_zero (a : F) : bool := negb (nltb a 0) && negb (nltb 0 a).
  (** [_round_temperature] (L99-103) *)
  Definition round_t (t : F) : F := let r := nz (rnd t) in if isclose t r then r else t.
  Record tset := mk_tset { t_temp : option F; t_min : F; t_max : F; t_step : F; t_n : option nat; t_asc : bool }.
  (** [set_temperatures] (L105-134) *)
  Definition temperatures (q : tset) : res (list F) :=
    match t_temp q with
    | Some t => Ok [round_t t]
    | None =>
        match t_n q with
        | Some n =>
            if isclose (t_max q) (t_min q) then Ok [round_t (t_max q)]
            else let dt := t_max q - t_min q in
                 Ok (map (fun c => round_t (nz (rnd (dt * (c + 1) / nnat 2 + t_min q)))) (nodes n))
        | None =>
            let lo := round_t (t_min q) in let hi := round_t (t_max q) in let st := round_t (t_step q) in
            if is_zero st then Err ZeroDivisionError
            else let l := arange ceil lo (hi + 1) st in Ok (if t_asc q then l else rev l)
        end
    end.
  (** Setter of [temperatures] (L286-295) *)
  Definition set_temps (l : list F) : list F := map round_t l.

  (** Setter of [supercell_matrix] (L237-256): the matrix, the number of unit cells and of atoms *)
  Inductive smat := Three (a b c : F) | Full (m : nat -> nat -> F).
  Definition matrix_of (s : smat) : nat -> nat -> F :=
    match s with
    | Three a b c => fun i j => if (i =? j)%nat then match i with O => a | 1%nat => b | _ => c end else 0
    | Full m => m
    end.
  Definition det3 (m : nat -> nat -> F) : F :=
    m 0%nat 0%nat * (m 1%nat 1%nat * m 2%nat 2%nat - m 1%nat 2%nat * m 2%nat 1%nat) - m 0%nat 1%nat * (m 1%nat 0%nat * m 2%nat 2%nat - m 1%nat 2%nat * m 2%nat 0%nat) + m 0%nat 2%nat * (m 1%nat 0%nat * m 2%nat 1%nat - m 1%nat 1%nat * m 2%nat 0%nat).
  Definition units_of (s : smat) : Z := rnd (det3 (matrix_of s)).

  (** [set_n_samples] (L136-155), which nothing calls: the first numbers decide whether the unit is bound *)
  Definition set_n_samples (n_atom : option Z) (init final : option Z) : res (Z * Z) :=
    match n_atom with
    | None => Err RuntimeError
    | Some n =>
        if (n =? 0)%Z then Err RuntimeError
        else
          let unit := rnd (nnat 64 * nnat 100 / nz n) in
          match init, final with
          | None, None => Ok (20 * unit, 60 * unit)%Z
          | None, Some f => Ok (20 * unit, f)%Z
          | Some i, None => Err UnboundLocalError
          | Some i, Some f => Ok (i, f)
          end
    end.
  (** [set_n_samples_from_basis] (L157-169) *)
  Definition samples_from_basis (n_atom : Z) (tol : F) (n_basis : nat) : res (Z * Z) :=
    if (n_atom =? 0)%Z then Err RuntimeError
    else if is_zero tol then Err ZeroDivisionError
    else let coeff := nnat 450 * pow25 (frac 1 100 / tol) in
         let init := rnd (coeff * nnat n_basis / nz n_atom) in
         Ok (init, 3 * init)%Z.

  (** ** Parameters and the core object *)
  Variables (St FC P W : Type).
  Variable atoms : St -> nat.                        (** len(structure.elements) *)
  Inductive algorithm := Harmonic | Const | Random | File | Other.
  Record params := mk_params {
    p_cell : St; p_matrix : nat -> nat -> F; p_units : Z; p_natom : Z; p_temps : list F;
    p_init : option Z; p_final : option Z; p_tol : F; p_alg : algorithm; p_fc2 : option FC; p_cutoff : option F }.
  Definition with_cell (p : params) c := mk_params c (p_matrix p) (p_units p) (p_natom p) (p_temps p) (p_init p) (p_final p) (p_tol p) (p_alg p) (p_fc2 p) (p_cutoff p).
  Definition with_temps (p : params) l := mk_params (p_cell p) (p_matrix p) (p_units p) (p_natom p) l (p_init p) (p_final p) (p_tol p) (p_alg p) (p_fc2 p) (p_cutoff p).
  Definition with_samples (p : params) i f := mk_params (p_cell p) (p_matrix p) (p_units p) (p_natom p) (p_temps p) i f (p_tol p) (p_alg p) (p_fc2 p) (p_cutoff p).
  Definition with_cutoff (p : params) c := mk_params (p_cell p) (p_matrix p) (p_units p) (p_natom p) (p_temps p) (p_init p) (p_final p) (p_tol p) (p_alg p) (p_fc2 p) c.
  (** [SSCHAParams.__init__] with a unit cell and a matrix *)
  Record settings := mk_settings { q_temps : tset; q_init : option Z; q_final : option Z; q_tol : F; q_alg : algorithm; q_cutoff : option F }.
  Definition new_params (cell : St) (m : smat) (fc2 : option FC) (q : settings) : res params :=
    do ts <- temperatures (q_temps q);
    let u := units_of m in
    Ok (mk_params cell (matrix_of m) u (Z.of_nat (atoms cell) * u) ts (q_init q) (q_final q) (q_tol q) (q_alg q) fc2 (q_cutoff q)).

  Variable basis : St -> (nat -> nat -> F) -> option F -> res nat.     (** Symfc: size of the basis set for a cutoff *)
  Variable initial : P -> params -> W -> W * res FC.                   (** force constants of the algorithm; it is not [Other] *)
  Variable core_run : P -> params -> F -> W -> FC -> W * res (FC * F). (** SSCHACore.run: force constants and convergence score *)
  Variable core_pre : P -> params -> F -> Z -> W -> FC -> W * res (FC * F).   (** SSCHACore.precondition with a number of samples *)
  Record core := mk_core { c_params : params; c_fc : FC; c_temp : option F }.
  (** [SSCHACore.__init__]: the parameters are changed in place *)
  Definition new_core (p : params) : params * res unit :=
    match basis (p_cell p) (p_matrix p) (p_cutoff p) with
    | Err e => (p, Err e)
    | Ok nb =>
        match p_init p with
        | Some _ => (p, Ok tt)
        | None => match samples_from_basis (p_natom p) (p_tol p) nb with
                  | Ok (i, f) => (with_samples p (Some i) (Some f), Ok tt)
                  | Err e => (p, Err e)
                  end
        end
    end.
  (** [set_initial_force_constants] *)
  Definition initial_fc (pot : P) (p : params) (fc : option FC) (w : W) : W * res FC :=
    match fc with
    | Some fc => (w, Ok fc)
    | None => match p_alg p with Other => (w, Err RuntimeError) | _ => initial pot p w end
    end.
  (** [_run_precondition] (L123-152) *)
  Fixpoint pre_loop (fuel : nat) (pot : P) (p : params) (n : Z) (n_iter : Z) (delta : F) (w : W) (fc : FC) : W * res FC :=
    match fuel with
    | O => (w, Ok fc)
    | S fuel =>
        if nltb (p_tol p * nnat 5) delta then
          match p_temps p with
          | [] => (w, Err IndexError)
          | t :: _ =>
              match core_pre pot p t (n * n_iter)%Z w fc with
              | (w, Ok (fc, delta)) => pre_loop fuel pot p n (n_iter + 1)%Z delta w fc
              | (w, Err e) => (w, Err e)
              end
          end
        else (w, Ok fc)
    end.
  Definition first_samples (init : Z) : Z := Z.max (Z.min (init / 50) 100) 5.
  (** while delta > tol * 5 and n_iter < 20: at most 19 passes *)
  Definition precondition (pot : P) (p : params) (w : W) (fc : FC) : W * res FC :=
    match p_init p with
    | None => (w, Err TypeError)
    | Some i => pre_loop 19 pot p (first_samples i) 1 1 w fc
    end.
  (** [_run_target_sscha] (L155-172): what was saved, and the force constants *)
  Fixpoint run_target (pot : P) (p : params) (temps : list F) (w : W) (fc : FC) (last : option F) : W * list (F * FC) * res (FC * option F) :=
    match temps with
    | [] => (w, [], Ok (fc, last))
    | t :: temps =>
        match core_run pot p t w fc with
        | (w, Err e) => (w, [], Err e)
        | (w, Ok (fc, _)) => let '(w, saved, r) := run_target pot p temps w fc (Some t) in (w, (t, fc) :: saved, r)
        end
    end.
  Definition finish (pot : P) (p : params) (w : W) (fc : FC) (last : option F) : W * list (F * FC) * res core :=
    let '(w, saved, r) := run_target pot p (p_temps p) w fc last in
    (w, saved, do (fc, last) <- r; Ok (mk_core p fc last)).
  Definition pre_if (pre : bool) pot p w fc : W * res FC := if pre then precondition pot p w fc else (w, Ok fc).
  (** [run_sscha_standard] (L50-81); first: the parameters after the call *)
  Definition run_standard (pot : P) (pre : bool) (p : params) (w : W) : params * (W * list (F * FC) * res core) :=
    match new_core p with
    | (p, Err e) => (p, (w, [], Err e))
    | (p, Ok _) =>
        (p, match initial_fc pot p (p_fc2 p) w with
            | (w, Err e) => (w, [], Err e)
            | (w, Ok fc) =>
                match pre_if pre pot p w fc with
                | (w, Err e) => (w, [], Err e)
                | (w, Ok fc) => finish pot p w fc None
                end
            end)
    end.
  (** [run_sscha_large_system] (L84-120): the target is a copy made before anything *)
  Definition seven : F := nnat 7.
  Definition run_large (pot : P) (pre : bool) (p : params) (w : W) : params * (W * list (F * FC) * res core) :=
    let target := p in
    let rerun := match p_cutoff p with None => true | Some c => nltb seven c end in
    let p := if rerun then with_cutoff p (Some (nnat 6)) else p in
    match new_core p with
    | (p, Err e) => (p, (w, [], Err e))
    | (p, Ok _) =>
        match initial_fc pot p (p_fc2 p) w with
        | (w, Err e) => (p, (w, [], Err e))
        | (w, Ok fc) =>
            match pre_if pre pot p w fc with
            | (w, Err e) => (p, (w, [], Err e))
            | (w, Ok fc) =>
                if rerun then
                  match p_temps p with
                  | [] => (p, (w, [], Err IndexError))
                  | t :: _ =>
                      match core_run pot p t w fc with
                      | (w, Err e) => (p, (w, [], Err e))
                      | (w, Ok (fc, _)) =>
                          let p := with_cutoff p (p_cutoff target) in
                          match new_core target with
                          | (_, Err e) => (p, (w, [], Err e))
                          | (target, Ok _) => (p, finish pot target w fc None)
                          end
                      end
                  end
                else (p, finish pot p w fc None)
            end
        end
    end.
  Definition run_sscha (pot : P) (pre large : bool) := if large then run_large pot pre else run_standard pot pre.

  (** ** PropertiesSSCHA: evaluations that a driver (geometry optimisation, elastic constants) asks for *)
  Record props := mk_props { r_params : params; r_core : option core }.
  Definition eval_props (pot : P) (st : St) (r : props) (w : W) : props * W * list (F * FC) * res core :=
    match run_sscha pot true false (with_cell (r_params r) st) w with
    | (p, (w, saved, Ok c)) => (mk_props p (Some c), w, saved, Ok c)
    | (p, (w, saved, Err e)) => (mk_props p (r_core r), w, saved, Err e)
    end.
  Definition set_temp (t : F) (r : props) : props := mk_props (with_temps (r_params r) (set_temps [t])) (r_core r).
  (** What a driver does: it may look at the results; an exception ends it *)
  Inductive plan := Done | Eval (st : St) (k : core -> plan) | SetTemp (t : F) (k : plan).
  Fixpoint drive (pot : P) (d : plan) (r : props) (w : W) : props * W * list (F * FC) * res unit :=
    match d with
    | Done => (r, w, [], Ok tt)
    | Eval st k =>
        match eval_props pot st r w with
        | (r, w, saved, Err e) => (r, w, saved, Err e)
        | (r, w, saved, Ok c) => let '(r, w, more, x) := drive pot (k c) r w in (r, w, saved ++ more, x)
        end
    | SetTemp t k => drive pot k (set_temp t r) w
    end.

  (** ** PypolymlpSSCHA *)
  Record api := mk_api { o_cell : option St; o_matrix : option smat; o_prop : option P; o_fc2 : option FC; o_params : option params; o_core : option core }.
  Definition new_api : api := mk_api None None None None None None.
  Inductive op :=
    | LoadPoscar (st : res St) (m : smat)
    | SetPolymlp (pot : res P)
    | LoadRestart (r : res (St * smat * option FC)) (pot : option (res P))     (** None: parse_mlp = False *)
    | SetCell (st : option St) | SetMatrix (m : option smat)
    | Run (q : settings) (pre large : bool)
    | Geometry (q : settings) (d : plan)
    | Elastic (q : settings) (d : plan).
  Definition prepared (s : api) (q : settings) : res (P * params) :=
    match o_prop s with
    | None => Err RuntimeError
    | Some pot =>
        match o_cell s, o_matrix s with
        | None, _ => Err RuntimeError
        | Some _, None => Err RuntimeError
        | Some c, Some m => do p <- new_params c m (o_fc2 s) q; Ok (pot, p)
        end
    end.
  Definition step (s : api) (w : W) (o : op) : api * W * list (F * FC) * res unit :=
    match o with
    | LoadPoscar (Err e) _ => (s, w, [], Err e)
    | LoadPoscar (Ok c) m => (mk_api (Some c) (Some m) (o_prop s) (o_fc2 s) (o_params s) (o_core s), w, [], Ok tt)
    | SetPolymlp (Err e) => (s, w, [], Err e)
    | SetPolymlp (Ok pot) => (mk_api (o_cell s) (o_matrix s) (Some pot) (o_fc2 s) (o_params s) (o_core s), w, [], Ok tt)
    | LoadRestart (Err e) _ => (s, w, [], Err e)
    | LoadRestart (Ok (c, m, fc)) pot =>
        match pot with
        | None => (mk_api (Some c) (Some m) (o_prop s) fc (o_params s) (o_core s), w, [], Ok tt)
        | Some (Ok pot) => (mk_api (Some c) (Some m) (Some pot) fc (o_params s) (o_core s), w, [], Ok tt)
        | Some (Err e) => (mk_api (Some c) (Some m) (o_prop s) (o_fc2 s) (o_params s) (o_core s), w, [], Err e)
        end
    | SetCell c => (mk_api c (o_matrix s) (o_prop s) (o_fc2 s) (o_params s) (o_core s), w, [], Ok tt)
    | SetMatrix m => (mk_api (o_cell s) m (o_prop s) (o_fc2 s) (o_params s) (o_core s), w, [], Ok tt)
    | Run q pre large =>
        match prepared s q with
        | Err e => (s, w, [], Err e)
        | Ok (pot, p) =>
            match run_sscha pot pre large p w with
            | (p, (w, saved, Ok c)) => (mk_api (o_cell s) (o_matrix s) (o_prop s) (Some (c_fc c)) (Some p) (Some c), w, saved, Ok tt)
            | (p, (w, saved, Err e)) => (mk_api (o_cell s) (o_matrix s) (o_prop s) (o_fc2 s) (Some p) (o_core s), w, saved, Err e)
            end
        end
    | Geometry q d =>
        match prepared s q with
        | Err e => (s, w, [], Err e)
        | Ok (pot, p) =>
            match p_temps p with
            | [] => (mk_api (o_cell s) (o_matrix s) (o_prop s) (o_fc2 s) (Some p) (o_core s), w, [], Err IndexError)
            | _ =>
                match drive pot d (mk_props p None) w with
                | (r, w, saved, Ok _) => (mk_api (o_cell s) (o_matrix s) (o_prop s) (option_map c_fc (r_core r)) (Some (r_params r)) (o_core s), w, saved, Ok tt)
                | (r, w, saved, Err e) => (mk_api (o_cell s) (o_matrix s) (o_prop s) (o_fc2 s) (Some (r_params r)) (o_core s), w, saved, Err e)
                end
            end
        end
    | Elastic q d =>
        match prepared s q with
        | Err e => (s, w, [], Err e)
        | Ok (pot, p) =>
            match p_temps p with
            | [] => (mk_api (o_cell s) (o_matrix s) (o_prop s) (o_fc2 s) (Some p) (o_core s), w, [], Err IndexError)
            | _ => let '(r, w, saved, x) := drive pot d (mk_props p None) w in
                   (mk_api (o_cell s) (o_matrix s) (o_prop s) (o_fc2 s) (Some (r_params r)) (o_core s), w, saved, x)
            end
        end
    end.
  (** A history; a caller may go on after an exception *)
  Definition history (s : api) (w : W) (ops : list op) : api * W := fold_left (fun x o => let '(s', w', _, _) := step (fst x) (snd x) o in (s', w')) ops (s, w).
End Params.

(** [symmetrize_properties] (sscha_utils.py): the stress as 9 numbers and back, forces of every n-th atom; the projections are functions *)
Section Symmetrize.
  Context {F : Type}.
  Definition to_nine (s : nat -> F) : nat -> F := fun k => s (nth k [0; 3; 5; 3; 1; 4; 5; 4; 2]%nat 0%nat).
  Definition to_six (s : nat -> F) : nat -> F := fun k => s (nth k [0; 4; 8; 1; 5; 6]%nat 0%nat).
  Definition symmetrize_stress (proj : (nat -> F) -> nat -> F) (s : nat -> F) : nat -> F := to_six (proj (to_nine s)).
  (** forces[:, np.arange(n_atom) % n_unitcells == 0] *)
  Definition representatives (n_atom n_units : nat) : list nat := filter (fun i => (i mod n_units =? 0)%nat) (seq 0 n_atom).
  Definition symmetrize_forces (n_atom n_units : nat) (proj : (nat -> nat -> F) -> nat -> nat -> F) (f : nat -> nat -> F) : list (nat -> F) :=
    map (fun j i => proj f i j) (representatives n_atom n_units).
End Symmetrize.
