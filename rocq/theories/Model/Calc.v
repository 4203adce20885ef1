(** The calculator object PypolymlpCalc over histories of calls, several of them sharing one potential.

    /repo/src/pypolymlp/api/pypolymlp_calc.py L27-70 (__init__), L72-119 (loading), L131-154 (eval), L216-238 (elastic), L244-290 (EOS),
    L296-363 (phonon), L370-423 (QHA), L430-515 (geometry optimization), L517-599 (force constants), L605-663 (formation
    energies), L665-847 (properties);
    /repo/src/pypolymlp/calculator/properties.py L19-70 (__init__, eval, eval_multiple), L150-172 (values), L174-202
    (initialize_polymlp_calculator).

    Simplifications: what a calculation does with the potential is any program that asks for values of structures and goes on
    with the answer or the exception ([prog]); its other inputs are one argument; objects of a calculation are kept with the
    result of their last run that succeeded; features, files and printing are left out. *)
From Verif Require Import Base.

Section Calc.
  Variables (St V Arg Ob Res : Type).
  Variable eval : list St -> res (list V).             (** the potential *)
  Variable final : Res -> St.                          (** structure of a geometry optimization *)

  Inductive prog (A : Type) := Ret (r : res A) | Ask (sts : list St) (k : res (list V) -> prog A).
  Definition record := option (list St * list V).      (** [_structures], [_e], [_f], [_s] of Properties *)
  (** [Properties.eval_multiple]: nothing is recorded if it raises *)
  Definition ask (sts : list St) (m : record) : record * res (list V) :=
    match eval sts with Ok vs => (Some (sts, vs), Ok vs) | Err e => (m, Err e) end.
  Fixpoint exec {A} (p : prog A) (m : record) : record * res A :=
    match p with
    | Ret _ r => (m, r)
    | Ask _ sts k => let '(m', a) := ask sts m in exec (k a) m'
    end.

  Inductive at_once := Elastic | EOS | QHA.                        (** made and run by one call *)
  Inductive in_steps := Phonon | Geometry | FC | Formation.        (** made by one call, run by others *)
  Inductive kind := Once (k : at_once) | Steps (k : in_steps).
  Definition kind_eqb (a b : kind) : bool :=
    match a, b with
    | Once Elastic, Once Elastic | Once EOS, Once EOS | Once QHA, Once QHA => true
    | Steps Phonon, Steps Phonon | Steps Geometry, Steps Geometry | Steps FC, Steps FC | Steps Formation, Steps Formation => true
    | _, _ => false
    end.
  Variable make : kind -> Arg -> option St -> prog Ob.             (** constructors *)
  Variable blank : Ob.                                              (** formation energies without end members *)
  Variable work : kind -> Arg -> Ob -> option (list St) -> prog Res.   (** runs *)

  Record calc := mk_calc { k_structures : option (list St); k_unitcell : option St; k_object : kind -> option (Ob * option Res) }.
  Definition new_calc : calc := mk_calc None None (fun _ => None).
  Definition with_structures (c : calc) l := mk_calc (Some l) (k_unitcell c) (k_object c).
  Definition with_unitcell (c : calc) u := mk_calc (k_structures c) u (k_object c).
  Definition with_object (c : calc) (k : kind) o := mk_calc (k_structures c) (k_unitcell c) (fun k' => if kind_eqb k' k then o else k_object c k').

  (** The argument [structures], and the setter (L724-734): anything else than a structure or a list is refused *)
  Inductive given := One (s : St) | Many (l : list St) | Other.
  Definition set_structures (g : given) (c : calc) : res calc :=
    match g with One s => Ok (with_structures c [s]) | Many l => Ok (with_structures c l) | Other => Err RuntimeError end.
  Definition set_optional (g : option given) (c : calc) : res calc := match g with None => Ok c | Some g => set_structures g c end.
  (** [first_structure] (L712-717) *)
  Definition first_structure (c : calc) : res (option St) :=
    match k_structures c with None => Ok None | Some [] => Err IndexError | Some (x :: _) => Ok (Some x) end.

  Inductive out := Nothing | Values (vs : list V) | Result (r : Res).
  Definition world := (record * calc)%type.
  (** [eval] (L131-147); [None] cannot be iterated *)
  Definition eval_calc (g : option given) (w : world) : world * res out :=
    let '(m, c) := w in
    match set_optional g c with
    | Err e => (w, Err e)
    | Ok c => match k_structures c with
              | None => ((m, c), Err TypeError)
              | Some l => let '(m', r) := ask l m in ((m', c), do vs <- r; Ok (Values vs))
              end
    end.
  (** A new object for the first structure, which becomes the unit cell except for geometry optimizations *)
  Definition create (k : kind) (a : Arg) (cell : bool) (g : option given) (w : world) : world * res Ob :=
    let '(m, c) := w in
    match set_optional g c with
    | Err e => (w, Err e)
    | Ok c =>
        match first_structure c with
        | Err e => ((m, c), Err e)
        | Ok u =>
            let c := if cell then with_unitcell c u else c in
            let '(m, r) := exec (make k a u) m in
            match r with
            | Ok o => ((m, with_object c k (Some (o, None))), Ok o)
            | Err e => ((m, c), Err e)
            end
        end
    end.
  Definition perform (k : kind) (a : Arg) (o : Ob) (w : world) : world * res out :=
    let '(m, c) := w in
    let '(m, r) := exec (work k a o (k_structures c)) m in
    match r with
    | Ok x => ((m, with_object c k (Some (o, Some x))), Ok (Result x))
    | Err e => ((m, c), Err e)
    end.
  Definition compute (k : at_once) (a : Arg) (g : option given) (w : world) : world * res out :=
    match create (Once k) a true g w with
    | (w, Err e) => (w, Err e)
    | (w, Ok o) => perform (Once k) a o w
    end.
  Definition quiet {A} (q : world * res A) : world * res out := (fst q, do _ <- snd q; Ok Nothing).
  Definition init (k : in_steps) (a : Arg) (g : option given) (w : world) : world * res out :=
    match k with
    | Phonon | FC => quiet (create (Steps k) a true g w)
    | Geometry =>
        match create (Steps k) a false g w with
        | (w', Err ValueError) =>
            (** raised by the constructor, or by nothing else: the setter and the first structure raise other exceptions *)
            ((fst w', with_object (snd w') (Steps k) None), Ok Nothing)
        | q => quiet q
        end
    | Formation =>
        let '(m, c) := w in
        let '(m, r) := exec (make (Steps k) a None) m in
        match r with
        | Ok o => ((m, with_object c (Steps k) (Some (o, None))), Ok Nothing)
        | Err e => ((m, with_object c (Steps k) (Some (blank, None))), Err e)      (** assigned before the end members are defined *)
        end
    end.
  Definition run (k : in_steps) (a : Arg) (g : option given) (w : world) : world * res out :=
    match k_object (snd w) (Steps k) with
    | None => match k with Geometry => (w, Ok Nothing) | _ => (w, Err RuntimeError) end
    | Some (o, _) =>
        match k with
        | Phonon | FC => perform (Steps k) a o w
        | Formation => match set_optional g (snd w) with Err e => (w, Err e) | Ok c => perform (Steps k) a o (fst w, c) end
        | Geometry =>
            match perform (Steps k) a o w with
            | ((m, c), Ok (Result x)) => ((m, with_structures c [final x]), Ok (Result x))
            | q => q
            end
        end
    end.

  Inductive op :=
    | Set_ (g : given) | Load (r : res (list St)) | Eval (g : option given)
    | Compute (k : at_once) (a : Arg) (g : option given) | Init (k : in_steps) (a : Arg) (g : option given) | Run (k : in_steps) (a : Arg) (g : option given).
  Definition step1 (w : world) (o : op) : world * res out :=
    match o with
    | Set_ g => match set_structures g (snd w) with Ok c => ((fst w, c), Ok Nothing) | Err e => (w, Err e) end
    | Load r => match r with Ok l => ((fst w, with_structures (snd w) l), Ok Nothing) | Err e => (w, Err e) end
    | Eval g => eval_calc g w
    | Compute k a g => compute k a g w
    | Init k a g => init k a g w
    | Run k a g => run k a g w
    end.

  (** Several calculators made with [properties=prop] share the record. *)
  Record shared := mk_shared { w_record : record; w_calc : nat -> calc }.
  Definition start : shared := mk_shared None (fun _ => new_calc).
  Definition step (w : shared) (i : nat) (o : op) : shared * res out :=
    let '((m, c), r) := step1 (w_record w, w_calc w i) o in
    (mk_shared m (fun j => if j =? i then c else w_calc w j), r).
  Definition history (ops : list (nat * op)) : shared := fold_left (fun w q => fst (step w (fst q) (snd q))) ops start.

  (** Attributes (L675-705, L751-847): [None] where the object or its result is missing *)
  Definition values (w : shared) : option (list V) := option_map snd (w_record w).
  Definition result (w : shared) (i : nat) (k : kind) : option Res := match k_object (w_calc w i) k with Some (_, r) => r | None => None end.
End Calc.

(** ** Which calculator is made (properties.py L19-58, L170-202) *)
Section Choose.
  Variables (Pot Params Coeffs Props : Type).
  Inductive pots := Single_pot (p : Pot) | Several_pots (l : list Pot).
  Inductive made := Given (p : Props) | Missing | From_pot (p : Pot) | From_pots (l : list Pot)
    | From_params (p : list Params) (c : list Coeffs) | From_params1 (p : Params) (c : Coeffs) | From_params_hybrid (p : list Params) (c : list Coeffs).
  Definition properties_init (pot : option pots) (params : option (list Params)) (coeffs : option (list Coeffs)) : res made :=
    match pot with
    | Some (Single_pot p) => Ok (From_pot p)
    | Some (Several_pots l) =>
        if 1 <? length l then Ok (From_pots l) else match l with p :: _ => Ok (From_pot p) | [] => Err IndexError end
    | None =>
        match params with
        | None => Err TypeError
        | Some ps =>
            match coeffs with
            | None => Err TypeError
            | Some cs =>
                if length ps =? 1 then
                  match ps, cs with [p], [c] => Ok (From_params1 p c) | _, _ => Ok (From_params ps cs) end
                else if negb (length ps =? length cs) then Err RuntimeError else Ok (From_params_hybrid ps cs)
            end
        end
    end.
  Definition initialize (pot : option pots) (params : option (list Params)) (coeffs : option (list Coeffs)) (properties : option Props) (return_none : bool) : res made :=
    match properties, pot, params, coeffs with
    | None, None, None, None => if return_none then Ok Missing else Err RuntimeError
    | Some p, _, _, _ => Ok (Given p)
    | None, _, Some ps, None => Err RuntimeError
    | None, _, Some ps, Some cs => if (1 <? length ps) && negb (length ps =? length cs) then Err RuntimeError else properties_init pot params coeffs
    | None, _, None, _ => properties_init pot params coeffs
    end.
End Choose.
