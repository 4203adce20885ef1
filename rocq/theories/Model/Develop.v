(** The object for developing potentials.

    /repo/src/pypolymlp/mlp_dev/pypolymlp.py L34-837, /repo/src/pypolymlp/mlp_dev/core/dataclass.py L12-66,
    /repo/src/pypolymlp/core/io_polymlp.py L26-51, /repo/src/pypolymlp/calculator/properties.py L45-58.

    The object holds references: [_params], and the [params] of the fitted model, which is the object that was current
    when it was fitted (get_best_model, utils_model_selection.py L91-117).  Parameter objects live in a heap and are
    those of Model/ParamFlags.

    Simplifications: reading data, regression, errors, learning curves and parsers are oracles; arguments of
    [set_params] are objects of its own, not shared with those given before; [verbose] and printing are left out. *)
From Verif Require Import Base Model.Structure Model.Properties Model.HybridTypes Model.ParamFlags.

Section Develop.
  Context {Data Coef Errors Log : Type}.
  (** Requests of data (files, structures and the numbers beside them), kinds of regression and their options *)
  Context {Request Method : Type}.
  Variable build : Request -> state -> res (Data * Data).
  Variable reg : Method -> state -> Data -> Data -> res Coef.
  Variable curve : state -> Data -> Data -> res Log.
  Variable errors : state -> Coef -> Data -> res Errors.
  Variable n_feat : state -> nat.
  (** Number of coefficients; number of entries of [cumulative_n_features], None for single models *)
  Variable size : Coef -> nat.
  Variable cumul : Coef -> option nat.

  Record model := mk_model { m_obj : nat; m_coef : Coef; m_parts : nat;        (** len(scaled_coeffs) *)
                             m_cumul : option nat;                              (** len(cumulative_n_features) *)
                             m_train : option Errors; m_test : option Errors }.  (** attributes that do not exist at first *)
  Record api := mk_api { heap : list state; params : option nat; train : option Data; test : option Data; mlp : option model; log : option Log }.
  Definition init : api := mk_api [] None None None None None.

  Inductive call :=
  | LoadFile (r : res (state * Data * Data))            (** what the parser gives *)
  | SetParams (r : res (list flags))                    (** given, or made by set_all_params *)
  | AppendParams (r : res flags)
  | SetFiles (t : dtype) (q : Request)                  (** set_datasets_electron, _sscha, _vasp, _phono3py, _property_yamls, set_multiple_datasets_vasp *)
  | SetAuto (forces stresses : bool) (q : Request)      (** are they given? *)
  | SetStructures (forces1 stresses1 forces2 stresses2 : bool) (q : Request)
  | SetDisps (shapes : res unit) (q : Request)
  | Fit (m : Method)                                    (** fit, fit_standard, fit_cg *)
  | FitSgd
  | Estimate
  | Run (m : Method)
  | Curve
  | SaveCurve
  | SaveMlp
  | LoadMlp (r : option (res (flags * Coef)))           (** None: a list of files *)
  | SaveParams
  | SaveErrors
  | NFeatures.
  Inductive out := Done | SavedCurve (l : Log) | SavedMlp (p : state) (c : Coef) | SavedParams (p : state) | SavedErrors (e1 e2 : Errors) | Number (n : nat).

  Definition obj (s : api) (i : nat) : option state := nth_error (heap s) i.
  Definition cur (s : api) : option state := match params s with Some i => obj s i | None => None end.
  Definition with_obj (s : api) (i : nat) (p : state) : api := mk_api (set_nth (heap s) i p) (params s) (train s) (test s) (mlp s) (log s).
  Definition new_obj (s : api) (p : state) : api := mk_api (heap s ++ [p]) (Some (length (heap s))) (train s) (test s) (mlp s) (log s).
  Definition with_data (s : api) (d : Data * Data) : api := mk_api (heap s) (params s) (Some (fst d)) (Some (snd d)) (mlp s) (log s).
  Definition with_model (s : api) (m : model) : api := mk_api (heap s) (params s) (train s) (test s) (Some m) (log s).
  Definition with_log (s : api) (l : Log) : api := mk_api (heap s) (params s) (train s) (test s) (mlp s) (Some l).

  (** A statement on the current parameters that may raise *)
  Definition on_params (s : api) (f : state -> state * option exn) (k : api -> api * res out) : api * res out :=
    match params s with
    | None => (s, Err AttributeError)
    | Some i => match obj s i with
                | None => (s, Err AttributeError)
                | Some p => match f p with (p', None) => k (with_obj s i p') | (p', Some e) => (with_obj s i p', Err e) end
                end
    end.
  (** [_is_params_none], [_is_data_none] (L252-262) *)
  Definition need_params (s : api) (k : state -> api * res out) : api * res out :=
    match cur s with None => (s, Err RuntimeError) | Some p => k p end.
  Definition need_data (s : api) (k : Data -> Data -> api * res out) : api * res out :=
    match train s, test s with Some a, Some b => k a b | _, _ => (s, Err RuntimeError) end.
  Definition get_data (s : api) (q : Request) : api * res out :=
    match cur s with
    | None => (s, Err AttributeError)
    | Some p => match build q p with Ok d => (with_data s d, Ok Done) | Err e => (s, Err e) end
    end.
  (** [_disable_derivative_flags] (L264-271) *)
  Definition disable (forces stresses : bool) (p : state) : state * option exn :=
    andthen (if forces then (p, None) else andthen (set_force false p) (set_stress false))
            (fun p => if stresses then (p, None) else set_stress false p).
  Definition parts_of (p : state) (c : Coef) : nat := match cumul c with None => size c | Some _ => length (subs p) end.
  (** [fit], [fit_standard], [fit_cg] (L555-629) *)
  Definition fit_ (m : Method) (s : api) : api * res out :=
    need_params s (fun p => need_data s (fun a b =>
      match reg m p a b, params s with
      | Ok c, Some i => (with_model s (mk_model i c (parts_of p c) (cumul c) None None), Ok Done)
      | Ok _, None => (s, Err RuntimeError)
      | Err e, _ => (s, Err e)
      end)).
  (** [estimate_error] (L650-679); Properties refuses lists of different length *)
  Definition errs_opt (p : state) (c : Coef) (d : option Data) : res Errors := match d with None => Err TypeError | Some d => errors p c d end.
  Definition estimate (s : api) : api * res out :=
    match mlp s with
    | None => (s, Err RuntimeError)
    | Some m =>
        match obj s (m_obj m) with
        | None => (s, Err AttributeError)
        | Some p =>
            if negb (length (subs p) =? 1) && negb (length (subs p) =? m_parts m) then (s, Err RuntimeError) else
            match errs_opt p (m_coef m) (train s) with
            | Err e => (s, Err e)
            | Ok e1 =>
                let s1 := with_model s (mk_model (m_obj m) (m_coef m) (m_parts m) (m_cumul m) (Some e1) (m_test m)) in
                match errs_opt p (m_coef m) (test s) with
                | Err e => (s1, Err e)
                | Ok e2 => (with_model s (mk_model (m_obj m) (m_coef m) (m_parts m) (m_cumul m) (Some e1) (Some e2)), Ok Done)
                end
            end
        end
    end.
  (** [save_mlps] (io_polymlp.py L26-51) *)
  Definition saved (p : state) (c : Coef) (cumulative : option nat) : res out :=
    if length (subs p) <=? 1 then Ok (SavedMlp p c) else
    match cumulative with
    | None => Err TypeError
    | Some k => if length (subs p) <=? k then Ok (SavedMlp p c) else Err IndexError
    end.

  Definition step (o : call) (s : api) : api * res out :=
    match o with
    | LoadFile (Err e) => (s, Err e)
    | LoadFile (Ok (p, a, b)) => (with_data (new_obj s p) (a, b), Ok Done)
    | SetParams (Err e) => (s, Err e)
    | SetParams (Ok l) => match construct l with Ok p => (new_obj s p, Ok Done) | Err e => (s, Err e) end
    | AppendParams (Err e) => (s, Err e)
    | AppendParams (Ok f) => on_params s (ParamFlags.step (Append f)) (fun s => (s, Ok Done))
    | SetFiles t q => need_params s (fun _ => on_params s (set_type t) (fun s => get_data s q))
    | SetAuto f st q => need_params s (fun _ => on_params s (disable f st) (fun s => get_data s q))
    | SetStructures f1 s1 f2 s2 q => need_params s (fun _ => on_params s (fun p => andthen (disable f1 s1 p) (disable f2 s2)) (fun s => get_data s q))
    | SetDisps sh q => need_params s (fun _ => on_params s (set_stress false) (fun s =>
        match sh with Err e => (s, Err e) | Ok _ => on_params s (fun p => andthen (disable true false p) (disable true false)) (fun s => get_data s q) end))
    | Fit m => fit_ m s
    | FitSgd => (s, Err NotImplementedError)
    | Estimate => estimate s
    | Run m => match fit_ m s with (s', Ok _) => estimate s' | r => r end
    | Curve => need_params s (fun p => need_data s (fun a b => match curve p a b with Ok l => (with_log s l, Ok Done) | Err e => (s, Err e) end))
    | SaveCurve => (s, match log s with None => Err TypeError | Some l => Ok (SavedCurve l) end)
    | SaveMlp => (s, match mlp s with
                     | None => Err RuntimeError
                     | Some m => match obj s (m_obj m) with None => Err RuntimeError | Some p => saved p (m_coef m) (m_cumul m) end
                     end)
    | LoadMlp None => (s, Err RuntimeError)
    | LoadMlp (Some (Err e)) => (s, Err e)
    | LoadMlp (Some (Ok (f, c))) =>
        match construct [f] with
        | Err e => (s, Err e)
        | Ok p => let s1 := new_obj s p in (with_model s1 (mk_model (length (heap s)) c (size c) None None None), Ok Done)
        end
    | SaveParams => need_params s (fun p => (s, Ok (SavedParams p)))
    | SaveErrors => (s, match mlp s with
                        | None => Err AttributeError
                        | Some m => match m_train m, m_test m with Some a, Some b => Ok (SavedErrors a b) | _, _ => Err AttributeError end
                        end)
    | NFeatures => (s, match mlp s with
                       | None => match cur s with None => Err TypeError | Some p => Ok (Number (n_feat p)) end
                       | Some m => Ok (Number (size (m_coef m)))
                       end)
    end.
  Fixpoint run (h : list call) (s : api) : api := match h with [] => s | o :: h => run h (fst (step o s)) end.
End Develop.
Arguments model : clear implicits.
Arguments api : clear implicits.
Arguments call : clear implicits.
Arguments out : clear implicits.
