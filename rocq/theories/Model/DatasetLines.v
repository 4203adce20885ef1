(** The data set of one line of the input file.

    /repo/src/pypolymlp/core/dataset.py L58-85, L103-140 ([Dataset(strings=...)]) and
    /repo/src/pypolymlp/core/parser_polymlp_params.py L230-288 ([set_datasets]).

    Simplifications: [sorted(glob.glob(...))] and [float] are oracles; [name] is left out;
    [include_force], [include_stress] and [weight] of the constructor have their defaults
    (true, true, 1), as in the only call with [strings]; tags are the four that the input
    parser collects. *)
From Verif Require Import Base Model.Split Model.Structure Model.DatasetDFT Model.Dataset Model.Parser.
From Coq Require String.
Import String.StringSyntax.
Local Open Scope string_scope.
Local Open Scope list_scope.

Section Lines.
  Context {W S : Type}.
  Variables (wzero : W) (wsub wadd : W -> W -> W) (wscale : nat -> W -> W).
  Variables (wone : W) (wmul : W -> W -> W).
  Variable s_natoms : S -> list nat.
  Variable parse : dtype -> fileset -> res (dft W S).
  Variable imaginary : string -> bool.
  Variable part_name : string.
  (** [sorted(glob.glob(location))] and [float]. *)
  Variable globbed : string -> list string.
  Variable float_of : string -> res W.

  (** [prefix_location + "/" + location] (L106-107, L122-123) *)
  Definition located (prefix : option string) (f : string) : string :=
    match prefix with None => f | Some p => String.append p (String.append "/" f) end.

  (** [Dataset(strings=strings, dataset_type=t, prefix_location=prefix)].  For phono3py the
      first word becomes [files] (L69-70) and the [files] branch (L103-110) is taken;
      otherwise the [strings] branch (L120-139). *)
  Definition ds_of_strings (t : dtype) (prefix : option string) (strings : list string) : res (ds W S) :=
    if is_phono3py t then
      match strings with
      | [] => Err IndexError
      | f :: _ => Ok (mk_ds t (Single (located prefix f)) true true wone None false)
      end
    else
      match strings with
      | [] => Err IndexError
      | f :: _ =>
          do force <- match strings with _ :: s :: _ => strtobool s | _ => Ok true end;
          do w <- match strings with _ :: _ :: s :: _ => float_of s | _ => Ok wone end;
          Ok (mk_ds t (Many (globbed (located prefix f))) force (if negb force then false else true) w None false)
      end.

  (** One pass of the loop of [set_datasets] before the tag is looked at (L244-255). *)
  Definition line_ds (t : dtype) (prefix : option string) (pf ps : bool) (strings : list string) : res (ds W S) :=
    do x <- ds_of_strings t prefix strings;
    let x1 := if negb pf then mk_ds (ds_type x) (ds_files x) false (ds_stress x) (ds_weight x) (ds_dft x) (ds_done x) else x in
    let x2 := if negb ps then mk_ds (ds_type x1) (ds_files x1) (ds_force x1) false (ds_weight x1) (ds_dft x1) (ds_done x1) else x1 in
    Ok x2.

  (** [set_datasets] (L230-288). *)
  Definition set_datasets (t : dtype) (prefix : option string) (pf ps : bool) (wimag : W) (a : list W)
             (strings : list (tag * list string)) (p q : Z) : res (list (ds W S) * list (ds W S)) :=
    do lines <- mapM (fun gs => do x <- line_ds t prefix pf ps (snd gs); Ok (fst gs, x)) strings;
    from_lines wzero wsub wadd wscale wmul s_natoms parse imaginary part_name t wimag a lines p q.
End Lines.
