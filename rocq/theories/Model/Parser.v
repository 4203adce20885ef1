(** Input files and boolean strings.

    /repo/src/pypolymlp/core/utils.py L8-15 (strtobool),
    /repo/src/pypolymlp/core/parser_infile.py L11-92 (InputParser),
    /repo/src/pypolymlp/core/parser_polymlp_params.py L80-93 (force tags).

    Simplifications: strings are ASCII; [int] and [float] are functions that may raise ValueError; sizes are natural
    numbers; warnings are not modelled. *)
From Verif Require Import Base.
From Coq Require String Ascii.
Notation string := String.string.
Notation ascii := Ascii.ascii.
Import String.StringSyntax.
Local Open Scope string_scope.
Local Open Scope list_scope.

(** [str.lower] *)
Definition lower_ascii (c : ascii) : ascii :=
  let n := Ascii.nat_of_ascii c in if (65 <=? n) && (n <=? 90) then Ascii.ascii_of_nat (n + 32) else c.
Fixpoint lower (s : string) : string := match s with String.EmptyString => String.EmptyString | String.String c t => String.String (lower_ascii c) (lower t) end.
Definition str_in (s : string) (l : list string) : bool := existsb (String.eqb s) l.
(** [strtobool] (utils.py L8-15) *)
Definition strtobool (val : string) : res bool :=
  let v := lower val in
  if str_in v ["t"; "true"; "1"] then Ok true
  else if str_in v ["f"; "false"; "0"] then Ok false
  else Err RuntimeError.

(** [line.split()]: runs of white space separate the parts. *)
Definition is_space (c : ascii) : bool :=
  let n := Ascii.nat_of_ascii c in ((9 <=? n) && (n <=? 13)) || ((28 <=? n) && (n <=? 32)).
Fixpoint split_from (cur : string) (s : string) : list string :=
  let flush rest := if String.eqb cur String.EmptyString then rest else cur :: rest in
  match s with
  | String.EmptyString => flush []
  | String.String c t =>
      if is_space c then flush (split_from String.EmptyString t)
      else split_from (String.append cur (String.String c String.EmptyString)) t
  end.
Definition split (s : string) : list string := split_from String.EmptyString s.

(** ["data" in s]: substring test *)
Fixpoint contains (p s : string) : bool :=
  String.prefix p s || match s with String.EmptyString => false | String.String _ t => contains p t end.

(** A Python dict as an association list in insertion order. *)
Section Dict.
  Context {K V : Type} (keq : K -> K -> bool).
  Fixpoint dset (d : list (K * V)) (k : K) (v : V) : list (K * V) :=
    match d with
    | [] => [(k, v)]
    | (k', v') :: t => if keq k k' then (k', v) :: t else (k', v') :: dset t k v
    end.
  Definition dget (d : list (K * V)) (k : K) : option V := match find (fun kv => keq k (fst kv)) d with Some kv => Some (snd kv) | None => None end.
End Dict.

(** [InputParser.__init__] (L14-29) *)
Record parsed := mk_parsed { p_data : list (string * list string); p_distance : list (list string); p_datasets : list (list string) }.
Definition is_dataset_tag (t : string) : bool := contains "data" t && negb (contains "dataset_type" t).
Definition read_line (p : parsed) (line : string) : parsed :=
  match split line with
  | t :: (v :: vs) =>
      if String.eqb "distance" t then mk_parsed (p_data p) (p_distance p ++ [v :: vs]) (p_datasets p)
      else if is_dataset_tag t then mk_parsed (p_data p) (p_distance p) (p_datasets p ++ [t :: v :: vs])
      else mk_parsed (dset String.eqb (p_data p) t (v :: vs)) (p_distance p) (p_datasets p)
  | _ => p
  end.
Definition read_file (lines : list string) : parsed := fold_left read_line lines (mk_parsed [] [] []).

(** [get_params] (L31-66) with the conversion function of the type; [return_array=True]. *)
Section Get.
  Context {T : Type} (conv : string -> res T).
  Definition get_params (p : parsed) (tag : string) (size : nat) (default : res (list T)) : res (list T) :=
    match dget String.eqb (p_data p) tag with
    | None => default
    | Some params => mapM conv (firstn size params)
    end.
  (** [size=1], [return_array=False] *)
  Definition get_param (p : parsed) (tag : string) (default : res T) : res T :=
    match dget String.eqb (p_data p) tag with
    | None => default
    | Some params => do l <- mapM conv (firstn 1 params); get l 0
    end.
End Get.
(** [required=True], no default *)
Definition required {T} : res T := Err KeyError.

(** [distance] (L73-87) *)
Fixpoint index_of (x : string) (l : list string) : nat := match l with [] => 0 | y :: t => if String.eqb x y then 0 else S (index_of x t) end.
Definition sort_pair (elements pair : list string) : list string :=
  match pair with
  | [a; b] => if index_of b elements <? index_of a elements then [b; a] else [a; b]
  | l => l
  end.
Fixpoint slist_eqb (a b : list string) : bool :=
  match a, b with [], [] => true | x :: a', y :: b' => String.eqb x y && slist_eqb a' b' | _, _ => false end.
Section Distance.
  Context {T : Type} (to_float : string -> res T).
  Definition distance_step (elements : list string) (d : list (list string * list T)) (data : list string) : res (list (list string * list T)) :=
    let pair := firstn 2 data in
    if forallb (fun e => str_in e elements) pair then
      do fs <- mapM to_float (skipn 2 data); Ok (dset slist_eqb d (sort_pair elements pair) fs)
    else Err RuntimeError.
  Fixpoint distance_loop (elements : list string) (d : list (list string * list T)) (l : list (list string)) : res (list (list string * list T)) :=
    match l with [] => Ok d | x :: t => do d' <- distance_step elements d x; distance_loop elements d' t end.
  Definition distance (p : parsed) : res (list (list string * list T)) :=
    match dget String.eqb (p_data p) "elements" with
    | None => Err KeyError
    | Some elements => distance_loop elements [] (p_distance p)
    end.
End Distance.

(** [_get_force_tags] (parser_polymlp_params.py L80-93) *)
Definition force_tags (p : parsed) : res (bool * bool) :=
  do f <- get_param strtobool p "include_force" (Ok true);
  if f then do s <- get_param strtobool p "include_stress" (Ok true); Ok (f, s) else Ok (f, false).
