(** Flags of the parameter object of (hybrid) potentials.

    /repo/src/pypolymlp/core/params.py L11-44 (set_common_params), L50-170 (construction, append, item assignment, checks, params setter),
    L188-262 (setters of enable_spins, include_force, include_stress, dataset_type), L396-411 (_set_tags).

    Simplifications: only the attributes below; parameters are held in a Python list and item indices are not negative; exceptions are returned
    beside the state left behind. Writing through an object held twice is writing to both entries, as here. *)
From Verif Require Import Base Model.Structure Model.Properties Model.HybridTypes.
From Coq Require String.

Inductive dtype := Vasp | Phono3py | Openmx | Sscha | Electron | OtherType (s : string).
(** None, a bool (as written by users of the setter) or a tuple of bools *)
Inductive spins := SpNone | SpBool (b : bool) | SpTuple (l : list bool).
Definition truthy (s : spins) : bool := match s with SpNone => false | SpBool b => b | SpTuple [] => false | SpTuple _ => true end.
Record flags := mk_flags { f_elements : list string; f_n_type : nat; f_spins : spins; f_type : dtype; f_force : bool; f_stress : bool }.
Record state := mk_state { common_flags : flags; subs : list flags }.

Definition with_spins (v : spins) (f : flags) : flags := mk_flags (f_elements f) (f_n_type f) v (f_type f) (f_force f) (f_stress f).
Definition with_type (t : dtype) (f : flags) : flags := mk_flags (f_elements f) (f_n_type f) (f_spins f) t (f_force f) (f_stress f).
Definition with_force (b : bool) (f : flags) : flags := mk_flags (f_elements f) (f_n_type f) (f_spins f) (f_type f) b (f_stress f).
Definition with_stress (b : bool) (f : flags) : flags := mk_flags (f_elements f) (f_n_type f) (f_spins f) (f_type f) (f_force f) b.
Definition with_elements (l : list string) (f : flags) : flags := mk_flags l (f_n_type f) (f_spins f) (f_type f) (f_force f) (f_stress f).
Definition everywhere (w : flags -> flags) (st : state) : state := mk_state (w (common_flags st)) (map w (subs st)).

(** L198, L234: the data set types without spins and stresses *)
Definition excepted (t : dtype) : bool := match t with Phono3py | Sscha | Openmx | Electron => true | _ => false end.
Definition is_electron (t : dtype) : bool := match t with Electron => true | _ => false end.
(** Setters: reject or write to the common view and to every sub-model *)
Definition set_spins (v : spins) (st : state) : state * option exn :=
  if excepted (f_type (common_flags st)) && truthy v then (st, Some RuntimeError) else (everywhere (with_spins v) st, None).
Definition set_force (b : bool) (st : state) : state * option exn :=
  if is_electron (f_type (common_flags st)) && b then (st, Some RuntimeError) else (everywhere (with_force b) st, None).
Definition set_stress (b : bool) (st : state) : state * option exn :=
  if excepted (f_type (common_flags st)) && b then (st, Some RuntimeError) else (everywhere (with_stress b) st, None).
(** Sequencing of statements that may raise *)
Definition andthen (r : state * option exn) (k : state -> state * option exn) : state * option exn := match r with (st, None) => k st | _ => r end.
(** [_set_tags] (L396-411) *)
Definition set_tags (st : state) : state * option exn :=
  match f_type (common_flags st) with
  | Sscha => set_spins SpNone st
  | Phono3py | Openmx => andthen (set_stress false st) (set_spins SpNone)
  | Electron => andthen (andthen (set_force false st) (set_stress false)) (set_spins SpNone)
  | _ => (st, None)
  end.
Definition set_type (t : dtype) (st : state) : state * option exn := set_tags (everywhere (with_type t) st).

(** [_get_variable_with_max_length] on element lists and on enable_spins; [len(bool)] is a TypeError *)
Definition longest_elements (l : list flags) : list string := fold_left (fun acc f => if length acc <? length (f_elements f) then f_elements f else acc) l [].
Fixpoint longest_spins (acc : list bool) (l : list flags) : res (list bool) :=
  match l with
  | [] => Ok acc
  | f :: t => match f_spins f with SpNone => longest_spins acc t | SpBool _ => Err TypeError | SpTuple v => longest_spins (if length acc <? length v then v else acc) t end
  end.
(** [_set_common_params] (L118-124) *)
Definition make_common (l : list flags) : res flags :=
  match l with
  | [] => Err IndexError
  | [f] => Ok f
  | f :: _ => do sp <- longest_spins [] l;
      Ok (mk_flags (longest_elements l) (fold_left Nat.max (map f_n_type l) 0) (match sp with [] => SpNone | _ => SpTuple sp end) (f_type f) (f_force f) (f_stress f))
  end.
Fixpoint distinct {A} (eqb : A -> A -> bool) (l : list A) : nat := match l with [] => 0 | a :: t => if existsb (eqb a) t then distinct eqb t else S (distinct eqb t) end.
Definition comb_eqb (a b : string * bool) : bool := String.eqb (fst a) (fst b) && Bool.eqb (snd a) (snd b).
Definition no_spin (s : spins) : bool := match s with SpNone => true | SpBool b => negb b | SpTuple l => forallb negb l end.
(** [_check_errors] (L92-116) *)
Definition check_errors (c : flags) (l : list flags) : res unit :=
  if length l =? 1 then Ok tt else
  let n_none := length (filter (fun f => no_spin (f_spins f)) l) in
  if n_none =? length l then Ok tt else
  if negb (n_none =? 0) && negb (n_none =? length l) then Err RuntimeError else
  do combs <- mapM (fun f => match f_spins f with SpTuple v => Ok (combine (f_elements f) v) | _ => Err TypeError end) l;
  if negb (distinct comb_eqb (concat combs) =? distinct String.eqb (f_elements c)) then Err RuntimeError else Ok tt.
(** [_set_unique_types] (L126-142): elements of the sub-models are sorted one after the other; type_full and type_indices are not kept here *)
Fixpoint sort_subs (els : list string) (l : list flags) : list flags * option exn :=
  match l with
  | [] => ([], None)
  | f :: t => match sorted_elements els (f_elements f) with
              | Err e => (f :: t, Some e)
              | Ok e => let '(t', r) := sort_subs els t in (with_elements e f :: t', r)
              end
  end.
Definition unique_types (st : state) : state * option exn :=
  if length (subs st) <=? 1 then (st, None) else let '(l, r) := sort_subs (f_elements (common_flags st)) (subs st) in (mk_state (common_flags st) l, r).
(** [_initialize] (L62-71) of an object that holds [l] and, before, the common view [old] *)
Definition initialize (old : flags) (l : list flags) : state * option exn :=
  match make_common l with
  | Err e => (mk_state old l, Some e)
  | Ok c => match check_errors c l with Err e => (mk_state c l, Some e) | Ok _ => andthen (set_tags (mk_state c l)) unique_types end
  end.
(** Construction: no object is left when it raises *)
Definition construct (l : list flags) : res state :=
  match make_common l with Err e => Err e | Ok c => match initialize c l with (st, None) => Ok st | (_, Some e) => Err e end end.

Inductive op := SetForce (b : bool) | SetStress (b : bool) | SetSpins (v : spins) | SetType (t : dtype) | Append (f : flags) | SetItem (i : nat) (f : flags) | SetParams (l : list flags).
Fixpoint set_nth {A} (l : list A) (i : nat) (a : A) : list A := match l with [] => [] | x :: t => match i with 0 => a :: t | S i => x :: set_nth t i a end end.
Definition step (o : op) (st : state) : state * option exn :=
  match o with
  | SetForce b => set_force b st
  | SetStress b => set_stress b st
  | SetSpins v => set_spins v st
  | SetType t => set_type t st
  | Append f => initialize (common_flags st) (subs st ++ [f])
  | SetItem i f => if i <? length (subs st) then initialize (common_flags st) (set_nth (subs st) i f) else (st, Some IndexError)
  | SetParams l => initialize (common_flags st) l
  end.
