(** Atom types of the sub-models of a hybrid model.

    /repo/src/pypolymlp/core/params.py L11-44 (_get_variable_with_max_length, set_common_params: elements and n_type), L123-142 (_set_unique_types);
    /repo/src/pypolymlp/cxx/src/compute/py_hybrid_model.cpp L110-152 (find_active_atoms).

    Simplifications: a sub-model is its element list, its n_type and the table of pair parameters keyed by its own type numbers
    (model.pair_params_conditional); C++ ints are integers. *)
From Verif Require Import Base Model.Structure Model.Properties.
From Coq Require String.

Record sub := mk_sub { u_elements : list string; u_n_type : nat; u_pairs : list ((nat * nat) * list nat) }.
(** What [_set_unique_types] writes *)
Record typed := mk_typed { t_sub : sub; t_full : bool; t_indices : list nat }.

(** [_get_variable_with_max_length(..., "elements")]: the first longest list *)
Definition longest (subs : list sub) : list string := fold_left (fun acc s => if length acc <? length (u_elements s) then u_elements s else acc) subs [].
(** [set_common_params] (L26-44): elements and n_type; [multiple_params[0]] fails for an empty list *)
Definition common (subs : list sub) : res (list string * nat) := match subs with [] => Err IndexError | _ => Ok (longest subs, fold_left Nat.max (map u_n_type subs) 0) end.
(** [elements.index(x)] *)
Definition py_index (els : list string) (e : string) : res nat := if is_in els e then Ok (position e els) else Err ValueError.
(** [sorted(l, key=...)] on (key, value) pairs: stable *)
Fixpoint insert_key (x : nat * string) (l : list (nat * string)) : list (nat * string) :=
  match l with [] => [x] | y :: t => if fst x <=? fst y then x :: y :: t else y :: insert_key x t end.
Definition sort_key (l : list (nat * string)) : list (nat * string) := fold_right insert_key [] l.
Definition sorted_elements (els : list string) (l : list string) : res (list string) :=
  do keys <- mapM (py_index els) l; Ok (map snd (sort_key (combine keys l))).
(** [_set_unique_types] (L123-142); single models are left alone *)
Definition set_unique (subs : list sub) : res (list typed) :=
  do (els, n) <- common subs;
  if length subs <=? 1 then Ok (map (fun s => mk_typed s true []) subs) else
  do subs' <- mapM (fun s => do l <- sorted_elements els (u_elements s); Ok (mk_sub l (u_n_type s) (u_pairs s))) subs;
  mapM (fun s => if u_n_type s =? n then Ok (mk_typed s true (seq 0 n)) else do idx <- mapM (py_index els) (u_elements s); Ok (mk_typed s false idx)) subs'.

(** [std::replace] of one value *)
Definition replace (old new : Z) (l : list Z) : list Z := map (fun x => if Z.eqb x old then new else x) l.
(** The loop at L139-143 *)
Fixpoint replace_chain (idx : list nat) (k : nat) (l : list Z) : list Z :=
  match idx with [] => l | t :: idx => replace_chain idx (S k) (replace (Z.of_nat t) (Z.of_nat k) l) end.
(** C++ [find_active_atoms]: active atoms, their new types *)
Definition cxx_active (full : bool) (idx : list nat) (types : list Z) : list nat * list Z :=
  if full then (seq 0 (length types), types)
  else let mine := fun t => existsb (Z.eqb t) (map Z.of_nat idx) in (where_ mine types, replace_chain idx 0 (filter mine types)).
(** Pair parameters of two elements of a sub-model *)
Definition lookup_pair (s : sub) (e1 e2 : string) : option (list nat) :=
  let i := position e1 (u_elements s) in let j := position e2 (u_elements s) in
  match find (fun q => (fst (fst q) =? Nat.min i j) && (snd (fst q) =? Nat.max i j)) (u_pairs s) with Some q => Some (snd q) | None => None end.
