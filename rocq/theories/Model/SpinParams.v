(** Spin-doubled types of a single model.

    /repo/src/pypolymlp/core/data_format.py L182-192 (PolymlpModelParams.revise_params), L263-270 (check_errors),
    L290-323 (PolymlpParamsSingle._set_params_spins).

    Simplifications: a dict is the list of its items in order of insertion; only the attributes below; the copy kept in _params_elements
    is the argument itself. *)
From Verif Require Import Base.

Section Spin.
  Variables (El E W : Type).
  Notation table := (list ((nat * nat) * W)).
  Record params := mk_params { p_n_type : nat; p_elements : list El; p_energy : option (list E); p_spins : option (list bool); p_pairs : option table }.
  Definition key_eqb (a b : nat * nat) : bool := (fst a =? fst b) && (snd a =? snd b).
  (** [d[key] = v] and [d.get(key)] *)
  Fixpoint dict_set (d : table) (k : nat * nat) (v : W) : table :=
    match d with [] => [(k, v)] | (k', v') :: t => if key_eqb k k' then (k', v) :: t else (k', v') :: dict_set t k v end.
  Definition dict_get (d : table) (k : nat * nat) : option W := match find (fun q => key_eqb k (fst q)) d with Some q => Some (snd q) | None => None end.
  (** [check_errors] (L263-270) *)
  Definition check_errors (p : params) : res unit :=
    do _ <- py_assert (length (p_elements p) =? p_n_type p);
    do _ <- (match p_energy p with Some l => py_assert (length l =? p_n_type p) | None => Ok tt end);
    match p_spins p with Some l => py_assert (length l =? p_n_type p) | None => Ok tt end.
  (** The loop at L303-315: accumulated elements, energies, spins, map_types (entry i) and n_type *)
  Fixpoint spread (els : list El) (en : list E) (sp : list bool) (n : nat) : list El * list E * list bool * list (list nat) * nat :=
    match els, en, sp with
    | e :: els, a :: en, s :: sp =>
        let k := if s then 2 else 1 in
        let '(els', en', sp', m, n') := spread els en sp (n + k) in
        (repeat e k ++ els', repeat a k ++ en', repeat s k ++ sp', seq n k :: m, n')
    | _, _, _ => ([], [], [], [], n)
    end.
  (** [map_types[i]] of a defaultdict(list) *)
  Definition map_get (m : list (list nat)) (i : nat) : list nat := nth i m [].
  (** [revise_params] (L182-192) *)
  Definition revise (m : list (list nat)) (d : table) : table :=
    fold_left (fun acc q => fold_left (fun acc t => dict_set acc (Nat.min (fst t) (snd t), Nat.max (fst t) (snd t)) (snd q)) (list_prod (map_get m (fst (fst q))) (map_get m (snd (fst q)))) acc) d [].
  (** [_set_params_spins] (L290-323); [zip(None)] is a TypeError *)
  Definition set_spins (p : params) : res (params * option (list (list nat))) :=
    match p_spins p with
    | None => Ok (p, None)
    | Some sp =>
        if length (filter (fun b => b) sp) =? 0 then Ok (p, None) else
        match p_energy p with
        | None => Err TypeError
        | Some en =>
            let '(els', en', sp', m, n') := spread (p_elements p) en sp 0 in
            Ok (mk_params n' els' (Some en') (Some sp') (match p_pairs p with Some d => Some (revise m d) | None => None end), Some m)
        end
    end.
  Definition post_init (p : params) : res (params * option (list (list nat))) := do _ <- check_errors p; set_spins p.
End Spin.
