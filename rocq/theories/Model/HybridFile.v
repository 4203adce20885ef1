(** Files of hybrid potentials.

    /repo/src/pypolymlp/core/io_polymlp.py L25-51 (save_mlps), L77-105 (load_mlps);
    /repo/src/pypolymlp/core/io_polymlp_yaml.py L25-84 (what is written comes from params_elements, the copy of the arguments), L87-154 (load_mlp_yaml);
    /repo/src/pypolymlp/core/data_format.py L291-328 (params_elements);
    /repo/src/pypolymlp/core/params.py L50-80, L123-142 (construction, append, _set_unique_types);
    /repo/src/pypolymlp/calculator/properties_hybrid.py L16-39 (construction from files or from parameters).

    Simplifications: no active spins; a file is the values that one [save_mlp_yaml] writes and one [load_mlp_yaml] reads (C64);
    of the flags only type_full, type_indices and elements appear; all other parameters and the coefficients make up the evaluator. *)
From Verif Require Import Base Num Model.Structure Model.Properties Model.HybridTypes.
From Coq Require String.

Section HybridFile.
  (** Coefficients and parameters of the basis set *)
  Context {F : Type} {N : Num F} {W : Type}.
  (** PolymlpParamsSingle: the arguments ([params_elements]) and the attributes that PolymlpParams rewrites *)
  Record member := mk_member { m_given : sub; m_passed : option (bool * list nat); m_elements : list string; m_full : option bool; m_indices : option (list nat); m_model : W }.
  (** A new object *)
  Definition fresh (s : sub) (passed : option (bool * list nat)) (w : W) : member := mk_member s passed (u_elements s) (option_map fst passed) (option_map snd passed) w.
  Definition now_sub (m : member) : sub := mk_sub (m_elements m) (u_n_type (m_given m)) (u_pairs (m_given m)).
  (** [PolymlpParams(list)]: [_set_unique_types] writes to the attributes, not to the copy of the arguments *)
  Definition written (m : member) (t : typed) : member := mk_member (m_given m) (m_passed m) (u_elements (t_sub t)) (Some (t_full t)) (Some (t_indices t)) (m_model m).
  Definition hybrid (ms : list member) : res (list member) :=
    if (length ms =? 1)%nat then Ok ms else do outs <- set_unique (map now_sub ms); Ok (map (fun q => written (fst q) (snd q)) (combine ms outs)).

  (** One file: elements, number of types, pairs, flags and the rest; masses follow [params.elements] (L26, mass of the attributes) *)
  Record file := mk_file { w_sub : sub; w_full : bool; w_indices : list nat; w_mass : list string; w_model : W }.
  Definition save_one (m : member) : file :=
    let s := m_given m in
    match m_passed m with Some (f, idx) => mk_file s f idx (m_elements m) (m_model m) | None => mk_file s true (seq 0 (u_n_type s)) (m_elements m) (m_model m) end.
  Definition load_one (f : file) : member := fresh (w_sub f) (Some (w_full f, w_indices f)) (w_model f).
  Definition save_mlps (ms : list member) : list file := map save_one ms.
  (** The first file makes the object, the others are appended; every [append] initialises again. *)
  Definition load_mlps (fs : list file) : res (list member) :=
    match fs with [] => Err IndexError | f :: t => do ms <- hybrid [load_one f]; foldM (fun ms f => hybrid (ms ++ [load_one f])) ms t end.

  (** The evaluators: in C++ a type number selects a row of the pair table; element names are not used. *)
  Context {P A V : Type}.
  Variable cpp : nat -> list ((nat * nat) * list nat) -> W -> @evaluator F P A.
  Definition calculator (m : member) : single F P A := mk_single P A (m_elements m) (m_full m) (cpp (u_n_type (m_given m)) (u_pairs (m_given m)) (m_model m)).
  (** [PropertiesHybrid(params=..., coeffs=...)] and [PropertiesHybrid(pot=[...])] *)
  Definition from_params (ms : list member) : list (single F P A) := map calculator ms.
  Definition from_files (fs : list file) : list (single F P A) := map (fun f => calculator (load_one f)) fs.
End HybridFile.
