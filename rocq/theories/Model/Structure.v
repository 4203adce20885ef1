(** Structures and atom permutation.

    /repo/src/pypolymlp/core/data_format.py L14-60 (PolymlpStructure),
    /repo/src/pypolymlp/core/dataset_utils.py L11-149
    (replace_types, permute_atoms, permute_atoms_with_spins).

    Simplifications: positions and forces are lists of columns of an arbitrary type
    (one column per atom); axis and volume are opaque; [det] stands for
    [np.linalg.det].  Element symbols are strings, types are integers.
    Python mutates [st.elements]/[st.types] into numpy arrays of the same content; this
    change of representation is not visible in the model. *)
From Verif Require Import Base.
From Coq Require String.
Notation string := String.string.

Section Structure.
  Variables (P A V : Type).   (* position column, axis matrix, volume value *)
  Variable pzero : P.         (* np.zeros column *)
  Variable det : A -> V.

  (** data_format.py L14-45; fields that no modelled function touches are left out. *)
  Record structure := mk_structure {
    axis : A;
    positions : list P;
    n_atoms : list nat;
    elements : list string;
    types : list Z;
    volume : V;
    name : option string
  }.

  (** data_format.py L46-60: constructor with volume=None and the assertions of
      [check_errors].  [positions.shape[1] == len(elements)], then
      [len(elements) == len(types)], then [len(elements) == sum(n_atoms)]. *)
  Definition new_structure (ax : A) (pos : list P) (na : list nat)
             (el : list string) (ty : list Z) : res structure :=
    do _ <- py_assert (length pos =? length el);
    do _ <- py_assert (length el =? length ty);
    do _ <- py_assert (length el =? sum na);
    Ok (mk_structure ax pos na el ty (det ax) None).

  (** [arr == ele] on a numpy string array. *)
  Definition mask (ele : string) (el : list string) : list bool :=
    map (String.eqb ele) el.

  (** Boolean-mask selection; numpy raises IndexError when lengths differ. *)
  Fixpoint select {B} (m : list bool) (l : list B) : list B :=
    match m, l with
    | true :: m', x :: l' => x :: select m' l'
    | false :: m', _ :: l' => select m' l'
    | _, _ => []
    end.
  Definition np_select {B} (m : list bool) (l : list B) : res (list B) :=
    if length m =? length l then Ok (select m l) else Err IndexError.

  Definition count_true (m : list bool) : nat := count_occ bool_dec m true.

  (** [buf[b:e] = vals] for a numpy array: the slice is clipped to the array, the
      lengths must agree unless [vals] has length one (broadcast). *)
  Definition np_assign {B} (buf : list B) (b e : nat) (vals : list B) : res (list B) :=
    let e' := Nat.min e (length buf) in
    let k := e' - b in
    if length vals =? k
    then Ok (firstn b buf ++ vals ++ skipn e' buf)
    else match vals with
         | [v] => Ok (firstn b buf ++ repeat v k ++ skipn (Nat.max b e') buf)
         | _ => Err ValueError
         end.

  (** Loop state of [permute_atoms] (dataset_utils.py L60-82).  The optional force
      array is carried along as an option. *)
  Record pstate := mk_pstate {
    p_pos : list P; p_typ : list Z; p_ele : list string; p_nat : list nat;
    p_for : option (list P); p_begin : nat
  }.

  Definition permute_step (st : structure) (force : option (list P))
             (s : pstate) (ie : nat * string) : res pstate :=
    let '(atomtype, ele) := ie in
    let match_ := mask ele (elements st) in
    let n_match := count_true match_ in
    let end_ := p_begin s + n_match in
    do psel <- np_select match_ (positions st);
    do pos' <- np_assign (p_pos s) (p_begin s) end_ psel;
    (* types[begin:end] = atomtype : scalar broadcast, never fails *)
    do typ' <- np_assign (p_typ s) (p_begin s) end_
                 (repeat (Z.of_nat atomtype) (Nat.min end_ (length (p_typ s)) - p_begin s));
    do for' <- match force, p_for s with
               | Some f, Some fp =>
                   do fsel <- np_select match_ f;
                   do fp' <- np_assign fp (p_begin s) end_ fsel;
                   Ok (Some fp')
               | _, _ => Ok None
               end;
    Ok (mk_pstate pos' typ' (p_ele s ++ repeat ele n_match) (p_nat s ++ [n_match])
                  for' end_).

  Fixpoint foldM {B S} (f : S -> B -> res S) (s : S) (l : list B) : res S :=
    match l with
    | [] => Ok s
    | x :: t => do s' <- f s x; foldM f s' t
    end.

  Definition enumerate {B} (l : list B) : list (nat * B) := combine (seq 0 (length l)) l.

  (** [permute_atoms] (dataset_utils.py L49-91). *)
  Definition permute_atoms (st : structure) (order : list string)
             (force : option (list P)) : res (structure * option (list P)) :=
    let s0 := mk_pstate (repeat pzero (length (positions st)))
                        (repeat 0%Z (length (types st))) [] []
                        (match force with
                         | Some f => Some (repeat pzero (length f))
                         | None => None end) 0 in
    do s <- foldM (permute_step st force) s0 (enumerate order);
    do st_new <- new_structure (axis st) (p_pos s) (p_nat s) (p_ele s) (p_typ s);
    Ok (st_new, p_for s).

  (** [np.unique] on integers: sorted distinct values. *)
  Fixpoint zinsert (x : Z) (l : list Z) : list Z :=
    match l with
    | [] => [x]
    | y :: t => if (x <? y)%Z then x :: l
                else if (x =? y)%Z then l else y :: zinsert x t
    end.
  Definition np_unique (l : list Z) : list Z := fold_right zinsert [] l.

  (** [list(dict.fromkeys(l))]: distinct elements in order of first occurrence. *)
  Definition fromkeys (l : list string) : list string :=
    fold_left (fun acc x => if existsb (String.eqb x) acc then acc else acc ++ [x]) l [].

  (** [len(elements_string) == len(np.unique(elements_string))]. *)
  Definition all_distinct (l : list string) : bool :=
    length l =? length (fromkeys l).

  (** Index of a value in a list ([mapping] of L129: value -> position). *)
  Fixpoint zindex (x : Z) (l : list Z) : option nat :=
    match l with
    | [] => None
    | y :: t => if (x =? y)%Z then Some 0
                else match zindex x t with Some k => Some (S k) | None => None end
    end.

  (** Masked scalar write [types[match] = v]. *)
  Fixpoint mask_write (m : list bool) (v : Z) (l : list Z) : list Z :=
    match m, l with
    | b :: m', x :: l' => (if b then v else x) :: mask_write m' v l'
    | _, _ => l
    end.

  (** Fancy-index write [arr[ids] = vals] (in range, later writes win). *)
  Fixpoint write_at {B} (l : list B) (i : nat) (v : B) : list B :=
    match l, i with
    | [], _ => []
    | _ :: t, 0 => v :: t
    | x :: t, S i' => x :: write_at t i' v
    end.
  Definition write_ids (l : list Z) (ivs : list (nat * Z)) : list Z :=
    fold_left (fun acc iv => write_at acc (fst iv) (snd iv)) ivs l.

  (** [np.argsort] with the default (unstable) algorithm: any function that returns
      a sorting permutation. *)
  Variable argsort : list Z -> list nat.

  (** Body shared by L26-40 and L113-131: ids of the atoms of one element in the order of
      [argsort], and their compacted types. *)
  Definition local_types (st : structure) (ele : string) (atomtype : nat)
    : res (list nat * list Z) :=
    let match_ := mask ele (elements st) in
    do ty_match <- np_select match_ (types st);
    let match_ids0 := where_ (fun b => b) match_ in
    do match_ids <- mapM (get match_ids0) (argsort ty_match);
    do types_local <- mapM (get (types st)) match_ids;
    let u := np_unique types_local in
    do tl <- mapM (fun t => match zindex t u with
                            | Some k => Ok (Z.of_nat (k + atomtype))
                            | None => Err KeyError end) types_local;
    Ok (match_ids, tl).

  (** One turn of the loop of dataset_utils.py L29-41: types, next type, atom count. *)
  Definition replace_spins_step (st : structure) (s : list Z * nat * nat) (ele : string)
    : res (list Z * nat * nat) :=
    let '(ty, atomtype, count) := s in
    do lt <- local_types st ele atomtype;
    let '(ids, tl) := lt in
    Ok (write_ids ty (combine ids tl), atomtype + length (np_unique tl),
        count + count_true (mask ele (elements st))).

  (** [replace_types] (dataset_utils.py L11-46). *)
  Definition replace_types (st : structure) (els : list string) : res structure :=
    let with_types ty := mk_structure (axis st) (positions st) (n_atoms st)
                                      (elements st) ty (volume st) (name st) in
    let N := length (elements st) in
    if all_distinct els then
      do r <- foldM (fun (s : list Z * nat) (ie : nat * string) =>
                 let m := mask (snd ie) (elements st) in
                 if length m =? length (fst s)
                 then Ok (mask_write m (Z.of_nat (fst ie)) (fst s), snd s + count_true m)
                 else Err IndexError)
              (types st, 0) (enumerate els);
      if snd r =? N then Ok (with_types (fst r)) else Err RuntimeError
    else
      do r <- foldM (replace_spins_step st)
              (repeat 0%Z (length (types st)), 0, 0) (fromkeys els);
      let '(ty, _, count) := r in
      if count =? N then Ok (with_types ty) else Err RuntimeError.

  (** [permute_atoms_with_spins] (dataset_utils.py L94-149).
      State: positions, types, elements, n_atoms, force, atomtype, begin. *)
  Definition permute_spins_step (st : structure) (force : option (list P))
             (sa : pstate * nat) (ele : string) : res (pstate * nat) :=
    let '(s, atomtype) := sa in
    let match_ := mask ele (elements st) in
    let n_match := count_true match_ in
    let end_ := p_begin s + n_match in
    do lt <- local_types st ele atomtype;
    let '(match_ids, tl) := lt in
    do psel <- mapM (get (positions st)) match_ids;
    do pos' <- np_assign (p_pos s) (p_begin s) end_ psel;
    do typ' <- np_assign (p_typ s) (p_begin s) end_ tl;
    let u := np_unique tl in
    let na := map (fun t => count_occ Z.eq_dec tl t) u in
    do for' <- match force, p_for s with
               | Some f, Some fp =>
                   do fsel <- mapM (get f) match_ids;
                   do fp' <- np_assign fp (p_begin s) end_ fsel;
                   Ok (Some fp')
               | _, _ => Ok None
               end;
    Ok (mk_pstate pos' typ' (p_ele s ++ repeat ele n_match) (p_nat s ++ na) for' end_,
        atomtype + length u).

  Definition permute_atoms_with_spins (st : structure) (els : list string)
             (force : option (list P)) : res (structure * option (list P)) :=
    let s0 := mk_pstate (repeat pzero (length (positions st)))
                        (repeat 0%Z (length (types st))) [] []
                        (match force with
                         | Some f => Some (repeat pzero (length f))
                         | None => None end) 0 in
    do sa <- foldM (permute_spins_step st force) (s0, 0) (fromkeys els);
    let s := fst sa in
    do st_new <- new_structure (axis st) (p_pos s) (p_nat s) (p_ele s) (p_typ s);
    Ok (st_new, p_for s).
End Structure.

Arguments mk_structure {P A V}.
Arguments axis {P A V}.
Arguments positions {P A V}.
Arguments n_atoms {P A V}.
Arguments elements {P A V}.
Arguments types {P A V}.
Arguments volume {P A V}.
Arguments name {P A V}.
Arguments new_structure {P A V}.
Arguments permute_atoms {P A V}.
Arguments permute_atoms_with_spins {P A V}.
Arguments replace_types {P A V}.
Arguments permute_step {P A V}.
Arguments permute_spins_step {P A V}.
Arguments local_types {P A V}.
Arguments replace_spins_step {P A V}.
Arguments mk_pstate {P}.
Arguments p_pos {P}. Arguments p_typ {P}. Arguments p_ele {P}.
Arguments p_nat {P}. Arguments p_for {P}. Arguments p_begin {P}.
