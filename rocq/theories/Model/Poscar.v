(** POSCAR files: writing and reading a structure; structures from other programs.

    /repo/src/pypolymlp/utils/vasp_utils.py L46-94 (write_poscar_file);
    /repo/src/pypolymlp/core/interface_vasp.py L371-435 (Poscar);
    /repo/src/pypolymlp/core/data_format.py L46-60 (check_errors);
    /repo/src/pypolymlp/utils/phonopy_utils.py L29-46 (phonopy_cell_to_structure);
    /repo/src/pypolymlp/core/interface_openmx.py L94-105 (_assign_types).

    Simplifications: a file is a list of ASCII characters without carriage returns; printing with 15 decimals ([fmt]) and reading of
    floating-point numbers ([stod]) are functions; integers of a file are unsigned decimal numbers (Python also takes signs and
    underscores); a row of coordinates that does not have three numbers is a ValueError (numpy or an assertion stops later). *)
From Verif Require Import Base Num Model.Structure Model.Parser Model.PotentialFile.
From Coq Require String Ascii.
Import String.StringSyntax.
Local Open Scope string_scope.
Local Open Scope list_scope.
Local Open Scope nat_scope.

Definition newline : ascii := char 10.
(** [print(..., file=f)] of a whole line *)
Definition print_line (l : text) : text := l ++ [newline].
(** [f.readlines()] without the newline characters; a last line without newline is kept. *)
Fixpoint read_lines_from (cur s : text) : list text :=
  match s with
  | [] => match cur with [] => [] | _ => [cur] end
  | c :: t => if is_c c newline then cur :: read_lines_from [] t else read_lines_from (cur ++ [c]) t
  end.
Definition readlines (s : text) : list text := read_lines_from [] s.

(** White space of [str.split()] *)
Definition py_space (c : ascii) : bool := let n := Ascii.nat_of_ascii c in ((9 <=? n) && (n <=? 13)) || ((28 <=? n) && (n <=? 32)).
Fixpoint words_from (cur s : text) : list text :=
  match s with
  | [] => match cur with [] => [] | _ => [cur] end
  | c :: t => if py_space c then match cur with [] => words_from [] t | _ => cur :: words_from [] t end else words_from (cur ++ [c]) t
  end.
Definition words (s : text) : list text := words_from [] s.

(** [int(x)] *)
Definition py_int (s : text) : res nat :=
  match s with
  | [] => Err ValueError
  | _ => if forallb (fun c => match digit c with Some _ => true | None => false end) s then Ok (digits 0 s) else Err ValueError
  end.

(** The class [a-z,A-Z] of the regular expression (interface_vasp.py L391): letters and the comma *)
Definition letter (c : ascii) : bool :=
  let n := Ascii.nat_of_ascii c in ((97 <=? n) && (n <=? 122)) || ((65 <=? n) && (n <=? 90)) || (n =? 44).

Section Poscar.
  Context {F : Type} {N : Num F}.
  Definition vec3 : Type := F * F * F.
  Definition mat3 : Type := vec3 * vec3 * vec3.   (** the three lattice vectors *)
  Variables (fmt : F -> text) (stod : text -> res F) (det : mat3 -> F).
  Notation structure := (structure vec3 mat3 F).

  (** [print("  ", a, b, c, file=f)] (vasp_utils.py L64-71, L86-92) *)
  Definition print_vec (v : vec3) : text :=
    let '(x, y, z) := v in print_line (lit "  " ++ lit " " ++ fmt x ++ lit " " ++ fmt y ++ lit " " ++ fmt z).
  (** The loop of L74-80: the element at the start of each block, Z for an empty block *)
  Fixpoint block_names (els : list string) (index : nat) (ns : list nat) : res (list text) :=
    match ns with
    | [] => Ok []
    | n :: t =>
        if 0 <? n then do e <- get els index; do r <- block_names els (index + n) t; Ok (lit e :: r)
        else do r <- block_names els index t; Ok (lit "Z" :: r)
    end.
  (** [print(x, " ", end="")] for every entry after [print(" ", end="")] *)
  Definition print_entries (l : list text) : text := print_line (lit " " ++ flat_map (fun x => x ++ lit "  ") l).

  (** [write_poscar_file] (L46-94) *)
  Definition write_poscar (st : structure) (comment header : option text) : res text :=
    let head := match header with Some h => h | None => match comment with Some c => c | None => lit "Generated by pypolymlp" end end in
    do names <- block_names (elements st) 0 (n_atoms st);
    let '(a, b, c) := axis st in
    Ok (print_line head ++ print_line (lit "1.0") ++ print_vec a ++ print_vec b ++ print_vec c ++
        print_entries names ++ print_entries (map show_nat (n_atoms st)) ++ print_line (lit "Direct") ++
        flat_map print_vec (positions st)).

  (** [float(x) for x in line.split()[0:3]] *)
  Definition row3 (line : text) : res vec3 :=
    do l <- mapM stod (firstn 3 (words line));
    match l with [x; y; z] => Ok (x, y, z) | _ => Err ValueError end.
  Definition scale (k : F) (v : vec3) : vec3 := let '(x, y, z) := v in (nmul x k, nmul y k, nmul z k).
  (** The loop over the blocks (L400-404) *)
  Fixpoint assign (uniq : list text) (i : nat) (ns : list nat) : res (list string * list Z) :=
    match ns with
    | [] => Ok ([], [])
    | n :: t =>
        do e <- match n with 0 => Ok [] | _ => do x <- get uniq i; Ok (repeat (PotentialFile.name x) n) end;
        do (es, ts) <- assign uniq (S i) t;
        Ok (e ++ es, repeat (Z.of_nat i) n ++ ts)
    end.
  Definition alphabet : list text := map (fun k => [char (65 + k)]) (seq 0 26).

  (** [Poscar._parse] (L378-430) on the lines of the file; the structure and its comment *)
  Definition parse_poscar (selective_dynamics : bool) (filename : string) (lines : list text) : res (structure * text) :=
    do comment <- get lines 0;
    do l1 <- get lines 1; do w1 <- get (words l1) 0; do axis_const <- stod w1;
    do l2 <- get lines 2; do a1 <- row3 l2;
    do l3 <- get lines 3; do a2 <- row3 l3;
    do l4 <- get lines 4; do a3 <- row3 l4;
    let ax := (scale axis_const a1, scale axis_const a2, scale axis_const a3) in
    do l5 <- get lines 5;
    do (uniq, ns, n_line) <-
      (if existsb letter l5 then do l6 <- get lines 6; do ns <- mapM py_int (words l6); Ok (words l5, ns, 7)
       else do ns <- mapM py_int (words l5); Ok (alphabet, ns, 6));
    do (els, tys) <- assign uniq 0 ns;
    let n_line := (if selective_dynamics then n_line + 1 else n_line) + 1 in
    do pos <- mapM (fun i => do l <- get lines (n_line + i); row3 l) (seq 0 (sum ns));
    match pos with
    | [] => Err AssertionError
    | _ => Ok (mk_structure ax pos ns els tys (det ax) (Some filename), comment)
    end.
  Definition read_poscar (selective_dynamics : bool) (filename : string) (file : text) : res (structure * text) :=
    parse_poscar selective_dynamics filename (readlines file).

  (** [sorted(set(elements), key=elements.index)] *)
  Fixpoint firsts (seen els : list string) : list string :=
    match els with
    | [] => []
    | e :: t => if existsb (String.eqb e) seen then firsts seen t else e :: firsts (e :: seen) t
    end.
  Definition count (els : list string) (e : string) : nat := length (filter (String.eqb e) els).
  (** [i for i, n in enumerate(n_atoms) for _ in range(n)] *)
  Fixpoint block_types (i : nat) (ns : list nat) : list Z := match ns with [] => [] | n :: t => repeat (Z.of_nat i) n ++ block_types (S i) t end.
  (** [phonopy_cell_to_structure] (L29-46) *)
  Definition phonopy_cell_to_structure (cell : mat3) (pos : list vec3) (symbols : list string) (vol : F) : structure :=
    let uniq := firsts [] symbols in
    let ns := map (count symbols) uniq in
    mk_structure cell pos ns symbols (block_types 0 ns) vol None.

  (** [np.unique] on strings: sorted distinct values *)
  Fixpoint sinsert (e : string) (l : list string) : list string :=
    match l with
    | [] => [e]
    | x :: t => match String.compare e x with Lt => e :: l | Eq => l | Gt => x :: sinsert e t end
    end.
  Definition np_unique_str (l : list string) : list string := fold_right sinsert [] l.
  (** [types[match] = i] *)
  Definition set_masked (m : list bool) (i : Z) (ty : list Z) : list Z := map (fun bt => if fst bt : bool then i else snd bt) (combine m ty).
  (** The loop of [_assign_types] (interface_openmx.py L94-105) *)
  Fixpoint assign_types_loop (els : list string) (uniq : list string) (i : nat) (ty : list Z) : list Z * list nat :=
    match uniq with
    | [] => (ty, [])
    | e :: t =>
        let m := mask e els in
        let '(ty', ns) := assign_types_loop els t (S i) (set_masked m (Z.of_nat i) ty) in
        (ty', count_true m :: ns)
    end.
  Definition assign_types (els : list string) : list Z * list nat := assign_types_loop els (np_unique_str els) 0 (repeat 0%Z (length els)).
  (** The structure of a frame of OpenMX (L75-89), axis and fractional positions given *)
  Definition openmx_structure (ax : mat3) (pos : list vec3) (els : list string) : res structure :=
    let '(ty, ns) := assign_types els in new_structure det ax pos ns els ty.
End Poscar.
