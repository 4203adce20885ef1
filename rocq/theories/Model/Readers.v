(** Readers of output files: VASP, SSCHA results, electronic properties.

    /repo/src/pypolymlp/core/interface_vasp.py L15-74 (set_dataset_from_vaspruns, parse_properties_from_vaspruns), L93-105 (check_vasprun_type),
    L108-237 (Vasprun), L240-368 (VasprunMD), L516-532 (_is_convergent);
    /repo/src/pypolymlp/core/interface_yaml.py L13-76 (parse_sscha_yamls, _get_sscha_properties), L98-155 (electron.yaml);
    /repo/src/pypolymlp/core/data_format.py L46-60 (check_errors).

    Simplifications: the XML tree is the record of what the readers look up in it, an element that is not there is [None]; the numbers and
    arrays of an element can be read; a file is the same at every reading; a YAML file is the record of the values looked up in it. *)
From Verif Require Import Base Num Model.Structure Model.DatasetDFT.
From Coq Require String.
Import String.StringSyntax.
Local Open Scope string_scope.
Local Open Scope list_scope.
Local Open Scope nat_scope.

Section Readers.
  Context {F : Type} {N : Num F} {O : NumOrd F}.
  Context {P A : Type}.
  Notation structure := (structure P A F).
  Definition force := list (list F).        (** one column per atom *)
  Definition tensor := nat -> nat -> F.

  (** [PolymlpStructure(axis, positions, n_atoms, elements, types, volume, name=name)] with the assertions of [check_errors] *)
  Definition checked (st : structure) : res structure :=
    do _ <- py_assert (length (positions st) =? length (elements st));
    do _ <- py_assert (length (elements st) =? length (types st));
    do _ <- py_assert (length (elements st) =? sum (n_atoms st));
    Ok st.
  Definition some {X} (e : exn) (o : option X) : res X := match o with Some x => Ok x | None => Err e end.

  (** ** VASP *)
  (** A calculation element: energy, forces, stress (kbar), cell (basis, positions, volume), energies of the electronic steps *)
  Record calc := mk_calc { c_energy : option F; c_force : option force; c_stress : option tensor; c_cell : option (A * list P * F); c_steps : list (option F) }.
  (** The document: IBRION, calculations, final cell, atom counts, elements and types (from one) *)
  Record vasprun := mk_vasprun {
    x_ibrion : option Z; x_calcs : list calc; x_final : option (A * list P * F);
    x_natoms : list nat; x_elements : list string; x_types : list Z }.
  Variable parse : string -> res vasprun.   (** [ET.parse] *)
  Variable tol : F.                         (** 1e-3 *)
  Variable kbar : F.                        (** EVtoKbar *)

  (** [check_vasprun_type] (L93-105) *)
  Definition is_md (x : vasprun) : bool := match x_ibrion x with Some i => (i =? 0)%Z | None => false end.
  (** First hit of [root.find(".//*[@name=...]")] among the calculations *)
  Fixpoint find_first {X} (f : calc -> option X) (l : list calc) : option X :=
    match l with [] => None | c :: t => match f c with Some x => Some x | None => find_first f t end end.
  (** Element names (L199-201): "r" is Zr. *)
  Definition fix_zr (e : string) : string := if String.eqb e "r" then "Zr" else e.
  Definition cell_structure (x : vasprun) (name : string) (c : A * list P * F) : res structure :=
    let '(ax, pos, vol) := c in
    checked (mk_structure ax pos (x_natoms x) (map fix_zr (x_elements x)) (map (fun t => t - 1)%Z (x_types x)) vol (Some name)).
  (** Attributes of [Vasprun] (L131-224) *)
  Definition v_structure (x : vasprun) (name : string) : res structure := do c <- some AttributeError (x_final x); cell_structure x name c.
  Definition v_energy (x : vasprun) : res F := match x_calcs x with [] => Err AttributeError | c :: _ => some TypeError (c_energy c) end.
  Definition v_forces (x : vasprun) : res force := some TypeError (find_first c_force (x_calcs x)).
  Definition v_stress (x : vasprun) : res tensor := some TypeError (find_first c_stress (x_calcs x)).
  (** [_is_convergent] (L516-532): the last two energies; any exception means convergent. *)
  Definition is_convergent (x : vasprun) : bool :=
    match x_calcs x with
    | [] => true
    | c :: _ =>
        match mapM (some AttributeError) (c_steps c) with
        | Ok es => match rev es with e1 :: e2 :: _ => nltb (nabs (nsub e1 e2)) tol | _ => true end
        | Err _ => true
        end
    end.
  (** [stress * st.volume / EVtoKbar] *)
  Definition to_ev (s : tensor) (vol : F) : tensor := fun i j => ndiv (nmul (s i j) vol) kbar.

  (** Attributes of [VasprunMD] (L255-357) *)
  Definition m_structures (x : vasprun) (name : string) : res (list structure) :=
    mapM (fun c => do y <- some TypeError (c_cell c); cell_structure x name y) (x_calcs x).
  Definition m_energies (x : vasprun) : res (list F) := mapM (fun c => some TypeError (c_energy c)) (x_calcs x).
  Definition m_forces (x : vasprun) : res (list force) := mapM (fun c => some TypeError (c_force c)) (x_calcs x).
  Definition m_stresses (x : vasprun) : res (list tensor) := mapM (fun c => some TypeError (c_stress c)) (x_calcs x).

  Record lists := mk_lists { l_structures : list structure; l_energies : list F; l_forces : list force; l_stresses : list tensor }.
  Definition no_lists : lists := mk_lists [] [] [] [].
  (** Body of the loop (L46-73) *)
  Definition read_vasprun (s : lists) (vasp : string) : res lists :=
    do x <- parse vasp;
    if is_md x then
      do sts <- m_structures x vasp;
      do es <- m_energies x;
      do fs <- m_forces x;
      do ss <- m_stresses x;
      Ok (mk_lists (l_structures s ++ sts) (l_energies s ++ es) (l_forces s ++ fs)
                   (l_stresses s ++ map (fun p => to_ev (fst p) (volume (snd p))) (combine ss sts)))
    else
      match parse vasp with
      | Err _ => Ok s                       (** not readable: continue *)
      | Ok v =>
          if is_convergent v then
            do st <- v_structure v vasp;
            do e <- v_energy v;
            do f <- v_forces v;
            do t <- v_stress v;
            Ok (mk_lists (l_structures s ++ [st]) (l_energies s ++ [e]) (l_forces s ++ [f]) (l_stresses s ++ [to_ev t (volume st)]))
          else Ok s
      end.
  (** [parse_properties_from_vaspruns] (L40-74) *)
  Definition parse_vaspruns (files : list string) : res lists := foldM read_vasprun no_lists files.

  (** ** SSCHA results *)
  Record sscha_yaml := mk_sscha {
    y_converge : bool; y_free_energy : F; y_unitcell : option structure; y_supercell : option structure; y_n_unitcells : option nat;
    y_forces : option force; y_stress : option tensor; y_sym_forces : option force; y_sym_stress : option tensor }.
  Variable yaml : string -> res sscha_yaml.
  Variable kjmol : F.                       (** EVtoKJmol *)
  (** [load_cell] of a loaded file: the name is set by the caller *)
  Definition load_cell (o : option structure) (name : string) : res structure :=
    do st <- some KeyError o;
    do st <- checked st;
    Ok (mk_structure (axis st) (positions st) (n_atoms st) (elements st) (types st) (volume st) (Some name)).
  (** [_get_sscha_properties] (L56-76) *)
  Definition sscha_properties (symmetrized : bool) (y : sscha_yaml) (name : string) : res (structure * F * force * tensor) :=
    let symmetrized := match y_sym_forces y with None => false | Some _ => symmetrized end in
    if symmetrized then
      do st <- load_cell (y_unitcell y) name;
      do f <- some KeyError (y_sym_forces y);
      do t <- some KeyError (y_sym_stress y);
      Ok (st, ndiv (y_free_energy y) kjmol, f, t)
    else
      do st <- load_cell (y_supercell y) name;
      do n <- some KeyError (y_n_unitcells y);
      do f <- some KeyError (y_forces y);
      do t <- some KeyError (y_stress y);
      Ok (st, ndiv (nmul (y_free_energy y) (nnat n)) kjmol, f, fun i j => nmul (t i j) (nnat n)).
  (** Body of the loop (L36-51) *)
  Definition has {X} (o : option X) : bool := match o with Some _ => true | None => false end.
  Definition read_sscha (symmetrized : bool) (s : lists) (file : string) : res lists :=
    do y <- yaml file;
    if negb (y_converge y) then Ok s
    else if negb (has (y_supercell y)) then Ok s
    else if negb (has (y_forces y)) then Ok s
    else if negb (has (y_stress y)) then Ok s
    else
      do (st, e, f, t) <- sscha_properties symmetrized y file;
      Ok (mk_lists (l_structures s ++ [st]) (l_energies s ++ [e]) (l_forces s ++ [f]) (l_stresses s ++ [t])).
  Definition parse_sscha_yamls (symmetrized : bool) (files : list string) : res lists := foldM (read_sscha symmetrized) no_lists files.

  (** ** Electronic properties *)
  (** One file: cell, name, list of temperature and the target property (if the row has it) *)
  Record electron_yaml := mk_electron { e_cell : option structure; e_name : string; e_rows : list (F * option F) }.
  Variables (rtol atol : F).                (** of [np.isclose] *)
  Definition isclose (a b : F) : bool := negb (nltb (nadd atol (nmul rtol (nabs b))) (nabs (nsub a b))).
  Fixpoint pick (temperature : F) (rows : list (F * option F)) : res (list F) :=
    match rows with
    | [] => Ok []
    | r :: t => if isclose (fst r) temperature then do p <- some KeyError (snd r); Ok [p] else pick temperature t
    end.
  (** Body of the loop (L120-127) *)
  Definition read_electron (temperature : F) (s : list structure * list F) (y : electron_yaml) : res (list structure * list F) :=
    do st <- load_cell (e_cell y) (e_name y);
    do p <- pick temperature (e_rows y);
    Ok (fst s ++ [st], snd s ++ p).
  (** [extract_electron_properties] (L108-128) *)
  Definition extract_electron (temperature : F) (ys : list electron_yaml) : res (list structure * list F) := foldM (read_electron temperature) ([], []) ys.
  (** [set_dataset_from_electron_yamls] (L131-155): [elements] given *)
  Variable permute : structure -> list (list F) -> res (structure * list (list F)).
  Definition electron_dataset (temperature : F) (ys : list electron_yaml) (els : list string) : res (dft F structure) :=
    do (sts, ps) <- extract_electron temperature ys;
    set_properties F structure n0 volume name n_atoms permute sts ps None None (fun st => length (elements st)) els.
  (** [set_dataset_from_vaspruns] (L15-37), [set_dataset_from_sscha_yamls] (L13-31): [elements] given *)
  Definition lists_dataset (l : lists) (els : list string) : res (dft F structure) :=
    set_properties F structure n0 volume name n_atoms permute (l_structures l) (l_energies l) (Some (l_forces l)) (Some (l_stresses l))
      (fun st => length (elements st)) els.
End Readers.
