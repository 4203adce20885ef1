(** Thermodynamic data on a grid of volumes and temperatures.

    /repo/src/pypolymlp/calculator/thermodynamics/thermodynamics_parser.py L16-209,
    /repo/src/pypolymlp/calculator/thermodynamics/thermodynamics_grid.py L14-168, 270-291,
    /repo/src/pypolymlp/calculator/sscha/sscha_restart.py L43-105, 198-201.

    Simplifications: volumes and temperatures are rational numbers and are rounded exactly (half to even, as numpy);
    energies and entropies are of an arbitrary number type [F]; a parsed file is a record; the
    Restart object and the path of the force constants are values of arbitrary types. *)
From Verif Require Import Base Num Model.Structure.
From Coq Require Import QArith Qround Qabs.
Local Open Scope nat_scope.

(** ** Rounding: [np.rint], [np.round(x, decimals)] in units of the last decimal *)
Definition rint (q : Q) : Z :=
  let f := Qfloor q in
  match Qcompare (q - inject_Z f) (1 # 2) with
  | Lt => f
  | Gt => (f + 1)%Z
  | Eq => if Z.even f then f else (f + 1)%Z
  end.
Definition unit_of (decimals : nat) : Z := (10 ^ Z.of_nat decimals)%Z.
Definition key (decimals : nat) (q : Q) : Z := rint (q * inject_Z (unit_of decimals)).

Section ThermoGrid.
  Context {F : Type} {N : Num F} {A P : Type}.

  (** ** GridPointData (grid L14-77) *)
  Record vals := mk_vals {
    v_free : option F; v_entropy : option F; v_cv : option F; v_energy : option F; v_static : option F;
    v_restart : option A; v_fc2 : option P }.
  Inductive attr := AFree | AEntropy | ACv | AEnergy | AStatic.
  Definition get_attr (a : attr) (v : vals) : option F :=
    match a with AFree => v_free v | AEntropy => v_entropy v | ACv => v_cv v | AEnergy => v_energy v | AStatic => v_static v end.
  (** The volume and the temperature are None in empty points. *)
  Record gpoint := mk_gp { gp_at : option (Q * Q); gp_vals : vals }.
  Definition add_single (a b : option F) : option F :=
    match a, b with Some x, Some y => Some (nadd x y) | _, _ => None end.
  Definition py_or {X} (a b : option X) : option X := match a with Some _ => a | None => b end.
  (** [add] (L41-56) changes the point *)
  Definition add (p g : gpoint) : gpoint :=
    let v := gp_vals p in let w := gp_vals g in
    mk_gp (gp_at p)
      (mk_vals (add_single (v_free v) (v_free w)) (add_single (v_entropy v) (v_entropy w)) (add_single (v_cv v) (v_cv w))
               (add_single (v_energy v) (v_energy w)) (add_single (v_static v) (v_static w))
               (py_or (v_restart v) (v_restart w)) (py_or (v_fc2 v) (v_fc2 w))).
  Definition no_vals : vals := mk_vals None None None None None None None.
  Definition empty_point : gpoint := mk_gp None no_vals.

  (** ** Loading (parser L16-57) *)
  Record datum := mk_datum { d_volume : Q; d_temp : Q; d_vals : vals }.
  (** A sscha_results.yaml with [unit="eV/atom"]: determinant of the cell, number of atoms, temperature, and in kJ/mol or J/K/mol
      free energy, static potential, entropy; [kjmol] is EVtoKJmol *)
  Record sscha_file := mk_sscha {
    s_det : Q; s_natom : nat; s_temp : Q; s_free : F; s_static : F; s_entropy : F;
    s_converge : bool; s_imaginary : bool; s_restart : A; s_fc2 : P }.
  Variable kjmol : F.
  Definition load_sscha (s : sscha_file) : res datum :=
    if (s_natom s =? 0) then Err ZeroDivisionError else
    let ue := ndiv n1 (nmul kjmol (nnat (s_natom s))) in
    let us := ndiv n1 (nmul (nmul kjmol (nnat 1000)) (nnat (s_natom s))) in
    let ok := s_converge s && negb (s_imaginary s) in
    let static := nmul (s_static s) ue in
    Ok (mk_datum (s_det s * (1 / inject_Z (Z.of_nat (s_natom s))))%Q (s_temp s)
          (mk_vals (if ok then Some (nadd (nmul (s_free s) ue) static) else None)
                   (if ok then Some (nmul (s_entropy s) us) else None) None None
                   (if ok then Some static else None) (Some (s_restart s)) (Some (s_fc2 s)))).
  (** An electron.yaml: number of atoms, volume, properties (temperature, free energy, entropy) *)
  Record electron_file := mk_electron { e_natom : nat; e_volume : Q; e_props : list (Q * F * F) }.
  Definition load_electron (s : electron_file) : res (list datum) :=
    if (e_natom s =? 0) then Err ZeroDivisionError else
    Ok (map (fun q => let '(t, f, e) := q in
          mk_datum (e_volume s / inject_Z (Z.of_nat (e_natom s)))%Q t
            (mk_vals (Some (ndiv f (nnat (e_natom s)))) (Some (ndiv e (nnat (e_natom s)))) None None None None None)) (e_props s)).

  (** ** The common grid (parser L89-143) *)
  Definition counts := list (Z * nat).
  Fixpoint bump (k : Z) (c : counts) : counts :=
    match c with
    | [] => [(k, 1)]
    | (k', n) :: t => if Z.eqb k k' then (k', S n) :: t else (k', n) :: bump k t
    end.
  Fixpoint lookup (k : Z) (c : counts) : option nat :=
    match c with [] => None | (k', n) :: t => if Z.eqb k k' then Some n else lookup k t end.
  Definition has_free (d : datum) : bool := match v_free (d_vals d) with Some _ => true | None => false end.
  (** [_count_data_size] (L89-100) *)
  Definition count_size (decimals : nat) (data : list datum) : counts * counts :=
    fold_left (fun c d => if has_free d then (bump (key decimals (d_volume d)) (fst c), bump (rint (d_temp d)) (snd c)) else c) data ([], []).
  (** [_count_data_minimum_size] (L103-130) *)
  Definition minimum (c c' : counts) : counts :=
    flat_map (fun q => match lookup (fst q) c' with
                       | None => []
                       | Some n' => [(fst q, if (n' <? snd q) then n' else snd q)]
                       end) c.
  Definition count_minimum (decimals : nat) (data_all : list (option (list datum))) : option (counts * counts) :=
    fold_left (fun c o => match o with
                          | None => c
                          | Some data => let '(cv, ct) := count_size decimals data in
                                         match c with
                                         | None => Some (cv, ct)
                                         | Some (v, t) => Some (minimum v cv, minimum t ct)
                                         end
                          end) data_all None.
  (** [sorted] of different numbers *)
  Fixpoint insert_z (x : Z) (l : list Z) : list Z :=
    match l with [] => [x] | y :: t => if (x <=? y)%Z then x :: l else y :: insert_z x t end.
  Definition sort_z (l : list Z) : list Z := fold_right insert_z [] l.
  (** [_get_common_grid] (L133-138); without any data None has no items *)
  Definition common_grid (decimals n_require : nat) (data_all : list (option (list datum))) : res (list Z * list Z) :=
    match count_minimum decimals data_all with
    | None => Err AttributeError
    | Some (cv, ct) => Ok (sort_z (map fst (filter (fun q => n_require <=? snd q) cv)), sort_z (map fst ct))
    end.

  (** ** GridVT: the points are objects, and the array holds references to them *)
  Record grid := mk_grid { g_volumes : list Z; g_temps : list Z; g_cells : list (list nat); g_store : nat -> gpoint }.
  Fixpoint index_of (k : Z) (l : list Z) : option nat :=
    match l with [] => None | x :: t => if Z.eqb k x then Some 0 else match index_of k t with Some i => Some (S i) | None => None end end.
  Fixpoint set_nth {X} (l : list X) (i : nat) (x : X) : list X :=
    match l, i with [], _ => [] | _ :: t, O => x :: t | a :: t, S i' => a :: set_nth t i' x end.
  (** [arr[map_volumes[vol], map_temperatures[temp]] = d], nothing if a key is missing (L158-164).
      The keys of the temperatures are integers, the temperature is rounded to [decimals]. *)
  Definition place (decimals : nat) (volumes temps : list Z) (arr : list (list (option nat))) (q : nat * datum) : list (list (option nat)) :=
    match index_of (key decimals (d_volume (snd q))) volumes, index_of (key decimals (d_temp (snd q))) (map (fun t => t * unit_of decimals)%Z temps) with
    | Some i, Some j => set_nth arr i (set_nth (nth i arr []) j (Some (fst q)))
    | _, _ => arr
    end.
  (** [_get_grid_data] (L141-168): one empty point for all empty places *)
  Definition grid_data (decimals : nat) (volumes temps : list Z) (data : list datum) : grid :=
    let arr := fold_left (place decimals volumes temps) (enumerate data) (repeat (repeat None (length temps)) (length volumes)) in
    mk_grid volumes temps
      (map (map (fun o => match o with Some r => r | None => length data end)) arr)
      (fun r => match nth_error data r with Some d => mk_gp (Some (d_volume d, d_temp d)) (d_vals d) | None => empty_point end).
  (** [load_yamls] (L171-209): the grids of SSCHA, electrons, TI, extrapolated TI, electrons with phonons *)
  Definition load_grids (decimals n_require : nat) (sscha : list datum) (electron ti ti_ext ele_ph : option (list datum))
    : res (grid * option grid * option grid * option grid * option grid) :=
    do (vols, temps) <- common_grid decimals n_require [Some sscha; electron; ti; ele_ph];
    let g o := match o with Some data => Some (grid_data decimals vols temps data) | None => None end in
    Ok (grid_data decimals vols temps sscha, g electron, g ti, g ti_ext, g ele_ph).

  (** ** Sums of grids (grid L270-291) *)
  Definition cell (g : grid) (i j : nat) : option gpoint :=
    match nth_error (g_cells g) i with
    | Some row => match nth_error row j with Some r => Some (g_store g r) | None => None end
    | None => None
    end.
  (** [np.allclose(a, b)] with broadcasting *)
  Variable close : Z -> Z -> bool.
  Definition allclose (a b : list Z) : res bool :=
    if (length a =? length b) then Ok (forallb (fun q => close (fst q) (snd q)) (combine a b)) else
    match a, b with
    | [x], _ => Ok (forallb (fun y => close x y) b)
    | _, [y] => Ok (forallb (fun x => close x y) a)
    | _, _ => Err ValueError
    end.
  Definition check_grid (g0 : grid) (u : unit) (g : grid) : res unit :=
    do b <- allclose (g_volumes g) (g_volumes g0);
    if negb b then Err RuntimeError else
    do b <- allclose (g_temps g) (g_temps g0);
    if negb b then Err RuntimeError else Ok tt.
  (** [for i, j, g in grid] (grid L101-105) *)
  Definition items (g : grid) : list (nat * nat * gpoint) :=
    flat_map (fun q => map (fun c => (fst q, fst c, g_store g (snd c))) (enumerate (snd q))) (enumerate (g_cells g)).
  Definition update (s : nat -> gpoint) (r : nat) (p : gpoint) : nat -> gpoint := fun r' => if (r' =? r) then p else s r'.
  Definition add_item (acc : grid) (q : nat * nat * gpoint) : res grid :=
    let '(i, j, g) := q in
    do row <- get (g_cells acc) i;
    do r <- get row j;
    Ok (mk_grid (g_volumes acc) (g_temps acc) (g_cells acc) (update (g_store acc) r (add (g_store acc r) g))).
  Definition sum_grids (l : list grid) : res grid :=
    match l with
    | [] => Err IndexError
    | [g] => Ok g
    | g0 :: gs =>
        do _ <- foldM (check_grid g0) tt gs;
        foldM (fun acc g => foldM add_item acc (items g)) g0 gs
    end.

  (** ** Properties for the fits (grid L147-158): the columns of the array *)
  Definition column (g : grid) (j : nat) : list gpoint :=
    flat_map (fun row => match nth_error row j with Some r => [g_store g r] | None => [] end) (g_cells g).
  Definition volumes_properties (a : attr) (g : grid) : list (Z * list (option Q) * list F) :=
    map (fun q => let pts := filter (fun p => match get_attr a (gp_vals p) with Some _ => true | None => false end) (column g (fst q)) in
                  (snd q, map (fun p => match gp_at p with Some (v, _) => Some v | None => None end) pts,
                   flat_map (fun p => match get_attr a (gp_vals p) with Some x => [x] | None => [] end) pts))
        (enumerate (g_temps g)).
End ThermoGrid.
