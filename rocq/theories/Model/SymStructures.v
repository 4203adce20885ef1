(** Random structures that keep the symmetry of a structure, and reduced cells.

    /repo/src/pypolymlp/utils/spglib_utils.py L45-84 (SymCell.refine_cell), L142-211 (_normalize_vector, construct_basis_cell), L214-289 (ReducedCell),
    /repo/src/pypolymlp/core/strgen_sym.py L14-135 (StructureGeneratorSym).

    Simplifications: real numbers; [np.linalg.inv] is a function; spglib and symfc are functions: the standardised cell with its number of the
    space group, the basis of displacements (a column as the displacements of the atoms; None if there is none), and the reduced axis;
    [np.random.rand] is a function of row and sample. *)
From Verif Require Import Base Num NumR Model.Neighbor Model.Structure Model.StructureUtils.
From Coq Require Import Reals ZArith.
Local Open Scope R_scope.

(** ** Basis of the axis matrix *)
Definition sumR (l : list R) : R := fold_right Rplus 0 l.
Definition dotl (a b : list R) : R := sumR (map (fun p => fst p * snd p) (combine a b)).
(** spglib_utils.py L142-144 *)
Definition normalize_vector (v : list R) : list R := map (fun x => x / sqrt (dotl v v)) v.
Definition unit9 (i : nat) : list R := map (fun j => if Nat.eqb j i then 1 else 0) (seq 0 9).
(** spglib_utils.py L147-211, columns of [basis]; both branches for trigonal groups are the same *)
Definition hex_basis : list (list R) := [normalize_vector [1; - / 2; 0; 0; sqrt 3 / 2; 0; 0; 0; 0]; unit9 8].
Definition construct_basis (n : Z) : list (list R) :=
  if (195 <=? n)%Z then [normalize_vector [1; 0; 0; 0; 1; 0; 0; 0; 1]]
  else if (168 <=? n)%Z && (n <=? 194)%Z then hex_basis
  else if (143 <=? n)%Z && (n <=? 167)%Z then hex_basis
  else if (75 <=? n)%Z && (n <=? 142)%Z then [normalize_vector [1; 0; 0; 0; 1; 0; 0; 0; 0]; unit9 8]
  else if (16 <=? n)%Z && (n <=? 74)%Z then [unit9 0; unit9 4; unit9 8]
  else if (3 <=? n)%Z && (n <=? 15)%Z then [unit9 0; unit9 4; unit9 8; unit9 2]
  else map unit9 (seq 0 9).
(** [axis.reshape(-1)]: ax, bx, cx, ay, by, cy, az, bz, cz, and back *)
Definition flat_axis (A : cell R) : list R :=
  [vx (ax0 A); vx (ax1 A); vx (ax2 A); vy (ax0 A); vy (ax1 A); vy (ax2 A); vz (ax0 A); vz (ax1 A); vz (ax2 A)].
Definition axis_of (v : list R) : cell R :=
  Cell (V3 (nth 0 v 0) (nth 3 v 0) (nth 6 v 0)) (V3 (nth 1 v 0) (nth 4 v 0) (nth 7 v 0)) (V3 (nth 2 v 0) (nth 5 v 0) (nth 8 v 0)).
(** [basis @ coeffs] *)
Definition lincomb (cs : list R) (bs : list (list R)) : list R := map (fun j => sumR (map (fun p => fst p * nth j (snd p) 0) (combine cs bs))) (seq 0 9).
(** The same for displacements of an atom *)
Definition disp_of (cs : list R) (bs : list (list (v3 R))) (i : nat) : v3 R :=
  fold_right (fun p s => vadd (vscale (fst p) (nth i (snd p) v0)) s) v0 (combine cs bs).

(** ** The generator *)
Notation cryst := (structure (v3 R) (cell R) (option R)).
Record gen := Gen {
  g_cell : cryst;
  g_axis : option (list (list R) * list R);                 (** _basis_axis, _init_axis_coeffs unless fix_axis *)
  g_cart : option (option (list (list (v3 R))));            (** _basis_cartesian unless fix_positions *)
  g_structures : list cryst }.
Section Generator.
  Context {NI : NumInt R}.
  Variable standard : cryst -> cryst * Z.                   (** standardize_cell, get_symmetry_dataset(...).number *)
  Variable cartesian : cryst -> option (list (list (v3 R))).  (** construct_basis_cartesian *)
  Variable inv : cell R -> cell R.
  Variable tol : R.
  (** strgen_sym.py L17-46 *)
  Definition init (st : cryst) (fix_axis fix_positions : bool) : res gen :=
    if fix_axis && fix_positions then Err RuntimeError else
    let c := if fix_axis then st else fst (standard st) in
    let ax := if fix_axis then None else let b := construct_basis (snd (standard st)) in Some (b, map (fun x => dotl x (flat_axis (axis c))) b) in
    if fix_positions then Ok (Gen c ax None [])
    else match cartesian c with
         | None => if fix_axis then Err RuntimeError else Ok (Gen c ax (Some None) [])
         | Some b => Ok (Gen c ax (Some (Some b)) [])
         end.
  (** [(np.random.rand(n_basis, n_samples) - 0.5) * 2 * m], one sample (strgen_sym.py L48-65) *)
  Definition random (r : nat -> nat -> R) (m : R) (n s : nat) : list R := map (fun i => (r i s - / 2) * 2 * m) (seq 0 n).
  Definition sample_axis (g : gen) (ra : nat -> nat -> R) (max_deform : R) (s : nat) : cell R :=
    match g_axis g with
    | Some (b, c0) => axis_of (lincomb (map (fun p => fst p + snd p) (combine (random ra max_deform (length b) s) c0)) b)
    | None => axis (g_cell g)
    end.
  Definition sample_disp (g : gen) (rd : nat -> nat -> R) (max_distance : R) (s i : nat) : v3 R :=
    match g_cart g with Some (Some b) => disp_of (random rd max_distance (length b) s) b i | _ => v0 end.
  (** strgen_sym.py L67-102 *)
  Definition run (g : gen) (n_samples : nat) (max_deform max_distance : R) (ra rd : nat -> nat -> R) : gen :=
    let c := g_cell g in
    let new := map (fun s =>
      let A := sample_axis g ra max_deform s in
      mk_structure A
        (refine_positions tol (map (fun ip => vadd (snd ip) (mv (inv A) (sample_disp g rd max_distance s (fst ip)))) (combine (seq 0 (length (positions c))) (positions c))))
        (n_atoms c) (elements c) (types c) None None) (seq 0 n_samples) in
    Gen c (g_axis g) (g_cart g) (g_structures g ++ new).
  (** strgen_sym.py L117-135 *)
  Definition basis_sets (g : gen) : res (list (cell R) * option (list (list (v3 R)))) :=
    match g_cart g, g_axis g with
    | Some c, Some (b, _) => Ok (map axis_of b, c)
    | _, _ => Err AttributeError
    end.
End Generator.

(** ** Reduced cells (spglib_utils.py L214-289): [B] is the axis reduced by spglib, [close] is np.allclose *)
Definition mm (A B : cell R) : cell R := Cell (mv A (ax0 B)) (mv A (ax1 B)) (mv A (ax2 B)).
Section Reduced.
  Context {NI : NumInt R}.
  Variable inv : cell R -> cell R.
  Variable close : cell R -> cell R -> bool.
  Variable tol : R.
  Definition tmat (A B : cell R) : cell R := mm (inv A) B.
  Definition metric (B : cell R) : cell R :=
    let row a := V3 (vdot a (ax0 B)) (vdot a (ax1 B)) (vdot a (ax2 B)) in Cell (row (ax0 B)) (row (ax1 B)) (row (ax2 B)).
  Definition transform (A B : cell R) (ps : list (v3 R)) : list (v3 R) := refine_positions tol (map (mv (inv (tmat A B))) ps).
  Definition reduce_structure (A B : cell R) (st : cryst) : res cryst :=
    if close (axis st) A then Ok (mk_structure B (transform A B (positions st)) (n_atoms st) (elements st) (types st) (volume st) (name st)) else Err RuntimeError.
End Reduced.

(** ** Atoms of a refined cell grouped by type (spglib_utils.py L63-84): [n_types] is the number of entries of n_atoms *)
Section Refined.
  Context {P : Type}.
  Definition grouped (n_types : nat) (ps : list (P * Z)) : list (P * Z) := flat_map (fun t => filter (fun p => (snd p =? Z.of_nat t)%Z) ps) (seq 0 n_types).
  Definition refine_cell (st_types : list Z) (st_elements : list string) (n_types : nat) (ps : list (P * Z)) : res (list (P * Z) * list nat * list string) :=
    let g := grouped n_types ps in
    let n := map (fun t => length (filter (fun p => (snd p =? Z.of_nat t)%Z) g)) (seq 0 n_types) in
    do el <- mapM (fun p => lookup (map_elements st_types st_elements) (snd p)) g;
    Ok (g, n, el).
End Refined.
