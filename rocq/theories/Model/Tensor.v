(** Stress conversions, axis triangularisation and elastic constants. Tensors are functions of indices 0..2; a stress
    array of six numbers has the order xx, yy, zz, xy, yz, zx. *)
From Verif Require Import Base Num.

Section Tensor.
  Context {F : Type} {N : Num F} {O : NumOrd F}.
  Local Open Scope num_scope.

  (** core/dataset_utils.py [_set_properties] L235-243 (same order as fc_utils.py L46). *)
  Definition six_of (s : mat F) : list F := [s 0 0; s 1 1; s 2 2; s 0 1; s 1 2; s 2 0]%nat.
  (** np.array of three rows. *)
  Definition rows3 (r0 r1 r2 : list F) : mat F := fun i j => nth j (nth i [r0; r1; r2] []) n0.
  Notation "s @@ k" := (nth k s n0) (at level 30).
  (** core/interface_yaml.py [parse_property_yamls] L168-169; calculator/opt_geometry.py L235-239 with pv = 0;
      calculator/sscha/sscha_io.py L144-148; calculator/utils/lammps/properties_lammps.py L58. *)
  Definition tensor_of (s : list F) : mat F :=
    rows3 [s @@ 0; s @@ 3; s @@ 5] [s @@ 3; s @@ 1; s @@ 4] [s @@ 5; s @@ 4; s @@ 2].
  (** Fancy indexing s[order]. *)
  Definition reindex (s : list F) (order : list nat) : list F := map (fun k => s @@ k) order.
  (** compute_elastic.py L81-82 *)
  Definition voidt : list (nat * nat) := [(0, 0); (1, 1); (2, 2); (1, 2); (0, 2); (0, 1)]%nat.
  Definition to_voidt_order : list nat := [0; 1; 2; 4; 5; 3]%nat.
  Definition to_voigt (s : list F) : list F := reindex s to_voidt_order.
  (** sscha_utils.py [symmetrize_properties] L20-23: the stress part; [proj] is a 9x9 matrix. *)
  Definition flat_order : list nat := [0; 3; 5; 3; 1; 4; 5; 4; 2]%nat.
  Definition six_order : list nat := [0; 4; 8; 1; 5; 6]%nat.
  Definition symmetrize_stress (proj : mat F) (stress : list F) : list F :=
    let flat := reindex stress flat_order in
    let sym := map (fun r => dot 9 (proj r) (fun c => flat @@ c)) (seq 0 9) in
    reindex sym six_order.
  (** ase_calculator.py L72-75: the six numbers are handed to ASE unchanged. *)
  Definition ase_stress (stress : list F) : list F := stress.
  (** properties_utils.py [convert_stresses_in_gpa] L56: one structure. *)
  Definition in_gpa (EVtoGPa : F) (stress : list F) (volume : F) : list F := map (fun s => s * EVtoGPa / volume) stress.

  (** 3x3 matrices. *)
  Definition mmul (a b : mat F) : mat F := fun i j => sumn 3 (fun k => a i k * b k j).
  Definition trans (a : mat F) : mat F := fun i j => a j i.
  Definition eye : mat F := fun i j => if (i =? j)%nat then n1 else n0.
  Definition ent (a : mat F) (i j : nat) : F := a i j.
  Definition det3 (a : mat F) : F :=
    ent a 0 0 * (ent a 1 1 * ent a 2 2 - ent a 1 2 * ent a 2 1) - ent a 0 1 * (ent a 1 0 * ent a 2 2 - ent a 1 2 * ent a 2 0) +
    ent a 0 2 * (ent a 1 0 * ent a 2 1 - ent a 1 1 * ent a 2 0).
  (** np.linalg.inv of a 3x3 matrix: cofactors over the determinant (LU decomposition in numpy). *)
  Definition cofactor (a : mat F) (i j : nat) : F :=
    let r := ((i + 1) mod 3)%nat in let r' := ((i + 2) mod 3)%nat in
    let c := ((j + 1) mod 3)%nat in let c' := ((j + 2) mod 3)%nat in
    a r c * a r' c' - a r c' * a r' c.
  Definition inv3 (a : mat F) : mat F := fun i j => cofactor a j i / det3 a.

  (** rotation_utils.py [triangularize_axis] L7-32; columns of [axis] are the cell vectors. *)
  Definition column (a : mat F) (j : nat) : vec F := fun i => a i j.
  Definition norm3 (v : vec F) : F := nsqrt (dot 3 v v).
  Definition triangularize_axis (axis : mat F) : list F * mat F * mat F :=
    let a := norm3 (column axis 0) in let b := norm3 (column axis 1) in let c := norm3 (column axis 2) in
    let calpha := dot 3 (column axis 1) (column axis 2) / (b * c) in
    let cbeta := dot 3 (column axis 2) (column axis 0) / (c * a) in
    let cgamma := dot 3 (column axis 0) (column axis 1) / (a * b) in
    let lx := a in
    let xy := b * cgamma in
    let xz := c * cbeta in
    let ly := nsqrt (b * b - xy * xy) in
    let yz := (b * c * calpha - xy * xz) / ly in
    let lz := nsqrt (c * c - xz * xz - yz * yz) in
    let full := rows3 [lx; xy; xz] [n0; ly; yz] [n0; n0; lz] in
    ([lx; ly; lz; xy; yz; xz], full, mmul full (inv3 axis)).
  (** [recover_rotated_forces] (L35-48): forces[i][atom]. *)
  Definition recover_rotated_forces (f : nat -> nat -> F) (rotation : mat F) : nat -> nat -> F :=
    fun i a => sumn 3 (fun k => trans rotation i k * f k a).
  (** [recover_rotated_stress] (L51-60): kron(A,A) has entry A[i][k] A[j][l] at row 3i+j, column 3k+l. *)
  Definition kron (a b : mat F) : mat F := fun r c => a (r / 3)%nat (c / 3)%nat * b (r mod 3)%nat (c mod 3)%nat.
  Definition recover_rotated_stress (s rotation : mat F) : mat F :=
    let ri := trans rotation in
    let flat := matvec 9 (kron ri ri) (fun k => s (k / 3)%nat (k mod 3)%nat) in
    fun i j => flat (3 * i + j)%nat.
End Tensor.
