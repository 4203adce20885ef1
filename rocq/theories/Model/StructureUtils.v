(** Utilities on structures.

    /repo/src/pypolymlp/core/data_format.py L66-84 (PolymlpStructure.reorder),
    /repo/src/pypolymlp/utils/structure_utils.py L12-29, L121-184, L233-254,
    /repo/src/pypolymlp/utils/supercell_utils.py L19-23, L59-88,
    /repo/src/pypolymlp/core/displacements.py L10-67, L99-109,
    /repo/src/pypolymlp/core/strgen.py L12-36.

    Simplifications: positions are a list of columns; [np.linalg.inv] is a function [inv] of the axis matrix;
    supercell sizes are natural numbers and [use_phonopy=False]; in-place updates are returned as a new structure. *)
From Verif Require Import Base Num Model.Neighbor Model.Structure.
From Coq Require String Ascii DecimalString.
Import String.StringSyntax.
Notation string := String.string.

Section Prefix.
  Local Open Scope string_scope.
  Definition disp_prefix : string := "disp-".
End Prefix.

(** ** Sorting by type *)
Section Sort.
  Context {P A V : Type}.
  Notation structure := (structure P A V).
  (** dict [map_elements] (data_format.py L68-70): a later atom of the same type overwrites. *)
  Definition map_elements (ty : list Z) (el : list string) : list (Z * string) := rev (combine ty el).
  Definition lookup (m : list (Z * string)) (t : Z) : res string :=
    match find (fun te => (t =? fst te)%Z) m with Some te => Ok (snd te) | None => Err KeyError end.
  Definition type_mask (i : Z) (ty : list Z) : list bool := map (Z.eqb i) ty.
  (** loop over [sorted(set(types))] (L72-77; structure_utils.py L239-246): n_atoms, positions, types, ids *)
  Definition sort_step (st : structure) (s : list nat * list P * list Z * list nat) (i : Z) : res (list nat * list P * list Z * list nat) :=
    let '(na, pos, ty, ids_all) := s in
    let ids := type_mask i (types st) in
    do psel <- np_select ids (positions st);
    do tsel <- np_select ids (types st);
    Ok (na ++ [count_true ids], pos ++ psel, ty ++ tsel, ids_all ++ where_ (fun b => b) ids).
  (** [sort_wrt_types] (structure_utils.py L233-254) with return_ids *)
  Definition sort_wrt_types (st : structure) : res (structure * list nat) :=
    do s <- foldM (sort_step st) ([], [], [], []) (np_unique (types st));
    let '(na, pos, ty, ids) := s in
    do el <- mapM (lookup (map_elements (types st) (elements st))) ty;
    Ok (mk_structure (axis st) pos na el ty (volume st) (name st), ids).
  (** [reorder] (data_format.py L66-84) *)
  Definition reorder (st : structure) : res structure := do r <- sort_wrt_types st; Ok (fst r).
End Sort.

(** ** Positions, displacements, supercells *)
Section Geometry.
  Context {F : Type} {N : Num F} {NO : NumOrd F} {NI : NumInt F}.
  Local Open Scope num_scope.
  Definition vmap (f : F -> F) (p : v3 F) : v3 F := V3 (f (vx p)) (f (vy p)) (f (vz p)).
  (** [_refine_positions] (structure_utils.py L12-16, supercell_utils.py L19-23), one coordinate *)
  Definition refine1 (tol x : F) : F :=
    let y := x - nz (nfloor x) in
    if nltb (1 - tol) y then y - 1 else y.
  Definition refine_positions (tol : F) (ps : list (v3 F)) : list (v3 F) := map (vmap (refine1 tol)) ps.

  (** matrix times column *)
  Definition mv (M : cell F) (p : v3 F) : v3 F := to_cartesian M (vx p) (vy p) (vz p).
  (** [np.rint]: ties to even *)
  Definition rint (x : F) : Z :=
    let f := nfloor x in
    let r := x - nz f in
    if nltb r nhalf then f else if nltb nhalf r then Z.succ f else if Z.even f then f else Z.succ f.

  Variable inv : cell F -> cell F.   (** np.linalg.inv *)
  Notation gstructure := (structure (v3 F) (cell F) F).
  Definition set_positions (st : gstructure) (ps : list (v3 F)) : gstructure :=
    mk_structure (axis st) ps (n_atoms st) (elements st) (types st) (volume st) (name st).
  Definition zip_with {X Y Z} (f : X -> Y -> Z) (l : list X) (m : list Y) : list Z := map (fun xy => f (fst xy) (snd xy)) (combine l m).
  (** [convert_disps_to_positions] (displacements.py L10-24), one sample *)
  Definition disp_positions (A : cell F) (ps d : list (v3 F)) : list (v3 F) := zip_with (fun p u => vadd p (mv (inv A) u)) ps d.
  (** [get_structures_from_displacements] (L27-67); the names "disp-i" *)
  Definition disp_name (i : nat) : string := String.append disp_prefix (DecimalString.NilEmpty.string_of_uint (Nat.to_uint (i + 1))).
  Definition structures_from_disps (disps : list (list (v3 F))) (st : gstructure) : list gstructure :=
    map (fun id => let s := set_positions st (disp_positions (axis st) (positions st) (snd id)) in
                   mk_structure (axis s) (positions s) (n_atoms s) (elements s) (types s) (volume s) (Some (disp_name (fst id))))
        (enumerate disps).
  (** [convert_positions_to_disps] (L99-109) *)
  Definition positions_to_disps (st0 st : gstructure) : list (v3 F) :=
    map (mv (axis st0)) (map (fun d => V3 (vx d - nz (rint (vx d))) (vy d - nz (rint (vy d))) (vz d - nz (rint (vz d))))
                             (zip_with (fun p p0 => vsub p p0) (positions st) (positions st0))).

  (** [_get_supercell_diagonal] (supercell_utils.py L59-88). *)
  Definition trans_all (nx ny nz : nat) : list (nat * nat * nat) :=
    flat_map (fun z => flat_map (fun y => map (fun x => (x, y, z)) (seq 0 nx)) (seq 0 ny)) (seq 0 nz).
  Definition sup_position (tol : F) (size : nat * nat * nat) (p : v3 F) (t : nat * nat * nat) : v3 F :=
    let '(nx, ny, nz) := size in let '(tx, ty, tz) := t in
    vmap (refine1 tol) (V3 ((vx p + nnat tx) / nnat nx) ((vy p + nnat ty) / nnat ny) ((vz p + nnat tz) / nnat nz)).
  Definition np_repeat {X} (l : list X) (n : nat) : list X := flat_map (fun x => repeat x n) l.
  Definition supercell_diagonal (tol : F) (st : gstructure) (size : nat * nat * nat) : gstructure :=
    let '(nx, ny, nz) := size in
    let n := (nx * ny * nz)%nat in
    let A := axis st in
    mk_structure (Cell (vscale (nnat nx) (ax0 A)) (vscale (nnat ny) (ax1 A)) (vscale (nnat nz) (ax2 A)))
      (flat_map (fun p => map (sup_position tol size p) (trans_all nx ny nz)) (positions st))
      (map (fun k => (k * n)%nat) (n_atoms st)) (np_repeat (elements st) n) (np_repeat (types st) n) (volume st * nnat n) (name st).

  (** [find_supercell_size_nearly_isotropic] (strgen.py L12-36): [ratio] is the list of length ratios; [np.round] is [rint]. *)
  Definition max_1 (z : Z) : nat := Z.to_nat (Z.max z 1).
  Definition size_trial (ratio : F * F * F) (c : nat) : nat * nat * nat :=
    let '(r0, r1, r2) := ratio in (max_1 (rint (r0 * nnat c)), max_1 (rint (r1 * nnat c)), max_1 (rint (r2 * nnat c))).
  Definition prod3 (s : nat * nat * nat) : nat := let '(a, b, c) := s in (a * b * c)%nat.
  Fixpoint find_size (ratio : F * F * F) (total lb ub : nat) (cand : list nat) (size : nat * nat * nat) : nat * nat * nat :=
    match cand with
    | [] => size
    | c :: t =>
        let trial := size_trial ratio c in
        let n_total := (total * prod3 trial)%nat in
        if lb <=? n_total then (if n_total <=? ub then trial else size) else find_size ratio total lb ub t trial
    end.
  Definition find_supercell_size (ratio : F * F * F) (total lb ub : nat) : nat * nat * nat := find_size ratio total lb ub (seq 1 10) (1, 1, 1)%nat.
End Geometry.
