(** Neighbour lists of a periodic structure.
    Source: src/pypolymlp/cxx/src/compute/neighbor_cell.(h,cpp), neighbor_half.(h,cpp), neighbor_full.(h,cpp).
    Simplifications: doubles are numbers of type F; [round], [ceil], [floor] come from one floor function;
    OpenMP loops run in index order (every iteration writes its own entries). *)
From Verif Require Import Base Num Model.Cxx.

(** Rounding down to an integer, and the integer as a number. *)
Class NumInt (F : Type) := nfloor : F -> Z.
Definition nz {F} {N : Num F} (z : Z) : F :=
  match z with Z0 => n0 | Zpos p => nnat (Pos.to_nat p) | Zneg p => nopp (nnat (Pos.to_nat p)) end.

Record v3 (F : Type) := V3 { vx : F; vy : F; vz : F }.
Arguments V3 {F}. Arguments vx {F}. Arguments vy {F}. Arguments vz {F}.
(** component c = 0, 1, 2 *)
Definition vc {F} (c : nat) (v : v3 F) : F := match c with 0 => vx v | 1 => vy v | _ => vz v end.

Section Neighbor.
  Context {F : Type} {N : Num F} {NO : NumOrd F} {NI : NumInt F}.
  Local Open Scope num_scope.
  Definition vadd (a b : v3 F) : v3 F := V3 (vx a + vx b) (vy a + vy b) (vz a + vz b).
  Definition vsub (a b : v3 F) : v3 F := V3 (vx a - vx b) (vy a - vy b) (vz a - vz b).
  Definition vneg (a : v3 F) : v3 F := V3 (- vx a) (- vy a) (- vz a).
  Definition vscale (c : F) (a : v3 F) : v3 F := V3 (c * vx a) (c * vy a) (c * vz a).
  Definition vdot (a b : v3 F) : F := vx a * vx b + vy a * vy b + vz a * vz b.
  Definition v0 : v3 F := V3 0 0 0.
  Definition norm2 (a : v3 F) : F := vdot a a.
  Definition norm (a : v3 F) : F := nsqrt (norm2 a).
  Definition two : F := 1 + 1.
  Definition nhalf : F := 1 / two.
  Definition nceil (x : F) : Z := Z.opp (nfloor (- x)).
  (** [round]: halfway cases away from zero *)
  Definition nround (x : F) : Z := if nltb x 0 then Z.opp (nfloor (nabs x + nhalf)) else nfloor (nabs x + nhalf).

  (** Class [NeighborCell]: the three axis vectors. [to_cartesian] (neighbor_cell.h), with integers or fractions. *)
  Record cell := Cell { ax0 : v3 F; ax1 : v3 F; ax2 : v3 F }.
  Definition to_cartesian (A : cell) (x y z : F) : v3 F :=
    vadd (vadd (vscale x (ax0 A)) (vscale y (ax1 A))) (vscale z (ax2 A)).
  Definition cart_z (A : cell) (i j k : Z) : v3 F := to_cartesian A (nz i) (nz j) (nz k).
  Definition distance (A : cell) (i j k : Z) : F := norm (cart_z A i j k).
  (** [compute_metric] (neighbor_cell.cpp L24-44): the test for one pair of axes *)
  Definition need_ref (a b : v3 F) : bool :=
    nltb (nhalf * vdot a a) (nabs (vdot a b)) || nltb (nhalf * vdot b b) (nabs (vdot a b)).
  Definition ref01 A := need_ref (ax0 A) (ax1 A).
  Definition ref02 A := need_ref (ax0 A) (ax2 A).
  Definition ref12 A := need_ref (ax1 A) (ax2 A).
  Definition ref_any A : bool := ref01 A || ref02 A || ref12 A.
  (** [replace_axis_vector] (L51-58) *)
  Definition replace0 A i j k := Cell (cart_z A i j k) (ax1 A) (ax2 A).
  Definition replace1 A i j k := Cell (ax0 A) (cart_z A i j k) (ax2 A).
  Definition replace2 A i j k := Cell (ax0 A) (ax1 A) (cart_z A i j k).
  (** [optimize_1d_axis0/1/2] (L93-123): the integer found; val1, val2 are integers *)
  Definition opt0 A (v1 v2 : Z) : Z :=
    nround (- (vdot (ax0 A) (ax1 A) * nz v1 + vdot (ax0 A) (ax2 A) * nz v2) / vdot (ax0 A) (ax0 A)).
  Definition opt1 A (v1 v2 : Z) : Z :=
    nround (- (vdot (ax0 A) (ax1 A) * nz v1 + vdot (ax1 A) (ax2 A) * nz v2) / vdot (ax1 A) (ax1 A)).
  Definition opt2 A (v1 v2 : Z) : Z :=
    nround (- (vdot (ax0 A) (ax2 A) * nz v1 + vdot (ax1 A) (ax2 A) * nz v2) / vdot (ax2 A) (ax2 A)).
  (** [refine_axis] (L126-168): body of the loop, then at most 100 iterations *)
  Definition refine01 A :=
    if ref01 A then
      if nltb (vdot (ax1 A) (ax1 A)) (vdot (ax0 A) (ax0 A)) then replace0 A 1 (opt1 A 1 0) 0
      else replace1 A (opt0 A 1 0) 1 0
    else A.
  Definition refine02 A :=
    if ref02 A then
      if nltb (vdot (ax2 A) (ax2 A)) (vdot (ax0 A) (ax0 A)) then replace0 A 1 0 (opt2 A 1 0)
      else replace2 A (opt0 A 0 1) 0 1
    else A.
  Definition refine12 A :=
    if ref12 A then
      if nltb (vdot (ax2 A) (ax2 A)) (vdot (ax1 A) (ax1 A)) then replace1 A 0 1 (opt2 A 0 1)
      else replace2 A 0 (opt1 A 0 1) 1
    else A.
  Fixpoint refine_loop (n : nat) A : cell :=
    match n with
    | O => A
    | S n' => if ref_any A then refine_loop n' (refine12 (refine02 (refine01 A))) else A
    end.
  Definition refine_axis A : cell := refine_loop 100 A.

  (** [calc_inverse_axis] (L170-192) and the product with a position (L222); column [c] of [axis] is [ax c]. *)
  Definition det (A : cell) : F :=
    vx (ax0 A) * vy (ax1 A) * vz (ax2 A) + vx (ax1 A) * vy (ax2 A) * vz (ax0 A) + vx (ax2 A) * vy (ax0 A) * vz (ax1 A)
    - vx (ax2 A) * vy (ax1 A) * vz (ax0 A) - vx (ax1 A) * vy (ax0 A) * vz (ax2 A) - vx (ax0 A) * vy (ax2 A) * vz (ax1 A).
  Definition to_frac (A : cell) (p : v3 F) : v3 F :=
    let a := ax0 A in let b := ax1 A in let c := ax2 A in
    let d := det A in
    V3 (vdot (V3 ((vy b * vz c - vy c * vz b) / d) (- (vx b * vz c - vx c * vz b) / d) ((vx b * vy c - vx c * vy b) / d)) p)
       (vdot (V3 (- (vy a * vz c - vy c * vz a) / d) ((vx a * vz c - vx c * vz a) / d) (- (vx a * vy c - vx c * vy a) / d)) p)
       (vdot (V3 ((vy a * vz b - vy b * vz a) / d) (- (vx a * vz b - vx b * vz a) / d) ((vx a * vy b - vx b * vy a) / d)) p).
  (** [standardize_positions] (L194-200) and back (L227-234) *)
  Definition wrap1 (x : F) : F := x - nz (nfloor x).
  Definition wrap (A : cell) (p : v3 F) : v3 F :=
    let f := to_frac A p in to_cartesian A (wrap1 (vx f)) (wrap1 (vy f)) (wrap1 (vz f)).

  (** [find_maximum_diagonal_in_cell] (L73-90) *)
  Definition zrange (m : Z) : list Z := map (fun k => (Z.of_nat k - m)%Z) (seq 0 (Z.to_nat (2 * m + 1))).
  Definition box (m0 m1 m2 : Z) : list (Z * Z * Z) :=
    flat_map (fun i => flat_map (fun j => map (fun k => (i, j, k)) (zrange m2)) (zrange m1)) (zrange m0).
  Definition max_diag (A : cell) : F :=
    fold_left (fun m ijk => let '(i, j, k) := ijk in let d := distance A i j k in if nltb m d then d else m) (box 1 1 1) 0.
  (** [find_trans] (L203-256): the constructor returns the translations and the positions *)
  Definition max_exp (A : cell) (cutoff : F) (i j k : Z) : Z := Z.succ (nceil (cutoff / distance A i j k)).
  Definition translations (A : cell) (cutoff : F) : list (v3 F) :=
    filter (fun t => nltb (norm t) (max_diag A + cutoff))
      (map (fun ijk => let '(i, j, k) := ijk in cart_z A i j k)
         (box (max_exp A cutoff 1 0 0) (max_exp A cutoff 0 1 0) (max_exp A cutoff 0 0 1))).
  Definition neighbor_cell (A : cell) (pos : list (v3 F)) (cutoff : F) : list (v3 F) * list (v3 F) :=
    if ref_any A then let A' := refine_axis A in (translations A' cutoff, map (wrap A') pos)
    else (translations A cutoff, pos).

  (** Compressed rows: [offset], [neigh], [dx, dy, dz] (neighbor_half.cpp L77-99, neighbor_full.cpp L53-75). *)
  Record csr := CSR { cs_neigh : list nat; cs_d : list (v3 F); cs_off : list nat }.
  Definition offsets (degree : list nat) : list nat := fold_left (fun off d => off ++ [(last off 0 + d)%nat]) degree [0%nat].
  Definition csr_of (rows : list (list (nat * v3 F))) : csr :=
    CSR (map fst (concat rows)) (map snd (concat rows)) (offsets (map (@length _) rows)).
  (** the entries in [range(i)], as pairs (neighbor_atom, diff_ji) *)
  Definition row (c : csr) (i : nat) : list (nat * v3 F) :=
    let b := nth i (cs_off c) 0%nat in
    let e := nth (S i) (cs_off c) 0%nat in
    map (fun k => (nth k (cs_neigh c) 0%nat, nth k (cs_d c) v0)) (seq b (e - b)).

  Variable tol : F.      (** 1e-10 *)
  Definition in_range (cutoff : F) (d : v3 F) : bool := nltb (norm2 d) (cutoff * cutoff) && nltb (tol * tol) (norm2 d).
  (** NeighborHalf (neighbor_half.cpp L33-75) *)
  Definition keep (d : v3 F) : bool :=
    if negb (nltb (vz d) tol) then true
    else if nltb (nabs (vz d)) tol && negb (nltb (vy d) tol) then true
    else nltb (nabs (vz d)) tol && nltb (nabs (vy d)) tol && negb (nltb (vx d) tol).
  Definition pair_rows (trans pos : list (v3 F)) (cutoff : F) (i j : nat) : list (nat * v3 F) :=
    let dij := vsub (nth j pos v0) (nth i pos v0) in
    map (pair j) (filter (in_range cutoff) (map (vadd dij) trans)).
  Definition half_rows (trans pos : list (v3 F)) (cutoff : F) : list (list (nat * v3 F)) :=
    map (fun i => flat_map (pair_rows trans pos cutoff i) (seq 0 i)
                  ++ map (pair i) (filter (fun t => in_range cutoff t && keep t) trans)) (seq 0 (length pos)).
  Definition neighbor_half (A : cell) (pos : list (v3 F)) (cutoff : F) : csr :=
    let '(trans, p) := neighbor_cell A pos cutoff in csr_of (half_rows trans p cutoff).
  (** NeighborFull (neighbor_full.cpp L29-51) *)
  Definition full_rows (trans pos : list (v3 F)) (cutoff : F) : list (list (nat * v3 F)) :=
    map (fun i => flat_map (pair_rows trans pos cutoff i) (seq 0 (length pos))) (seq 0 (length pos)).
  Definition neighbor_full (A : cell) (pos : list (v3 F)) (cutoff : F) : csr :=
    let '(trans, p) := neighbor_cell A pos cutoff in csr_of (full_rows trans p cutoff).

  (** [get_full_list] (neighbor_half.cpp L126-179): counting sort of the mirrored list. *)
  Definition half_pairs (n : nat) (c : csr) : list (nat * nat * v3 F) :=
    flat_map (fun i => map (fun jd => (i, fst jd, snd jd)) (row c i)) (seq 0 n).
  Definition degrees (n : nat) (c : csr) : list nat :=
    fold_left (fun deg i =>
      fold_left (fun deg jd => upd (fst jd) S deg) (row c i)
        (upd i (fun x => (x + (nth (S i) (cs_off c) 0 - nth i (cs_off c) 0))%nat) deg)) (seq 0 n) (repeat 0%nat n).
  Definition put {A} (i : nat) (x : A) (l : list A) : list A := upd i (fun _ => x) l.
  Definition write1 (st : list nat * list nat * list (v3 F)) (i j : nat) (d : v3 F) :=
    let '(pos, nb, ds) := st in
    let idx := nth i pos 0%nat in
    (upd i S pos, put idx j nb, put idx d ds).
  Definition write2 (st : list nat * list nat * list (v3 F)) (e : nat * nat * v3 F) :=
    let '(i, j, d) := e in write1 (write1 st i j d) j i (vneg d).
  Definition get_full_list (n : nat) (c : csr) : csr :=
    let off := offsets (degrees n c) in
    let nnz := nth n off 0%nat in
    let '(_, nb, ds) := fold_left write2 (half_pairs n c) (off, repeat 0%nat nnz, repeat v0 nnz) in
    CSR nb ds off.
End Neighbor.
Arguments cell F : clear implicits. Arguments csr F : clear implicits.
