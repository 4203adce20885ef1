(** Force constants from a potential: the object PolymlpFC and its use by the calculator object.

    /repo/src/pypolymlp/calculator/fc.py L23-85 (construction), L87-96 (_compute_forces), L98-121 (sample), L123-159 (run_fc),
    L161-212 (run), L214-224 (save_fc), L241-264 (setters);
    /repo/src/pypolymlp/core/displacements.py L70-96 (generate_random_const_displacements);
    /repo/src/pypolymlp/api/pypolymlp_calc.py L517-549 (init_fc), L551-603 (run_fc, save_fc), L707-736 (structures).

    Simplifications: an array has at most three axes and is its shape and its entries; symfc, phono3py, phonopy and the potential are parameters; a structure
    with displacements is a function [displace] of the cell and the displacements (Model/StructureUtils.v; its name is left out);
    [eval_multiple] evaluates one structure after another (C29); the numbers drawn by [np.random.randn] are an argument; printing
    is left out; the options handed to symfc unchanged (batch_size, use_mkl, is_compact_fc, use_gradient_solver) are left out;
    writing a file is appending to a list. *)
From Verif Require Import Base Num Model.Structure Model.Readers.

Section ForceConstants.
  Context {F : Type} {N : Num F} {NO : NumOrd F}.
  Variables (St FC C : Type).
  Local Open Scope num_scope.
  Record arr := mk_arr { a_shape : list nat; a_at : nat -> nat -> nat -> F }.
  Definition mat3 := nat -> nat -> F.                      (** axis, atom *)
  Variable size : St -> nat.                               (** number of atoms *)
  Variable displace : St -> mat3 -> St.
  Variable eval : St -> res mat3.                          (** forces *)
  Variable symfc : C -> St -> arr -> arr -> list nat -> res (nat -> FC).   (** cutoff, cell, displacements, forces, orders *)

  (** [x.shape[i]] *)
  Definition dim (a : arr) (i : nat) : res nat := get (a_shape a) i.
  (** [x.transpose((0, 2, 1))] *)
  Definition transpose (a : arr) : res arr :=
    match a_shape a with
    | [n; p; q] => Ok (mk_arr [n; q; p] (fun k i j => a_at a k j i))
    | _ => Err ValueError
    end.
  (** [np.array] of a list of matrices with 3 rows and the given numbers of columns *)
  Definition stack (l : list (nat * mat3)) : res arr :=
    match l with
    | [] => Ok (mk_arr [0%nat] (fun _ _ _ => 0))
    | (n, _) :: _ =>
        if forallb (fun q => (fst q =? n)%nat) l
        then Ok (mk_arr [length l; 3%nat; n] (fun k i j => match nth_error l k with Some (_, m) => m i j | None => 0 end))
        else Err ValueError
    end.
  (** [get_structures_from_displacements] (displacements.py L10-67) *)
  Definition structures_of (cell : St) (d : arr) : res (list St) :=
    do r <- dim d 1; do _ <- py_assert (r =? 3)%nat;
    match a_shape d with
    | n :: _ => Ok (map (fun k => displace cell (fun i j => a_at d k i j)) (seq 0 n))
    | [] => Err IndexError
    end.
  (** [generate_random_const_displacements] (L70-96); [raws]: what is drawn *)
  Definition column_norm (m : mat3) (j : nat) : F := nsqrt (sumn 3 (fun i => m i j * m i j)).
  Definition normalized (m : mat3) : mat3 := fun i j => m i j / column_norm m j.
  Definition sample_disps (raws : list mat3) (mag : F) (plusminus : bool) : list mat3 :=
    flat_map (fun m => let u := normalized m in (fun i j => u i j * mag) :: if plusminus then [fun i j => - u i j * mag] else []) raws.

  (** An attribute that may not have been assigned yet *)
  Inductive slot := Unset | Given (l : option (list St)).
  Record fc := mk_fc {
    s_cell : St; s_cutoff : C; s_disps : option arr; s_structures : slot; s_forces : option arr;
    s_fc2 : option FC; s_fc3 : option FC; s_fc4 : option FC }.
  Definition with_disps (s : fc) d l := mk_fc (s_cell s) (s_cutoff s) d l (s_forces s) (s_fc2 s) (s_fc3 s) (s_fc4 s).
  Definition with_forces (s : fc) f := mk_fc (s_cell s) (s_cutoff s) (s_disps s) (s_structures s) f (s_fc2 s) (s_fc3 s) (s_fc4 s).
  Definition with_cutoff (s : fc) c := mk_fc (s_cell s) c (s_disps s) (s_structures s) (s_forces s) (s_fc2 s) (s_fc3 s) (s_fc4 s).

  (** [__init__] (fc.py L26-85): the displacements read from a file are overwritten (L59) *)
  Definition new_fc (supercell : option St) (yaml : option (res (St * arr * list St))) (cutoff : C) : res fc :=
    match supercell, yaml with
    | None, None => Err RuntimeError
    | Some cell, _ => Ok (mk_fc cell cutoff None Unset None None None None)
    | None, Some r =>
        do (cd, l) <- r;
        let '(cell, disps) := cd in
        Ok (mk_fc cell cutoff None (Given (Some l)) None None None None)
    end.

  (** [_compute_forces] (L87-96): an update in place with broadcasting of the residual forces *)
  Definition subtract (n : nat) (f : mat3) (rn : nat) (r : mat3) : res mat3 :=
    if (rn =? n)%nat then Ok (fun i j => f i j - r i j)
    else if (rn =? 1)%nat then Ok (fun i j => f i j - r i 0%nat)
    else Err ValueError.
  Definition compute_forces (s : fc) : res arr :=
    match s_structures s with
    | Unset => Err AttributeError
    | Given None => Err RuntimeError
    | Given (Some l) =>
        do fs <- mapM eval l;
        do r <- eval (s_cell s);
        do gs <- mapM (fun q => do g <- subtract (size (fst q)) (snd q) (size (s_cell s)) r; Ok (size (fst q), g)) (combine l fs);
        stack gs
    end.

  (** Setters (L241-264) *)
  Definition check_shape (s : fc) (a : arr) : res unit :=
    do p <- dim a 1;
    if negb (p =? 3)%nat then Err RuntimeError
    else do q <- dim a 2; if negb (q =? size (s_cell s))%nat then Err RuntimeError else Ok tt.
  Definition set_disps (d : arr) (s : fc) : fc * res unit :=
    match check_shape s d with
    | Err e => (s, Err e)
    | Ok _ =>
        match structures_of (s_cell s) d with
        | Ok l => (with_disps s (Some d) (Given (Some l)), Ok tt)
        | Err e => (with_disps s (Some d) (s_structures s), Err e)
        end
    end.
  Definition set_forces (f : arr) (s : fc) : fc * res unit :=
    match check_shape s f with Err e => (s, Err e) | Ok _ => (with_forces s (Some f), Ok tt) end.
  (** [sample] (L98-121) *)
  Definition sample (raws : list mat3) (mag : F) (pm : bool) (s : fc) : fc * res unit :=
    match (do d <- stack (map (fun m => (size (s_cell s), m)) (sample_disps raws mag pm)); do l <- structures_of (s_cell s) d; Ok (d, l)) with
    | Ok (d, l) => (with_disps s (Some d) (Given (Some l)), Ok tt)
    | Err e => (s, Err e)
    end.
  (** [run_fc] (L123-159): the errors of L132-136 are made and not raised *)
  Definition assign (orders : list nat) (g : nat -> FC) (s : fc) : fc :=
    fold_left (fun s o =>
      match o with
      | 2%nat => mk_fc (s_cell s) (s_cutoff s) (s_disps s) (s_structures s) (s_forces s) (Some (g 2%nat)) (s_fc3 s) (s_fc4 s)
      | 3%nat => mk_fc (s_cell s) (s_cutoff s) (s_disps s) (s_structures s) (s_forces s) (s_fc2 s) (Some (g 3%nat)) (s_fc4 s)
      | 4%nat => mk_fc (s_cell s) (s_cutoff s) (s_disps s) (s_structures s) (s_forces s) (s_fc2 s) (s_fc3 s) (Some (g 4%nat))
      | _ => s
      end) orders s.
  Definition run_fc (orders : list nat) (s : fc) : fc * res unit :=
    match (do f <- some AttributeError (s_forces s); do f <- transpose f;
           do d <- some AttributeError (s_disps s); do d <- transpose d;
           symfc (s_cutoff s) (s_cell s) d f orders) with
    | Ok g => (assign orders g s, Ok tt)
    | Err e => (s, Err e)
    end.
  (** [save_fc] (L214-224): what is written *)
  Definition save_fc (s : fc) : list (nat * FC) :=
    match s_fc2 s with Some x => [(2%nat, x)] | None => [] end ++ match s_fc3 s with Some x => [(3%nat, x)] | None => [] end.
  Definition andthen {S A} (r : S * res A) {B} (k : S -> A -> S * res B) : S * res B :=
    match r with (s, Ok a) => k s a | (s, Err e) => (s, Err e) end.
  (** [run] (L161-212) *)
  Definition run (disps forces : option arr) (orders : list nat) (write : bool) (s : fc) : fc * res (list (nat * FC)) :=
    andthen (match disps with Some d => set_disps d s | None => (s, Ok tt) end) (fun s _ =>
    andthen (match forces with
             | None => match compute_forces s with Ok f => set_forces f s | Err e => (s, Err e) end
             | Some f => set_forces f s
             end) (fun s _ =>
    andthen (run_fc orders s) (fun s _ => (s, Ok (if write then save_fc s else []))))).

  Inductive op :=
    | SetDisps (d : arr) | SetForces (f : arr) | SetStructures (l : option (list St)) | SetCutoff (c : C)
    | Sample (raws : list mat3) (mag : F) (pm : bool) | RunFC (orders : list nat)
    | Run (disps forces : option arr) (orders : list nat) (write : bool).
  Definition step (s : fc) (o : op) : fc * res (list (nat * FC)) :=
    let quiet (r : fc * res unit) := andthen r (fun s _ => (s, Ok [])) in
    match o with
    | SetDisps d => quiet (set_disps d s)
    | SetForces f => quiet (set_forces f s)
    | SetStructures l => (with_disps s (s_disps s) (Given l), Ok [])
    | SetCutoff c => (with_cutoff s c, Ok [])
    | Sample raws mag pm => quiet (sample raws mag pm s)
    | RunFC orders => quiet (run_fc orders s)
    | Run d f orders w => run d f orders w s
    end.
  (** A history; a caller may go on after an exception *)
  Definition history (s : fc) (ops : list op) : fc := fold_left (fun s o => fst (step s o)) ops s.

  (** ** The calculator object (pypolymlp_calc.py) *)
  Record calc := mk_calc { k_structures : option (list St); k_unitcell : option St; k_fc : option fc }.
  Variable make_supercell : option St -> res St.          (** supercell(unitcell, np.diag(supercell_matrix), use_phonopy=True) *)
  Definition init_fc (unitcell : option St) (cutoff : C) (k : calc) : calc * res unit :=
    let k := match unitcell with Some u => mk_calc (Some [u]) (k_unitcell k) (k_fc k) | None => k end in
    match (match k_structures k with None => Ok None | Some [] => Err IndexError | Some (x :: _) => Ok (Some x) end) with
    | Err e => (k, Err e)
    | Ok first =>
        let k := mk_calc (k_structures k) first (k_fc k) in
        match (do sup <- make_supercell first; new_fc (Some sup) None cutoff) with
        | Ok s => (mk_calc (k_structures k) (k_unitcell k) (Some s), Ok tt)
        | Err e => (k, Err e)
        end
    end.
  Definition api_run_fc (disps forces : option arr) (raws : list mat3) (mag : F) (pm : bool) (orders : list nat) (k : calc) : calc * res unit :=
    match k_fc k with
    | None => (k, Err RuntimeError)
    | Some s =>
        let r := andthen (match disps, forces with Some _, Some _ => (s, Ok tt) | _, _ => sample raws mag pm s end) (fun s _ =>
                 andthen (run None None orders false s) (fun s _ => (s, Ok tt))) in
        (mk_calc (k_structures k) (k_unitcell k) (Some (fst r)), snd r)
    end.
  Definition api_save_fc (k : calc) : res (list (nat * FC)) := match k_fc k with None => Err AttributeError | Some s => Ok (save_fc s) end.
End ForceConstants.
