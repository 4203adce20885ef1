(** Geometry optimisation: objective and gradient handed to scipy.

    /repo/src/pypolymlp/calculator/opt_geometry.py L120-245 (split, fun_fix_cell, jac_fix_cell, fun_relax_cell,
    jac_relax_cell, _to_structure_fix_cell, _to_structure_relax_cell, derivatives_by_axis) and L353-370
    (_change_axis, _change_positions).

    Simplifications: [Properties.eval] is a function of axis and fractional positions (elements never change); vectors
    are functions of an index; [_basis_f] is None exactly when [relax_positions] is false; np.linalg.inv is by
    cofactors and does not raise; a power 1/3 of a non-positive number is not nan. Positions are indexed
    [coordinate][atom]; scipy itself is any sequence of calls. *)
From Verif Require Import Base Num NumR Model.Neighbor Model.StructureUtils Model.Tensor Proofs.HalfFull.
From Coq Require Import Reals.
Local Open Scope R_scope.

Record oconfig := mk_oconfig {
  c_cell : bool; c_positions : bool;      (* relax_cell, relax_positions *)
  c_atoms : nat; c_nf : nat; c_na : nat;  (* atoms, columns of _basis_f, columns of _basis_axis *)
  c_basis_f : mat R; c_basis_axis : mat R; c_pos0 : mat R;
  c_pressure : R; c_EVtoGPa : R; c_tol : R }.
Record ostate := mk_ostate { o_axis : mat R; o_inv : mat R; o_volume : R; o_pos : mat R; o_force : option (mat R); o_stress : option (list R) }.

Section Optimize.
  Variable c : oconfig.
  Variable eval : mat R -> mat R -> R * mat R * list R.

  (** number of position coefficients (L117) *)
  Definition size_pos : nat := if c_positions c then c_nf c else 0%nat.
  (** [split] (L120-125) *)
  Definition x_axis (x : vec R) : vec R := fun j => x (size_pos + j)%nat.
  (** [_change_axis] (L356-361) *)
  Definition change_axis (st : ostate) (a : mat R) : ostate :=
    mk_ostate a (inv3 a) (det3 a) (o_pos st) (o_force st) (o_stress st).
  (** [_to_structure_fix_cell] (L193-198) with [_change_positions] (L363-367); coefficients of positions come first *)
  Definition to_structure_fix_cell (st : ostate) (x : vec R) : ostate :=
    if c_positions c then
      let disps := matvec (c_nf c) (c_basis_f c) x in
      mk_ostate (o_axis st) (o_inv st) (o_volume st) (fun k i => refine1 (c_tol c) (c_pos0 c k i + disps (3 * i + k)%nat)) (o_force st) (o_stress st)
    else st.
  (** [_to_structure_relax_cell] (L200-214) *)
  Definition to_structure_relax_cell (st : ostate) (x : vec R) : ostate :=
    let axis :=
      if c_cell c then (fun a k => matvec (c_na c) (c_basis_axis c) (x_axis x) (3 * a + k)%nat)
      else (let scale := Rpower (x_axis x 0%nat / o_volume st) (1 / 3) in fun a k => o_axis st a k * scale) in
    to_structure_fix_cell (change_axis st axis) x.

  (** [fun_fix_cell] (L127-144) *)
  Definition fun_fix_cell (st : ostate) (x : vec R) : res (ostate * R) :=
    let st := to_structure_fix_cell st x in
    let '(e, f, _) := eval (o_axis st) (o_pos st) in
    if Rltb e (- 1000 * INR (c_atoms c)) then Err ValueError
    else Ok (mk_ostate (o_axis st) (o_inv st) (o_volume st) (o_pos st) (Some f) (o_stress st), e + c_pressure c * o_volume st / c_EVtoGPa c).
  (** [fun_relax_cell] (L154-175) *)
  Definition fun_relax_cell (st : ostate) (x : vec R) : res (ostate * R) :=
    let st := to_structure_relax_cell st x in
    let '(e, f, s) := eval (o_axis st) (o_pos st) in
    if Rltb e (- 1000 * INR (c_atoms c)) || Rltb 1000 (Rabs (o_volume st) / INR (c_atoms c)) then Err ValueError
    else Ok (mk_ostate (o_axis st) (o_inv st) (o_volume st) (o_pos st) (Some f) (Some s), e + c_pressure c * o_volume st / c_EVtoGPa c).

  (** [jac_fix_cell] (L146-152): [prod = -force.T @ axis], flattened atom by atom. None.T is an AttributeError. *)
  Definition jac_fix_cell (st : ostate) : res (vec R) :=
    if c_positions c then
      match o_force st with
      | None => Err AttributeError
      | Some f =>
          let prod := fun i k => sumn 3 (fun a => - f a i * o_axis st a k) in
          Ok (fun j => sumn (3 * c_atoms c) (fun p => c_basis_f c p j * prod (p / 3)%nat (p mod 3)%nat))
      end
    else Ok (fun _ => 0).
  (** [derivatives_by_axis] (L225-245). None[0] is a TypeError. *)
  Definition derivatives_by_axis (st : ostate) : res (vec R) :=
    match o_stress st with
    | None => Err TypeError
    | Some s =>
        let pv := c_pressure c * o_volume st / c_EVtoGPa c in
        let s' := fun k => nth k s 0 in
        let sigma := rows3 [s' 0%nat - pv; s' 3%nat; s' 5%nat] [s' 3%nat; s' 1%nat - pv; s' 4%nat] [s' 5%nat; s' 4%nat; s' 2%nat - pv] in
        if c_cell c then
          let der := fun a k => sumn 3 (fun b => - sigma a b * trans (o_inv st) b k) in
          Ok (fun j => sumn 9 (fun p => c_basis_axis c p j * der (p / 3)%nat (p mod 3)%nat))
        else Ok (fun _ => - sumn 3 (fun a => sigma a a) / 3)
    end.
  (** [jac_relax_cell] (L177-184): the argument only gives the length. *)
  Definition jac_relax_cell (st : ostate) : res (vec R) :=
    do g <- jac_fix_cell st;
    do d <- derivatives_by_axis st;
    Ok (fun j => if (j <? size_pos)%nat then g j else d (j - size_pos)%nat).

  (** What scipy does with the two functions: calls in any order; an exception ends the run. *)
  Inductive call := Fun (x : vec R) | Jac (x : vec R).
  Definition step (relax : bool) (st : ostate) (q : call) : res ostate :=
    match q with
    | Fun x => do r <- (if relax then fun_relax_cell st x else fun_fix_cell st x); Ok (fst r)
    | Jac _ => do _ <- (if relax then jac_relax_cell st else jac_fix_cell st); Ok st
    end.
  Fixpoint calls (relax : bool) (st : ostate) (qs : list call) : res ostate :=
    match qs with [] => Ok st | q :: qs => do st <- step relax st q; calls relax st qs end.
End Optimize.
