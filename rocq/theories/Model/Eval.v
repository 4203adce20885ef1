(** The fast evaluator: energy, forces and stress from a half neighbour list.
    Source: src/pypolymlp/cxx/src/compute/polymlp_eval.cpp.
    Simplifications as in Model/Compute.v; the OpenMP loops over atoms write separate entries. *)
From Verif Require Import Base Num Complex Model.Cxx Model.Mapping Model.ModelParams Model.Features Model.Potential
  Model.Neighbor Model.Compute.

Section Eval.
  Context {F : Type} {N : Num F} {NO : NumOrd F}.
  Local Open Scope num_scope.
  Variable tol : F.                  (** 1e-20 *)
  Variable B : basis F.
  Variable A : api F.
  Let fp := ap_fp A.
  Let M := mapping fp.
  Let nt := fp_n_type fp.
  Variable types : nat -> nat.
  Variable n_atom : nat.
  Variable H : csr F.                (** NeighborHalf *)
  Let full := get_full_list n_atom H.
  Definition pmodel (t : nat) : ptype F := nth t (ap_model A) ptype0.

  (** loop over the entries of a row, with (dx, dy, dz) = pos[i] - pos[j], within the cutoff *)
  Definition row_loop {T} (type1 : nat) (rows : list (nat * v3 F)) (body : nat -> nat -> v3 F -> list T) : list T :=
    flat_map (fun jd =>
      let d := vneg (snd jd) in
      if inside fp d then body (fst jd) (tpair nt type1 (types (fst jd))) d else []) rows.

  (** [compute_sum_of_prod_antp] (L125-177). *)
  Definition pair_tp (t tp : nat) : list ntpAttrC := nth tp (nth t (pm_tp (mp_pair M)) []) [].
  Definition antp (i : nat) : nat -> F :=
    accum (row_loop (types i) (row full i) (fun j tp d =>
      map (fun a => (pc_il a, fn B fp tp (pc_n_id a) (norm d))) (pair_tp (types i) tp))).
  Definition sums_pair (i : nat) : list F * list F := sum_of_prod_antp (pmodel (types i)) (antp i).
  (** body of [eval_pair] (L46-123): e_ij and the force components *)
  Definition pair_contrib (i j tp : nat) (d : v3 F) : F * (nat -> F) :=
    let attrs := pair_tp (types i) tp in
    let sum f g := fold_left (fun s a => s + f tp (pc_n_id a) (norm d) * (nth (pc_il a) (g (sums_pair i)) 0 + nth (pc_jl a) (g (sums_pair j)) 0)) attrs 0 in
    let f_ij := sum (fn_d B fp) snd * (- (1) / norm d) in
    (sum (fn B fp) fst, fun c => f_ij * vc c d).

  (** [compute_sum_of_prod_anlmtp] (L337-404). *)
  Definition gt_tp (t tp : nat) : list nlmtpAttrC := nth tp (nth t (gm_tp (mp_gt M)) []) [].
  Definition anlmtp_nc (i : nat) : list (nat * Cx F) :=
    row_loop (types i) (row full i) (fun j tp d =>
      map (fun a => (c_inc a, cscale (fn B fp tp (c_n_id a) (norm d)) (b_ylm B (c_key a) d)))
        (filter (fun a => negb (nltb (fn B fp tp (c_n_id a) (norm d)) tol)) (gt_tp (types i) tp))).
  Definition anlmtp (i : nat) : nat -> Cx F :=
    conjugate fp (types i) (accum (map (fun e => (fst e, re (snd e))) (anlmtp_nc i)))
                           (accum (map (fun e => (fst e, im (snd e))) (anlmtp_nc i))).
  Definition sums_gtinv (i : nat) : list (Cx F) * list (Cx F) := sum_of_prod_anlmtp tol (pmodel (types i)) (anlmtp i).
  (** body of [eval_gtinv] (L182-290) *)
  Definition gtinv_contrib (i j tp : nat) (d : v3 F) : F * (nat -> F) :=
    let attrs := filter (fun a => negb (nltb (fn B fp tp (c_n_id a) (norm d)) tol)) (gt_tp (types i) tp) in
    let scaled g a :=
      cscale (if (c_m a =? 0)%Z then half else 1)
        (nadd (nth (c_inc a) (g (sums_gtinv i)) (0, 0)) (cscale (sgn (c_sign a)) (nth (c_jnc a) (g (sums_gtinv j)) (0, 0)))) in
    let sum val g := fold_left (fun s a => s + prod_real (val a) (scaled g a)) attrs 0 in
    (sum (fun a => gt_val B fp tp (c_n_id a) (c_key a) d) fst,
     fun c => sum (fun a => nopp (gt_val_d B fp c tp (c_n_id a) (c_key a) d)) snd).

  (** The pair loop (with e_array, fx_array, ...) and [collect_properties] (L293-335), which runs over the same pairs. *)
  Definition contrib := if fp_gtinv fp then gtinv_contrib else pair_contrib.
  Definition pairs : list (nat * nat * v3 F * (F * (nat -> F))) :=
    flat_map (fun i => row_loop (types i) (row H i) (fun j tp d => [(i, j, d, contrib i j tp d)])) (seq 0 n_atom).
  Definition energy : F := fold_left (fun s p => let '(i, j, d, c) := p in s + fst c) pairs 0.
  Definition forces (c : nat) : nat -> F :=
    accum (flat_map (fun p => let '(i, j, d, f) := p in [(i, snd f c); (j, - snd f c)]) pairs).
  Definition stress (k : nat) : F :=
    let '(c, c') := stress_comp k in
    fold_left (fun s p => let '(i, j, d, f) := p in s + vc c d * snd f c') pairs 0.
End Eval.

(** The constructor of [PolymlpEval] (L12-20): coefficients are doubled. *)
Definition polymlp_eval {F} {N : Num F} {NO : NumOrd F} (fp : fparams F) (coeffs : list F) : api F :=
  set_potential_model fp (map (fun c => nmul (nadd n1 n1) c) coeffs).
