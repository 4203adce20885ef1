(** Structural features of a structure: order parameters of every atom, linear features and their
    derivatives, polynomial features.
    Source: src/pypolymlp/cxx/src/compute/local.cpp, local_pair.cpp, model.cpp and
    [compute_anlmtp_conjugate] in polymlp/polymlp_api.cpp.
    Simplifications: radial functions and spherical harmonics are parameters of the model; the statements for
    x, y, z are one statement with a component number c = 0, 1, 2; arrays updated in one loop are modelled by one
    loop each; vectors of doubles are functions of the index. *)
From Verif Require Import Base Num Complex Model.Cxx Model.Mapping Model.ModelParams Model.Features Model.Neighbor.

(** [v[i] += x], [v[i] = x] on vectors given as functions. *)
Definition acc {T} {NT : Num T} (v : nat -> T) (i : nat) (x : T) : nat -> T :=
  fun k => if k =? i then nadd (v k) x else v k.
Definition vset {T} (v : nat -> T) (i : nat) (x : T) : nat -> T := fun k => if k =? i then x else v k.
(** a loop of such updates over a list of (index, value) *)
Definition accum {T} {NT : Num T} (l : list (nat * T)) : nat -> T :=
  fold_left (fun v e => acc v (fst e) (snd e)) l (fun _ => n0).

(** The functions called for every pair: radial function of a parameter vector and its derivative
    (get_fn_, polymlp_functions_interface.cpp L11-24, L41-62), spherical harmonics with number [ylm_key] and their
    derivative with respect to component c (get_ylm_, L89-142). *)
Record basis (F : Type) := Basis {
  b_fn : list F -> F -> F; b_fn_d : list F -> F -> F;
  b_ylm : nat -> v3 F -> Cx F; b_ylm_d : nat -> nat -> v3 F -> Cx F }.
Arguments Basis {F}. Arguments b_fn {F}. Arguments b_fn_d {F}. Arguments b_ylm {F}. Arguments b_ylm_d {F}.

Section Compute.
  Context {F : Type} {N : Num F} {NO : NumOrd F}.
  Local Open Scope num_scope.
  Variable tol : F.            (** 1e-20 *)
  Variable B : basis F.
  Variable fp : fparams F.
  Let M := mapping fp.
  Let nt := fp_n_type fp.

  (** the doubles [cc_coeff], [sign_j] *)
  Definition sgn (z : Z) : F := if (z <? 0)%Z then - (1) else 1.
  (** [tp_to_params[tp]] (polymlp_mapping.cpp L36-56): parameters of the radial functions of a pair *)
  Definition tp_params (tp n_id : nat) : list F :=
    nth n_id (map (fun n => nth n (fp_params fp) []) (nth tp (tp_to_n nt (fp_cond fp)) [])) [].
  Definition fn (tp n_id : nat) (dis : F) : F := b_fn B (tp_params tp n_id) dis.
  Definition fn_d (tp n_id : nat) (dis : F) : F := b_fn_d B (tp_params tp n_id) dis.
  (** [dis = sqrt(dx*dx + dy*dy + dz*dz); if (dis >= fp.cutoff) continue;] *)
  Definition inside (d : v3 F) : bool := nltb (norm d) (fp_cutoff fp).

  Variable types : nat -> nat.
  (** Neighbours of an atom: (atom2, (dx, dy, dz) = pos[j] - pos[i]). *)
  Definition nbrs := list (nat * v3 F).
  (** the loop over neighbours within the cutoff and, inside it, over the attributes kept by [p tp dis] *)
  Definition pair_loop {A} (type1 : nat) (attrs : list A) (p : nat -> F -> A -> bool) (nb : nbrs) : list (A * nat * v3 F * nat) :=
    flat_map (fun jd =>
      let '(j, d) := jd in
      if inside d then
        let tp := tpair nt type1 (types j) in
        map (fun a => (a, j, d, tp)) (filter (p tp (norm d)) attrs)
      else []) nb.

  (** LocalPair::pair (local_pair.cpp L17-56). *)
  Definition pair_attrs (t : nat) : list ntpAttr := nth t (pm_loc (mp_pair M)) [].
  Definition lp_loop (type1 : nat) (nb : nbrs) :=
    pair_loop type1 (pair_attrs type1) (fun tp _ a => p_tp a =? tp) nb.
  Definition pair_dn (type1 : nat) (nb : nbrs) : nat -> F :=
    accum (map (fun e => let '(a, j, d, tp) := e in (p_il a, fn tp (p_n_id a) (norm d))) (lp_loop type1 nb)).
  (** LocalPair::pair_d (L58-123): derivative arrays; [val c] is valx, valy, valz. *)
  Definition pair_val (c : nat) (tp n_id : nat) (d : v3 F) : F := fn_d tp n_id (norm d) * vc c d / norm d.
  (** [arr[idx_i][atom1] += v; arr[idx_i][atom2] -= v], for the row [idx_i = h] *)
  Definition row_updates {T} {NT : Num T} (h atom1 : nat) (l : list (nat * nat * T)) : nat -> T :=
    accum (flat_map (fun e => let '(idx, j, v) := e in if idx =? h then [(atom1, v); (j, nopp v)] else []) l).
  Definition pair_dn_f (c : nat) (type1 atom1 : nat) (nb : nbrs) (h : nat) : nat -> F :=
    row_updates h atom1 (map (fun e => let '(a, j, d, tp) := e in (p_il a, j, pair_val c tp (p_n_id a) d)) (lp_loop type1 nb)).
  (** components (of val, of the difference) of the six stress entries *)
  Definition stress_comp (k : nat) : nat * nat :=
    match k with 0 => (0, 0) | 1 => (1, 1) | 2 => (2, 2) | 3 => (0, 1) | 4 => (1, 2) | _ => (2, 0) end%nat.
  Definition pair_dn_s (k : nat) (type1 : nat) (nb : nbrs) : nat -> F :=
    let '(c, c') := stress_comp k in
    accum (map (fun e => let '(a, j, d, tp) := e in (p_il a, - (pair_val c tp (p_n_id a) d * vc c' d))) (lp_loop type1 nb)).

  (** Local::compute_anlmtp (local.cpp L62-113) with compute_anlmtp_conjugate (polymlp_api.cpp L63-86). *)
  Definition all_attrs (t : nat) : list nlmtpAttr := nth t (gm_loc (mp_gt M)) [].
  Definition nc_attrs (t : nat) : list nlmtpAttr := nth t (gm_nc (mp_gt M)) [].
  Definition conjugate (t : nat) (r i : nat -> F) : nat -> Cx F :=
    fold_left (fun v ka =>
        let '(idx, a) := ka in
        let cc := sgn (lm_cc (a_lm a)) in
        vset (vset v (a_il a) (r idx, i idx)) (a_icj a) (cc * r idx, - cc * i idx))
      (combine (seq 0 (length (nc_attrs t))) (nc_attrs t)) (fun _ => (0, 0)).
  Definition anlmtp_vals (keep : F -> bool) (type1 : nat) (nb : nbrs) : list (nat * Cx F) :=
    map (fun e => let '(a, j, d, tp) := e in (a_inc a, cscale (fn tp (a_n_id a) (norm d)) (b_ylm B (lm_key (a_lm a)) d)))
      (pair_loop type1 (nc_attrs type1) (fun tp dis a => (a_tp a =? tp) && keep (fn tp (a_n_id a) dis)) nb).
  Definition compute_anlmtp (type1 : nat) (nb : nbrs) : nat -> Cx F :=
    let l := anlmtp_vals (fun f => nltb tol (nabs f)) type1 nb in
    conjugate type1 (accum (map (fun e => (fst e, re (snd e))) l)) (accum (map (fun e => (fst e, im (snd e))) l)).

  (** Local::compute_anlmtp_d (L116-217). *)
  Definition gt_loop (type1 : nat) (nb : nbrs) :=
    pair_loop type1 (nc_attrs type1) (fun tp dis a => (a_tp a =? tp) && negb (nltb (fn tp (a_n_id a) dis) tol)) nb.
  Definition gt_val (tp n_id key : nat) (d : v3 F) : Cx F := cscale (fn tp n_id (norm d)) (b_ylm B key d).
  Definition cdiv_r (z : Cx F) (x : F) : Cx F := (re z / x, im z / x).
  (** valx, valy, valz: [d1 * dx + fn * ylm_dx] with [d1 = fn_d * ylm / dis] *)
  Definition gt_val_d (c : nat) (tp n_id key : nat) (d : v3 F) : Cx F :=
    nadd (cscale (vc c d) (cdiv_r (cscale (fn_d tp n_id (norm d)) (b_ylm B key d)) (norm d)))
         (cscale (fn tp n_id (norm d)) (b_ylm_d B c key d)).
  (** the last loop (L200-216): entries of conjugate attributes *)
  Definition fill_conj (t : nat) (v : nat -> Cx F) : nat -> Cx F :=
    fold_left (fun v a => if lm_conj (a_lm a)
                          then vset v (a_il a) (cscale (sgn (lm_cc (a_lm a))) (conj (v (a_icj a)))) else v)
      (all_attrs t) v.
  Definition anlmtp_d0 (type1 : nat) (nb : nbrs) : nat -> Cx F :=
    fill_conj type1 (accum (map (fun e => let '(a, j, d, tp) := e in (a_il a, gt_val tp (a_n_id a) (lm_key (a_lm a)) d)) (gt_loop type1 nb))).
  (** anlmtp_dfx/dfy/dfz[.][atom] as a vector over the first index, and anlmtp_ds[.][k] *)
  Definition anlmtp_df (c : nat) (type1 atom1 : nat) (nb : nbrs) (atom : nat) : nat -> Cx F :=
    fill_conj type1 (fun h =>
      row_updates h atom1 (map (fun e => let '(a, j, d, tp) := e in
        (a_il a, j, gt_val_d c tp (a_n_id a) (lm_key (a_lm a)) d)) (gt_loop type1 nb)) atom).
  Definition anlmtp_ds (k : nat) (type1 : nat) (nb : nbrs) : nat -> Cx F :=
    let '(c, c') := stress_comp k in
    fill_conj type1 (accum (map (fun e => let '(a, j, d, tp) := e in
      (a_il a, nopp (cscale (vc c' d) (gt_val_d c tp (a_n_id a) (lm_key (a_lm a)) d)))) (gt_loop type1 nb))).

  (** Model::run (model.cpp L39-59). Linear features [de] of an atom and their derivatives: [df k] with k = 3 atom + c,
      [ds k] (Model::pair L62-87, Model::gtinv L90-116, reshape L119-156, Local::gtinv, gtinv_d). *)
  Let fts := features fp true.
  Definition ft (t : nat) : ftype F := nth t fts ftype0.
  Definition de (force : bool) (type1 : nat) (nb : nbrs) : nat -> F :=
    if fp_gtinv fp then
      fun i => nth i (compute_features_gtinv tol (ft type1)
        (if force then anlmtp_d0 type1 nb else compute_anlmtp type1 nb)) 0
    else pair_dn type1 nb.
  Definition df (type1 atom1 : nat) (nb : nbrs) (k : nat) : nat -> F :=
    let atom := (k / 3)%nat in
    let c := (k mod 3)%nat in
    if fp_gtinv fp then
      fun i => nth i (compute_features_deriv (ft type1) (anlmtp_d0 type1 nb) (anlmtp_df c type1 atom1 nb atom)) 0
    else fun i => pair_dn_f c type1 atom1 nb i atom.
  Definition ds (type1 : nat) (nb : nbrs) (k : nat) : nat -> F :=
    if fp_gtinv fp then
      fun i => nth i (compute_features_deriv (ft type1) (anlmtp_d0 type1 nb) (anlmtp_ds k type1 nb)) 0
    else pair_dn_s k type1 nb.

  (** model_order1/2/3 (L181-267): the value added to [xe_sum(col)], and to row k of [xf_sum], [xs_sum]
      given the values [v] and derivatives [d] of the linear features. *)
  Definition order_e (v : nat -> F) (ids : list nat) : F :=
    match ids with
    | [c1] => v c1
    | [c1; c2] => v c1 * v c2
    | [c1; c2; c3] => v c1 * v c2 * v c3
    | _ => 0
    end.
  Definition order_d (v d : nat -> F) (ids : list nat) : F :=
    match ids with
    | [c1] => d c1
    | [c1; c2] => v c2 * d c1 + v c1 * d c2
    | [c1; c2; c3] => v c2 * v c3 * d c1 + v c1 * v c3 * d c2 + v c1 * v c2 * d c3
    | _ => 0
    end.
  (** the constructor splits the terms by size (L12-34); model_polynomial (L159-178) runs over the three lists *)
  Definition terms_k (k t : nat) : list polyTerm := filter (fun x => length (pt_ids x) =? k) (f_poly (ft t)).
  Definition all_terms (t : nat) : list polyTerm := terms_k 1 t ++ terms_k 2 t ++ terms_k 3 t.

  (** the sums over atoms: columns of the feature matrix *)
  Variable n_atom : nat.
  Variable neigh : nat -> nbrs.
  Definition xe_sum (force : bool) : nat -> F :=
    accum (flat_map (fun a =>
      let v := de force (types a) (neigh a) in
      map (fun x => (pt_gid x, order_e v (pt_ids x))) (all_terms (types a))) (seq 0 n_atom)).
  Definition xf_sum (k : nat) : nat -> F :=
    accum (flat_map (fun a =>
      let v := de true (types a) (neigh a) in
      let d := df (types a) a (neigh a) k in
      map (fun x => (pt_gid x, order_d v d (pt_ids x))) (all_terms (types a))) (seq 0 n_atom)).
  Definition xs_sum (k : nat) : nat -> F :=
    accum (flat_map (fun a =>
      let v := de true (types a) (neigh a) in
      let d := ds (types a) (neigh a) k in
      map (fun x => (pt_gid x, order_d v d (pt_ids x))) (all_terms (types a))) (seq 0 n_atom)).
End Compute.

