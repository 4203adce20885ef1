(** C54: with the radial functions and spherical harmonics of the code, forces and stresses are derivatives of the energy. *)
From Verif Require Import Base Num NumR Complex Spec.Neighbor Spec.Gtinv Spec.Deriv Model.Cxx Model.Mapping Model.ModelParams Model.Features Model.Potential
  Model.Neighbor Model.Compute Model.Eval Model.Radial Model.Harmonics Proofs.Deriv Proofs.Radial Proofs.Harmonics Proofs.PathDeriv Props.C53.
From Verif Require Props.C18 Props.C55 Props.C22.
From Coq Require Import Reals Lra.
Local Open Scope R_scope.

Lemma tol0 (x : R) : nltb 0 (nabs x) = false -> x = 0.
Proof. cbn. intros H. apply Rltb_false in H. pose proof (Rabs_pos x). destruct (Req_dec x 0) as [E|E]; [exact E|]. pose proof (Rabs_pos_lt x E). lra. Qed.
Lemma radial_smooth cutoff lmax fp p r : 0 < cutoff -> fp_cutoff fp = cutoff -> 0 < r ->
  has_deriv (inner fp (b_fn (real_basis cutoff lmax)) p) r (inner fp (b_fn_d (real_basis cutoff lmax)) p r).
Proof.
  intros Hc E Hr. refine (hd_ext _ _ _ _ _ _ _ (fn_deriv cutoff Hc p r)).
  - intros x. unfold inner. cbn [b_fn real_basis]. rewrite E. destruct (Rltb x cutoff) eqn:L; [reflexivity|]. apply Rltb_false in L.
    rewrite <- (fn_value cutoff Hc), (fn_beyond cutoff) by exact L. reflexivity.
  - unfold inner. cbn [b_fn_d real_basis]. rewrite E. destruct (Rltb r cutoff) eqn:L; [reflexivity|]. apply Rltb_false in L. now rewrite (fn_beyond cutoff).
Qed.
Lemma radial_pos cutoff lmax p r : 0 < cutoff -> 0 < r < cutoff -> 0 <= b_fn (real_basis cutoff lmax) p r.
Proof. intros Hc Hr. apply Rlt_le. apply (fn_range cutoff Hc). rewrite Rabs_right; lra. Qed.

Section Real.
  Variables (fp : fparams R) (types : nat -> nat) (n : nat) (pos : nat -> v3 R) (images : nat -> list (nat * v3 R)).
  Let B := real_basis (fp_cutoff fp) (fp_maxl fp).
  (** no two atoms coincide; distances may be anything else, the cutoff included *)
  Definition apart : Prop := forall i j t, (i < n)%nat -> In (j, t) (images i) -> 0 < norm2 (vadd (vsub (pos j) (pos i)) t).
  Lemma seps : 0 < fp_cutoff fp -> apart -> forall i jt, (i < n)%nat -> In jt (images i) ->
    0 < norm2 (vadd (vsub (pos (fst jt)) (pos i)) (snd jt)) /\
    forall p, has_deriv (inner fp (b_fn B) p) (norm (vadd (vsub (pos (fst jt)) (pos i)) (snd jt))) (inner fp (b_fn_d B) p (norm (vadd (vsub (pos (fst jt)) (pos i)) (snd jt)))).
  Proof.
    intros Hc HA i [j t] Hi Hj. specialize (HA i j t Hi Hj). split; [exact HA|]. intros p. apply radial_smooth; [exact Hc|reflexivity|now apply norm_pos].
  Qed.
End Real.

Theorem C54_pair (tol : R) (fp : fparams R) (types : nat -> nat) (n : nat) (pos : nat -> v3 R) (images : nat -> list (nat * v3 R)) (force : bool) (g : nat) :
  let B := real_basis (fp_cutoff fp) (fp_maxl fp) in
  fp_gtinv fp = false -> (fp_model_type fp <= 2)%nat -> 0 < fp_cutoff fp ->
  (forall i, (i < n)%nat -> (types i < fp_n_type fp)%nat) -> apart n pos images ->
  (forall k c, (c < 3)%nat -> has_deriv (fun s => xe_sum tol B fp types n (neighbours (moved pos k c s) images) force g) 0
    (- xf_sum tol B fp types n (neighbours pos images) (3 * k + c) g)) /\
  (forall k, (k < 6)%nat -> has_deriv (fun s => xe_sum tol B fp types n (C55.strained_neighbours pos images k s) force g) 0
    (- xs_sum tol B fp types n (neighbours pos images) k g)).
Proof.
  intros B PM MT Hc HT HA. pose proof (seps fp n pos images Hc HA) as HS. split.
  - intros k c H. now apply pair_force.
  - intros k Hk. pose proof (C55.axes_comp k Hk) as E. unfold C55.strained_neighbours. destruct (C55.axes k) as [c c']. now apply pair_strain.
Qed.
Print Assumptions C54_pair.

(** Models with invariants; the threshold under which small products are dropped is zero. *)
Theorem C54_gtinv (fp : fparams R) (types : nat -> nat) (n : nat) (pos : nat -> v3 R) (images : nat -> list (nat * v3 R)) (g : nat) :
  let B := real_basis (fp_cutoff fp) (fp_maxl fp) in
  gtinv_table fp -> 0 < fp_cutoff fp ->
  (forall i, (i < n)%nat -> (types i < fp_n_type fp)%nat) -> apart n pos images ->
  (forall k c, (c < 3)%nat -> has_deriv (fun s => xe_sum 0 B fp types n (neighbours (moved pos k c s) images) true g) 0
    (- xf_sum 0 B fp types n (neighbours pos images) (3 * k + c) g)) /\
  (forall k, (k < 6)%nat -> has_deriv (fun s => xe_sum 0 B fp types n (C55.strained_neighbours pos images k s) true g) 0
    (- xs_sum 0 B fp types n (neighbours pos images) k g)).
Proof.
  intros B GT Hc HT HA. pose proof (seps fp n pos images Hc HA) as HS.
  assert (BO : basis_ok B (fp_maxl fp)) by (apply C53_parity; lia).
  assert (Hge : forall p r, 0 < r < fp_cutoff fp -> 0 <= b_fn B p r) by (intros p r; now apply radial_pos).
  split.
  - intros k c H. apply gtinv_force; try assumption; [exact tol0|]. intros key d. now apply C53_derivative.
  - intros k Hk. pose proof (C55.axes_comp k Hk) as E. unfold C55.strained_neighbours.
    assert (H : (fst (C55.axes k) < 3)%nat) by (destruct k as [|[|[|[|[|[|]]]]]]; cbn; lia). destruct (C55.axes k) as [c c']. cbn [fst] in H.
    apply gtinv_strain; try assumption; [exact tol0|]. intros key d. now apply C53_derivative.
Qed.
Print Assumptions C54_gtinv.

(** The evaluation from half neighbour lists agrees with the features (C18), for the functions of the code. *)
Theorem C54_evaluators (fp : fparams R) (types : nat -> nat) rows neigh (coeffs : list R) :
  let B := real_basis (fp_cutoff fp) (fp_maxl fp) in
  gtinv_table fp ->
  let n := length rows in
  half_list rows -> (forall i, (i < n)%nat -> (types i < fp_n_type fp)%nat) ->
  (forall i, (i < n)%nat -> Permutation (neigh i) (mirrored rows i)) ->
  let A := polymlp_eval fp coeffs in
  let c g := nth g coeffs 0 in
  energy 0 B A types n (csr_of rows) = C18.times_coeffs fp (xe_sum 0 B fp types n neigh true) c /\
  (forall a k, (a < 3)%nat -> forces 0 B A types n (csr_of rows) a k = C18.times_coeffs fp (xf_sum 0 B fp types n neigh (3 * k + a)) c) /\
  (forall k, (k < 3)%nat -> stress 0 B A types n (csr_of rows) k = C18.times_coeffs fp (xs_sum 0 B fp types n neigh k) c).
Proof.
  intros B GT n HR HT HN A c. exact (C18.C18_gtinv 0 B fp types rows neigh coeffs GT (C53_parity _ _ _ (le_n _)) tol0 HR HT HN).
Qed.
Print Assumptions C54_evaluators.

(** The model of C22 (one type, l <= 1) on three atoms, two of them exactly at the cutoff distance 6. *)
Module Example.
  Definition fp := C22.Example.fp.
  Definition pos (i : nat) : v3 R := match i with 0%nat => V3 0 0 0 | 1%nat => V3 2 4 4 | _ => V3 0 0 1 end.
  Definition images (i : nat) : list (nat * v3 R) :=
    match i with 0%nat => [(1%nat, V3 0 0 0); (2%nat, V3 0 0 0)] | 1%nat => [(0%nat, V3 0 0 0); (2%nat, V3 0 0 0)] | _ => [(0%nat, V3 0 0 0); (1%nat, V3 0 0 0)] end.
  Lemma meets : gtinv_table fp /\ fp_cutoff fp = 6 /\ apart 3 pos images /\ norm (vsub (pos 1) (pos 0)) = 6.
  Proof.
    split; [apply C22.Example.meets|]. split; [reflexivity|]. split.
    - intros i j t Hi H. destruct i as [|[|[|]]]; [| | |lia]; cbn in H; repeat (destruct H as [H|H]; [injection H as <- <-; unfold norm2, vdot; cbn; lra|]); destruct H.
    - rewrite norm_R. cbn. replace ((2 - 0) * (2 - 0) + (4 - 0) * (4 - 0) + (4 - 0) * (4 - 0)) with (6 * 6) by ring. apply sqrt_square. lra.
  Qed.
  Lemma forces : has_deriv (fun s => xe_sum 0 (real_basis 6 (fp_maxl fp)) fp (fun _ => 0%nat) 3 (neighbours (moved pos 1 2 s) images) true 1) 0
      (- xf_sum 0 (real_basis 6 (fp_maxl fp)) fp (fun _ => 0%nat) 3 (neighbours pos images) (3 * 1 + 2) 1).
  Proof.
    destruct meets as [GT [E [HA _]]]. refine (proj1 (C54_gtinv fp (fun _ => 0%nat) 3 pos images 1 GT _ _ HA) 1%nat 2%nat _); try lia.
    - rewrite E. lra.
    - intros i _. cbn. lia.
  Qed.
End Example.
