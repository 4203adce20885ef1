(** C24: conversion of the units of a potential. *)
From Verif Require Import Base Num NumR Complex Spec.Neighbor Model.Cxx Model.Mapping Model.ModelParams Model.Features Model.Potential
  Model.Neighbor Model.Compute Model.Eval Model.Radial Proofs.NeighborList Proofs.ConvertUnit Proofs.Radial.
From Verif Require Props.C18.
From Coq Require Import Reals Lra QArith Qcanon.
Local Open Scope R_scope.

(** The basis [B'] used with converted parameters sees scaled distances as [B] sees the original ones. *)
Record converted (len inv : R) (B B' : basis R) : Prop := {
  cv_fn : forall p r, b_fn B' (convert_param len inv p) (len * r) = b_fn B p r;
  cv_fn_d : forall p r, b_fn_d B' (convert_param len inv p) (len * r) = inv * b_fn_d B p r;
  cv_ylm : forall key d, b_ylm B' key (vscale len d) = b_ylm B key d;
  cv_ylm_d : forall c key d, b_ylm_d B' c key (vscale len d) = cscale inv (b_ylm_d B c key d) }.

(** The Gaussian functions with cosine cutoff do this when the cutoff is converted too. *)
Theorem C24_gaussian (cutoff len inv : R) (ylm : nat -> v3 R -> Cx R) (ylm_d : nat -> nat -> v3 R -> Cx R) :
  0 < cutoff -> 0 < len -> len * inv = 1 ->
  (forall key d, ylm key (vscale len d) = ylm key d) -> (forall c key d, ylm_d c key (vscale len d) = cscale inv (ylm_d c key d)) ->
  converted len inv (Basis (get_fn cutoff) (fun p r => snd (get_fn_d cutoff p r)) ylm ylm_d)
    (Basis (get_fn (cutoff * len)) (fun p r => snd (get_fn_d (cutoff * len) p r)) ylm ylm_d).
Proof. intros Hc Hl E Y Y'. split; cbn; try assumption; intros p r; now apply fn_converted. Qed.
Print Assumptions C24_gaussian.

Lemma scale_rows (len : R) rows : scale_csr (vscale len) (csr_of rows) = csr_of (scaled_rows len rows).
Proof.
  unfold scale_csr, csr_of, scaled_rows. cbn [cs_neigh cs_d cs_off]. rewrite <- concat_map. f_equal.
  - now rewrite map_map.
  - now rewrite !map_map.
  - f_equal. rewrite map_map. apply map_ext. intros l. now rewrite map_length.
Qed.
Lemma separated (rows : list (list (nat * v3 R))) : (forall l j d, In l rows -> In (j, d) l -> norm d <> 0) ->
  forall i j d, (i < length rows)%nat -> In (j, d) (row (csr_of rows) i) -> norm d <> 0.
Proof. intros HS i j d Hi Hd. rewrite row_csr in Hd by exact Hi. apply (HS (nth i rows []) j d); [now apply nth_In|exact Hd]. Qed.

(** Pair models: energies and stresses are multiplied by the energy factor, forces by energy over length. *)
Theorem C24_pair (tol : R) (B B' : basis R) (fp : fparams R) (pot : list R) (types : nat -> nat) rows (e len inv : R) :
  fp_gtinv fp = false -> 0 < len -> len * inv = 1 -> converted len inv B B' ->
  (forall l j d, In l rows -> In (j, d) l -> norm d <> 0) ->
  let n := length rows in
  let A := set_potential_model fp pot in
  let A' := convert_unit e len inv A in
  let H := csr_of rows in
  let H' := csr_of (scaled_rows len rows) in
  energy tol B' A' types n H' = e * energy tol B A types n H /\
  (forall c k, forces tol B' A' types n H' c k = e * inv * forces tol B A types n H c k) /\
  (forall k, stress tol B' A' types n H' k = e * stress tol B A types n H k).
Proof.
  intros PM Hl Hi [C1 C2 C3 C4] HS n A A' H H'. pose proof (separated rows HS) as HS'. unfold H'. rewrite <- scale_rows.
  assert (G : gfac fp e = e) by (unfold gfac; now rewrite PM).
  repeat split; intros.
  - etransitivity; [now apply energy_conv|]. now rewrite G.
  - etransitivity; [now apply forces_conv|]. now rewrite G.
  - etransitivity; [now apply stress_conv|]. now rewrite G.
Qed.
Print Assumptions C24_pair.

(** Models with invariants: lengths are converted, but the energy factor has no effect, because the evaluator reads a
    second copy of the coefficients that is not scaled. *)
Theorem C24_gtinv (tol : R) (B B' : basis R) (fp : fparams R) (pot : list R) (types : nat -> nat) rows (e len inv : R) :
  fp_gtinv fp = true -> 0 < len -> len * inv = 1 -> converted len inv B B' ->
  (forall l j d, In l rows -> In (j, d) l -> norm d <> 0) ->
  let n := length rows in
  let A := set_potential_model fp pot in
  let A' := convert_unit e len inv A in
  let H := csr_of rows in
  let H' := csr_of (scaled_rows len rows) in
  energy tol B' A' types n H' = energy tol B A types n H /\
  (forall c k, forces tol B' A' types n H' c k = inv * forces tol B A types n H c k) /\
  (forall k, stress tol B' A' types n H' k = stress tol B A types n H k).
Proof.
  intros PM Hl Hi [C1 C2 C3 C4] HS n A A' H H'. pose proof (separated rows HS) as HS'. unfold H'. rewrite <- scale_rows.
  assert (G : gfac fp e = 1) by (unfold gfac; now rewrite PM).
  repeat split; intros.
  - etransitivity; [now apply energy_conv|]. now rewrite G, Rmult_1_l.
  - etransitivity; [now apply forces_conv|]. now rewrite G, Rmult_1_l.
  - etransitivity; [now apply stress_conv|]. now rewrite G, Rmult_1_l.
Qed.
Print Assumptions C24_gtinv.

(** So the statement for all models is false: a model with invariants whose energy should double keeps it,
    while the pair model doubles. Numbers as in C18. *)
Theorem C24_gtinv_refuted :
  ~ (forall (fp : fparams Qc) (coeffs : list Qc) (e : Qc),
      energy (C18.Example.q 0) C18.Example.B (convert_unit e (C18.Example.q 1) (C18.Example.q 1) (polymlp_eval fp coeffs)) C18.Example.types 3 (csr_of C18.Example.rows)
      = (e * energy (C18.Example.q 0) C18.Example.B (polymlp_eval fp coeffs) C18.Example.types 3 (csr_of C18.Example.rows))%Qc).
Proof.
  intros H. specialize (H C18.Example.fpG C18.Example.coeffs (C18.Example.q 2)). apply (f_equal this) in H. vm_compute in H. discriminate.
Qed.
Print Assumptions C24_gtinv_refuted.
Example C24_pair_value :
  this (energy (C18.Example.q 0) C18.Example.B (convert_unit (C18.Example.q 2) (C18.Example.q 1) (C18.Example.q 1) (polymlp_eval C18.Example.fpP C18.Example.coeffs))
    C18.Example.types 3 (csr_of C18.Example.rows)) = (2 * 545154)%Q.
Proof. vm_compute. reflexivity. Qed.

(** Angstrom to Bohr-like conversion (factor 2) of a cutoff of 6 with constant spherical harmonics; two atoms at distance 3. *)
Module Example.
  Definition ylm (key : nat) (d : v3 R) : Cx R := (1, 0).
  Definition ylm_d (c key : nat) (d : v3 R) : Cx R := (0, 0).
  Definition rows : list (list (nat * v3 R)) := [[]; [(0%nat, V3 1 2 2)]].
  Lemma meets :
    converted 2 (/ 2) (Basis (get_fn 6) (fun p r => snd (get_fn_d 6 p r)) ylm ylm_d) (Basis (get_fn (6 * 2)) (fun p r => snd (get_fn_d (6 * 2) p r)) ylm ylm_d) /\
    (forall l j d, In l rows -> In (j, d) l -> norm d <> 0) /\ scaled_rows 2 rows = [[]; [(0%nat, V3 2 4 4)]].
  Proof.
    split; [apply C24_gaussian; try lra; intros; [reflexivity|apply cx_eq; cbn; lra]|]. split.
    - intros l j d [<-|[<-|[]]] Hd; [destruct Hd|]. destruct Hd as [E|[]]. injection E as _ <-. unfold norm. cbn.
      replace (1 * 1 + 2 * 2 + 2 * 2) with (3 * 3) by ring. rewrite sqrt_square; lra.
    - cbn. unfold vscale. cbn. repeat (f_equal; try ring).
  Qed.
End Example.
