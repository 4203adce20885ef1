(** C55: stress features are minus the derivatives of the energy features with respect to strain. *)
From Verif Require Import Base Num NumR Complex Spec.Gtinv Spec.Deriv Model.Cxx Model.Mapping Model.ModelParams Model.Features
  Model.Neighbor Model.Compute Proofs.Deriv Proofs.PathDeriv.
From Verif Require Props.C50.
From Coq Require Import Reals Lra.
Local Open Scope R_scope.

(** Rows of the stress features: xx, yy, zz, xy, yz, zx. *)
Definition axes (k : nat) : nat * nat := nth k [(0, 0); (1, 1); (2, 2); (0, 1); (1, 2); (2, 0)]%nat (0, 0)%nat.
(** The structure with component c of all positions and translations changed by [s] times component c'. *)
Definition strained_neighbours (pos : nat -> v3 R) (images : nat -> list (nat * v3 R)) (k : nat) (s : R) : nat -> list (nat * v3 R) :=
  let '(c, c') := axes k in
  neighbours (fun a => strained c c' s (pos a)) (fun a => map (fun jt => (fst jt, strained c c' s (snd jt))) (images a)).
Lemma axes_comp k : (k < 6)%nat -> stress_comp k = axes k.
Proof. intros H. destruct k as [|[|[|[|[|[|]]]]]]; [reflexivity..|lia]. Qed.

Theorem C55_pair (tol : R) (B : basis R) (fp : fparams R) (types : nat -> nat) (n : nat) (pos : nat -> v3 R)
    (images : nat -> list (nat * v3 R)) (k : nat) (force : bool) (g : nat) :
  fp_gtinv fp = false -> (fp_model_type fp <= 2)%nat -> (k < 6)%nat -> (forall i, (i < n)%nat -> (types i < fp_n_type fp)%nat) ->
  (forall i j t, (i < n)%nat -> In (j, t) (images i) ->
     let d := vadd (vsub (pos j) (pos i)) t in 0 < norm2 d /\ norm d <> fp_cutoff fp) ->
  (forall p r, 0 < r < fp_cutoff fp -> has_deriv (b_fn B p) r (b_fn_d B p r)) ->
  has_deriv (fun s => xe_sum tol B fp types n (strained_neighbours pos images k s) force g) 0
    (- xs_sum tol B fp types n (neighbours pos images) k g).
Proof.
  intros PM MT Hk HT HS HF. pose proof (axes_comp k Hk) as E. unfold strained_neighbours. destruct (axes k) as [c c'].
  apply pair_strain; try assumption. intros i [j t] Hi Hj. destruct (HS i j t Hi Hj) as [H1 H2]. split; [exact H1|].
  intros p. apply inner_away; [now apply norm_pos|exact H2|exact HF].
Qed.
Print Assumptions C55_pair.

Theorem C55_gtinv (tol : R) (B : basis R) (fp : fparams R) (types : nat -> nat) (n : nat) (pos : nat -> v3 R)
    (images : nat -> list (nat * v3 R)) (k : nat) (g : nat) :
  gtinv_table fp -> basis_ok B (fp_maxl fp) -> (forall x, nltb tol (nabs x) = false -> x = 0) ->
  (k < 6)%nat -> (forall i, (i < n)%nat -> (types i < fp_n_type fp)%nat) ->
  (forall i j t, (i < n)%nat -> In (j, t) (images i) ->
     let d := vadd (vsub (pos j) (pos i)) t in 0 < norm2 d /\ norm d <> fp_cutoff fp) ->
  (forall p r, 0 < r < fp_cutoff fp -> tol <= b_fn B p r /\ has_deriv (b_fn B p) r (b_fn_d B p r)) ->
  (forall c key d, (c < 3)%nat -> 0 < norm2 d -> has_cderiv (fun u => b_ylm B key (along c u d)) 0 (b_ylm_d B c key d)) ->
  has_deriv (fun s => xe_sum tol B fp types n (strained_neighbours pos images k s) true g) 0
    (- xs_sum tol B fp types n (neighbours pos images) k g).
Proof.
  intros GT BO TL Hk HT HS HF HY. pose proof (axes_comp k Hk) as E. unfold strained_neighbours.
  assert (Hc : (fst (axes k) < 3)%nat) by (destruct k as [|[|[|[|[|[|]]]]]]; cbn; lia). destruct (axes k) as [c c']. cbn [fst] in Hc.
  apply gtinv_strain; try assumption.
  - intros i [j t] Hi Hj. destruct (HS i j t Hi Hj) as [H1 H2]. split; [exact H1|].
    intros p. apply inner_away; [now apply norm_pos|exact H2|]. intros q r Hr. now apply HF.
  - intros p r Hr. now apply HF.
  - intros key d. now apply HY.
Qed.
Print Assumptions C55_gtinv.

(** The structure of C50 (three atoms and a periodic image at distance 5): shear in xy (row 3). *)
Example C55_shear :
  has_deriv (fun s => xe_sum 0 C50.Example.B C50.Example.fpP (fun _ => 0%nat) 3 (strained_neighbours C50.Example.pos C50.Example.images 3 s) true 0) 0
    (- xs_sum 0 C50.Example.B C50.Example.fpP (fun _ => 0%nat) 3 (neighbours C50.Example.pos C50.Example.images) 3 0).
Proof.
  apply C55_pair; cbn; try lia; try reflexivity.
  - exact C50.Example.seps.
  - intros p r _. apply C50.Example.radial.
Qed.
Example C55_strained_vector (s : R) : strained 0 1 s (V3 1 2 2) = V3 (1 + s * 2) 2 2 /\ strained 2 0 s (V3 1 2 2) = V3 1 2 (2 + s * 1).
Proof. split; reflexivity. Qed.
Example C55_gtinv_meets :
  gtinv_table C22.Example.fp /\ basis_ok C50.Example.B (fp_maxl C22.Example.fp) /\ (forall x, nltb 0 (nabs x) = false -> x = 0).
Proof. destruct C50.Example.meets_gtinv as [H1 [H2 [H3 _]]]. split; [exact H1|split; [exact H2|exact H3]]. Qed.
