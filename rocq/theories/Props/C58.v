(** C58: energy features are the same whether or not forces are evaluated with them. *)
From Verif Require Import Base Num NumR Complex Spec.Gtinv Model.Cxx Model.Mapping Model.ModelParams Model.Features Model.Potential
  Model.Neighbor Model.Compute Model.Harmonics Proofs.Deriv Proofs.PathDeriv Proofs.Harmonics Proofs.EnergyOnly.
From Verif Require Proofs.Radial Props.C53 Props.C57.
From Coq Require Import Reals Lra.
Local Open Scope R_scope.

(** The two paths skip radial functions with different tests: |f| > tol is kept in one, f >= tol in the other. [tol] is
    any nonnegative threshold; no radial function takes exactly this value. *)
Theorem C58_gtinv (tol : R) (fp : fparams R) (types : nat -> nat) (n : nat) (nb : nat -> list (nat * v3 R)) (g : nat) :
  let B := real_basis (fp_cutoff fp) (fp_maxl fp) in
  gtinv_table fp -> 0 < fp_cutoff fp -> 0 <= tol ->
  (forall i, (i < n)%nat -> (types i < fp_n_type fp)%nat) ->
  (forall tp k r, 0 <= r < fp_cutoff fp -> fn B fp tp k r <> tol) ->
  xe_sum tol B fp types n nb false g = xe_sum tol B fp types n nb true g.
Proof.
  intros B GT Hc Htol HT Hne. apply xe_same; try assumption; [apply C53.C53_parity; lia|]. intros tp k d I. left.
  unfold inside in I. cbn in I. apply Rltb_true in I. assert (Hr : 0 <= norm d) by (rewrite norm_R; apply sqrt_pos).
  specialize (Hne tp k (norm d) (Logic.conj Hr I)).
  assert (Hf : 0 < fn B fp tp k (norm d)) by (apply (Radial.fn_range (fp_cutoff fp) Hc); rewrite Rabs_right; [exact I|apply Rle_ge, Hr]).
  revert Hne Hf. generalize (fn B fp tp k (norm d)). intros f Hne Hf. cbn. rewrite Rabs_right by lra.
  destruct (Rltb tol f) eqn:E1, (Rltb f tol) eqn:E2; try reflexivity; [apply Rltb_true in E1, E2|apply Rltb_false in E1, E2]; lra.
Qed.
Print Assumptions C58_gtinv.

(** Pair models: nothing is skipped. *)
Theorem C58_pair {F} {N : Num F} {NO : NumOrd F} (tol : F) (B : basis F) (fp : fparams F) (types : nat -> nat) (n : nat) (nb : nat -> list (nat * v3 F)) (g : nat) :
  fp_gtinv fp = false -> xe_sum tol B fp types n nb false g = xe_sum tol B fp types n nb true g.
Proof. intros PM. unfold xe_sum, de. now rewrite PM. Qed.
Print Assumptions C58_pair.

Module Example.
  Lemma same : xe_sum 0 (real_basis 6 1) C57.Example.fp (fun _ => 0%nat) 3 (fun i => nth i C57.Example.rows []) false 1 =
    xe_sum 0 (real_basis 6 1) C57.Example.fp (fun _ => 0%nat) 3 (fun i => nth i C57.Example.rows []) true 1.
  Proof.
    refine (C58_gtinv 0 C57.Example.fp (fun _ => 0%nat) 3 _ 1 C57.Example.table_ok _ _ _ _); cbn [fp_cutoff C57.Example.fp]; try lra.
    - intros i _. cbn. lia.
    - intros tp k r [H1 H2]. pose proof (proj1 (Radial.fn_range 6 ltac:(lra) (tp_params C57.Example.fp tp k) r ltac:(rewrite Rabs_right; lra))) as P.
      unfold fn. cbn [b_fn real_basis]. lra.
  Qed.
End Example.
