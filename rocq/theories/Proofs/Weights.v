From Verif Require Import Base Num NumR Model.Weights.
From Coq Require Import Reals Lra.
Local Open Scope R_scope.

Lemma weight_energy_range m e n : 0 < weight_energy m e n <= 1.
Proof.
  unfold weight_energy. destruct (Rltb 0 _); [lra|]. destruct (Rltb (m * 0.50) _); [lra|]. destruct (Rltb _ _); lra.
Qed.
(** Lower energies never count less. *)
Lemma weight_energy_mono m e1 e2 n : m <= 0 -> (0 < n)%nat -> e1 <= e2 -> weight_energy m e2 n <= weight_energy m e1 n.
Proof.
  intros Hm Hn He. unfold weight_energy. set (a := e1 / INR n). set (b := e2 / INR n).
  assert (Hab : a <= b).
  { unfold a, b. apply Rmult_le_compat_r; [|exact He]. left. apply Rinv_0_lt_compat. apply lt_0_INR. exact Hn. }
  clearbody a b.
  destruct (Rltb 0 a) eqn:E1; destruct (Rltb 0 b) eqn:E2; rewrite ?Rltb_true, ?Rltb_false in *; try lra;
  destruct (Rltb (m * 0.50) a) eqn:E3; destruct (Rltb (m * 0.50) b) eqn:E4; rewrite ?Rltb_true, ?Rltb_false in *; try lra;
  destruct (Rltb (m * 0.75) a) eqn:E5; destruct (Rltb (m * 0.75) b) eqn:E6; rewrite ?Rltb_true, ?Rltb_false in *; lra.
Qed.
Lemma weight_force_range tol f : 0 < tol -> 0 < weight_force tol f <= 1.
Proof.
  intros Ht. unfold weight_force. set (w := if Rltb (Rabs f) tol then tol else Rabs f).
  assert (Hw : 0 < w) by (unfold w; destruct (Rltb (Rabs f) tol) eqn:E; [lra|apply Rltb_false in E; lra]).
  pose proof (Rinv_0_lt_compat w Hw). destruct (Rltb 1 (/ w)) eqn:E; [lra|]. apply Rltb_false in E. lra.
Qed.
Lemma weight_force_value tol f : 0 < tol <= 1 -> weight_force tol f = 1 / Rmax 1 (Rabs f).
Proof.
  intros Ht. unfold weight_force. destruct (Rltb (Rabs f) tol) eqn:E.
  - apply Rltb_true in E. rewrite Rmax_left by lra.
    destruct (Rltb 1 (/ tol)) eqn:E2; [lra|]. apply Rltb_false in E2.
    assert (tol = 1). { destruct (Req_dec tol 1); [assumption|]. assert (1 < / tol); [|lra]. rewrite <- Rinv_1. apply Rinv_lt_contravar; lra. }
    subst tol. lra.
  - apply Rltb_false in E. destruct (Rltb 1 (/ Rabs f)) eqn:E2.
    + apply Rltb_true in E2. rewrite Rmax_left; [lra|]. destruct (Rle_dec (Rabs f) 1) as [|C]; [assumption|].
      exfalso. assert (/ Rabs f < 1); [|lra]. rewrite <- Rinv_1 at 1. apply Rinv_lt_contravar; lra.
    + apply Rltb_false in E2. destruct (Rle_dec 1 (Rabs f)) as [Hc|Hc]; [rewrite Rmax_right by lra; lra|].
      exfalso. assert (1 < / Rabs f); [|lra]. rewrite <- Rinv_1 at 1. apply Rinv_lt_contravar; lra.
Qed.
Lemma weight_stress_range tol s : 0 < weight_stress_unit tol s <= 1.
Proof.
  unfold weight_stress_unit. set (l := if Rltb tol (Rabs s) then _ else _).
  assert (0 < Rpower 5 (- l)) by apply exp_pos.
  destruct (Rltb 1 (Rpower 5 (- l))) eqn:E; [lra|]. apply Rltb_false in E. lra.
Qed.
