From Verif Require Import Base Num NumR Model.Neighbor Spec.Lattice Proofs.HalfFull Proofs.NeighborCell Proofs.Positions Model.Structure Model.StructureUtils.
From Coq Require Import Reals Lra.

Lemma nth_flat_map {X Y} (f : X -> list Y) (N : nat) (l : list X) a q dx dy : (forall x, In x l -> length (f x) = N) -> a < length l -> q < N ->
  nth (a * N + q) (flat_map f l) dy = nth q (f (nth a l dx)) dy.
Proof.
  revert a. induction l as [|x l IH]; intros a HL Ha Hq; cbn in Ha; [lia|]. cbn [flat_map]. destruct a as [|a]; cbn [nth].
  - rewrite app_nth1 by (rewrite HL; [lia|now left]). reflexivity.
  - rewrite app_nth2 by (rewrite HL by (now left); nia). rewrite HL by (now left). replace (S a * N + q - N) with (a * N + q) by nia. apply IH; [intros; apply HL; now right|lia|exact Hq].
Qed.
Lemma length_flat_map {X Y} (f : X -> list Y) (N : nat) (l : list X) : (forall x, In x l -> length (f x) = N) -> length (flat_map f l) = length l * N.
Proof. induction l as [|x l IH]; intros H; [reflexivity|]. cbn. rewrite app_length, IH, H; [reflexivity|now left|intros; apply H; now right]. Qed.

Lemma trans_all_In nx ny nz x y z : In (x, y, z) (trans_all nx ny nz) <-> x < nx /\ y < ny /\ z < nz.
Proof.
  unfold trans_all. rewrite in_flat_map. split.
  - intros [z' [Hz H]]. apply in_flat_map in H. destruct H as [y' [Hy H]]. apply in_map_iff in H. destruct H as [x' [E Hx]]. injection E as -> -> ->. apply in_seq in Hx, Hy, Hz. lia.
  - intros [Hx [Hy Hz]]. exists z. split; [apply in_seq; lia|]. apply in_flat_map. exists y. split; [apply in_seq; lia|]. apply in_map_iff. exists x. split; [reflexivity|apply in_seq; lia].
Qed.
Lemma trans_all_length nx ny nz : length (trans_all nx ny nz) = nx * ny * nz.
Proof.
  unfold trans_all. rewrite (length_flat_map _ (nx * ny)); [rewrite seq_length; lia|]. intros z _. rewrite (length_flat_map _ nx); [rewrite seq_length; lia|]. intros y _. now rewrite map_length, seq_length.
Qed.
Lemma trans_all_NoDup nx ny nz : NoDup (trans_all nx ny nz).
Proof.
  unfold trans_all. apply (flat_map_nodup _ (fun t => snd t)); [apply seq_NoDup| |].
  - intros z _. apply (flat_map_nodup _ (fun t => snd (fst t))); [apply seq_NoDup| |].
    + intros y _. apply FinFun.Injective_map_NoDup; [intros a b H; congruence|apply seq_NoDup].
    + intros y t H. apply in_map_iff in H. now destruct H as [x [<- _]].
  - intros z t H. apply in_flat_map in H. destruct H as [y [_ H]]. apply in_map_iff in H. now destruct H as [x [<- _]].
Qed.

Local Open Scope R_scope.
(** integer division along one axis: the coordinate of the image and the cell it lies in *)
Lemma one_axis (tol p : R) (n : nat) (s : Z) : (0 < n)%nat -> exists t : nat, exists z : Z, (t < n)%nat /\
  INR n * (refine1 tol ((p + INR t) / INR n) + IZR z) = p + IZR s.
Proof.
  intros Hn. assert (HN : INR n <> 0) by (apply not_0_INR; lia). set (t := Z.to_nat (s mod Z.of_nat n)).
  destruct (refine1_int tol ((p + INR t) / INR n)) as [w Ew]. exists t, (w + s / Z.of_nat n)%Z.
  pose proof (Z.mod_pos_bound s (Z.of_nat n) ltac:(lia)) as B. split; [unfold t; lia|].
  rewrite Ew, plus_IZR. assert (E : IZR s = INR n * IZR (s / Z.of_nat n) + INR t).
  { rewrite (Z_div_mod_eq_full s (Z.of_nat n)) at 1. rewrite plus_IZR, mult_IZR, <- INR_IZR_INZ. f_equal. unfold t. rewrite INR_IZR_INZ. f_equal. lia. }
  rewrite E. field. exact HN.
Qed.
Lemma one_axis_back (tol p : R) (n t : nat) (z : Z) : (0 < n)%nat -> exists s : Z, INR n * (refine1 tol ((p + INR t) / INR n) + IZR z) = p + IZR s.
Proof.
  intros Hn. assert (HN : INR n <> 0) by (apply not_0_INR; lia). destruct (refine1_int tol ((p + INR t) / INR n)) as [w Ew].
  exists (Z.of_nat t + Z.of_nat n * (z - w))%Z. rewrite Ew, plus_IZR, mult_IZR, minus_IZR, <- !INR_IZR_INZ. field. exact HN.
Qed.
Lemma one_axis_unique (tol p : R) (n : nat) (t t' : nat) (z z' : Z) : (0 < n)%nat -> (t < n)%nat -> (t' < n)%nat ->
  INR n * (refine1 tol ((p + INR t) / INR n) + IZR z) = INR n * (refine1 tol ((p + INR t') / INR n) + IZR z') -> t = t' /\ z = z'.
Proof.
  intros Hn Ht Ht' H. assert (HN : INR n <> 0) by (apply not_0_INR; lia). assert (E0 : t = t').
  { destruct (refine1_int tol ((p + INR t) / INR n)) as [w Ew], (refine1_int tol ((p + INR t') / INR n)) as [w' Ew']. rewrite Ew, Ew' in H.
    assert (E : IZR (Z.of_nat t + Z.of_nat n * (z - w)) = IZR (Z.of_nat t' + Z.of_nat n * (z' - w'))).
    { rewrite !plus_IZR, !mult_IZR, !minus_IZR, <- !INR_IZR_INZ. apply (Rplus_eq_reg_l p).
      transitivity (INR n * ((p + INR t) / INR n - IZR w + IZR z)); [field; exact HN|]. rewrite H. field. exact HN. }
    apply eq_IZR in E. assert (D : (Z.of_nat n * (z - w - (z' - w')) = Z.of_nat t' - Z.of_nat t)%Z) by lia.
    destruct (Z.eq_dec (z - w - (z' - w')) 0) as [D0|D0]; [rewrite D0 in D; lia|]. nia. }
  split; [exact E0|]. subst t'. apply Rmult_eq_reg_l in H; [|exact HN]. apply eq_IZR. lra.
Qed.
Lemma nth_rep {X} (x : X) n q d : (q < n)%nat -> nth q (repeat x n) d = x.
Proof. revert q. induction n as [|n IH]; intros [|q] H; cbn; try lia; [reflexivity|]. apply IH. lia. Qed.
