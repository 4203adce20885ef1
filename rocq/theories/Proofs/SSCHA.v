(** Trajectory of the SSCHA loop. *)
From Verif Require Import Base Num NumR Model.SSCHA Proofs.Composition.
From Coq Require Import Reals Lra.
Local Open Scope R_scope.

Section Traj.
  Variable m : nat.
  Variable solver : nat -> vec R -> vec R.
  Variable p : sparams.
  Variable c0 : nat.
  Variable fc0 : vec R.
  Fixpoint traj (k : nat) : vec R :=
    match k with O => fc0 | S k => fun i => solver (c0 + k)%nat (traj k) i * p_mixing p + traj k i * (1 - p_mixing p) end.
  Definition score (k : nat) : dval := match k with O => Fin 10000000000 | S k => convergence_score m (traj (S k)) (solver (c0 + k)%nat (traj k)) end.
  Definition entries (k : nat) : list sdata := map (fun i => mk_sdata (traj i) (Some (score (S i))) None) (seq 0 k).
  Definition state (log0 : list sdata) (k : nat) : sstate := mk_sstate (FC (traj k)) (log0 ++ entries k) (c0 + k).
  Definition cont (k : nat) : bool := ((1 + Z.of_nat k <=? p_max_iter p)%Z && gt_tol (score k) (p_tol p)) || (1 + Z.of_nat k <? 3)%Z.
  Definition K : nat := Z.to_nat (Z.max 2 (p_max_iter p)).

  Lemma step_state log0 k : single_iter m solver p (state log0 k) = Ok (state log0 (S k), score (S k)).
  Proof.
    unfold single_iter, state. cbn [use_fc s_fc2 s_calls s_log bind]. do 2 f_equal.
    change (fun i => solver (c0 + k)%nat (traj k) i * p_mixing p + traj k i * (1 - p_mixing p)) with (traj (S k)). f_equal; [|lia].
    unfold entries. rewrite seq_S, map_app, app_assoc. reflexivity.
  Qed.
  Lemma loop_state log0 fuel : forall k, (k <= K)%nat -> (K - k <= fuel)%nat ->
    exists k', (k <= k' <= K)%nat /\ loop m solver fuel p (1 + Z.of_nat k) (score k) (state log0 k) = Some (Ok (state log0 k', score k')) /\
      (forall i, (k <= i < k')%nat -> cont i = true) /\ cont k' = false.
  Proof.
    induction fuel as [|fuel IH]; intros k Hk Hf.
    - assert (k = K) by lia. subst k. exists K. split; [lia|]. assert (C : cont K = false) by (unfold cont, K; lia).
      split; [|split; [intros; lia|exact C]]. cbn [loop]. fold (cont K). now rewrite C.
    - cbn [loop]. fold (cont k). destruct (cont k) eqn:C.
      + assert (Hk' : (S k <= K)%nat) by (unfold cont, K in *; lia). rewrite step_state.
        destruct (IH (S k) Hk' ltac:(lia)) as [k' [H1 [H2 [H3 H4]]]]. exists k'. split; [lia|].
        split; [replace (1 + Z.of_nat k + 1)%Z with (1 + Z.of_nat (S k))%Z by lia; exact H2|]. split; [|exact H4].
        intros i Hi. destruct (Nat.eq_dec i k) as [->|]; [exact C|apply H3; lia].
      + exists k. split; [lia|]. split; [reflexivity|]. split; [intros; lia|exact C].
  Qed.
  Lemma loop_start log0 fuel : (K <= fuel)%nat -> exists k, (2 <= k <= K)%nat /\
    loop m solver fuel p 1 (Fin 10000000000) (mk_sstate (FC fc0) log0 c0) = Some (Ok (state log0 k, score k)) /\
    (forall i, (2 <= i < k)%nat -> gt_tol (score i) (p_tol p) = true) /\ (k = K \/ gt_tol (score k) (p_tol p) = false).
  Proof.
    intros Hf. destruct (loop_state log0 fuel 0 ltac:(lia) ltac:(lia)) as [k [H1 [H2 [H3 H4]]]].
    exists k. unfold cont in H4. apply orb_false_iff in H4. destruct H4 as [H4 H5]. split; [lia|]. split.
    - rewrite <- H2. unfold state, entries. cbn [seq map traj score Z.of_nat]. rewrite app_nil_r, Nat.add_0_r. reflexivity.
    - split.
      + intros i Hi. specialize (H3 i ltac:(lia)). unfold cont in H3. apply orb_true_iff in H3. destruct H3 as [H3|H3]; [now apply andb_true_iff in H3|lia].
      + destruct (gt_tol (score k) (p_tol p)); [left|now right]. unfold K in *. lia.
  Qed.
End Traj.

Lemma on_last_snoc f l d : on_last f (l ++ [d]) = l ++ [f d].
Proof. induction l as [|a l IH]; [reflexivity|]. cbn [app on_last]. rewrite IH. destruct l; reflexivity. Qed.

(** Norms. *)
Lemma norm_scale m c v : norm m (fun i => c * v i) = Rabs c * norm m v.
Proof.
  unfold norm. transitivity (sqrt (c * c * sumn m (fun i => v i * v i))).
  - f_equal. rewrite <- sumnR_scale. apply sumn_ext. intros i _. ring.
  - rewrite sqrt_mult_alt by apply Rle_0_sqr. f_equal. apply sqrt_Rsqr_abs.
Qed.
Lemma norm_ext m v w : (forall i, v i = w i) -> norm m v = norm m w.
Proof. intros H. unfold norm. f_equal. apply sumn_ext. intros i _. now rewrite H. Qed.
Lemma norm_pos m v : 0 <= norm m v. Proof. apply sqrt_pos. Qed.
