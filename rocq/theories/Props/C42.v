(** C42: SSCHA iterations. *)
From Verif Require Import Base Num NumR Model.SSCHA Proofs.Composition Proofs.SSCHA.
From Coq Require Import Reals Lra.
Local Open Scope R_scope.

(** Force constants after k updates: new = solver result mixed with the old ones. *)
Definition is_trajectory (solver : nat -> vec R -> vec R) (mixing : R) (c0 : nat) (fc0 : vec R) (t : nat -> vec R) : Prop :=
  t O = fc0 /\ forall k i, t (S k) i = mixing * solver (c0 + k)%nat (t k) i + (1 - mixing) * t k i.
(** Convergence score of update k. *)
Definition score_of (m : nat) (solver : nat -> vec R -> vec R) (c0 : nat) (t : nat -> vec R) (k : nat) : dval := convergence_score m (t k) (solver (c0 + (k - 1))%nat (t (k - 1)%nat)).
Definition updates_max (p : sparams) : nat := Z.to_nat (Z.max 2 (p_max_iter p)).

(** A run ends after k updates, 2 <= k <= max(2, max_iter), with the force constants after k updates. It stops at the
    first k >= 2 whose score is not above the tolerance, or at the limit; it is flagged converged exactly if the last score
    is below the tolerance; the log has one entry per update and one more, at the final force constants, if converged. *)
Theorem C42_run m solver initial p hist st fc0 fuel : s_fc2 st = FC fc0 -> (updates_max p <= fuel)%nat ->
  exists k t log' last st', let d := score_of m solver (s_calls st) t k in
    is_trajectory solver (p_mixing p) (s_calls st) fc0 t /\ (2 <= k <= updates_max p)%nat /\
    (forall i, (2 <= i < k)%nat -> gt_tol (score_of m solver (s_calls st) t i) (p_tol p) = true) /\
    (k = updates_max p \/ gt_tol d (p_tol p) = false) /\
    run m solver initial fuel p hist st = Some (Ok st') /\
    s_fc2 st' = FC (t k) /\ s_log st' = (if hist then [] else s_log st) ++ log' ++ [last] /\
    s_converge last = Some (lt_tol d (p_tol p)) /\ s_delta last = Some d /\
    length log' = (if lt_tol d (p_tol p) then k else k - 1)%nat /\ (lt_tol d (p_tol p) = true -> s_fc last = t k).
Proof.
  intros EF Hf. set (log0 := if hist then [] else s_log st).
  destruct (loop_start m solver p (s_calls st) fc0 log0 fuel Hf) as [k [Hk [HL [HC HS]]]].
  exists k, (traj solver p (s_calls st) fc0). set (t := traj solver p (s_calls st) fc0).
  assert (ES : forall i, (1 <= i)%nat -> score_of m solver (s_calls st) t i = score m solver p (s_calls st) fc0 i).
  { intros i Hi. destruct i as [|i]; [lia|]. unfold score_of. replace (S i - 1)%nat with i by lia. reflexivity. }
  assert (HR : run m solver initial fuel p hist st = (let d := score m solver p (s_calls st) fc0 k in let st1 := state m solver p (s_calls st) fc0 log0 k in
    if lt_tol d (p_tol p) then Some (do st <- final_iter st1; Ok (set_log st (on_last (fun e => mk_sdata (s_fc e) (Some d) (Some true)) (s_log st))))
    else Some (Ok (set_log st1 (on_last (fun e => mk_sdata (s_fc e) (s_delta e) (Some false)) (s_log st1)))))).
  { unfold run. replace (if hist then set_log (ensure_fc initial st) [] else ensure_fc initial st) with (mk_sstate (FC fc0) log0 (s_calls st)); [now rewrite HL|].
    unfold ensure_fc. rewrite EF. unfold log0, set_log. destruct hist; [now rewrite EF|]. destruct st as [f l c]. cbn in EF |- *. now rewrite EF. }
  rewrite HR. cbn zeta. rewrite (ES k) by lia. destruct (lt_tol (score m solver p (s_calls st) fc0 k) (p_tol p)) eqn:E.
  - exists (entries m solver p (s_calls st) fc0 k). eexists. eexists. cbn [final_iter use_fc state s_fc2 s_log bind s_calls]. rewrite on_last_snoc.
    split; [split; [reflexivity|intros j i; cbn [traj t]; ring]|]. split; [exact Hk|]. split; [intros i Hi; rewrite ES by lia; now apply HC|]. split; [exact HS|].
    split; [reflexivity|]. cbn [set_log s_fc2 s_log s_converge s_delta s_fc]. split; [reflexivity|]. split; [now rewrite <- app_assoc|]. split; [reflexivity|]. split; [reflexivity|]. split; [|intros _; reflexivity]. unfold entries. now rewrite map_length, seq_length.
  - destruct k as [|k]; [lia|]. exists (entries m solver p (s_calls st) fc0 k). eexists. eexists. unfold entries at 1. cbn [state s_log]. unfold entries at 1. rewrite seq_S, map_app. cbn [map]. rewrite app_assoc, on_last_snoc.
    split; [split; [reflexivity|intros j i; cbn [traj t]; ring]|]. split; [exact Hk|]. split; [intros i Hi; rewrite ES by lia; now apply HC|]. split; [exact HS|].
    split; [reflexivity|]. cbn [set_log s_fc2 s_log s_converge s_delta s_fc state]. split; [reflexivity|]. split; [unfold entries; now rewrite <- app_assoc|]. split; [reflexivity|]. split; [reflexivity|]. split; [|intros; discriminate]. unfold entries. rewrite map_length, seq_length. lia.
Qed.
Print Assumptions C42_run.

(** When the loop stops and when the run counts as converged, in terms of the distance between the new force constants and the mixed ones *)
Theorem C42_decision m solver c0 t k tol : let new := norm m (fun i => solver (c0 + (k - 1))%nat (t (k - 1)%nat) i - t k i) in let size := norm m (t k) in
  (gt_tol (score_of m solver c0 t k) tol = false <-> (size = 0 /\ new = 0) \/ (0 < size /\ new <= tol * size)) /\
  (lt_tol (score_of m solver c0 t k) tol = true <-> 0 < size /\ new < tol * size).
Proof.
  cbv zeta. unfold score_of, convergence_score. pose proof (norm_pos m (t k)) as HP. set (size := norm m (t k)) in *. set (new := norm m _). destruct (Req_EM_T size 0) as [E|E].
  - destruct (Req_EM_T new 0) as [E2|E2]; cbn [gt_tol lt_tol]; split; split; try congruence; auto; try (intros [[_ H]|[H _]]; [congruence|lra]); intros [H _]; lra.
  - cbn [gt_tol lt_tol]. assert (HS : 0 < size) by lra. assert (HD : new / size * size = new) by (field; lra). rewrite Rltb_false, Rltb_true. split.
    + split; [intros H; right; split; [exact HS|]; rewrite <- HD; apply Rmult_le_compat_r; lra|intros [[H _]|[_ H]]; [lra|]]. apply (Rmult_le_reg_r size); [exact HS|]. now rewrite HD.
    + split; [intros H; split; [exact HS|]; rewrite <- HD; apply Rmult_lt_compat_r; assumption|intros [_ H]]. apply (Rmult_lt_reg_r size); [exact HS|]. now rewrite HD.
Qed.
Print Assumptions C42_decision.

(** What the score measures: with 0 < mixing < 1 a converged run has a last update smaller than the tolerance, relative to
    the updated force constants, up to the factor mixing/(1-mixing) (1 for the default mixing 1/2). *)
Theorem C42_score m solver mixing c0 fc0 t k tol : is_trajectory solver mixing c0 fc0 t -> 0 < mixing < 1 -> (1 <= k)%nat ->
  lt_tol (score_of m solver c0 t k) tol = true ->
  norm m (fun i => t k i - t (k - 1)%nat i) < mixing / (1 - mixing) * tol * norm m (t k).
Proof.
  intros [_ HT] Hm Hk. destruct k as [|k]; [lia|]. unfold score_of, convergence_score. replace (S k - 1)%nat with k by lia.
  set (new := solver (c0 + k)%nat (t k)).
  assert (E1 : norm m (fun i => new i - t (S k) i) = (1 - mixing) * norm m (fun i => new i - t k i)).
  { rewrite <- (Rabs_pos_eq (1 - mixing)) by lra. rewrite <- norm_scale. apply norm_ext. intros i. rewrite HT. fold new. ring. }
  assert (E2 : norm m (fun i => t (S k) i - t k i) = mixing * norm m (fun i => new i - t k i)).
  { rewrite <- (Rabs_pos_eq mixing) by lra. rewrite <- norm_scale. apply norm_ext. intros i. rewrite HT. fold new. ring. }
  destruct (Req_EM_T (norm m (t (S k))) 0) as [|N]; [destruct (Req_EM_T _ 0); discriminate|].
  cbn [lt_tol]. rewrite Rltb_true. intros H. pose proof (norm_pos m (t (S k))) as HP. rewrite E2.
  rewrite E1 in H. set (x := norm m (fun i => new i - t k i)) in *. set (y := norm m (t (S k))) in *. assert (Hy : 0 < y) by lra.
  assert (H' : (1 - mixing) * x < tol * y). { apply (Rmult_lt_compat_r y) in H; [|exact Hy]. replace ((1 - mixing) * x / y * y) with ((1 - mixing) * x) in H by (field; lra). exact H. }
  apply Rmult_lt_reg_r with (1 - mixing); [lra|]. replace (mixing / (1 - mixing) * tol * y * (1 - mixing)) with (mixing * (tol * y)) by (field; lra).
  replace (mixing * x * (1 - mixing)) with (mixing * ((1 - mixing) * x)) by ring. apply Rmult_lt_compat_l; lra.
Qed.
Print Assumptions C42_score.
(** With mixing = 1 the score of every update is zero: every run stops after two updates and is flagged converged, however
    different successive force constants are. *)
Theorem C42_mixing_one m solver c0 fc0 t k : is_trajectory solver 1 c0 fc0 t -> (1 <= k)%nat -> norm m (t k) <> 0 -> score_of m solver c0 t k = Fin 0.
Proof.
  intros [_ HT] Hk N. destruct k as [|k]; [lia|]. unfold score_of, convergence_score. replace (S k - 1)%nat with k by lia.
  destruct (Req_EM_T (norm m (t (S k))) 0); [contradiction|]. f_equal.
  rewrite (norm_ext m _ (fun i => 0 * t (S k) i)) by (intros i; rewrite HT; ring). rewrite norm_scale, Rabs_R0. unfold Rdiv. ring.
Qed.
Print Assumptions C42_mixing_one.
(** So convergence does not mean a small change: witness whose force constants jump between 1 and 100. *)
Theorem C42_change_refuted : exists m solver initial p st st', p_tol p = 1 / 200 /\ p_max_iter p = 50%Z /\
  run m solver initial 50 p true st = Some (Ok st') /\ (exists d, In d (s_log st') /\ s_converge d = Some true) /\
  s_log st' = [mk_sdata (fun _ => 1) (Some (Fin 0)) None; mk_sdata (fun i => 100 * 1 + 1 * (1 - 1)) (Some (Fin 0)) None; mk_sdata (fun i => 1 * 1 + (100 * 1 + 1 * (1 - 1)) * (1 - 1)) (Some (Fin 0)) (Some true)].
Proof.
  set (solver := fun (c : nat) (fc : vec R) => if Nat.even c then (fun _ : nat => 100) else (fun _ : nat => 1)).
  set (p := mk_sparams 1 (1 / 200) 50).
  set (t := traj solver p 0 (fun _ : nat => 1)).
  assert (HT : is_trajectory solver 1 0 (fun _ => 1) t) by (split; [reflexivity|intros k i; cbn [traj t p p_mixing]; ring]).
  assert (N1 : forall v : vec R, v O <> 0 -> norm 1 v <> 0).
  { intros v Hv H. apply sqrt_eq_0 in H; [|cbn; nra]. cbn in H. nra. }
  assert (S1 : score 1 solver p 0 (fun _ => 1) 1 = Fin 0) by (apply (C42_mixing_one 1 solver 0 (fun _ => 1) t 1 HT); [lia|apply N1; cbn; lra]).
  assert (S2 : score 1 solver p 0 (fun _ => 1) 2 = Fin 0) by (apply (C42_mixing_one 1 solver 0 (fun _ => 1) t 2 HT); [lia|apply N1; cbn; lra]).
  destruct (loop_start 1 solver p 0 (fun _ => 1) [] 50) as [k [Hk [HL [HC _]]]]; [unfold K; cbn; lia|].
  assert (k = 2)%nat. { destruct (Nat.eq_dec k 2) as [|H]; [assumption|]. specialize (HC 2%nat ltac:(lia)). rewrite S2 in HC. cbn in HC. apply Rltb_true in HC. cbn in HC. lra. }
  subst k. rewrite S2 in HL.
  exists 1%nat, solver, (fun _ => 0), p, (mk_sstate (FC (fun _ => 1)) [] 0). eexists. split; [reflexivity|]. split; [reflexivity|].
  unfold run, ensure_fc. cbn [s_fc2]. unfold set_log at 1. cbn [s_fc2 s_calls s_log]. rewrite HL. cbn [lt_tol]. replace (Rltb 0 (p_tol p)) with true by (symmetry; apply Rltb_true; cbn; lra).
  cbn [final_iter use_fc state s_fc2 s_log bind s_calls set_log]. rewrite on_last_snoc. split; [reflexivity|].
  split.
  - eexists. cbn [s_log]. split; [apply in_or_app; right; left; reflexivity|reflexivity].
  - cbn [s_log entries seq map app]. rewrite S1, S2. reflexivity.
Qed.
Print Assumptions C42_change_refuted.
(** A score equal to the tolerance stops the run but is not flagged converged, although the limit is not reached. *)
Theorem C42_equal_score m solver c0 t k tol : score_of m solver c0 t k = Fin tol -> gt_tol (score_of m solver c0 t k) tol = false /\ lt_tol (score_of m solver c0 t k) tol = false.
Proof. intros ->. cbn. split; apply Rltb_false; lra. Qed.
Print Assumptions C42_equal_score.
(** Starting without force constants fails: the attribute is overwritten by the object itself. *)
Theorem C42_unset_refuted m solver initial p hist st fuel : s_fc2 st = NoFC -> (1 <= fuel)%nat -> run m solver initial fuel p hist st = Some (Err AttributeError).
Proof.
  intros EF Hf. unfold run, ensure_fc. rewrite EF. destruct fuel as [|fuel]; [lia|]. destruct hist; cbn [loop set_log s_fc2 s_calls]; rewrite orb_true_r; reflexivity.
Qed.
Print Assumptions C42_unset_refuted.
(** After [set_initial_force_constants] it succeeds (hypothesis of C42_run). *)
Theorem C42_set_first initial st fc : s_fc2 (set_initial initial st fc) = FC (match fc with Some fc => fc | None => initial end).
Proof. reflexivity. Qed.
Print Assumptions C42_set_first.
(** Preconditioning makes at most max_iter updates and always ends. *)
Theorem C42_precondition m solver initial p st fc0 fuel : s_fc2 st = FC fc0 -> (Z.to_nat (p_max_iter p) <= fuel)%nat ->
  exists k st', precondition m solver initial fuel p st = Some (Ok st') /\ (k <= Z.to_nat (p_max_iter p))%nat /\ length (s_log st') = (length (s_log st) + k)%nat /\ s_calls st' = (s_calls st + k)%nat.
Proof.
  intros EF. unfold precondition. assert (EN : ensure_fc initial st = st) by (unfold ensure_fc; now rewrite EF). rewrite EN. clear EN.
  set (M := Z.to_nat (p_max_iter p)). generalize (Fin 10000000000) as d.
  assert (G : forall fuel j d st fc, s_fc2 st = FC fc -> (M - j <= fuel)%nat -> exists k st', pre_loop m solver fuel p (1 + Z.of_nat j) d st = Some (Ok st') /\ (k <= M - j)%nat /\ length (s_log st') = (length (s_log st) + k)%nat /\ s_calls st' = (s_calls st + k)%nat).
  { clear. induction fuel as [|fuel IH]; intros j d st fc EF Hf; cbn [pre_loop].
    - replace (1 + Z.of_nat j <=? p_max_iter p)%Z with false by (unfold M in Hf; lia). cbn [andb]. exists O, st. split; [reflexivity|]. repeat split; lia.
    - destruct (1 + Z.of_nat j <=? p_max_iter p)%Z eqn:E; cbn [andb]; [|exists O, st; split; [reflexivity|repeat split; lia]].
      destruct (gt_tol d (p_tol p)); [|exists O, st; split; [reflexivity|repeat split; lia]].
      unfold single_iter, use_fc. rewrite EF. cbn [bind].
      match goal with |- context [pre_loop m solver fuel p _ ?d2 ?s2] => destruct (IH (S j) d2 s2 _ eq_refl ltac:(unfold M in *; lia)) as [k [st' [H1 [H2 [H3 H4]]]]] end.
      exists (S k), st'. split; [replace (1 + Z.of_nat j + 1)%Z with (1 + Z.of_nat (S j))%Z by lia; exact H1|]. cbn [s_log s_calls] in *. rewrite app_length in H3. cbn in H3. unfold M in *. repeat split; lia. }
  intros d Hf. destruct (G fuel O d st fc0 EF ltac:(lia)) as [k [st' [H1 [H2 [H3 H4]]]]]. exists k, st'. repeat split; [exact H1|lia|exact H3|exact H4].
Qed.
Print Assumptions C42_precondition.
(** A run with mixing 1/2 that halves the distance to 1 each time: scores |new - mixed| / |mixed|. *)
Example C42_example : let solver := fun (_ : nat) (_ : vec R) (_ : nat) => 1 in let p := mk_sparams (1 / 2) (1 / 200) 3 in
  is_trajectory solver (p_mixing p) 0 (fun _ => 3) (traj solver p 0 (fun _ => 3)) /\ traj solver p 0 (fun _ => 3) 2 0%nat = 3 / 2 /\ updates_max p = 3%nat /\
  s_fc2 (set_initial (fun _ => 3) (mk_sstate NoFC [] 0) None) = FC (fun _ => 3).
Proof. cbn zeta. split; [split; [reflexivity|intros k i; cbn [traj p_mixing]; ring]|]. split; [cbn [traj p_mixing]; field|]. split; reflexivity. Qed.
