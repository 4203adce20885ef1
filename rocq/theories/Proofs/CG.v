From Verif Require Import Base Num Model.CG Model.Regress.
From Coq Require Import Ring Field.

Section CG.
  Context {F : Type} {N : Num F} {O : NumOrd F} {L : FieldLaws F}.
  Local Open Scope num_scope.
  Add Field Ffield : (field_laws (F:=F)).
  Notation row := (vec F).
  Variables (p : nat) (sys : system F) (big : F).

  (** A x for the matrix of the system. *)
  Lemma eval_dot_linear alpha c (u v : row) i :
    eval_dot p sys alpha (fun k => u k + c * v k) i = eval_dot p sys alpha u i + c * eval_dot p sys alpha v i.
  Proof.
    unfold eval_dot. destruct sys as [m|x].
    - unfold matvec. rewrite dot_add_r, dot_scale_r. ring.
    - rewrite (nsumf_ext' _ (fun r : row => r i * dot p r u + c * (r i * dot p r v))).
      + rewrite nsumf_add, nsumf_scale_l. unfold vec in *. ring.
      + intros r. rewrite dot_add_r, dot_scale_r. ring.
  Qed.

  Definition coef (s : state) : row := c_heap s a_coef.
  Definition inv (alpha : F) (b : row) (s : state) : Prop :=
    (forall i, c_res s i = b i - eval_dot p sys alpha (coef s) i) /\
    (c_coef_min s = None \/ c_coef_min s = Some a_coef).

  Lemma step_inv alpha b s : inv alpha b s -> inv alpha b (step p sys alpha s).
  Proof.
    intros [H1 H2]. unfold step. set (lr := _ / _). set (n := norm p _).
    destruct (nltb n (c_min s)); (split; [|cbn; auto]); intros i; unfold coef; cbn [c_res c_heap set_heap a_coef Nat.eqb]; unfold set_heap;
      cbn [Nat.eqb a_coef]; rewrite eval_dot_linear, H1; unfold coef; ring.
  Qed.

  Lemma loop_inv alpha gtol b k : forall i s, inv alpha b s -> inv alpha b (loop p sys alpha gtol k i s).
  Proof.
    induction k as [|k IH]; intros i s H; cbn [loop]; [exact H|]. destruct (_ && _); [exact H|]. apply IH, step_inv, H.
  Qed.

  Lemma start_inv alpha b c0 : inv alpha b (start p sys big alpha b c0).
  Proof. split; [intros i; reflexivity|left; reflexivity]. Qed.

  (** The n-th iterate and the number of iterations done. *)
  Fixpoint iterate (alpha : F) (n : nat) (s : state) : state :=
    match n with Datatypes.O => s | S n' => step p sys alpha (iterate alpha n' s) end.
  Lemma iterate_S alpha n s : iterate alpha n (step p sys alpha s) = step p sys alpha (iterate alpha n s).
  Proof. induction n as [|n IH]; [reflexivity|]. cbn [iterate]. now rewrite IH. Qed.
  Lemma loop_iterate alpha gtol k : forall i s, exists n, (n <= k)%nat /\ loop p sys alpha gtol k i s = iterate alpha n s.
  Proof.
    induction k as [|k IH]; intros i s; cbn [loop]; [exists 0%nat; auto|].
    destruct (_ && _); [exists 0%nat; split; [lia|reflexivity]|].
    destruct (IH (S i) (step p sys alpha s)) as [n [Hn E]]. exists (S n). split; [lia|]. rewrite E. apply iterate_S.
  Qed.
  Lemma loop_full alpha gtol k : forall i s, (i + k <= 101)%nat -> loop p sys alpha gtol k i s = iterate alpha k s.
  Proof.
    induction k as [|k IH]; intros i s Hk; cbn [loop]; [reflexivity|].
    replace (100 <? i)%nat with false by (symmetry; apply Nat.ltb_ge; lia). cbn [andb].
    rewrite IH by lia. apply iterate_S.
  Qed.

  (** A vector is returned exactly when some iterate beat the initial bound. *)
  Lemma min_none alpha b c0 n : let s := iterate alpha n (start p sys big alpha b c0) in
    (c_coef_min s = None -> c_min s = big) /\
    (c_coef_min s = None <-> forall m, (1 <= m <= n)%nat -> nltb (c_norm (iterate alpha m (start p sys big alpha b c0))) big = false).
  Proof.
    induction n as [|n [IH1 IH2]]; cbn [iterate]; cbn zeta.
    - split; [reflexivity|]. split; [intros _ m Hm; lia|reflexivity].
    - set (s := iterate alpha n _) in *.
      assert (EN : forall s', c_norm (step p sys alpha s') = norm p (c_res (step p sys alpha s'))).
      { intros s'. unfold step. destruct (nltb _ _); reflexivity. }
      destruct (nltb (c_norm (step p sys alpha s)) (c_min s)) eqn:E.
      + assert (ES : c_coef_min (step p sys alpha s) = Some a_coef).
        { rewrite EN in E. unfold step in *. destruct (nltb _ (c_min s)) eqn:E2 in |- *; [reflexivity|].
          rewrite E2 in E. cbn [c_res] in E. congruence. }
        split; [rewrite ES; discriminate|]. split; [rewrite ES; discriminate|]. intros H. exfalso.
        assert (HN : c_coef_min s = None) by (apply IH2; intros m Hm; apply H; lia).
        rewrite (IH1 HN) in E. specialize (H (S n) ltac:(lia)). cbn [iterate] in H. fold s in H. congruence.
      + assert (ES : c_coef_min (step p sys alpha s) = c_coef_min s /\ c_min (step p sys alpha s) = c_min s).
        { rewrite EN in E. unfold step in *. destruct (nltb _ (c_min s)) eqn:E2 in |- *; [|split; reflexivity].
          rewrite E2 in E. cbn [c_res] in E. congruence. }
        destruct ES as [-> ->]. split; [exact IH1|]. rewrite IH2. split; intros H m Hm.
        * destruct (Nat.eq_dec m (S n)) as [->|]; [|apply H; lia]. cbn [iterate]. fold s. rewrite <- E. f_equal.
          symmetry. apply IH1, IH2, H.
        * apply H. lia.
  Qed.

  Lemma solver_last y xty alpha coef0 gtol max_iter b :
    xty = Some b ->
    let c0 := match coef0 with Some c => c | None => fun _ => 0 end in
    let s0 := start p sys big alpha b c0 in
    exists n, (n <= max_iter)%nat /\ (max_iter <= 101 -> n = max_iter)%nat /\
      solver_cg p sys big y xty alpha coef0 gtol max_iter
      = Ok (if existsb (fun m => nltb (c_norm (iterate alpha m s0)) big) (seq 1 n) then Some (coef (iterate alpha n s0)) else None) /\
      forall m i, c_res (iterate alpha m s0) i = b i - eval_dot p sys alpha (coef (iterate alpha m s0)) i.
  Proof.
    intros -> c0 s0. unfold solver_cg. cbn [bind]. fold c0 s0.
    assert (INV : forall m, inv alpha b (iterate alpha m s0)).
    { induction m as [|m IH]; [apply start_inv|]. cbn [iterate]. apply step_inv, IH. }
    assert (HN : exists n, (n <= max_iter)%nat /\ (max_iter <= 101 -> n = max_iter)%nat /\ loop p sys alpha gtol max_iter 0 s0 = iterate alpha n s0).
    { destruct (Nat.le_gt_cases max_iter 101) as [H|H].
      - exists max_iter. split; [lia|]. split; [auto|]. apply loop_full. lia.
      - destruct (loop_iterate alpha gtol max_iter 0 s0) as [n [Hn E]]. exists n. split; [exact Hn|]. split; [lia|exact E]. }
    destruct HN as [n [Hn [Hn' E]]]. exists n. split; [exact Hn|]. split; [exact Hn'|]. split; [|intros m; apply INV].
    match goal with |- context [loop p sys alpha gtol max_iter 0 ?z] => change z with s0 end.
    rewrite E. f_equal. unfold deref. destruct (min_none alpha b c0 n) as [_ M]. fold s0 in M.
    destruct (INV n) as [_ [Hc|Hc]]; rewrite Hc.
    - assert (EX : existsb (fun m => nltb (c_norm (iterate alpha m s0)) big) (seq 1 n) = false).
      { destruct (existsb _ _) eqn:EX; [|reflexivity]. apply existsb_exists in EX. destruct EX as [m [Hm1 Hm2]]. apply in_seq in Hm1.
        rewrite (proj1 M Hc m) in Hm2 by lia. discriminate. }
      now rewrite EX.
    - assert (EX : existsb (fun m => nltb (c_norm (iterate alpha m s0)) big) (seq 1 n) = true).
      { destruct (existsb _ _) eqn:EX; [reflexivity|]. exfalso.
        assert (c_coef_min (iterate alpha n s0) = None); [|congruence]. apply M. intros m Hm.
        destruct (nltb _ _) eqn:En; [|reflexivity]. exfalso.
        assert (existsb (fun m => nltb (c_norm (iterate alpha m s0)) big) (seq 1 n) = true); [|congruence].
        apply existsb_exists. exists m. split; [apply in_seq; lia|exact En]. }
      now rewrite EX.
  Qed.

  (** The system matrix made from X is the one made from X^T X. *)
  Lemma eval_dot_x x alpha (v : row) i :
    eval_dot p (Sys_x x) alpha v i = eval_dot p (Sys_xtx (xtx_of x)) alpha v i.
  Proof.
    unfold eval_dot. f_equal. unfold matvec, dot, xtx_of.
    rewrite (nsumf_ext' _ (fun r : row => sumn p (fun j => r i * r j * v j))).
    - symmetry. unfold sumn. rewrite <- nsumf_swap. apply nsumf_ext'. intros j. symmetry. apply nsumf_scale_r.
    - intros r. unfold sumn. rewrite <- nsumf_scale_l. apply nsumf_ext'. intros. ring.
  Qed.
End CG.
