(** C79: the object for developing potentials, over all histories of calls. *)
From Verif Require Import Base Model.Structure Model.Properties Model.HybridTypes Model.ParamFlags Model.Develop Proofs.Develop.
From Coq Require String.

Section C79.
  Context {Data Coef Errors Log Request Method : Type}.
  Variable build : Request -> state -> res (Data * Data).
  Variable reg : Method -> state -> Data -> Data -> res Coef.
  Variable curve : state -> Data -> Data -> res Log.
  Variable errors : state -> Coef -> Data -> res Errors.
  Variable n_feat : state -> nat.
  Variable size : Coef -> nat.
  Variable cumul : Coef -> option nat.
  Notation api := (api Data Coef Errors Log).
  Notation call := (call Data Coef Request Method).
  Notation step := (step (Errors:=Errors) (Log:=Log) build reg curve errors n_feat size cumul).
  Notation run := (run (Errors:=Errors) (Log:=Log) build reg curve errors n_feat size cumul).
  Implicit Types (s : api) (o : call) (h : list call).

  Ltac hsteps H := repeat match type of H with
    | context [match ?x with _ => _ end] => lazymatch x with context [match _ with _ => _ end] => fail | _ => destruct x eqn:? end
    end.
  Ltac open H := cbn [Develop.step] in H; unfold fit_, estimate in H; unfold need_params, on_params, get_data, need_data in H; hsteps H; try discriminate H; try (injection H as ? ?; subst).

  (** *** Histories *)
  (** The last call of [h] with property [P]; [P] looks at the call and the state before it. *)
  Definition last_of (P : call -> api -> bool) h (o : call) (s : api) (after : list call) : Prop :=
    exists before, h = before ++ o :: after /\ s = run before init /\ P o s = true /\
      forall h1 o1 h2, after = h1 ++ o1 :: h2 -> P o1 (run (before ++ o :: h1) init) = false.
  Lemma last_step P h o1 : (P o1 (run h init) = true -> last_of P (h ++ [o1]) o1 (run h init) []) /\
    (P o1 (run h init) = false -> forall o s after, last_of P h o s after -> last_of P (h ++ [o1]) o s (after ++ [o1])).
  Proof.
    split.
    - intros H. exists h. split; [reflexivity|]. split; [reflexivity|]. split; [exact H|]. intros h1 o2 h2 E. destruct h1; discriminate.
    - intros H o s after [b [E [ES [HP HL]]]]. exists b. split; [rewrite E, <- app_assoc; reflexivity|]. split; [exact ES|]. split; [exact HP|].
      intros h1 o2 h2 EA. destruct (exists_last (l := o2 :: h2) ltac:(discriminate)) as [m [z EM]]. rewrite EM in EA. rewrite app_assoc in EA. apply app_inj_tail in EA. destruct EA as [EA <-].
      destruct m as [|y m].
      + cbn in EM. assert (o2 = o1) by congruence. subst o2. rewrite app_nil_r in EA. subst after. now rewrite <- E.
      + cbn in EM. assert (o2 = y) by congruence. subst y. now apply (HL h1 o2 m).
  Qed.
  Definition succeeds o s : bool := ok (snd (step o s)).

  (** Parameters are there if and only if a call that makes them has succeeded; and so for data. *)
  Theorem C79_params h : cur (run h init) <> None <-> exists o s after, last_of (fun o s => makes_params o && succeeds o s) h o s after.
  Proof.
    rewrite (not_iff_compat (wf_cur _ (wf_run build reg curve errors n_feat size cumul h _ wf_init))).
    induction h as [|o h IH] using rev_ind; [split; [intros H; now cbn in H|intros [o [s [after [b [E _]]]]]; destruct b; discriminate]|].
    rewrite run_app. cbn [Develop.run]. destruct (step o (run h init)) as [s' r] eqn:E. cbn [fst]. rewrite (step_params _ _ _ _ _ _ _ _ _ _ _ E).
    destruct (last_step (fun o s => makes_params o && succeeds o s) h o) as [L1 L2]. unfold succeeds in L1, L2 at 1. rewrite E in L1, L2. cbn [snd] in L1, L2. destruct (makes_params o && ok r) eqn:B.
    - split; [intros _|discriminate]. specialize (L1 eq_refl). eauto.
    - rewrite IH. split; intros [o1 [s1 [after H]]]; [exists o1, s1, (after ++ [o]); now apply L2|].
      destruct H as [b [EB [ES [HP HL]]]]. destruct (exists_last (l := o1 :: after) ltac:(discriminate)) as [m [z EM]]. rewrite EM in EB. rewrite app_assoc in EB. apply app_inj_tail in EB. destruct EB as [EB <-].
      destruct m as [|y m]; [exfalso; cbn in EM; rewrite app_nil_r in EB; subst b; assert (o1 = o) by congruence; subst o1; rewrite ES in HP; unfold succeeds in HP; rewrite E in HP; cbn in HP; congruence|].
      cbn in EM. injection EM as EY EM. subst y after. exists o1, s1, m. exists b. split; [exact EB|]. split; [exact ES|]. split; [exact HP|]. intros h1 o2 h2 EH. apply (HL h1 o2 (h2 ++ [o])). rewrite EH, <- app_assoc. reflexivity.
  Qed.
  (** The data are those of the last successful call that makes them, built from the parameters as they were after it. *)
  Theorem C79_data h : let s := run h init in
    (train s = None /\ test s = None /\ forall b o after, h = b ++ o :: after -> makes_data o && succeeds o (run b init) = false) \/
    exists o s0 after a b, last_of (fun o s => makes_data o && succeeds o s) h o s0 after /\ train s = Some a /\ test s = Some b /\
      ((exists p, o = LoadFile (Ok (p, a, b))) \/ exists q p, request o = Some q /\ cur (fst (step o s0)) = Some p /\ build q p = Ok (a, b)).
  Proof.
    induction h as [|o h IH] using rev_ind; [left; cbn; split; [reflexivity|]; split; [reflexivity|]; intros b o after E; destruct b; discriminate|].
    cbn zeta in *. rewrite run_app. cbn [Develop.run]. destruct (step o (run h init)) as [s' r] eqn:E. cbn [fst]. pose proof (step_data _ _ _ _ _ _ _ _ _ _ _ E) as D.
    destruct (last_step (fun o s => makes_data o && succeeds o s) h o) as [L1 L2]. unfold succeeds in L1, L2 at 1. rewrite E in L1, L2. cbn [snd] in L1, L2. destruct (makes_data o && ok r) eqn:B.
    - right. apply andb_true_iff in B. destruct B as [B1 B2].
      assert (X : exists a b, train s' = Some a /\ test s' = Some b /\ ((exists p, o = LoadFile (Ok (p, a, b))) \/ exists q p, request o = Some q /\ cur s' = Some p /\ build q p = Ok (a, b))).
      { destruct (request o) as [q|] eqn:R.
        - destruct (step_built build reg curve errors n_feat size cumul o _ _ _ _ E B2 R) as [p [a [b [H1 [H2 [H3 H4]]]]]]. exists a, b. split; [exact H3|]. split; [exact H4|]. right. exists q, p. auto.
        - destruct o; cbn in B1, R; try discriminate. cbn [Develop.step] in E. destruct r0 as [[[p a] b]|]; [|injection E as <- <-; discriminate]. injection E as <- <-. exists a, b. split; [reflexivity|]. split; [reflexivity|]. left. now exists p. }
      destruct X as [a [b [X1 [X2 X3]]]]. exists o, (run h init), [], a, b. split; [now apply L1|]. split; [exact X1|]. split; [exact X2|]. rewrite E. exact X3.
    - destruct D as [D1 D2]. rewrite D1, D2. destruct IH as [[I1 [I2 I3]]|[o1 [s0 [after [a [b [I1 [I2 [I3 I4]]]]]]]]].
      + left. split; [exact I1|]. split; [exact I2|]. intros b o1 after EB. destruct (exists_last (l := o1 :: after) ltac:(discriminate)) as [m [z EM]]. rewrite EM in EB. rewrite app_assoc in EB. apply app_inj_tail in EB. destruct EB as [EB <-].
        destruct m as [|y m]; [cbn in EM; assert (o1 = o) by congruence; subst o1; rewrite app_nil_r in EB; subst b; unfold succeeds; now rewrite E|]. cbn in EM. injection EM as EY EM. subst y. now apply (I3 b o1 m).
      + right. exists o1, s0, (after ++ [o]), a, b. split; [now apply L2|]. auto.
  Qed.

  (** *** Regression *)
  Theorem C79_fit h m : let s := run h init in
    (cur s = None \/ train s = None -> step (Fit m) s = (s, Err RuntimeError)) /\
    (forall p a b, cur s = Some p -> train s = Some a -> test s = Some b ->
      (forall e, reg m p a b = Err e -> step (Fit m) s = (s, Err e)) /\
      (forall c, reg m p a b = Ok c -> exists i, params s = Some i /\
        step (Fit m) s = (mk_api (heap s) (params s) (train s) (test s) (Some (mk_model i c (parts_of size cumul p c) (cumul c) None None)) (log s), Ok Done))).
  Proof.
    cbn zeta. set (s := run h init). assert (W : wf s) by (apply wf_run, wf_init). split.
    - cbn [Develop.step]. unfold fit_, need_params, need_data. intros [H|H]; [now rewrite H|]. destruct (cur s); [now rewrite H|reflexivity].
    - intros p a b C A B. cbn [Develop.step]. unfold fit_, need_params, need_data. rewrite C, A, B. split; [intros e ->; reflexivity|]. intros c ->.
      destruct (params s) as [i|] eqn:P; [|unfold cur in C; rewrite P in C; discriminate]. exists i. split; [reflexivity|]. unfold with_model. now rewrite ?P, A, B.
  Qed.
  Theorem C79_both_or_none h : train (run h init) = None <-> test (run h init) = None.
  Proof. apply (wf_run build reg curve errors n_feat size cumul h _ wf_init). Qed.
  (** The model in use: that of the last regression or file that succeeded, with the parameters current then. *)
  Definition makes_model o s : bool := match o with Fit m | Run m => succeeds (Fit m) s | LoadMlp _ => succeeds o s | _ => false end.
  Lemma step_model o s s' r : step o s = (s', r) ->
    if makes_model o s then
      exists m, mlp s' = Some m /\
      match o with
      | Fit k | Run k => exists p a b, cur s = Some p /\ train s = Some a /\ test s = Some b /\ reg k p a b = Ok (m_coef m) /\ params s = Some (m_obj m)
      | LoadMlp (Some (Ok (f, c))) => m_coef m = c /\ m_obj m = length (heap s) /\ params s' = Some (m_obj m)
      | _ => False
      end
    else match mlp s with
         | None => mlp s' = None
         | Some m => exists m', mlp s' = Some m' /\ m_coef m' = m_coef m /\ m_obj m' = m_obj m /\ m_parts m' = m_parts m /\ m_cumul m' = m_cumul m
         end.
  Proof.
    intros H. destruct (makes_model o s) eqn:B.
    - destruct o; cbn [makes_model] in B; try discriminate; unfold succeeds in B.
      + destruct (step (Fit m) s) as [s1 r1] eqn:E. injection H as <- <-. open E; try discriminate B. eexists. split; [reflexivity|]. cbn. eauto 10.
      + destruct (step (Fit m) s) as [s1 r1] eqn:E. cbn [snd] in B. cbn [Develop.step] in E, H. rewrite E in H. destruct r1; [|discriminate].
        assert (F : exists m0, mlp s1 = Some m0 /\ exists p a b, cur s = Some p /\ train s = Some a /\ test s = Some b /\ reg m p a b = Ok (m_coef m0) /\ params s = Some (m_obj m0)).
        { clear H B. unfold fit_, need_params, need_data in E. hsteps E; try discriminate E; try (injection E as ? ?; subst). eexists. split; [reflexivity|]. cbn. eauto 10. }
        destruct F as [m0 [F1 F2]]. unfold estimate in H. rewrite F1 in H. hsteps H; injection H as <- <-; try (exists m0; split; [exact F1|exact F2]); (eexists; split; [reflexivity|]; cbn; exact F2).
      + rewrite H in B. open H; cbn in B; try discriminate. eexists. split; [reflexivity|]. cbn. auto.
    - destruct o; cbn [makes_model] in B; unfold succeeds in B.
      8: { destruct (step (Fit m) s) as [s1 r1] eqn:E. injection H as <- <-. open E; try discriminate B; match goal with |- context [mlp ?x] => destruct (mlp x) end; eauto 10. }
      10: { destruct (step (Fit m) s) as [s1 r1] eqn:E. cbn [snd] in B. cbn [Develop.step] in E, H. rewrite E in H. destruct r1; [discriminate|]. injection H as <- <-. unfold fit_, need_params, need_data in E. hsteps E; try discriminate E; try (injection E as ? ?; subst); match goal with |- context [mlp ?x] => destruct (mlp x) end; eauto 10. }
      13: { rewrite H in B. open H; cbn in B; try discriminate; match goal with |- context [mlp ?x] => destruct (mlp x) end; eauto 10. }
      all: clear B; open H; cbn; try (match goal with E : mlp ?x = _ |- context [mlp ?x] => rewrite E end); try (destruct (mlp _) eqn:?); eauto 10; try congruence.
      all: eexists; split; [reflexivity|]; cbn; repeat split; congruence.
  Qed.
  Theorem C79_model h : let s := run h init in
    match mlp s with
    | None => forall b o after, h = b ++ o :: after -> makes_model o (run b init) = false
    | Some m => exists o s0 after, last_of makes_model h o s0 after /\
        match o with
        | Fit k | Run k => exists p a b, cur s0 = Some p /\ train s0 = Some a /\ test s0 = Some b /\ reg k p a b = Ok (m_coef m) /\ params s0 = Some (m_obj m)
        | LoadMlp (Some (Ok (f, c))) => m_coef m = c /\ m_obj m = length (heap s0)
        | _ => False
        end
    end.
  Proof.
    induction h as [|o h IH] using rev_ind; [cbn; intros b o after E; destruct b; discriminate|].
    cbn zeta in *. rewrite run_app. cbn [Develop.run]. destruct (step o (run h init)) as [s' r] eqn:E. cbn [fst]. pose proof (step_model _ _ _ _ E) as M.
    destruct (last_step makes_model h o) as [L1 L2]. destruct (makes_model o (run h init)) eqn:B.
    - destruct M as [m [M1 M2]]. rewrite M1. exists o, (run h init), []. split; [now apply L1|]. destruct o; auto. destruct r0 as [[[f c]|]|]; auto. tauto.
    - destruct (mlp (run h init)) as [m|].
      + destruct M as [m' [M1 [M2 [M3 _]]]]. rewrite M1. destruct IH as [o1 [s0 [after [I1 I2]]]]. exists o1, s0, (after ++ [o]). split; [now apply L2|]. now rewrite M2, M3.
      + rewrite M. intros b o1 after EB. destruct (exists_last (l := o1 :: after) ltac:(discriminate)) as [m [z EM]]. rewrite EM in EB. rewrite app_assoc in EB. apply app_inj_tail in EB. destruct EB as [EB <-].
        destruct m as [|y m]; [cbn in EM; assert (o1 = o) by congruence; subst o1; rewrite app_nil_r in EB; subst b; exact B|]. cbn in EM. injection EM as EY EM. subst y. now apply (IH b o1 m).
  Qed.

  (** *** Prediction errors *)
  Theorem C79_estimate s : wf s ->
    (mlp s = None -> step Estimate s = (s, Err RuntimeError)) /\
    (forall m p, mlp s = Some m -> obj s (m_obj m) = Some p -> length (subs p) = 1 \/ length (subs p) = m_parts m ->
      (train s = None -> step Estimate s = (s, Err TypeError)) /\
      (forall a b e1 e2, train s = Some a -> test s = Some b -> errors p (m_coef m) a = Ok e1 -> errors p (m_coef m) b = Ok e2 ->
        exists s', step Estimate s = (s', Ok Done) /\ snd (step SaveErrors s') = Ok (SavedErrors e1 e2) /\ heap s' = heap s /\ params s' = params s /\ train s' = train s /\ test s' = test s /\ log s' = log s)).
  Proof.
    intros W. cbn [Develop.step]. unfold estimate. split; [intros ->; reflexivity|]. intros m p M P L. rewrite M, P.
    assert (B : negb (length (subs p) =? 1) && negb (length (subs p) =? m_parts m) = false).
    { apply andb_false_iff. destruct L as [-> | ->]; [left; reflexivity|right; now rewrite Nat.eqb_refl]. }
    rewrite B. split; [intros ->; reflexivity|]. intros a b e1 e2 A T E1 E2. rewrite A, T. cbn [errs_opt]. rewrite E1, E2. eexists. split; [reflexivity|]. cbn. auto 10.
  Qed.
  Theorem C79_run k s s1 : step (Fit k) s = (s1, Ok Done) -> step (Run k) s = step Estimate s1.
  Proof. intros H. cbn [Develop.step] in *. now rewrite H. Qed.
  Theorem C79_run_fails k s s1 e : step (Fit k) s = (s1, Err e) -> step (Run k) s = (s, Err e) /\ s1 = s.
  Proof. intros H. cbn [Develop.step] in *. rewrite H. unfold fit_, need_params, need_data in H. hsteps H; injection H as ? ?; subst; auto; discriminate. Qed.
  (** A new model has none. *)
  Theorem C79_errors_gone o s s' x : match o with Fit _ | LoadMlp _ => True | _ => False end -> step o s = (s', Ok x) -> snd (step SaveErrors s') = Err AttributeError.
  Proof. intros T H. destruct o; try contradiction; open H; reflexivity. Qed.
  (** Without an estimate there are none. *)
  Theorem C79_no_errors h : (forall o, In o h -> match o with Estimate | Run _ => False | _ => True end) -> snd (step SaveErrors (run h init)) = Err AttributeError.
  Proof.
    intros H. assert (I : forall m, mlp (run h init) = Some m -> m_train m = None).
    { revert H. assert (G : forall s, (forall m, mlp s = Some m -> m_train m = None) -> (forall o, In o h -> match o with Estimate | Run _ => False | _ => True end) -> forall m, mlp (run h s) = Some m -> m_train m = None).
      { induction h as [|o h IH]; intros s HS HH; [exact HS|]. cbn [Develop.run]. apply IH; [|intros; apply HH; now right]. specialize (HH o (or_introl eq_refl)). destruct (step o s) as [s' r] eqn:E. cbn [fst]. intros m.
        destruct o; try contradiction; open E; cbn; intros HM; try (apply HS; congruence); try (injection HM as <-; reflexivity). }
      apply G. discriminate. }
    cbn. destruct (mlp (run h init)) as [m|]; [|reflexivity]. now rewrite (I m eq_refl).
  Qed.
  (** All other calls leave them, new data and parameters too. *)
  Theorem C79_errors_kept o s : match o with Fit _ | LoadMlp _ | Estimate | Run _ => False | _ => True end -> snd (step SaveErrors (fst (step o s))) = snd (step SaveErrors s).
  Proof. intros T. assert (M : mlp (fst (step o s)) = mlp s); [|cbn; now rewrite M]. destruct (step o s) as [s' r] eqn:H. cbn [fst]. destruct o; try contradiction; open H; cbn; congruence. Qed.

  (** *** Failing calls *)
  Theorem C79_failed o s s' e : step o s = (s', Err e) ->
    params s' = params s /\ train s' = train s /\ test s' = test s /\ log s' = log s /\ length (heap s') = length (heap s) /\
    match o with Estimate | Run _ => True | _ => mlp s' = mlp s end.
  Proof.
    intros H. split; [rewrite (step_params _ _ _ _ _ _ _ _ _ _ _ H); cbn; now rewrite andb_false_r|]. pose proof (step_data _ _ _ _ _ _ _ _ _ _ _ H) as D. cbn in D. rewrite andb_false_r in D. split; [apply D|]. split; [apply D|].
    split; [destruct o; open H; cbn; congruence|]. split; [destruct o; open H; cbn; rewrite ?set_nth_length; reflexivity|]. destruct o; open H; exact I || (cbn; congruence).
  Qed.

  (** *** Flags that are switched off *)
  Theorem C79_without_forces o s p : wf s -> cur s = Some p -> subs p <> [] ->
    match o with SetAuto false _ _ => True | SetStructures f1 _ f2 _ _ => f1 && f2 = false | _ => False end -> quiet_cur f_force (fst (step o s)).
  Proof.
    intros W C NE T. assert (P : exists i, params s = Some i /\ obj s i = Some p) by (unfold cur in C; destruct (params s) as [i|]; [now exists i|discriminate]). destruct P as [i [P O]].
    assert (L : i < length (heap s)) by now apply W.
    assert (QO : forall p', quiet f_force p' -> quiet_cur f_force (with_obj s i p')). { intros p' Q'. exists p'. split; [|exact Q']. unfold cur, with_obj, obj. cbn. rewrite P. now apply set_nth_same. }
    destruct o; try contradiction.
    - destruct forces; [contradiction|]. cbn [Develop.step]. unfold need_params, on_params. rewrite C, P, O. pose proof (proj1 (disable_force stresses p NE)) as Q. pose proof (disable_ok false stresses p) as K.
      destruct (disable false stresses p) as [p' r]. cbn in Q, K. subst r. apply get_quiet. now apply QO.
    - cbn [Develop.step]. unfold need_params, on_params. rewrite C, P, O.
      assert (Q : quiet f_force (fst (andthen (disable forces1 stresses1 p) (disable forces2 stresses2)))).
      { pose proof (disable_ok forces1 stresses1 p) as K1. destruct forces1; [|apply quiet_then; [apply disable_force; exact NE|intros; apply quiet_disable; [now left|assumption]]].
        cbn in T. subst forces2. destruct (disable true stresses1 p) as [p1 r] eqn:E. cbn in K1. subst r. cbn [andthen]. apply disable_force. unfold disable, andthen in E. destruct stresses1; [injection E as <-; exact NE|].
        unfold set_stress in E. rewrite andb_false_r in E. injection E as <-. cbn. destruct (subs p); [congruence|discriminate]. }
      destruct (andthen (disable forces1 stresses1 p) (disable forces2 stresses2)) as [p' [e|]]; cbn [fst] in *; [now apply QO|]. apply get_quiet. now apply QO.
  Qed.
  (** ... stay off until parameters are made anew: all data built later are built without forces, given or not. *)
  Theorem C79_sticky g h s : g = f_force \/ g = f_stress -> wf s -> quiet_cur g s -> (forall o, In o h -> makes_params o = false) -> quiet_cur g (run h s).
  Proof.
    intros G. revert s. induction h as [|o h IH]; intros s W Q H; cbn [Develop.run]; [exact Q|]. apply IH; [now apply wf_step| |intros; apply H; now right]. apply step_quiet; auto. apply H. now left.
  Qed.
  Theorem C79_forces_ignored h s o q s' x : wf s -> quiet_cur f_force s -> (forall o, In o h -> makes_params o = false) -> makes_params o = false -> request o = Some q -> step o (run h s) = (s', Ok x) ->
    exists p a b, build q p = Ok (a, b) /\ f_force (common_flags p) = false /\ train s' = Some a /\ test s' = Some b.
  Proof.
    intros W Q H M R E. pose proof (C79_sticky f_force h s (or_introl eq_refl) W Q H) as Q1. pose proof (step_quiet build reg curve errors n_feat size cumul f_force o (run h s) (or_introl eq_refl) (wf_run build reg curve errors n_feat size cumul h s W) M Q1) as Q2.
    rewrite E in Q2. destruct (step_built build reg curve errors n_feat size cumul o _ _ _ q E eq_refl R) as [p [a [b [H1 [H2 [H3 H4]]]]]]. cbn [fst] in Q2. destruct Q2 as [p' [C [Q2 _]]]. assert (p' = p) by congruence. subst p'. exists p, a, b. auto.
  Qed.

  (** *** The parameters of a model *)
  (** Those of a model are the object that was current when it was made. Once another is current, they stay as they are; *)
  Theorem C79_detached h s i : wf s -> i < length (heap s) -> params s <> Some i -> obj (run h s) i = obj s i /\ params (run h s) <> Some i.
  Proof.
    revert s. induction h as [|o h IH]; intros s W L N; cbn [Develop.run]; [auto|]. destruct (step o s) as [s' r] eqn:E. cbn [fst]. assert (W' : wf s') by (pose proof (wf_step build reg curve errors n_feat size cumul o s W) as X; rewrite E in X; exact X).
    assert (L' : i < length (heap s')) by (pose proof (step_length _ _ _ _ _ _ _ _ _ _ _ E); lia).
    assert (N' : params s' <> Some i) by (rewrite (step_params _ _ _ _ _ _ _ _ _ _ _ E); destruct (makes_params o && ok r); [intros [= X]; lia|exact N]).
    destruct (IH s' W' L' N') as [I1 I2]. split; [|exact I2]. rewrite I1. exact (step_other _ _ _ _ _ _ _ _ _ _ _ _ E L N).
  Qed.
  (** until then a saved potential has the parameters as they are now. *)
  Theorem C79_attached s m p : mlp s = Some m -> params s = Some (m_obj m) -> cur s = Some p -> snd (step SaveMlp s) = saved p (m_coef m) (m_cumul m).
  Proof. intros M P C. cbn. rewrite M. unfold cur in C. rewrite P in C. now rewrite C. Qed.
  (** A sub-model appended after a fit makes the fitted model unusable. *)
  Theorem C79_append_after_fit s m p f s' : mlp s = Some m -> params s = Some (m_obj m) -> cur s = Some p -> length (subs p) = 1 -> m_cumul m = None -> m_parts m <> 2 -> step (AppendParams (Ok f)) s = (s', Ok Done) ->
    snd (step SaveMlp s') = Err TypeError /\ step Estimate s' = (s', Err RuntimeError).
  Proof.
    intros M P C L U Z H. cbn [Develop.step] in H. unfold on_params in H. rewrite P in H. unfold cur in C. rewrite P in C. rewrite C in H.
    destruct (ParamFlags.step (Append f) p) as [p' [e|]] eqn:E; injection H as <-; try discriminate.
    assert (L2 : length (subs p') = 2).
    { cbn [ParamFlags.step] in E. unfold initialize in E. destruct (make_common (subs p ++ [f])) as [f0|]; [|discriminate]. destruct (check_errors f0 (subs p ++ [f])); [|discriminate].
      assert (SL : forall els l l' r, sort_subs els l = (l', r) -> length l' = length l). { clear. intros els l. induction l as [|x l IH]; intros l' r H; cbn [sort_subs] in H; [injection H as <- <-; reflexivity|]. destruct (sorted_elements els (f_elements x)); [|injection H as <- <-; reflexivity]. destruct (sort_subs els l) eqn:E. injection H as <- <-. cbn. f_equal. eapply IH. reflexivity. }
      assert (TL : forall st, length (subs (fst (set_tags st))) = length (subs st)). { clear. intros st. unfold set_tags, set_spins, set_stress, set_force, andthen. destruct (f_type (common_flags st)) eqn:?; cbn; rewrite ?andb_false_r; cbn; rewrite ?Heqd; cbn; rewrite ?map_length; reflexivity. }
      specialize (TL (mk_state f0 (subs p ++ [f]))). destruct (set_tags (mk_state f0 (subs p ++ [f]))) as [st [e|]]; [discriminate|]. cbn [andthen fst subs] in *. rewrite app_length, L in TL. cbn in TL.
      unfold unique_types in E. destruct (length (subs st) <=? 1); [injection E as <-; lia|]. destruct (sort_subs (f_elements (common_flags st)) (subs st)) as [l r] eqn:S. injection E as <- E2. cbn. rewrite (SL _ _ _ _ S). lia. }
    assert (O : nth_error (set_nth (heap s) (m_obj m) p') (m_obj m) = Some p') by (apply set_nth_same; apply nth_error_Some; unfold obj in C; congruence).
    split.
    - cbn. rewrite M. unfold obj. cbn. rewrite O. unfold saved. now rewrite L2, U.
    - cbn [Develop.step]. unfold estimate. cbn [mlp with_obj]. rewrite M. unfold obj. cbn [heap with_obj]. rewrite O, L2. assert (X : (2 =? m_parts m) = false) by (apply Nat.eqb_neq; congruence). now rewrite X.
  Qed.
  (** The number of features is that of the model, whatever the parameters are. *)
  Theorem C79_n_features s : snd (step NFeatures s) = match mlp s, cur s with Some m, _ => Ok (Number (size (m_coef m))) | None, Some p => Ok (Number (n_feat p)) | None, None => Err TypeError end.
  Proof. cbn. destruct (mlp s); [reflexivity|]. destruct (cur s); reflexivity. Qed.
  Theorem C79_n_features_stale s l s' m : mlp s = Some m -> step (SetParams (Ok l)) s = (s', Ok Done) -> snd (step NFeatures s') = Ok (Number (size (m_coef m))).
  Proof. intros M H. open H. injection H as <-. cbn. now rewrite M. Qed.
  (** *** Learning curves and what can be saved *)
  Theorem C79_curve s p a b : cur s = Some p -> train s = Some a -> test s = Some b ->
    (forall l, curve p a b = Ok l -> exists s', step Curve s = (s', Ok Done) /\ snd (step SaveCurve s') = Ok (SavedCurve l) /\ heap s' = heap s /\ params s' = params s /\ train s' = train s /\ test s' = test s /\ mlp s' = mlp s) /\
    (forall e, curve p a b = Err e -> step Curve s = (s, Err e)).
  Proof. intros C A B. cbn [Develop.step]. unfold need_params, need_data. rewrite C, A, B. split; [|intros e ->; reflexivity]. intros l ->. eexists. split; [reflexivity|]. repeat split; cbn; assumption. Qed.
  Theorem C79_curve_kept o s : o <> Curve -> snd (step SaveCurve (fst (step o s))) = snd (step SaveCurve s).
  Proof. intros T. assert (M : log (fst (step o s)) = log s); [|cbn; now rewrite M]. destruct (step o s) as [s' r] eqn:H. cbn [fst]. destruct o; try congruence; open H; cbn; congruence. Qed.
  Theorem C79_no_curve h : ~ In Curve h -> snd (step SaveCurve (run h init)) = Err TypeError.
  Proof.
    intros H. assert (G : forall s, ~ In Curve h -> snd (step SaveCurve (run h s)) = snd (step SaveCurve s)).
    { clear H. induction h as [|o h IH]; intros s H; [reflexivity|]. cbn [Develop.run]. rewrite IH by (intros C; apply H; now right). apply C79_curve_kept. intros ->. apply H. now left. }
    rewrite G by exact H. reflexivity.
  Qed.
  (** A potential of several sub-models needs as many numbers of features; *)
  Theorem C79_saved s m p : mlp s = Some m -> obj s (m_obj m) = Some p -> snd (step SaveMlp s) =
    (if length (subs p) <? 2 then Ok (SavedMlp p (m_coef m)) else match m_cumul m with None => Err TypeError | Some k => if k <? length (subs p) then Err IndexError else Ok (SavedMlp p (m_coef m)) end).
  Proof.
    intros M P. cbn [Develop.step snd]. rewrite M, P. unfold saved. destruct (Nat.leb_spec (length (subs p)) 1), (Nat.ltb_spec (length (subs p)) 2); try lia; [reflexivity|]. destruct (m_cumul m) as [k|]; [|reflexivity]. destruct (Nat.leb_spec (length (subs p)) k), (Nat.ltb_spec k (length (subs p))); try lia; reflexivity.
  Qed.
  (** and a list of files is not read. *)
  Theorem C79_load_list s : step (LoadMlp None) s = (s, Err RuntimeError).
  Proof. reflexivity. Qed.
  (** Displacements keep the flag of forces and clear that of stresses. *)
  Theorem C79_disps s p q u s' : wf s -> cur s = Some p -> step (SetDisps (Ok u) q) s = (s', Ok Done) ->
    exists p', cur s' = Some p' /\ f_force (common_flags p') = f_force (common_flags p) /\ map f_force (subs p') = map f_force (subs p) /\ f_stress (common_flags p') = false /\ Forall (fun f => f_stress f = false) (subs p').
  Proof.
    intros W C H. assert (P : exists i, params s = Some i /\ obj s i = Some p) by (unfold cur in C; destruct (params s) as [i|]; [now exists i|discriminate]). destruct P as [i [P O]].
    assert (L : i < length (heap s)) by now apply W. set (p1 := everywhere (with_stress false) p). set (p2 := everywhere (with_stress false) (everywhere (with_stress false) p1)).
    assert (E : step (SetDisps (Ok u) q) s = get_data build (with_obj (with_obj s i p1) i p2) q).
    { cbn [Develop.step]. unfold need_params, on_params. rewrite C, P, O. unfold set_stress at 1. rewrite andb_false_r. cbn [params with_obj]. rewrite P. unfold obj at 1. cbn [heap with_obj]. rewrite set_nth_same by exact L. unfold disable, andthen, set_stress. rewrite !andb_false_r. reflexivity. }
    rewrite E in H. unfold get_data in H. destruct (cur (with_obj (with_obj s i p1) i p2)) as [x|] eqn:EC; [|discriminate]. destruct (build q x) as [d|]; [|discriminate]. injection H as <-.
    assert (X : x = p2). { unfold cur, with_obj, obj in EC. cbn in EC. rewrite P in EC. rewrite set_nth_same in EC by (rewrite set_nth_length; exact L). congruence. }
    exists p2. split; [unfold cur, with_data, with_obj, obj in *; cbn in *; congruence|]. unfold p2, p1, everywhere. cbn. rewrite !map_map. split; [reflexivity|]. split; [reflexivity|]. split; [reflexivity|]. apply Forall_forall. intros f Hf. apply in_map_iff in Hf. destruct Hf as [y [<- _]]. reflexivity.
  Qed.
End C79.
Print Assumptions C79_curve.
Print Assumptions C79_curve_kept.
Print Assumptions C79_no_curve.
Print Assumptions C79_saved.
Print Assumptions C79_load_list.
Print Assumptions C79_disps.
Print Assumptions C79_params.
Print Assumptions C79_data.
Print Assumptions C79_fit.
Print Assumptions C79_both_or_none.
Print Assumptions C79_model.
Print Assumptions C79_estimate.
Print Assumptions C79_run.
Print Assumptions C79_run_fails.
Print Assumptions C79_errors_gone.
Print Assumptions C79_no_errors.
Print Assumptions C79_errors_kept.
Print Assumptions C79_failed.
Print Assumptions C79_without_forces.
Print Assumptions C79_sticky.
Print Assumptions C79_forces_ignored.
Print Assumptions C79_detached.
Print Assumptions C79_attached.
Print Assumptions C79_append_after_fit.
Print Assumptions C79_n_features.
Print Assumptions C79_n_features_stale.

(** *** What does not hold, and examples *)
Module Ex.
  Import String.StringSyntax.
  Local Open Scope string_scope.
  Local Open Scope nat_scope.
  (** Data are numbers, reading gives what was asked for, coefficients count the regressions' data; errors of data 99 fail. *)
  Definition build (q : res (nat * nat)) (p : state) : res (nat * nat) := q.
  Definition reg (m : nat) (p : state) (a b : nat) : res nat := if a =? 77 then Err ValueError else Ok (10 * a + b + m).
  Definition curve (p : state) (a b : nat) : res nat := Ok (a + b).
  Definition errors (p : state) (c d : nat) : res nat := if d =? 99 then Err ValueError else Ok (c + d).
  Definition n_feat (p : state) : nat := 5 * length (subs p).
  Definition call := call nat nat (res (nat * nat)) nat.
  Definition api := api nat nat nat nat.
  Definition step : call -> api -> api * res (out nat nat nat) := step build reg curve errors n_feat (fun c => c) (fun _ => None).
  Definition run : list call -> api -> api := run build reg curve errors n_feat (fun c => c) (fun _ => None).
  Definition mg : flags := mk_flags ["Mg"] 1 (SpTuple [true]) Vasp true true.
  Definition plain : flags := mk_flags ["Mg"] 1 SpNone Vasp true true.
  Definition the_cur (s : api) : option state := cur s.
  Definition outcome (h : list call) (o : call) := snd (step o (run h init)).
End Ex.
(** "A saved potential has the parameters it was fitted with": spins are lost when phono3py data are looked for, even in vain. *)
Theorem C79_parameters_kept_refuted : exists (h : list Ex.call) (o : Ex.call) p c p' c',
  Ex.outcome h SaveMlp = Ok (SavedMlp p c) /\ snd (Ex.step o (Ex.run h init)) = Err ValueError /\ Ex.outcome (h ++ [o]) SaveMlp = Ok (SavedMlp p' c') /\
  c' = c /\ f_spins (common_flags p) = SpTuple [true] /\ f_spins (common_flags p') = SpNone.
Proof.
  exists [SetParams (Ok [Ex.mg]); SetFiles Vasp (Ok (1, 2)); Fit 0], (SetFiles Phono3py (Err ValueError)). do 4 eexists.
  split; [vm_compute; reflexivity|]. split; [vm_compute; reflexivity|]. split; [vm_compute; reflexivity|]. repeat split; vm_compute; reflexivity.
Qed.
(** "A failing call changes nothing": the type of the data stays changed; a failing run leaves its new model. *)
Theorem C79_atomic_refuted : exists (h : list Ex.call) p p',
  snd (Ex.step (SetFiles Electron (Err ValueError)) (Ex.run h init)) = Err ValueError /\
  Ex.the_cur (Ex.run h init) = Some p /\ Ex.the_cur (fst (Ex.step (SetFiles Electron (Err ValueError)) (Ex.run h init))) = Some p' /\
  f_force (common_flags p) = true /\ f_force (common_flags p') = false.
Proof.
  exists [SetParams (Ok [Ex.plain])]. do 2 eexists. split; [vm_compute; reflexivity|]. split; [vm_compute; reflexivity|]. split; [vm_compute; reflexivity|]. split; vm_compute; reflexivity.
Qed.
Theorem C79_failed_run_refuted : exists (h : list Ex.call) m,
  snd (Ex.step (Run 0) (Ex.run h init)) = Err ValueError /\ mlp (Ex.run h init) = None /\ mlp (fst (Ex.step (Run 0) (Ex.run h init))) = Some m.
Proof. exists [SetParams (Ok [Ex.plain]); SetFiles Vasp (Ok (1, 99))]. eexists. split; [vm_compute; reflexivity|]. split; vm_compute; reflexivity. Qed.
(** "Saved errors are those of one estimate": after a failure, training errors are of the new data and test errors of the old. *)
Theorem C79_one_estimate_refuted : exists h : list Ex.call,
  Ex.outcome h Estimate = Err ValueError /\ Ex.outcome (h ++ [Estimate]) SaveErrors = Ok (SavedErrors (12 + 3) (12 + 2)) /\
  Ex.run h init = Ex.run ([SetParams (Ok [Ex.plain]); SetFiles Vasp (Ok (1, 2)); Run 0] ++ [SetFiles Vasp (Ok (3, 99))]) init.
Proof. exists [SetParams (Ok [Ex.plain]); SetFiles Vasp (Ok (1, 2)); Run 0; SetFiles Vasp (Ok (3, 99))]. split; [vm_compute; reflexivity|]. split; vm_compute; reflexivity. Qed.
(** "Forces that are given are used": they were not given once before. *)
Theorem C79_forces_used_refuted : exists (h : list Ex.call) p, Ex.outcome h (SetAuto true true (Ok (1, 2))) = Ok Done /\
  Ex.the_cur (Ex.run (h ++ [SetAuto true true (Ok (1, 2))]) init) = Some p /\ f_force (common_flags p) = false /\
  Ex.run h init = Ex.run [SetParams (Ok [Ex.plain]); SetAuto false true (Ok (3, 4))] init.
Proof. exists [SetParams (Ok [Ex.plain]); SetAuto false true (Ok (3, 4))]. eexists. split; [vm_compute; reflexivity|]. split; [vm_compute; reflexivity|]. split; vm_compute; reflexivity. Qed.
(** "Errors that were not estimated are a RuntimeError" as it says. *)
Theorem C79_save_errors_refuted : exists h : list Ex.call, Ex.outcome h SaveMlp <> Err RuntimeError /\ Ex.outcome h SaveErrors = Err AttributeError.
Proof. exists [SetParams (Ok [Ex.plain]); SetFiles Vasp (Ok (1, 2)); Fit 0]. split; [vm_compute; discriminate|vm_compute; reflexivity]. Qed.
Print Assumptions C79_parameters_kept_refuted.
Print Assumptions C79_atomic_refuted.
Print Assumptions C79_failed_run_refuted.
Print Assumptions C79_one_estimate_refuted.
Print Assumptions C79_forces_used_refuted.
Print Assumptions C79_save_errors_refuted.
Example C79_example : Ex.outcome [SetParams (Ok [Ex.plain]); SetFiles Vasp (Ok (1, 2)); Run 0; SetParams (Ok [Ex.mg])] SaveErrors = Ok (SavedErrors 13 14) /\
  Ex.outcome [SetParams (Ok [Ex.plain]); SetFiles Vasp (Ok (1, 2)); Run 0; SetParams (Ok [Ex.mg])] SaveMlp = Ok (SavedMlp (mk_state Ex.plain [Ex.plain]) 12) /\
  Ex.outcome [SetParams (Ok [Ex.plain]); SetFiles Vasp (Ok (1, 2)); Run 0; AppendParams (Ok Ex.plain)] SaveMlp = Err TypeError /\
  Ex.outcome [SetFiles Vasp (Ok (1, 2))] (Fit 0) = Err RuntimeError /\
  Ex.outcome [LoadMlp (Some (Ok (Ex.plain, 4)))] Estimate = Err TypeError.
Proof. repeat split; vm_compute; reflexivity. Qed.
