(** Steps of the developing object: what they may change. *)
From Verif Require Import Base Model.Structure Model.Properties Model.HybridTypes Model.ParamFlags Model.Develop Props.C27.

Lemma set_nth_length {A} (l : list A) i a : length (set_nth l i a) = length l.
Proof. revert i. induction l as [|x l IH]; intros [|i]; cbn; auto. Qed.
Lemma set_nth_same {A} (l : list A) i a : i < length l -> nth_error (set_nth l i a) i = Some a.
Proof. revert i. induction l as [|x l IH]; intros [|i] H; cbn in *; try lia; [reflexivity|]. apply IH. lia. Qed.
Lemma set_nth_other {A} (l : list A) i j a : i <> j -> nth_error (set_nth l i a) j = nth_error l j.
Proof. revert i j. induction l as [|x l IH]; intros [|i] [|j] H; cbn; try reflexivity; try congruence. apply IH. congruence. Qed.

(** ** Flags that are off stay off *)
Definition flag_ok (g : flags -> bool) : Prop := g = f_force \/ g = f_stress.
Definition quiet (g : flags -> bool) (p : state) : Prop := g (common_flags p) = false /\ exists f t, subs p = f :: t /\ g f = false.
Lemma quiet_everywhere g w p : flag_ok g -> (forall f, g f = false -> g (w f) = false) -> quiet g p -> quiet g (everywhere w p).
Proof. intros _ H [Q1 [f [t [Q2 Q3]]]]. split; [now apply H|]. exists (w f), (map w t). cbn. rewrite Q2. split; [reflexivity|]. now apply H. Qed.
Lemma quiet_spins g v p : flag_ok g -> quiet g p -> quiet g (fst (set_spins v p)).
Proof. intros G Q. unfold set_spins. destruct (_ && _); [exact Q|]. apply quiet_everywhere; [exact G| |exact Q]. intros f H. destruct G as [-> | ->]; exact H. Qed.
Lemma quiet_force g p : flag_ok g -> quiet g p -> quiet g (fst (set_force false p)).
Proof. intros G Q. unfold set_force. rewrite andb_false_r. apply quiet_everywhere; [exact G| |exact Q]. intros f H. destruct G as [-> | ->]; [reflexivity|exact H]. Qed.
Lemma quiet_stress g p : flag_ok g -> quiet g p -> quiet g (fst (set_stress false p)).
Proof. intros G Q. unfold set_stress. rewrite andb_false_r. apply quiet_everywhere; [exact G| |exact Q]. intros f H. destruct G as [-> | ->]; [exact H|reflexivity]. Qed.
Lemma quiet_then g r k : quiet g (fst r) -> (forall p, quiet g p -> quiet g (fst (k p))) -> quiet g (fst (andthen r k)).
Proof. intros Q K. destruct r as [p [e|]]; cbn [andthen]; [exact Q|now apply K]. Qed.
Lemma quiet_tags g p : flag_ok g -> quiet g p -> quiet g (fst (set_tags p)).
Proof.
  intros G Q. unfold set_tags. destruct (f_type (common_flags p)); try exact Q; repeat (apply quiet_then; [|intros ? ?]); auto using quiet_spins, quiet_force, quiet_stress.
Qed.
Lemma quiet_type g t p : flag_ok g -> quiet g p -> quiet g (fst (set_type t p)).
Proof. intros G Q. unfold set_type. apply quiet_tags; [exact G|]. apply quiet_everywhere; [exact G| |exact Q]. intros f H. destruct G as [-> | ->]; exact H. Qed.
Lemma quiet_disable g a b p : flag_ok g -> quiet g p -> quiet g (fst (disable a b p)).
Proof.
  intros G Q. unfold disable. apply quiet_then.
  - destruct a; [exact Q|]. apply quiet_then; [now apply quiet_force|]. intros. now apply quiet_stress.
  - intros p' Q'. destruct b; [exact Q'|]. now apply quiet_stress.
Qed.
Lemma sort_head g els f t : flag_ok g -> g f = false -> exists f' t', fst (sort_subs els (f :: t)) = f' :: t' /\ g f' = false.
Proof.
  intros G H. cbn [sort_subs]. destruct (sorted_elements els (f_elements f)); [|exists f, t; now split]. destruct (sort_subs els t) as [t' r]. exists (with_elements a f), t'. split; [reflexivity|]. destruct G as [-> | ->]; exact H.
Qed.
Lemma quiet_unique g p : flag_ok g -> quiet g p -> quiet g (fst (unique_types p)).
Proof.
  intros G [Q1 [f [t [Q2 Q3]]]]. unfold unique_types. destruct (length (subs p) <=? 1); [split; eauto|]. rewrite Q2. destruct (sort_head g (f_elements (common_flags p)) f t G Q3) as [f' [t' [E H]]].
  destruct (sort_subs (f_elements (common_flags p)) (f :: t)) as [l r]. cbn in E. subst l. split; [exact Q1|]. exists f', t'. now split.
Qed.
Lemma quiet_initialize g old f t : flag_ok g -> g old = false -> g f = false -> quiet g (fst (initialize old (f :: t))).
Proof.
  intros G H1 H2. unfold initialize. destruct (make_common (f :: t)) as [c|] eqn:E; [|split; [exact H1|now exists f, t]].
  destruct (common_head _ _ E) as [f' [t' [EQ [S1 [S2 S3]]]]]. assert (f' = f) by congruence. subst f'. assert (C : g c = false) by (destruct G as [-> | ->]; congruence).
  assert (Q : quiet g (mk_state c (f :: t))) by (split; [exact C|now exists f, t]).
  destruct (check_errors c (f :: t)); [|exact Q]. apply quiet_then; [now apply quiet_tags|]. intros. now apply quiet_unique.
Qed.
Lemma quiet_append g f p : flag_ok g -> quiet g p -> quiet g (fst (ParamFlags.step (Append f) p)).
Proof. intros G [Q1 [f0 [t [Q2 Q3]]]]. cbn [ParamFlags.step]. rewrite Q2. cbn [app]. now apply quiet_initialize. Qed.
(** After [disable] *)
Lemma disable_ok a b p : snd (disable a b p) = None.
Proof. unfold disable, set_force, set_stress, andthen. rewrite andb_false_r. destruct a; [destruct b; [reflexivity|now rewrite andb_false_r]|]. cbn. rewrite andb_false_r. destruct b; [reflexivity|]. now rewrite andb_false_r. Qed.
Lemma quiet_off g w p : subs p <> [] -> (forall f, g (w f) = false) -> quiet g (everywhere w p).
Proof. intros NE H. split; [apply H|]. cbn. destruct (subs p) as [|f t]; [congruence|]. exists (w f), (map w t). split; [reflexivity|apply H]. Qed.
Lemma disable_force b p : subs p <> [] -> quiet f_force (fst (disable false b p)) /\ quiet f_stress (fst (disable false b p)).
Proof.
  intros NE. unfold disable, set_force, andthen. rewrite andb_false_r.
  set (p1 := everywhere (with_force false) p). assert (Q1 : quiet f_force p1) by (apply quiet_off; [exact NE|reflexivity]). assert (N1 : subs p1 <> []) by (unfold p1; cbn; destruct (subs p); [congruence|discriminate]).
  unfold set_stress. rewrite andb_false_r. set (p2 := everywhere (with_stress false) p1).
  assert (Q2 : quiet f_force p2 /\ quiet f_stress p2). { split; [apply quiet_everywhere; [now left| |exact Q1]; intros f H; exact H|apply quiet_off; [exact N1|reflexivity]]. }
  destruct b; [exact Q2|]. rewrite andb_false_r. cbn [fst]. destruct Q2 as [Q2 Q3]. split; (apply quiet_everywhere; [unfold flag_ok; tauto| |assumption]); intros f H; [exact H|reflexivity].
Qed.

Section Develop.
  Context {Data Coef Errors Log Request Method : Type}.
  Variable build : Request -> state -> res (Data * Data).
  Variable reg : Method -> state -> Data -> Data -> res Coef.
  Variable curve : state -> Data -> Data -> res Log.
  Variable errors : state -> Coef -> Data -> res Errors.
  Variable n_feat : state -> nat.
  Variable size : Coef -> nat.
  Variable cumul : Coef -> option nat.
  Notation api := (api Data Coef Errors Log).
  Notation call := (call Data Coef Request Method).
  Notation step := (step (Errors:=Errors) (Log:=Log) build reg curve errors n_feat size cumul).
  Notation run := (run (Errors:=Errors) (Log:=Log) build reg curve errors n_feat size cumul).
  Notation estimate := (estimate (Log:=Log) errors).
  Notation fit_ := (fit_ (Errors:=Errors) (Log:=Log) reg size cumul).
  Implicit Types (s : api) (o : call) (h : list call).

  Lemma run_app h1 h2 s : run (h1 ++ h2) s = run h2 (run h1 s).
  Proof. revert s. induction h1 as [|o h1 IH]; intros s; cbn; [reflexivity|]. apply IH. Qed.

  (** What refers to what *)
  Definition wf s : Prop :=
    (train s = None <-> test s = None) /\ (train s <> None -> params s <> None) /\ (mlp s <> None -> params s <> None) /\
    (forall i, params s = Some i -> i < length (heap s)) /\ (forall m, mlp s = Some m -> m_obj m < length (heap s)).
  Ltac split_all := repeat match goal with
    | |- context [match ?x with _ => _ end] => destruct x eqn:?; cbn [fst snd heap params train test mlp log m_obj m_train m_test with_obj new_obj with_data with_model with_log]
    end.
  Ltac open_step := cbn [Develop.step]; unfold need_params, on_params, get_data, need_data, Develop.fit_, Develop.estimate, with_obj, new_obj, with_data, with_model, with_log, Develop.cur, Develop.obj.

  Lemma wf_obj s p i : wf s -> params s = Some i -> wf (with_obj s i p).
  Proof. intros [W1 [W2 [W3 [W4 W5]]]] H. unfold wf, with_obj. cbn. rewrite set_nth_length. auto. Qed.
  Lemma wf_new s p : wf s -> wf (new_obj s p).
  Proof.
    intros [W1 [W2 [W3 [W4 W5]]]]. unfold wf, new_obj. cbn. rewrite app_length. cbn. split; [exact W1|]. split; [discriminate|]. split; [discriminate|]. split; [intros i [= <-]; lia|]. intros m H. specialize (W5 m H). lia.
  Qed.
  Lemma wf_data s d : wf s -> params s <> None -> wf (with_data s d).
  Proof. intros [W1 [W2 [W3 [W4 W5]]]] H. unfold wf, with_data. cbn. split; [split; discriminate|]. auto. Qed.
  Lemma wf_model s m : wf s -> params s <> None -> m_obj m < length (heap s) -> wf (with_model s m).
  Proof. intros [W1 [W2 [W3 [W4 W5]]]] H L. unfold wf, with_model. cbn. split; [exact W1|]. split; [auto|]. split; [auto|]. split; [exact W4|]. intros m' [= <-]. exact L. Qed.
  Lemma wf_get s q : wf s -> wf (fst (get_data build s q)).
  Proof.
    intros W. unfold get_data. destruct (cur s) eqn:E; [|exact W]. destruct (build q s0); [|exact W]. apply wf_data; [exact W|]. unfold Develop.cur in E. destruct (params s); congruence.
  Qed.
  Lemma wf_on s f k : wf s -> (forall s', wf s' -> wf (fst (k s'))) -> wf (fst (on_params (Data:=Data) (Coef:=Coef) (Errors:=Errors) (Log:=Log) s f k)).
  Proof.
    intros W K. unfold on_params. destruct (params s) as [i|] eqn:E; [|exact W]. destruct (obj s i); [|exact W]. destruct (f s0) as [p' [e|]]; cbn [fst]; [now apply wf_obj|apply K; now apply wf_obj].
  Qed.
  Lemma wf_need s k : wf s -> (forall p, wf (fst (k p))) -> wf (fst (need_params (Data:=Data) (Coef:=Coef) (Errors:=Errors) (Log:=Log) s k)).
  Proof. intros W K. unfold need_params. destruct (cur s); [apply K|exact W]. Qed.

  Lemma wf_estimate s : wf s -> wf (fst (estimate s)).
  Proof.
    intros W. unfold Develop.estimate. destruct (mlp s) as [m|] eqn:E; [|exact W]. destruct (obj s (m_obj m)) as [p|]; [|exact W].
    destruct (negb (length (subs p) =? 1) && negb (length (subs p) =? m_parts m)); [exact W|]. assert (L := proj2 (proj2 (proj2 (proj2 W))) m E). assert (P := proj1 (proj2 (proj2 W)) ltac:(congruence)).
    destruct (errs_opt errors p (m_coef m) (train s)); [|exact W]. destruct (errs_opt errors p (m_coef m) (test s)); apply wf_model; auto.
  Qed.
  Lemma wf_fit m s : wf s -> wf (fst (fit_ m s)).
  Proof.
    intros W. unfold Develop.fit_. apply wf_need; [exact W|]. intros p. unfold need_data. destruct (train s) as [a|]; [|exact W]. destruct (test s) as [b|]; [|exact W].
    destruct (reg m p a b); [|exact W]. destruct (params s) as [i|] eqn:E; [|exact W]. apply wf_model; [exact W|congruence|]. cbn. now apply W.
  Qed.
  Lemma wf_step o s : wf s -> wf (fst (step o s)).
  Proof.
    intros W. destruct o; cbn [Develop.step]; try exact W.
    - destruct r as [[[p a] b]|]; [|exact W]. apply wf_data; [now apply wf_new|discriminate].
    - destruct r as [l|]; [|exact W]. destruct (construct l); [now apply wf_new|exact W].
    - destruct r as [f|]; [|exact W]. apply wf_on; auto.
    - apply wf_need; [exact W|]. intros _. apply wf_on; [exact W|]. intros. now apply wf_get.
    - apply wf_need; [exact W|]. intros _. apply wf_on; [exact W|]. intros. now apply wf_get.
    - apply wf_need; [exact W|]. intros _. apply wf_on; [exact W|]. intros. now apply wf_get.
    - apply wf_need; [exact W|]. intros _. apply wf_on; [exact W|]. intros s' W'. destruct shapes; [|exact W']. apply wf_on; [exact W'|]. intros. now apply wf_get.
    - now apply wf_fit.
    - now apply wf_estimate.
    - pose proof (wf_fit m s W) as H. destruct (fit_ m s) as [s' [x|]]; [now apply wf_estimate|exact H].
    - apply wf_need; [exact W|]. intros p. unfold need_data. destruct (train s) eqn:A; [|exact W]. destruct (test s) eqn:B; [|exact W]. destruct (curve p d d0); [|exact W].
      destruct W as [W1 [W2 [W3 [W4 W5]]]]. unfold wf, with_log. cbn. auto.
    - destruct r as [[[f c]|]|]; try exact W. destruct (construct [f]); [|exact W]. apply wf_model; [now apply wf_new|discriminate|]. cbn. rewrite app_length. cbn. lia.
    - apply wf_need; [exact W|]. intros. exact W.
  Qed.
  Lemma wf_init : wf init.
  Proof. unfold wf, init. cbn. split; [tauto|]. split; [congruence|]. split; [congruence|]. split; discriminate. Qed.
  Lemma wf_run h s : wf s -> wf (run h s).
  Proof. revert s. induction h as [|o h IH]; intros s W; cbn; [exact W|]. apply IH. now apply wf_step. Qed.
  Lemma wf_cur s : wf s -> (cur s = None <-> params s = None).
  Proof.
    intros W. unfold Develop.cur. destruct (params s) as [i|] eqn:E; [|tauto]. split; [|discriminate]. intros H. apply nth_error_None in H. assert (i < length (heap s)) by now apply W. lia.
  Qed.

  (** ** Effects of one call *)
  Definition makes_params o : bool := match o with LoadFile _ | SetParams _ | LoadMlp _ => true | _ => false end.
  Definition makes_data o : bool := match o with LoadFile _ | SetFiles _ _ | SetAuto _ _ _ | SetStructures _ _ _ _ _ | SetDisps _ _ => true | _ => false end.
  Definition ok {A} (r : res A) : bool := match r with Ok _ => true | Err _ => false end.
  Ltac hsteps H := repeat match type of H with
    | context [match ?x with _ => _ end] => lazymatch x with context [match _ with _ => _ end] => fail | _ => destruct x eqn:? end
    end.
  Ltac open H := cbn [Develop.step] in H; unfold Develop.fit_, Develop.estimate in H; unfold need_params, on_params, get_data, need_data in H; hsteps H; try discriminate H; try (injection H as ? ?; subst).
  Lemma step_params o s s' r : step o s = (s', r) -> params s' = if makes_params o && ok r then Some (length (heap s)) else params s.
  Proof. intros H. destruct o; open H; cbn; congruence. Qed.
  Lemma step_data o s s' r : step o s = (s', r) -> if makes_data o && ok r then train s' <> None /\ test s' <> None else train s' = train s /\ test s' = test s.
  Proof. intros H. destruct o; open H; cbn; split; congruence. Qed.
  Lemma step_length o s s' r : step o s = (s', r) -> length (heap s) <= length (heap s').
  Proof. intros H. destruct o; open H; cbn; rewrite ?app_length, ?set_nth_length; cbn; lia. Qed.
  Lemma step_other o s s' r j : step o s = (s', r) -> j < length (heap s) -> params s <> Some j -> obj s' j = obj s j.
  Proof.
    intros H L N. destruct o; open H; cbn in *; unfold Develop.obj in *; cbn in *; try reflexivity; repeat rewrite set_nth_other by congruence; try reflexivity; try (now apply nth_error_app1).
  Qed.
  (** The data of a successful call *)
  Definition request o : option Request := match o with SetFiles _ q | SetAuto _ _ q | SetStructures _ _ _ _ q | SetDisps _ q => Some q | _ => None end.
  Lemma get_data_built s q s' r : get_data build s q = (s', r) -> ok r = true ->
    exists p a b, cur s' = Some p /\ build q p = Ok (a, b) /\ train s' = Some a /\ test s' = Some b.
  Proof.
    unfold get_data. destruct (cur s) as [p|] eqn:E; [|intros [= <- <-]; discriminate]. destruct (build q p) as [[a b]|] eqn:B; [|intros [= <- <-]; discriminate]. intros [= <- <-] _.
    exists p, a, b. split; [exact E|]. split; [exact B|]. split; reflexivity.
  Qed.
  Lemma on_get s f k q s' r : on_params s f k = (s', r) -> (forall s1 s2 r2, k s1 = (s2, r2) -> ok r2 = true -> exists s0, get_data build s0 q = (s2, r2)) -> ok r = true -> exists s0, get_data build s0 q = (s', r).
  Proof.
    unfold on_params. intros H K O. destruct (params s); [|injection H as <- <-; discriminate]. destruct (obj s n); [|injection H as <- <-; discriminate]. destruct (f s0) as [p' [e|]]; [injection H as <- <-; discriminate|].
    now apply (K _ _ _ H).
  Qed.
  Lemma step_built o s s' r q : step o s = (s', r) -> ok r = true -> request o = Some q ->
    exists p a b, cur s' = Some p /\ build q p = Ok (a, b) /\ train s' = Some a /\ test s' = Some b.
  Proof.
    intros H O R. assert (E : exists s0, get_data build s0 q = (s', r)).
    { destruct o; cbn in R; try discriminate; injection R as ->; cbn [Develop.step] in H; unfold need_params in H; (destruct (cur s); [|injection H as <- <-; discriminate]).
      1-3: eapply on_get; [exact H| |exact O]; intros s1 s2 r2 K _; now exists s1.
      eapply on_get; [exact H| |exact O]. intros s1 s2 r2 K O2. cbv beta in K. destruct shapes; [|injection K as <- <-; discriminate]. eapply on_get; [exact K| |exact O2]. intros s3 s4 r4 K4 _. now exists s3. }
    destruct E as [s0 E]. eapply get_data_built; eauto.
  Qed.
  (** Flags of the current parameters *)
  Definition quiet_cur (g : flags -> bool) s : Prop := exists p, cur s = Some p /\ quiet g p.
  Lemma on_quiet g s f k : wf s -> quiet_cur g s -> (forall p, quiet g p -> quiet g (fst (f p))) -> (forall s', wf s' -> quiet_cur g s' -> quiet_cur g (fst (k s'))) -> quiet_cur g (fst (on_params s f k)).
  Proof.
    intros W [p [C Q]] F K. unfold on_params. unfold Develop.cur in C. destruct (params s) as [i|] eqn:E; [|discriminate]. rewrite C.
    assert (L : i < length (heap s)) by now apply W. specialize (F p Q).
    assert (QO : forall p', quiet g p' -> quiet_cur g (with_obj s i p')). { intros p' Q'. exists p'. split; [|exact Q']. unfold Develop.cur, with_obj, Develop.obj. cbn. rewrite E. now apply set_nth_same. }
    destruct (f p) as [p' [e|]]; cbn [fst] in *; [now apply QO|]. apply K; [now apply wf_obj|now apply QO].
  Qed.
  Lemma get_quiet g s q : quiet_cur g s -> quiet_cur g (fst (get_data build s q)).
  Proof. intros [p [C Q]]. unfold get_data. rewrite C. destruct (build q p); exists p; split; auto. Qed.
  Lemma step_same o s : match o with Fit _ | Estimate | Run _ | Curve => True | _ => False end -> heap (fst (step o s)) = heap s /\ params (fst (step o s)) = params s.
  Proof. intros T. destruct (step o s) as [s' r] eqn:H. cbn [fst]. destruct o; try contradiction; open H; cbn; auto. Qed.
  Lemma same_quiet g s s' : heap s' = heap s /\ params s' = params s -> quiet_cur g s -> quiet_cur g s'.
  Proof. intros [H P] [p [C Q]]. exists p. split; [|exact Q]. unfold Develop.cur, Develop.obj in *. now rewrite H, P. Qed.
  Lemma step_quiet g o s : flag_ok g -> wf s -> makes_params o = false -> quiet_cur g s -> quiet_cur g (fst (step o s)).
  Proof.
    intros G W M Q. destruct o; cbn in M; try discriminate; cbn [Develop.step]; try exact Q.
    - destruct r as [f|]; [|exact Q]. apply on_quiet; auto. intros. now apply quiet_append.
    - unfold need_params. destruct (cur s); [|exact Q]. apply on_quiet; auto; [intros; now apply quiet_type|]. intros. now apply get_quiet.
    - unfold need_params. destruct (cur s); [|exact Q]. apply on_quiet; auto; [intros; now apply quiet_disable|]. intros. now apply get_quiet.
    - unfold need_params. destruct (cur s); [|exact Q]. apply on_quiet; auto; [intros; apply quiet_then; [|intros]; now apply quiet_disable|]. intros. now apply get_quiet.
    - unfold need_params. destruct (cur s); [|exact Q]. apply on_quiet; auto; [intros; now apply quiet_stress|]. intros s1 W1 Q1. destruct shapes; [|exact Q1]. apply on_quiet; auto; [intros; apply quiet_then; [|intros]; now apply quiet_disable|]. intros. now apply get_quiet.
    - apply (same_quiet g s); [|exact Q]. change (fit_ m s) with (step (Fit m) s). now apply step_same.
    - apply (same_quiet g s); [|exact Q]. change (estimate s) with (step Estimate s). now apply step_same.
    - apply (same_quiet g s); [|exact Q]. now apply (step_same (Run m)).
    - apply (same_quiet g s); [|exact Q]. now apply (step_same Curve).
    - unfold need_params. destruct (cur s); exact Q.
  Qed.
End Develop.
