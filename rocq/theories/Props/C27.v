(** C27: flags of parameter objects over histories of setter calls. *)
From Verif Require Import Base Model.Structure Model.Properties Model.HybridTypes Model.ParamFlags Proofs.Properties Proofs.HybridTypes.
From Coq Require String.
Import String.StringSyntax.
Local Open Scope string_scope.
Local Open Scope list_scope.
Local Open Scope nat_scope.

(** What the data set types do not support *)
Definition no_force (t : dtype) : Prop := t = Electron.
Definition no_stress (t : dtype) : Prop := t = Electron \/ t = Phono3py \/ t = Openmx.
Definition no_spins (t : dtype) : Prop := no_stress t \/ t = Sscha.
Definition off (v : spins) : Prop := v = SpNone \/ v = SpBool false \/ v = SpTuple [].
Definition supported (t : dtype) (f : flags) : Prop := (no_force t -> f_force f = false) /\ (no_stress t -> f_stress f = false) /\ (no_spins t -> off (f_spins f)).
(** The common view and every sub-model are free of unsupported flags of the current type. *)
Definition good (st : state) : Prop := supported (f_type (common_flags st)) (common_flags st) /\ Forall (supported (f_type (common_flags st))) (subs st).
Definition same (c f : flags) : Prop := f_type f = f_type c /\ f_force f = f_force c /\ f_stress f = f_stress c.
Definition agree (st : state) : Prop := Forall (same (common_flags st)) (subs st).
Definition setter (o : op) : Prop := match o with SetForce _ | SetStress _ | SetSpins _ | SetType _ => True | _ => False end.
(** Histories: every setter call, accepted or rejected; accepted changes of the list of sub-models. *)
Inductive history : state -> list op -> state -> Prop :=
| h_nil st : history st [] st
| h_setter st o ops st' : setter o -> history (fst (step o st)) ops st' -> history st (o :: ops) st'
| h_list st o ops st1 st' : step o st = (st1, None) -> history st1 ops st' -> history st (o :: ops) st'.

Lemma not_truthy_off v : truthy v = false <-> off v.
Proof.
  split; [destruct v as [|[]|[]]; cbn; intros H; try discriminate; unfold off; tauto|]. intros [->|[->| ->]]; reflexivity.
Qed.
Lemma tags_ok st : exists st', set_tags st = (st', None) /\ f_type (common_flags st') = f_type (common_flags st) /\ good st' /\ (agree st -> agree st').
Proof.
  unfold set_tags. destruct st as [c l]. cbn [common_flags].
  assert (EV : forall (w : flags -> flags) (P : flags -> Prop), (forall f, P (w f)) -> Forall P (map w l)) by (intros w P H; apply Forall_forall; intros x Hx; apply in_map_iff in Hx; destruct Hx as [y [<- _]]; apply H).
  destruct (f_type c) eqn:E; unfold set_stress, set_force, set_spins, andthen; cbn [common_flags]; repeat (rewrite ?E, ?andb_false_r; cbn [truthy everywhere common_flags f_type with_spins with_stress with_force andthen andb]);
    (eexists; split; [reflexivity|]; split; [exact E|]; split).
  all: try (intros HA; unfold agree in *; cbn [subs everywhere common_flags] in *; rewrite Forall_forall in *; intros x Hx; repeat (apply in_map_iff in Hx; destruct Hx as [? [<- Hx]]); specialize (HA _ Hx); unfold same in *; cbn in *; tauto).
  all: unfold good, everywhere; cbn [common_flags subs]; cbn; rewrite ?E; split; [|rewrite ?map_map; try (apply EV; intros f)]; try (apply Forall_forall; intros x _); unfold supported, no_spins, no_force, no_stress, off, with_spins, with_stress, with_force; cbn; intuition (try discriminate; auto).
Qed.
Lemma sort_same els l l' r : sort_subs els l = (l', r) -> forall P : flags -> Prop, (forall f e, P f -> P (with_elements e f)) -> Forall P l -> Forall P l'.
Proof.
  revert l' r. induction l as [|f l IH]; intros l' r H P HP HL; cbn [sort_subs] in H; [injection H as <- <-; constructor|]. inversion HL; subst. destruct (sorted_elements els (f_elements f)).
  - destruct (sort_subs els l) as [t' r'] eqn:E. injection H as <- <-. constructor; [now apply HP|]. eapply IH; eauto.
  - injection H as <- <-. exact HL.
Qed.
Lemma unique_ok st st' r : unique_types st = (st', r) -> common_flags st' = common_flags st /\ forall P : flags -> Prop, (forall f e, P f -> P (with_elements e f)) -> Forall P (subs st) -> Forall P (subs st').
Proof.
  unfold unique_types. destruct (length (subs st) <=? 1); [intros [= <- <-]; split; auto|]. destruct (sort_subs _ _) as [l r'] eqn:E. intros H. injection H as <- <-. split; [reflexivity|]. intros P HP HS. exact (sort_same _ _ _ _ E P HP HS).
Qed.
Lemma common_head l c : make_common l = Ok c -> exists f t, l = f :: t /\ same f c.
Proof.
  destruct l as [|f [|g t]]; cbn [make_common]; intros H; [discriminate|injection H as <-; exists f, []; repeat split|]. destruct (longest_spins [] _); cbn [bind] in H; [|discriminate]. injection H as <-. exists f, (g :: t). repeat split.
Qed.
Lemma initialize_ok old l st : initialize old l = (st, None) -> good st /\ ((exists c0, Forall (same c0) l) -> agree st).
Proof.
  unfold initialize. destruct (make_common l) as [c|] eqn:EC; [|discriminate]. destruct (check_errors c l); [|discriminate]. destruct (tags_ok (mk_state c l)) as [st1 [E1 [_ [HG HA]]]]. rewrite E1. cbn [andthen]. intros HU. destruct (unique_ok _ _ _ HU) as [EC2 HP].
  split.
  - destruct HG as [H1 H2]. unfold good. rewrite EC2. split; [exact H1|]. apply HP; [|exact H2]. intros f e Hf. exact Hf.
  - intros [c0 HS]. unfold agree. rewrite EC2. apply HP; [intros f e Hf; exact Hf|]. apply HA. unfold agree. cbn [common_flags subs]. destruct (common_head _ _ EC) as [f [t [-> [S1 [S2 S3]]]]]. inversion HS as [|? ? [T1 [T2 T3]]]; subst.
    apply Forall_forall. intros g Hg. rewrite Forall_forall in HS. destruct (HS g Hg) as [U1 [U2 U3]]. unfold same. repeat split; congruence.
Qed.
Lemma everywhere_agree w st : (forall c f, same c f -> same (w c) (w f)) -> agree st -> agree (everywhere w st).
Proof. intros H HA. unfold agree, everywhere in *. cbn [common_flags subs]. apply Forall_map. eapply Forall_impl; [|exact HA]. intros f. apply H. Qed.
Lemma setter_ok o st : setter o -> (good st -> good (fst (step o st))) /\ (agree st -> agree (fst (step o st))).
Proof.
  intros HO. destruct o; cbn [step]; try contradiction.
  - unfold set_force. destruct (is_electron _ && b) eqn:E; cbn [fst]; [auto|]. split; [|apply everywhere_agree; intros c f [H1 [H2 H3]]; repeat split; assumption].
    intros [H1 H2]. unfold good, everywhere. cbn [common_flags subs f_type with_force]. assert (HB : no_force (f_type (common_flags st)) -> b = false) by (intros HN; rewrite HN in E; exact E).
    assert (G : forall f, supported (f_type (common_flags st)) f -> supported (f_type (common_flags st)) (with_force b f)) by (intros f [K1 [K2 K3]]; split; [exact HB|split; assumption]).
    split; [now apply G|]. apply Forall_map. eapply Forall_impl; [|exact H2]. exact G.
  - unfold set_stress. destruct (excepted _ && b) eqn:E; cbn [fst]; [auto|]. split; [|apply everywhere_agree; intros c f [H1 [H2 H3]]; repeat split; assumption].
    intros [H1 H2]. unfold good, everywhere. cbn [common_flags subs f_type with_stress]. assert (HB : no_stress (f_type (common_flags st)) -> b = false) by (intros [HN|[HN|HN]]; rewrite HN in E; exact E).
    assert (G : forall f, supported (f_type (common_flags st)) f -> supported (f_type (common_flags st)) (with_stress b f)) by (intros f [K1 [K2 K3]]; split; [assumption|split; [exact HB|assumption]]).
    split; [now apply G|]. apply Forall_map. eapply Forall_impl; [|exact H2]. exact G.
  - unfold set_spins. destruct (excepted _ && truthy v) eqn:E; cbn [fst]; [auto|]. split; [|apply everywhere_agree; intros c f [H1 [H2 H3]]; repeat split; assumption].
    intros [H1 H2]. unfold good, everywhere. cbn [common_flags subs f_type with_spins]. assert (HB : no_spins (f_type (common_flags st)) -> off v) by (intros [[HN|[HN|HN]]|HN]; rewrite HN in E; apply not_truthy_off; exact E).
    assert (G : forall f, supported (f_type (common_flags st)) f -> supported (f_type (common_flags st)) (with_spins v f)) by (intros f [K1 [K2 K3]]; split; [assumption|split; [assumption|exact HB]]).
    split; [now apply G|]. apply Forall_map. eapply Forall_impl; [|exact H2]. exact G.
  - unfold set_type. destruct (tags_ok (everywhere (with_type t) st)) as [st' [-> [_ [HG HA]]]]. cbn [fst]. split; [auto|]. intros H. apply HA, everywhere_agree; [|exact H]. intros c f [H1 [H2 H3]]. repeat split; assumption.
Qed.

(** Unsupported flags are never active. *)
Theorem C27_supported l st ops st' : construct l = Ok st -> history st ops st' -> good st'.
Proof.
  intros HC HH. assert (HG : good st). { unfold construct in HC. destruct (make_common l) as [c|]; [|discriminate]. destruct (initialize c l) as [st1 [e|]] eqn:EI; [discriminate|]. injection HC as <-. now apply (initialize_ok c l). }
  clear HC. induction HH as [st|st o ops st' HO HH IH|st o ops st1 st' HS HH IH]; [exact HG|apply IH, setter_ok; assumption|]. apply IH.
  destruct o; try (assert (E : st1 = fst (step (SetForce b) st)) by (rewrite HS; reflexivity); rewrite E; apply setter_ok; [exact I|exact HG]); try (assert (E : st1 = fst (step (SetStress b) st)) by (rewrite HS; reflexivity); rewrite E; apply setter_ok; [exact I|exact HG]);
    try (assert (E : st1 = fst (step (SetSpins v) st)) by (rewrite HS; reflexivity); rewrite E; apply setter_ok; [exact I|exact HG]); try (assert (E : st1 = fst (step (SetType t) st)) by (rewrite HS; reflexivity); rewrite E; apply setter_ok; [exact I|exact HG]).
  - cbn [step] in HS. now apply initialize_ok in HS.
  - cbn [step] in HS. destruct (i <? length (subs st)); [now apply initialize_ok in HS|discriminate].
  - cbn [step] in HS. now apply initialize_ok in HS.
Qed.
(** Sub-models that agree on type, force and stress flags go on agreeing with each other and with the common view. *)
Theorem C27_agree l c0 st ops st' : construct l = Ok st -> Forall (same c0) l -> Forall setter ops -> history st ops st' -> agree st'.
Proof.
  intros HC HS HO HH. assert (HG : agree st). { unfold construct in HC. destruct (make_common l) as [c|]; [|discriminate]. destruct (initialize c l) as [st1 [e|]] eqn:EI; [discriminate|]. injection HC as <-. apply (initialize_ok c l); eauto. }
  clear HC HS. induction HH as [st|st o ops st' Ho HH IH|st o ops st1 st' HS HH IH]; [exact HG| |]; inversion HO; subst; apply IH; auto.
  - now apply setter_ok. - assert (E : st1 = fst (step o st)) by (rewrite HS; reflexivity). rewrite E. now apply setter_ok.
Qed.
(** A rejected setter changes nothing; an accepted one writes the common view and every sub-model. *)
Theorem C27_setters st o : setter o ->
  (snd (step o st) <> None -> fst (step o st) = st) /\
  (snd (step o st) = None -> Forall (fun f => match o with SetForce b => f_force f = b | SetStress b => f_stress f = b | SetSpins v => f_spins f = v | SetType t => f_type f = t | _ => True end)
    (common_flags (fst (step o st)) :: subs (fst (step o st)))).
Proof.
  intros HO. destruct o; cbn [step]; try contradiction.
  - unfold set_force. destruct (_ && _); cbn [fst snd]; (split; [congruence|]); intros H; [discriminate|]. constructor; [reflexivity|]. apply Forall_map, Forall_forall. reflexivity.
  - unfold set_stress. destruct (_ && _); cbn [fst snd]; (split; [congruence|]); intros H; [discriminate|]. constructor; [reflexivity|]. apply Forall_map, Forall_forall. reflexivity.
  - unfold set_spins. destruct (_ && _); cbn [fst snd]; (split; [congruence|]); intros H; [discriminate|]. constructor; [reflexivity|]. apply Forall_map, Forall_forall. reflexivity.
  - unfold set_type. destruct (tags_ok (everywhere (with_type t) st)) as [st' [E [ET [_ HA]]]]. rewrite E. cbn [fst snd]. split; [congruence|]. intros _. cbn in ET. constructor; [exact ET|].
    unfold set_tags in E. assert (HF : Forall (fun f => f_type f = t) (subs (everywhere (with_type t) st))) by (apply Forall_map, Forall_forall; reflexivity).
    assert (G : forall w s, (forall f, f_type (w f) = f_type f) -> Forall (fun f => f_type f = t) (subs s) -> Forall (fun f => f_type f = t) (subs (everywhere w s))) by (intros w s Hw Hs; cbn [everywhere subs]; apply Forall_map; eapply Forall_impl; [|exact Hs]; intros f Hf; rewrite Hw; exact Hf).
    cbn [everywhere common_flags f_type with_type] in E. destruct t; unfold set_stress, set_force, set_spins, andthen in E; cbn [everywhere common_flags f_type with_type is_electron excepted truthy andb with_force with_stress with_spins] in E; injection E as <-;
      repeat (first [exact HF | apply G; [reflexivity|] | (apply Forall_map; apply Forall_forall; reflexivity)]).
Qed.
(** When setters accept *)
Theorem C27_setter_domain st o : setter o ->
  (snd (step o st) = None <-> match o with
    | SetForce b => b = true -> ~ no_force (f_type (common_flags st))
    | SetStress b => b = true -> ~ no_spins (f_type (common_flags st))
    | SetSpins v => no_spins (f_type (common_flags st)) -> off v
    | _ => True end) /\
  (snd (step o st) = None \/ snd (step o st) = Some RuntimeError).
Proof.
  intros HO. destruct o; cbn [step]; try contradiction.
  - unfold set_force, no_force. destruct (f_type (common_flags st)), b; cbn; split; auto; split; try congruence; auto; intros H; exfalso; apply H; auto.
  - unfold set_stress, no_spins, no_stress. destruct (f_type (common_flags st)), b; cbn; split; auto; split; try congruence; auto; try (intros H; exfalso; apply H; auto; fail); intros _ _ [[H|[H|H]]|H]; discriminate H.
  - unfold set_spins, no_spins, no_stress. assert (HT := not_truthy_off v). destruct (f_type (common_flags st)); cbn; try (split; auto; split; auto; intros _ [[H|[H|H]]|H]; discriminate H);
      destruct (truthy v); cbn; split; auto; split; try congruence; try tauto; intros H; exfalso; assert (off v) by (apply H; auto); assert (true = false) by tauto; discriminate.
  - unfold set_type. destruct (tags_ok (everywhere (with_type t) st)) as [st' [-> _]]. cbn. split; [split; auto|now left].
Qed.

(** The common view: the first of the longest lists of elements and of spins, the largest number of types, the rest of the first sub-model *)
Definition first_longest {A} (lists : list (list A)) (r : list A) : Prop :=
  (r = [] /\ Forall (fun l => l = []) lists) \/
  exists pre post, lists = pre ++ r :: post /\ Forall (fun l => length l < length r) pre /\ Forall (fun l => length l <= length r) post.
Definition tuple_of (f : flags) : list bool := match f_spins f with SpTuple v => v | _ => [] end.
Definition no_bool (l : list flags) : Prop := forall f b, In f l -> f_spins f <> SpBool b.
Lemma fold_longest {A} (lists : list (list A)) acc :
  let r := fold_left (fun acc l => if length acc <? length l then l else acc) lists acc in
  (r = acc /\ Forall (fun l => length l <= length acc) lists) \/
  exists pre post, lists = pre ++ r :: post /\ Forall (fun l => length l < length r) pre /\ Forall (fun l => length l <= length r) post /\ length acc < length r.
Proof.
  revert acc. induction lists as [|x lists IH]; intros acc; cbn [fold_left]; [left; split; [reflexivity|constructor]|]. destruct (Nat.ltb_spec (length acc) (length x)) as [H|H].
  - right. destruct (IH x) as [[-> HF]|[pre [post [E [H1 [H2 H3]]]]]].
    + exists [], lists. repeat split; auto.
    + set (r := fold_left _ lists x) in *. exists (x :: pre), post. cbn [app]. rewrite <- E. split; [reflexivity|]. repeat split; auto. lia.
  - destruct (IH acc) as [[-> HF]|[pre [post [E [H1 [H2 H3]]]]]]; [left; auto|]. right. set (r := fold_left _ lists acc) in *. exists (x :: pre), post. cbn [app]. rewrite <- E. repeat split; auto. constructor; [lia|exact H1].
Qed.
Lemma fold_first_longest {A} (lists : list (list A)) : first_longest lists (fold_left (fun acc l => if length acc <? length l then l else acc) lists []).
Proof.
  destruct (fold_longest lists []) as [[E HF]|[pre [post [E [H1 [H2 _]]]]]]; [left|right; eauto]. split; [exact E|]. eapply Forall_impl; [|exact HF]. intros [|a l]; cbn; [reflexivity|lia].
Qed.
Lemma longest_elements_fold l : longest_elements l = fold_left (fun acc l => if length acc <? length l then l else acc) (map f_elements l) [].
Proof. unfold longest_elements. generalize (@nil string). induction l as [|f l IH]; intros acc; cbn [fold_left map]; [reflexivity|]. apply IH. Qed.
Lemma longest_spins_fold l acc : no_bool l -> longest_spins acc l = Ok (fold_left (fun acc l => if length acc <? length l then l else acc) (map tuple_of l) acc).
Proof.
  revert acc. induction l as [|f l IH]; intros acc HB; cbn [longest_spins fold_left map]; [reflexivity|]. assert (HB2 : no_bool l) by (intros g b Hg; apply HB; now right).
  destruct (f_spins f) as [|b|v] eqn:E; [|exfalso; exact (HB f b (or_introl eq_refl) E)|].
  - replace (tuple_of f) with (@nil bool) by (unfold tuple_of; now rewrite E). rewrite (proj2 (Nat.ltb_ge _ _)) by (cbn; lia). apply IH, HB2.
  - replace (tuple_of f) with v by (unfold tuple_of; now rewrite E). apply IH, HB2.
Qed.
Lemma longest_spins_bool l acc : ~ no_bool l -> longest_spins acc l = Err TypeError.
Proof.
  revert acc. induction l as [|f l IH]; intros acc HB; [exfalso; apply HB; intros ? ? []|]. cbn [longest_spins]. destruct (f_spins f) as [|b|v] eqn:E; [|reflexivity|]; apply IH; intros H; apply HB; intros g b [<-|Hg]; [congruence|now apply H|congruence|now apply H].
Qed.
Lemma fold_max l a : let m := fold_left Nat.max l a in (m = a \/ In m l) /\ a <= m /\ forall x, In x l -> x <= m.
Proof.
  revert a. induction l as [|x l IH]; intros a; cbn [fold_left]; [cbn; intuition|]. destruct (IH (Nat.max a x)) as [H1 [H2 H3]]. cbn zeta. split; [|split; [lia|]].
  - destruct H1 as [H1|H1]; [|right; now right]. destruct (Nat.max_spec a x) as [[_ E]|[_ E]]; rewrite E in *; [right; left; congruence|now left].
  - intros y [<-|Hy]; [lia|now apply H3].
Qed.
Theorem C27_common f g l : (no_bool (f :: g :: l) -> exists c, make_common (f :: g :: l) = Ok c /\ same f c /\ first_longest (map f_elements (f :: g :: l)) (f_elements c) /\
    (exists v, first_longest (map tuple_of (f :: g :: l)) v /\ f_spins c = match v with [] => SpNone | _ => SpTuple v end) /\
    (exists h, In h (f :: g :: l) /\ f_n_type h = f_n_type c) /\ (forall h, In h (f :: g :: l) -> f_n_type h <= f_n_type c)) /\
  (~ no_bool (f :: g :: l) -> make_common (f :: g :: l) = Err TypeError) /\ make_common [f] = Ok f /\ make_common [] = Err IndexError.
Proof.
  split; [|split; [|split; reflexivity]].
  - intros HB. set (ls := f :: g :: l) in *. unfold make_common. unfold ls at 1. cbv iota. fold ls. rewrite (longest_spins_fold _ _ HB). cbn [bind]. eexists. split; [reflexivity|]. cbn [f_elements f_spins f_n_type]. split; [repeat split|].
    split; [rewrite longest_elements_fold; apply fold_first_longest|]. split; [eexists; split; [apply fold_first_longest|reflexivity]|]. destruct (fold_max (map f_n_type ls) 0) as [H1 [_ H3]]. split.
    + destruct H1 as [H1|H1].
      * exists f. split; [now left|]. assert (H4 := H3 (f_n_type f) (or_introl eq_refl)). lia.
      * apply in_map_iff in H1. destruct H1 as [h [E Hh]]. exists h. split; [exact Hh|exact E].
    + intros h Hh. apply H3. now apply in_map.
  - intros HB. unfold make_common. rewrite (longest_spins_bool _ _ HB). reflexivity.
Qed.

(** Which lists of sub-models are accepted: no spins at all, or spins in every sub-model with one value per element; all elements in the longest list *)
Definition silent (f : flags) : Prop := forall b, f_spins f = SpBool b \/ (exists v, f_spins f = SpTuple v /\ In b v) -> b = false.
Definition zipped (f : flags) : Prop := f_spins f = SpNone \/ exists v, f_spins f = SpTuple v /\ length v = length (f_elements f).
Definition has_spin (f : flags) (e : string) (b : bool) : Prop := exists i, nth_error (f_elements f) i = Some e /\ nth_error (tuple_of f) i = Some b.
Definition one_spin (l : list flags) : Prop := forall f g e b b', In f l -> In g l -> has_spin f e b -> has_spin g e b' -> b = b'.
Definition known (l : list flags) : Prop := exists els, first_longest (map f_elements l) els /\ forall f, In f l -> incl (f_elements f) els.
Lemma no_spin_silent f : f_spins f = SpNone \/ (exists v, f_spins f = SpTuple v) -> (no_spin (f_spins f) = true <-> silent f).
Proof.
  intros [E|[v E]]; unfold silent; rewrite E; cbn [no_spin]; [split; [|auto]; intros _ b [H|[w [H _]]]; discriminate H|]. rewrite forallb_forall. split.
  - intros H b [H1|[w [H1 H2]]]; [discriminate H1|]. injection H1 as <-. specialize (H b H2). now destruct b.
  - intros H b Hb. rewrite (H b); [reflexivity|]. right. eauto.
Qed.
Lemma distinct_nodup {A} (eqb : A -> A -> bool) (l : list A) : (forall a b, eqb a b = true <-> a = b) -> exists l', NoDup l' /\ length l' = distinct eqb l /\ forall x, In x l' <-> In x l.
Proof.
  intros HE. induction l as [|a l IH]; [exists []; split; [constructor|split; [reflexivity|tauto]]|]. destruct IH as [l' [H1 [H2 H3]]]. cbn [distinct]. destruct (existsb (eqb a) l) eqn:E.
  - exists l'. split; [exact H1|]. split; [exact H2|]. intros x. rewrite H3. split; [now right|]. intros [<-|H]; [|exact H]. apply existsb_exists in E. destruct E as [y [Hy E]]. apply HE in E. now subst.
  - exists (a :: l'). split; [constructor; [|exact H1]|].
    + rewrite H3. intros HI. assert (existsb (eqb a) l = true) by (apply existsb_exists; exists a; split; [exact HI|now apply HE]). congruence.
    + split; [cbn; now rewrite H2|]. intros x. cbn [In]. now rewrite H3.
Qed.
Lemma comb_eqb_true a b : comb_eqb a b = true <-> a = b.
Proof.
  destruct a as [e x], b as [e' y]. unfold comb_eqb. cbn [fst snd]. rewrite andb_true_iff, String.eqb_eq, eqb_true_iff. split; [intros [-> ->]; reflexivity|intros H; injection H as -> ->; auto].
Qed.
Lemma nth_error_combine {A B} (l : list A) (m : list B) a b : In (a, b) (combine l m) <-> exists i, nth_error l i = Some a /\ nth_error m i = Some b.
Proof.
  revert m. induction l as [|x l IH]; intros [|y m]; cbn [combine In]; try (split; [tauto|intros [[|i] [H1 H2]]; discriminate]). rewrite IH. split.
  - intros [H|[i H]]; [injection H as -> ->; exists 0; auto|exists (S i); exact H].
  - intros [[|i] [H1 H2]]; [left; cbn in *; congruence|right; exists i; auto].
Qed.
Lemma first_longest_unique {A} (lists : list (list A)) r r' : first_longest lists r -> first_longest lists r' -> r = r'.
Proof.
  intros [[-> H]|[pre [post [-> [H1 H2]]]]] [[-> H']|[pre' [post' [E [H1' H2']]]]].
  - reflexivity. - rewrite E in H. rewrite Forall_forall in H. symmetry. apply H, in_elt. - rewrite Forall_forall in H'. apply H', in_elt.
  - assert (HL : length r = length r').
    { assert (X : In r (pre' ++ r' :: post')) by (rewrite <- E; apply in_elt). assert (Y : In r' (pre ++ r :: post)) by (rewrite E; apply in_elt). rewrite Forall_forall in *.
      apply in_app_or in X, Y. destruct X as [X|[X|X]], Y as [Y|[Y|Y]]; try congruence; try apply H1' in X; try apply H2' in X; try apply H1 in Y; try apply H2 in Y; lia. }
    revert pre' E H1'. induction pre as [|x pre IH]; intros [|x' pre'] E H1'; cbn [app] in E; injection E as E1 E2.
    + exact E1. + inversion H1'; subst. lia. + inversion H1; subst. lia. + inversion H1; inversion H1'; subst. eapply IH; eauto.
Qed.
Lemma check_ok c l : length l <> 1 -> Forall zipped l -> first_longest (map f_elements l) (f_elements c) -> (forall f, In f l -> incl (f_elements f) (f_elements c)) -> 
  (check_errors c l = Ok tt <-> (Forall silent l \/ Forall (fun f => ~ silent f) l /\ one_spin l)) /\ (check_errors c l = Ok tt \/ check_errors c l = Err RuntimeError).
Proof.
  intros HL HZ HM HK. unfold check_errors. rewrite (proj2 (Nat.eqb_neq _ _) HL).
  assert (HS : forall f, In f l -> (no_spin (f_spins f) = true <-> silent f)) by (intros f Hf; rewrite Forall_forall in HZ; apply no_spin_silent; destruct (HZ f Hf) as [H|[v [H _]]]; eauto).
  assert (HN : length (filter (fun f => no_spin (f_spins f)) l) <= length l) by (clear; induction l as [|a l IH]; cbn; [lia|destruct (no_spin _); cbn; lia]).
  assert (HA : length (filter (fun f => no_spin (f_spins f)) l) = length l <-> Forall silent l).
  { clear - HS HN. induction l as [|a l IH]; [cbn; split; [constructor|reflexivity]|]. cbn [filter length] in *. assert (HS2 : forall f, In f l -> (no_spin (f_spins f) = true <-> silent f)) by (intros; apply HS; now right).
    assert (HX : length (filter (fun f => no_spin (f_spins f)) l) <= length l) by (clear; induction l as [|b l IH]; cbn; [lia|destruct (no_spin _); cbn; lia]). specialize (IH HS2 HX). destruct (no_spin (f_spins a)) eqn:E; cbn [length].
    - rewrite <- (Nat.succ_inj_wd) in IH. split; [intros H; constructor; [apply HS; [now left|exact E]|apply IH; lia]|intros H; inversion H; subst; apply IH; assumption].
    - split; [lia|]. intros H. inversion H; subst. apply HS in H2; [congruence|now left]. }
  assert (HO : length (filter (fun f => no_spin (f_spins f)) l) = 0 <-> Forall (fun f => ~ silent f) l).
  { rewrite length_zero_iff_nil, Forall_forall. split.
    - intros H f Hf HX. assert (In f (filter (fun f => no_spin (f_spins f)) l)) by (apply filter_In; split; [exact Hf|now apply HS]). rewrite H in H0. destruct H0.
    - intros H. destruct (filter _ l) as [|f t] eqn:E; [reflexivity|]. exfalso. assert (HF : In f (filter (fun f => no_spin (f_spins f)) l)) by (rewrite E; now left). apply filter_In in HF. destruct HF as [H1 H2]. apply (H f H1). now apply HS. }
  set (n := length (filter _ l)) in *. destruct (Nat.eqb_spec n (length l)) as [E|E]; [split; [|now left]; split; [|reflexivity]; left; now apply HA|]. destruct (Nat.eqb_spec n 0) as [E0|E0]; cbn [negb andb].
  2: { split; [|now right]. split; [discriminate|]. intros [H|[H _]]; [apply HA in H|apply HO in H]; congruence. }
  assert (HF := proj1 HO E0). assert (HT : forall f, In f l -> exists v, f_spins f = SpTuple v /\ length v = length (f_elements f)).
  { intros f Hf. rewrite Forall_forall in HZ, HF. destruct (HZ f Hf) as [H|H]; [|exact H]. exfalso. apply (HF f Hf). apply HS; [exact Hf|]. now rewrite H. }
  rewrite (mapM_Ok _ (fun f => combine (f_elements f) (tuple_of f))) by (intros f Hf; destruct (HT f Hf) as [v [EV _]]; unfold tuple_of; now rewrite EV). cbn [bind].
  set (combs := concat _). destruct (distinct_nodup comb_eqb combs comb_eqb_true) as [cs [C1 [C2 C3]]]. destruct (distinct_nodup String.eqb (f_elements c) String.eqb_eq) as [es [S1 [S2 S3]]]. rewrite <- C2, <- S2.
  assert (HI : forall e b, In (e, b) cs <-> exists f, In f l /\ has_spin f e b).
  { intros e b. rewrite C3. unfold combs. rewrite in_concat. split.
    - intros [x [Hx HP]]. apply in_map_iff in Hx. destruct Hx as [f [<- Hf]]. exists f. split; [exact Hf|]. now apply nth_error_combine.
    - intros [f [Hf HP]]. exists (combine (f_elements f) (tuple_of f)). split; [now apply (in_map (fun f => combine (f_elements f) (tuple_of f)))|]. now apply nth_error_combine. }
  assert (H1 : incl (map fst cs) es). { intros e He. apply in_map_iff in He. destruct He as [[e' b] [<- He]]. apply HI in He. destruct He as [f [Hf [i [Hi _]]]]. apply S3. apply (HK f Hf). eapply nth_error_In; exact Hi. }
  assert (H2 : incl es (map fst cs)).
  { intros e He. apply S3 in He. assert (HG : exists f, In f l /\ In e (f_elements f)).
    { destruct HM as [[EM _]|[pre [post [EM _]]]]; [rewrite EM in He; destruct He|]. assert (X : In (f_elements c) (map f_elements l)) by (rewrite EM; apply in_elt). apply in_map_iff in X. destruct X as [f [EX Hf]]. exists f. rewrite EX. auto. }
    destruct HG as [f [Hf Hi]]. destruct (HT f Hf) as [v [EV LV]]. apply In_nth_error in Hi. destruct Hi as [i Hi]. destruct (nth_error v i) as [b|] eqn:EB.
    - apply in_map_iff. exists (e, b). split; [reflexivity|]. apply HI. exists f. split; [exact Hf|]. exists i. unfold tuple_of. rewrite EV. auto.
    - exfalso. apply nth_error_None in EB. assert (i < length (f_elements f)) by (apply nth_error_Some; congruence). lia. }
  assert (HE : length cs = length es <-> one_spin l).
  { split.
    - intros EL. assert (HD : NoDup (map fst cs)) by (apply (NoDup_incl_NoDup S1); [rewrite map_length; lia|exact H2]). intros f g e b b' Hf Hg B1 B2. assert (X : In (e, b) cs) by (apply HI; eauto). assert (Y : In (e, b') cs) by (apply HI; eauto).
      clear - HD X Y. induction cs as [|[e0 b0] cs IH]; [destruct X|]. inversion HD; subst. destruct X as [X|X], Y as [Y|Y]; [congruence| | |now apply IH]; exfalso; [injection X as -> ->; apply H1; exact (in_map fst _ _ Y)|injection Y as -> ->; apply H1; exact (in_map fst _ _ X)].
    - intros HO1. assert (HD : NoDup (map fst cs)).
      { assert (HU : forall e b b', In (e, b) cs -> In (e, b') cs -> b = b') by (intros e b b' X Y; apply HI in X, Y; destruct X as [f [Hf X]], Y as [g [Hg Y]]; exact (HO1 f g e b b' Hf Hg X Y)). clear - C1 HU. induction C1 as [|[e b] cs HX C1 IH]; cbn [map]; constructor.
        - intros HY. apply in_map_iff in HY. destruct HY as [[e' b'] [E HY]]. cbn in E. subst e'. apply HX. rewrite (HU e b b'); [exact HY|now left|now right].
        - apply IH. intros e' b1 b2 X Y. apply (HU e'); now right. }
      rewrite <- (map_length fst cs). apply Nat.le_antisymm; apply NoDup_incl_length; assumption. }
  destruct (Nat.eqb_spec (length cs) (length es)) as [EL|EL]; cbn [negb].
  - split; [|now left]. split; [|reflexivity]. intros _. right. split; [exact HF|]. now apply HE.
  - split; [|now right]. split; [discriminate|]. intros [H|[_ H]]; [apply HA in H; congruence|]. apply HE in H. contradiction.
Qed.
(** Refuted for sscha: stresses stay active after the type is set, although the setter does not allow them. *)
Definition one : flags := mk_flags ["Mg"; "O"] 2 SpNone Vasp true true.
Theorem C27_sscha_refuted : exists st st', construct [one] = Ok st /\ step (SetType Sscha) st = (st', None) /\ f_stress (common_flags st') = true /\ step (SetStress true) st' = (st', Some RuntimeError).
Proof. do 2 eexists. split; [reflexivity|]. split; [reflexivity|]. split; reflexivity. Qed.
(** Sub-models given with different flags are accepted and keep them. *)
Theorem C27_mixed_refuted : exists st f, construct [one; with_force false one] = Ok st /\ f_force (common_flags st) = true /\ nth_error (subs st) 1 = Some f /\ f_force f = false.
Proof. do 2 eexists. split; [vm_compute; reflexivity|]. split; [reflexivity|]. split; reflexivity. Qed.
(** A rejected append leaves the sub-model, with its flags, in the object. *)
Theorem C27_append_refuted : exists st st' f, construct [with_type Electron one] = Ok st /\ step (Append f) st = (st', Some RuntimeError) /\ ~ good st' /\ length (subs st') = 2.
Proof.
  exists (mk_state (mk_flags ["Mg"; "O"] 2 SpNone Electron false false) [mk_flags ["Mg"; "O"] 2 SpNone Electron false false]). eexists. exists (mk_flags ["Fe"] 1 (SpTuple [true]) Electron true true).
  split; [vm_compute; reflexivity|]. split; [vm_compute; reflexivity|]. split; [|reflexivity]. intros [_ H]. inversion H as [|? ? _ H2]; subst. inversion H2 as [|? ? [H3 _] _]; subst. discriminate (H3 eq_refl).
Qed.
(** After the setter of enable_spins has been given a bool, as its signature asks, no sub-model can be appended. *)
Theorem C27_bool_spins st b f st1 : subs st <> [] -> step (SetSpins (SpBool b)) st = (st1, None) -> exists st2, step (Append f) st1 = (st2, Some TypeError).
Proof.
  intros HN HS. cbn [step] in HS. unfold set_spins in HS. destruct (_ && _); [discriminate|]. injection HS as <-. cbn [step everywhere subs]. destruct (subs st) as [|g t]; [congruence|]. cbn [map app]. unfold initialize.
  assert (E : make_common (with_spins (SpBool b) g :: map (with_spins (SpBool b)) t ++ [f]) = Err TypeError) by (destruct t; reflexivity). rewrite E. eauto.
Qed.
Example C27_example : exists st st1 st2, construct [one; mk_flags ["O"] 1 SpNone Vasp true true] = Ok st /\ step (SetType Phono3py) st = (st1, None) /\ map f_stress (subs st1) = [false; false] /\
  step (SetStress true) st1 = (st1, Some RuntimeError) /\ step (SetType Electron) st1 = (st2, None) /\ map f_force (common_flags st2 :: subs st2) = [false; false; false] /\
  history st [SetType Phono3py; SetStress true; SetType Electron] st2.
Proof.
  do 3 eexists. split; [vm_compute; reflexivity|]. split; [vm_compute; reflexivity|]. split; [reflexivity|]. split; [vm_compute; reflexivity|]. split; [vm_compute; reflexivity|]. split; [reflexivity|].
  eapply h_list; [vm_compute; reflexivity|]. eapply h_setter; [exact I|]. vm_compute fst. eapply h_list; [vm_compute; reflexivity|]. apply h_nil.
Qed.
Lemma incl_strings (l m : list string) : {incl l m} + {~ incl l m}.
Proof.
  induction l as [|a l IH]; [left; intros ? []|]. destruct IH as [H|H]; [|right; intros X; apply H; intros x Hx; apply X; now right]. destruct (in_dec String.string_dec a m) as [Ha|Ha]; [left; intros x [<-|Hx]; auto|right; intros X; apply Ha, X; now left].
Qed.
Lemma sorted_elements_iff els l : (incl l els -> exists l', sorted_elements els l = Ok l' /\ Permutation l' l) /\ (~ incl l els -> sorted_elements els l = Err ValueError).
Proof.
  unfold sorted_elements. split.
  - intros HI. rewrite (mapM_Ok _ (fun e => position e els)).
    + cbn [bind]. eexists. split; [reflexivity|]. rewrite sort_perm. replace (map snd (combine (map (fun e => position e els) l) l)) with l; [reflexivity|]. clear. induction l as [|a l IH]; cbn; [reflexivity|now f_equal].
    + intros e He. unfold py_index. now rewrite (proj2 (is_in_In _ _) (HI e He)).
  - intros HN. enough (E : mapM (py_index els) l = Err ValueError) by now rewrite E. induction l as [|e l IH]; [exfalso; apply HN; intros ? []|]. cbn [mapM]. unfold py_index at 1. destruct (is_in els e) eqn:E; cbn [bind]; [|reflexivity].
    rewrite IH; [reflexivity|]. intros HI. apply HN. intros x [<-|Hx]; [now apply is_in_In|now apply HI].
Qed.
Definition kept (f g : flags) : Prop := Permutation (f_elements g) (f_elements f) /\ f_n_type g = f_n_type f /\ f_spins g = f_spins f /\ f_type g = f_type f /\ f_force g = f_force f /\ f_stress g = f_stress f.
Lemma sort_subs_iff els l : ((forall f, In f l -> incl (f_elements f) els) -> exists l', sort_subs els l = (l', None) /\ Forall2 kept l l') /\
  (~ (forall f, In f l -> incl (f_elements f) els) -> exists l', sort_subs els l = (l', Some ValueError)).
Proof.
  induction l as [|f l [IH1 IH2]]; [split; [intros _; exists []; split; [reflexivity|constructor]|intros H; exfalso; apply H; intros ? []]|]. cbn [sort_subs]. destruct (sorted_elements_iff els (f_elements f)) as [S1 S2]. split.
  - intros HI. destruct S1 as [l' [-> HP]]; [apply HI; now left|]. destruct IH1 as [t [-> HT]]; [intros g Hg; apply HI; now right|]. eexists. split; [reflexivity|]. constructor; [|exact HT]. repeat split. exact HP.
  - intros HN. destruct (incl_strings (f_elements f) els) as [HI|HI]; [|rewrite (S2 HI); eauto]. destruct (S1 HI) as [l' [-> _]]. destruct IH2 as [t ->]; [|eauto]. intros H. apply HN. intros g [<-|Hg]; auto.
Qed.
(** What a list of sub-models becomes: order, types and elements as given, flags that the data set type does not support switched off *)
Definition cleared (t : dtype) (f g : flags) : Prop :=
  Permutation (f_elements g) (f_elements f) /\ f_n_type g = f_n_type f /\ f_type g = f_type f /\
  f_force g = match t with Electron => false | _ => f_force f end /\ f_stress g = match t with Electron | Phono3py | Openmx => false | _ => f_stress f end /\
  f_spins g = match t with Electron | Phono3py | Openmx | Sscha => SpNone | _ => f_spins f end.
Lemma tags_cleared c l : exists w, set_tags (mk_state c l) = (everywhere w (mk_state c l), None) /\ forall f, cleared (f_type c) f (w f) /\ f_elements (w f) = f_elements f.
Proof.
  unfold set_tags. cbn [common_flags]. destruct (f_type c) eqn:E; unfold set_stress, set_force, set_spins, andthen; cbn [common_flags]; repeat (rewrite ?E, ?andb_false_r; cbn [truthy everywhere common_flags subs f_type with_spins with_stress with_force andthen andb]).
  - exists (fun f => f). unfold everywhere. cbn. rewrite map_id. split; [reflexivity|]. intros f. repeat split. reflexivity.
  - eexists (fun f => with_spins SpNone (with_stress false f)). unfold everywhere. cbn [common_flags subs]. rewrite map_map. split; [reflexivity|]. intros f. repeat split. reflexivity.
  - eexists (fun f => with_spins SpNone (with_stress false f)). unfold everywhere. cbn [common_flags subs]. rewrite map_map. split; [reflexivity|]. intros f. repeat split. reflexivity.
  - eexists (fun f => with_spins SpNone f). unfold everywhere. cbn [common_flags subs]. split; [reflexivity|]. intros f. repeat split. reflexivity.
  - eexists (fun f => with_spins SpNone (with_stress false (with_force false f))). unfold everywhere. cbn [common_flags subs]. rewrite !map_map. split; [reflexivity|]. intros f. repeat split. reflexivity.
  - exists (fun f => f). unfold everywhere. cbn. rewrite map_id. split; [reflexivity|]. intros f. repeat split. reflexivity.
Qed.
(** Construction of a hybrid: the condition, and the result *)
Theorem C27_accept l : 2 <= length l -> no_bool l -> Forall zipped l ->
  ((exists st, construct l = Ok st) <-> (Forall silent l \/ Forall (fun f => ~ silent f) l /\ one_spin l) /\ known l) /\
  (forall st, construct l = Ok st -> exists c, make_common l = Ok c /\ cleared (f_type c) c (common_flags st) /\ f_elements (common_flags st) = f_elements c /\ Forall2 (cleared (f_type c)) l (subs st)) /\
  (known l -> forall e, construct l = Err e -> e = RuntimeError) /\
  (forall st old, initialize old l = (st, None) <-> construct l = Ok st).
Proof.
  intros HL HB HZ. destruct l as [|f [|g t]]; [cbn in HL; lia|cbn in HL; lia|]. destruct (C27_common f g t) as [HC _]. destruct (HC HB) as [c [EC [_ [HM _]]]]. clear HC. set (l := f :: g :: t) in *.
  destruct (tags_cleared c l) as [w [ET HW]].
  assert (EI : forall old, initialize old l = match check_errors c l with Err e => (mk_state c l, Some e) | Ok _ => let '(l', r) := sort_subs (f_elements c) (map w l) in (mk_state (w c) l', r) end).
  { intros old. unfold initialize. rewrite EC. destruct (check_errors c l); [|reflexivity]. rewrite ET. cbn [andthen]. unfold unique_types, everywhere. cbn [subs common_flags]. rewrite map_length. replace (length l <=? 1) with false by (symmetry; apply Nat.leb_gt; lia).
    rewrite (proj2 (HW c)). reflexivity. }
  destruct (sort_subs_iff (f_elements c) (map w l)) as [SI1 SI2].
  assert (HK : (forall f, In f (map w l) -> incl (f_elements f) (f_elements c)) <-> forall f, In f l -> incl (f_elements f) (f_elements c)).
  { split; intros H h Hh; [rewrite <- (proj2 (HW h)); apply H; now apply in_map|]. apply in_map_iff in Hh. destruct Hh as [h' [<- Hh]]. rewrite (proj2 (HW h')). now apply H. }
  assert (KN : known l <-> forall f, In f l -> incl (f_elements f) (f_elements c)).
  { split; [|intros H; exists (f_elements c); auto]. intros [els [H1 H2]]. rewrite (first_longest_unique _ _ _ HM H1). exact H2. }
  assert (HN1 : length l <> 1) by lia. assert (CO : construct l = match initialize c l with (st, None) => Ok st | (_, Some e) => Err e end) by (unfold construct; rewrite EC; reflexivity).
  split; [|split; [|split]].
  - rewrite CO, (EI c). split.
    + intros [st HS]. destruct (check_errors c l) as [[]|] eqn:E; [|discriminate HS]. assert (K : known l).
      { apply KN, HK. destruct (Forall_Exists_dec (fun h => incl (f_elements h) (f_elements c)) (fun h => incl_strings _ _) (map w l)) as [H|H]; [now apply Forall_forall|]. exfalso.
        destruct SI2 as [l' E2]; [|rewrite E2 in HS; discriminate HS]. intros H2. apply Exists_exists in H. destruct H as [x [Hx H]]. exact (H (H2 x Hx)). }
      split; [|exact K]. apply (check_ok c l HN1 HZ HM); [now apply KN|exact E].
    + intros [H K]. assert (K' := proj1 KN K). rewrite (proj2 (proj1 (check_ok c l HN1 HZ HM K')) H). destruct SI1 as [l' [-> _]]; [now apply HK|]. eauto.
  - intros st HS. exists c. split; [exact EC|]. rewrite CO, (EI c) in HS. destruct (check_errors c l) as [[]|] eqn:E; [|discriminate HS]. 
    destruct (Forall_Exists_dec (fun h => incl (f_elements h) (f_elements c)) (fun h => incl_strings _ _) (map w l)) as [H|H].
    + destruct SI1 as [l' [E2 HF]]; [now apply Forall_forall|]. rewrite E2 in HS. injection HS as <-. cbn [common_flags subs]. destruct (HW c) as [W1 W2]. split; [exact W1|]. split; [exact W2|].
      clearbody l. clear - HF HW. remember (map w l) as m eqn:EM. revert l EM. induction HF as [|a b m l' K HF IH]; intros [|x l] EM; try discriminate EM; [constructor|]. injection EM as -> ->. constructor; [|now apply IH].
      destruct (HW x) as [[A1 [A2 [A3 [A4 [A5 A6]]]]] A7]. destruct K as [K1 [K2 [K3 [K4 [K5 K6]]]]]. unfold cleared. rewrite K1, K2, K3, K4, K5, K6. repeat split; assumption.
    + exfalso. destruct SI2 as [l' E2]; [|rewrite E2 in HS; discriminate HS]. intros H2. apply Exists_exists in H. destruct H as [x [Hx H]]. exact (H (H2 x Hx)).
  - intros K e HE. assert (K' := proj1 KN K). rewrite CO, (EI c) in HE. destruct (check_ok c l HN1 HZ HM K') as [_ [E|E]]; rewrite E in HE; [|congruence]. destruct SI1 as [l' [E2 _]]; [now apply HK|]. rewrite E2 in HE. discriminate HE.
  - intros st old. rewrite CO, (EI old), (EI c). destruct (check_errors c l); [|split; discriminate]. destruct (sort_subs _ _) as [l' [e|]]; [split; discriminate|]. split; intros H; injection H as <-; reflexivity.
Qed.
(** Changes of the list of sub-models construct the object again. *)
Theorem C27_list st o st' : match o with
  | Append f => step o st = (st', None) <-> construct (subs st ++ [f]) = Ok st'
  | SetItem i f => (i < length (subs st) -> exists l, nth_error l i = Some f /\ length l = length (subs st) /\ (forall j, j <> i -> nth_error l j = nth_error (subs st) j) /\ (step o st = (st', None) <-> construct l = Ok st')) /\
      (length (subs st) <= i -> step o st = (st, Some IndexError))
  | SetParams l => step o st = (st', None) <-> construct l = Ok st'
  | _ => True end.
Proof.
  assert (G : forall old l, initialize old l = (st', None) <-> construct l = Ok st').
  { intros old l. unfold construct, initialize. destruct (make_common l) as [c|]; [|split; discriminate]. destruct (check_errors c l); [|split; discriminate]. destruct (andthen _ _) as [s [e|]]; [split; discriminate|]. split; intros H; injection H as <-; reflexivity. }
  destruct o; try exact I; cbn [step]; [apply G| |apply G]. split.
  - intros HI. rewrite (proj2 (Nat.ltb_lt _ _) HI). exists (set_nth (subs st) i f). split; [|split; [|split; [|apply G]]].
    + clear - HI. revert i HI. induction (subs st) as [|x l IH]; intros [|i] HI; cbn in *; try lia; [reflexivity|]. apply IH. lia.
    + clear. revert i. induction (subs st) as [|x l IH]; intros [|i]; cbn; try reflexivity. now rewrite IH.
    + clear. revert i. induction (subs st) as [|x l IH]; intros [|i] [|j] HJ; cbn; try reflexivity; try congruence. apply IH. congruence.
  - intros HI. now rewrite (proj2 (Nat.ltb_ge _ _) HI).
Qed.
(** Two models with spins: one value per element is accepted, two values for Fe are not, nor is a sub-model without spins. *)
Definition feo (v : list bool) : flags := mk_flags ["Fe"; "O"] 2 (SpTuple v) Vasp true true.
Definition ofe (v : list bool) : flags := mk_flags ["O"; "Fe"] 2 (SpTuple v) Vasp true true.
Example C27_spins : (exists st, construct [feo [true; false]; ofe [false; true]] = Ok st /\ map f_elements (subs st) = [["Fe"; "O"]; ["Fe"; "O"]]) /\ construct [feo [true; false]; ofe [false; false]] = Err RuntimeError /\
  construct [feo [true; false]; ofe [true; true]] = Err RuntimeError /\ construct [feo [true; false]; one] = Err RuntimeError.
Proof. split; [eexists; split; vm_compute; reflexivity|]. repeat split; vm_compute; reflexivity. Qed.
Print Assumptions C27_setter_domain.
Print Assumptions C27_common.
Print Assumptions C27_accept.
Print Assumptions C27_list.
Print Assumptions C27_supported.
Print Assumptions C27_agree.
Print Assumptions C27_setters.
Print Assumptions C27_sscha_refuted.
Print Assumptions C27_mixed_refuted.
Print Assumptions C27_append_refuted.
Print Assumptions C27_bool_spins.
