From Verif Require Import Base Model.Structure Proofs.Structure.
From Verif Require Spec.Structure.
From Coq Require Import ZifyBool ZifyNat.
Import Spec.Structure.

Section P.
  Context {P A V : Type} (pzero : P) (det : A -> V) (st : structure P A V).
  Variables (order : list string) (f : list P).
  Hypothesis Hp : length (positions st) = length (elements st).
  Hypothesis Ht : length (types st) = length (elements st).
  Hypothesis Hf : length f = length (elements st).
  Hypothesis Hd : NoDup order.
  Let L := atoms st f.

  Lemma cov : (forall e, In e (elements st) -> In e order) ->
    forall a, In a L -> In (a_ele a) order.
  Proof.
    intros H a Ha. apply H. destruct (atoms_decode st f Hp Hf) as [E _]. rewrite E.
    apply in_map, Ha.
  Qed.

  Lemma permute_atoms_eq : (forall e, In e (elements st) -> In e order) -> forall hasf : bool,
    permute_atoms pzero det st order (if hasf then Some f else None)
    = Ok (out_structure det st L order, if hasf then Some (map a_for (group a_ele order L)) else None).
  Proof.
    intros Hc hasf. destruct (atoms_decode st f Hp Hf) as [E1 [E2 [E3 E4]]]. fold L in E1, E2, E3, E4.
    pose proof (permute_atoms_ok pzero det st L hasf E1 E2 ltac:(lia) order Hd (cov Hc)) as H.
    rewrite <- E3 in H. exact H.
  Qed.

  Lemma permute_atoms_spec0 : (forall e, In e (elements st) -> In e order) ->
  exists st' f',
    permute_atoms pzero det st order (Some f) = Ok (st', Some f') /\
    length (elements st') = length (elements st) /\
    length (positions st') = length (elements st) /\
    length (types st') = length (elements st) /\ length f' = length (elements st) /\
    Permutation (records (elements st') (positions st') f')
                (records (elements st) (positions st) f) /\
    (forall e, filter (of_element e) (records (elements st') (positions st') f')
               = filter (of_element e) (records (elements st) (positions st) f)) /\
    (forall i e t, nth_error (elements st') i = Some e -> nth_error (types st') i = Some t ->
       (0 <= t)%Z /\ nth_error order (Z.to_nat t) = Some e) /\
    StronglySorted Z.le (types st') /\
    n_atoms st' = map (fun e => length (filter (String.eqb e) (elements st))) order /\
    axis st' = axis st.
  Proof.
    intros Hc. destruct (atoms_decode st f Hp Hf) as [E1 [E2 [E3 E4]]].
    pose proof (cov Hc) as Hcov. fold L in E1, E2, E3, E4.
    exists (out_structure det st L order), (map a_for (group a_ele order L)).
    split; [exact (permute_atoms_eq Hc true)|].
    assert (Hperm : Permutation L (group a_ele order L)).
    { rewrite (group_split a_ele order L Hd) at 1.
      replace (filter _ L) with (@nil (string * P * P)); [now rewrite app_nil_r|].
      symmetry. clear - Hcov. induction L as [|a l IH]; cbn; [reflexivity|].
      replace (existsb (String.eqb (a_ele a)) order) with true.
      - cbn. apply IH. intros; apply Hcov; now right.
      - symmetry. apply (listed_In order). apply Hcov. now left. }
    pose proof (Permutation_length Hperm) as HL.
    unfold out_structure. cbn [elements positions types n_atoms axis]. unfold records.
    rewrite map_proj. fold (atoms st f). fold L.
    rewrite !map_length, typed_length.
    split; [lia|]. split; [lia|]. split; [lia|]. split; [lia|].
    split; [symmetry; exact Hperm|]. split; [|split; [|split; [|split]]].
    - intros e. change (filter (isk a_ele e) (group a_ele order L) = filter (isk a_ele e) L).
      destruct (in_dec String.string_dec e order) as [Hin|Hin].
      + apply filter_group; assumption.
      + rewrite filter_group_notin by exact Hin.
        symmetry. clear - Hcov Hin. induction L as [|a l IH]; cbn; [reflexivity|].
        destruct (isk a_ele e a) eqn:X.
        * apply isk_true in X. exfalso. apply Hin. rewrite <- X. apply Hcov. now left.
        * apply IH. intros; apply Hcov; now right.
    - intros i e t H1 H2. rewrite nth_error_map in H1.
      destruct (nth_error (group a_ele order L) i) as [a|] eqn:Ea; [|discriminate].
      cbn in H1. injection H1 as <-.
      destruct (typed_nth_aux st L ltac:(lia) 0 order i Hd t a H2 Ea) as [j [-> Hj]]. cbn.
      split; [lia|]. rewrite Nat2Z.id. exact Hj.
    - apply typed_sorted.
    - apply map_ext. intros e. rewrite E1. clear. induction L as [|a l IH]; cbn; [reflexivity|].
      change (String.eqb e (a_ele a)) with (isk a_ele e a). destruct (isk a_ele e a); cbn; now rewrite IH.
    - reflexivity.
  Qed.

  Lemma permute_atoms_missing0 e : In e (elements st) -> ~ In e order ->
    permute_atoms pzero det st order (Some f) = Err AssertionError.
  Proof.
    intros H1 H2. destruct (atoms_decode st f Hp Hf) as [E1 [E2 [E3 E4]]]. fold L in E1, E2, E3, E4.
    pose proof (permute_atoms_err pzero det st L true E1 E2 ltac:(lia) order Hd) as H.
    cbn in H. rewrite <- E3 in H. apply H. rewrite E1 in H1. apply in_map_iff in H1.
    destruct H1 as [a [<- Ha]]. eauto.
  Qed.
End P.

Lemma permute_atoms_spec {P A V} (pzero : P) (det : A -> V) (st : structure P A V)
        (order : list string) (f : list P) :
  length (positions st) = length (elements st) ->
  length (types st) = length (elements st) ->
  length f = length (elements st) ->
  NoDup order -> (forall e, In e (elements st) -> In e order) ->
  exists st' f',
    permute_atoms pzero det st order (Some f) = Ok (st', Some f') /\
    length (elements st') = length (elements st) /\
    length (positions st') = length (elements st) /\
    length (types st') = length (elements st) /\ length f' = length (elements st) /\
    Permutation (records (elements st') (positions st') f')
                (records (elements st) (positions st) f) /\
    (forall e, filter (of_element e) (records (elements st') (positions st') f')
               = filter (of_element e) (records (elements st) (positions st) f)) /\
    (forall i e t, nth_error (elements st') i = Some e -> nth_error (types st') i = Some t ->
       (0 <= t)%Z /\ nth_error order (Z.to_nat t) = Some e) /\
    StronglySorted Z.le (types st') /\
    n_atoms st' = map (fun e => length (filter (String.eqb e) (elements st))) order /\
    axis st' = axis st.
Proof. intros. apply permute_atoms_spec0; assumption. Qed.

Lemma permute_atoms_no_force {P A V} (pzero : P) (det : A -> V) (st : structure P A V)
        (order : list string) (f : list P) st' f' :
  length (positions st) = length (elements st) ->
  length (types st) = length (elements st) ->
  length f = length (elements st) ->
  NoDup order -> (forall e, In e (elements st) -> In e order) ->
  permute_atoms pzero det st order (Some f) = Ok (st', Some f') ->
  permute_atoms pzero det st order None = Ok (st', None).
Proof.
  intros H1 H2 H3 H4 H5 H.
  pose proof (permute_atoms_eq pzero det st order f H1 H2 H3 H4 H5 true) as E1.
  pose proof (permute_atoms_eq pzero det st order f H1 H2 H3 H4 H5 false) as E2.
  cbn in E1, E2. rewrite E1 in H. injection H as <- _. exact E2.
Qed.

Lemma permute_atoms_missing {P A V} (pzero : P) (det : A -> V) (st : structure P A V)
        (order : list string) (f : list P) e :
  length (positions st) = length (elements st) ->
  length (types st) = length (elements st) ->
  length f = length (elements st) ->
  NoDup order -> In e (elements st) -> ~ In e order ->
  permute_atoms pzero det st order (Some f) = Err AssertionError.
Proof. intros. eapply permute_atoms_missing0; eassumption. Qed.

(** ** replace_types *)
Lemma forallb_listed els l : forallb (listed els) l = true <-> forall e, In e l -> In e els.
Proof.
  rewrite forallb_forall. split; intros H x Hx; [apply listed_In|apply listed_In]; auto.
Qed.

Lemma replace_types_spec {P A V} argsort (st : structure P A V) (els : list string) :
  length (types st) = length (elements st) -> NoDup els ->
  (forall e, In e (elements st) -> In e els) ->
  exists st', replace_types argsort st els = Ok st' /\
    length (types st') = length (elements st) /\
    (forall i e t, nth_error (elements st) i = Some e -> nth_error (types st') i = Some t ->
       (0 <= t)%Z /\ nth_error els (Z.to_nat t) = Some e) /\
    elements st' = elements st /\ positions st' = positions st /\ n_atoms st' = n_atoms st /\
    axis st' = axis st /\ volume st' = volume st /\ name st' = name st.
Proof.
  intros Hl Hd Hc. rewrite replace_types_distinct by assumption.
  apply forallb_listed in Hc as Hc'. rewrite Hc'. eexists. split; [reflexivity|].
  cbn [types elements positions n_atoms axis volume name].
  split; [apply map2_length; lia|]. split; [|auto 10].
  intros i e t H1 H2.
  destruct (nth_error (types st) i) as [t0|] eqn:E0.
  - rewrite (map2_nth _ _ _ _ _ _ H1 E0) in H2. injection H2 as <-. unfold new_type.
    assert (In e els) as Hin by (apply Hc; eapply nth_error_In, H1).
    apply index_of_In in Hin. destruct Hin as [j Hj]. rewrite Hj. cbn. split; [lia|].
    rewrite Nat2Z.id. apply index_of_nth, Hj.
  - apply nth_error_None in E0. assert (i < length (elements st)) by (apply nth_error_Some; congruence). lia.
Qed.

Lemma map2_all {X} (f : X -> Z -> Z) (g : X -> Z) l1 l2 : length l1 = length l2 ->
  (forall x t, In x l1 -> f x t = g x) -> map2 f l1 l2 = map g l1.
Proof.
  revert l2; induction l1 as [|x l1 IH]; intros [|t l2]; cbn; intros H Hx; try discriminate; [reflexivity|].
  injection H as H. unfold map2 in *. cbn. rewrite Hx by now left. f_equal. apply IH; auto.
Qed.

Lemma replace_types_prior {P A V} argsort (st : structure P A V) els ty :
  length (types st) = length (elements st) -> length ty = length (elements st) -> NoDup els ->
  replace_types argsort
    (mk_structure (axis st) (positions st) (n_atoms st) (elements st) ty (volume st) (name st)) els
  = replace_types argsort st els.
Proof.
  intros H1 H2 Hd. rewrite !replace_types_distinct by assumption.
  cbn [types elements positions n_atoms axis volume name].
  destruct (forallb (listed els) (elements st)) eqn:E; [|reflexivity].
  rewrite forallb_listed in E. f_equal. f_equal.
  pose (g := fun e => match index_of e els with Some j => Z.of_nat j | None => 0%Z end).
  rewrite !(map2_all (new_type 0 els) g); try lia; [reflexivity| |];
    intros x t Hx; apply E, index_of_In in Hx; destruct Hx as [j Hj];
    unfold new_type, g; rewrite Hj; reflexivity.
Qed.

Lemma replace_types_idem {P A V} argsort (st st' : structure P A V) els :
  length (types st) = length (elements st) -> NoDup els ->
  replace_types argsort st els = Ok st' -> replace_types argsort st' els = Ok st'.
Proof.
  intros H1 Hd H. pose proof H as H0. rewrite replace_types_distinct in H by assumption.
  destruct (forallb (listed els) (elements st)) eqn:E; [|discriminate]. injection H as <-.
  rewrite <- H0 at 1. apply replace_types_prior; auto.
  cbn. apply map2_length; lia.
Qed.

Lemma replace_types_rejects {P A V} argsort (st : structure P A V) els :
  length (types st) = length (elements st) -> NoDup els ->
  (replace_types argsort st els = Err RuntimeError <->
   exists e, In e (elements st) /\ ~ In e els).
Proof.
  intros H1 Hd. rewrite replace_types_distinct by assumption.
  destruct (forallb (listed els) (elements st)) eqn:E.
  - rewrite forallb_listed in E. split; [discriminate|]. intros [e [H2 H3]]. exfalso. auto.
  - split; [intros _|reflexivity].
    assert (G : exists x, In x (elements st) /\ listed els x = false).
    { clear - E. induction (elements st) as [|x l IH]; cbn in E; [discriminate|].
      destruct (listed els x) eqn:X; [|exists x; split; [now left|exact X]].
      destruct (IH E) as [y [Hy1 Hy2]]. exists y. split; [now right|exact Hy2]. }
    destruct G as [x [Hx1 Hx2]]. exists x. split; [exact Hx1|]. intros C.
    apply listed_In in C. congruence.
Qed.
