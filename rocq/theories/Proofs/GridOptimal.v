From Verif Require Import Base Num Model.GridOptimal.
From Coq Require String.

Lemma ninsert_In x l y : In y (ninsert x l) <-> y = x \/ In y l.
Proof.
  induction l as [|z l IH]; cbn [ninsert In]; [firstorder congruence|]. destruct (x <? z); [cbn [In]; firstorder congruence|].
  destruct (Nat.eqb_spec x z) as [->|]; [cbn [In]; firstorder congruence|]. cbn [In]. rewrite IH. tauto.
Qed.
Lemma nunique_In l y : In y (nunique l) <-> In y l.
Proof. unfold nunique. induction l as [|x l IH]; cbn [fold_right In]; [tauto|]. rewrite ninsert_In, IH. intuition congruence. Qed.
Lemma ninsert_sorted x l : StronglySorted Nat.lt l -> StronglySorted Nat.lt (ninsert x l).
Proof.
  induction 1 as [|z l HS IH HF]; cbn [ninsert]; [repeat constructor|]. destruct (x <? z) eqn:E; [|destruct (x =? z) eqn:E2].
  - apply Nat.ltb_lt in E. constructor; [constructor; assumption|]. constructor; [exact E|]. rewrite Forall_forall in *. intros y Hy. specialize (HF y Hy). lia.
  - constructor; assumption.
  - apply Nat.ltb_ge in E. apply Nat.eqb_neq in E2. constructor; [exact IH|]. rewrite Forall_forall in *. intros y Hy. apply ninsert_In in Hy. destruct Hy as [->|Hy]; [lia|now apply HF].
Qed.
Lemma nunique_sorted l : StronglySorted Nat.lt (nunique l).
Proof. unfold nunique. induction l as [|x l IH]; cbn; [constructor|now apply ninsert_sorted]. Qed.

Lemma where_from_In {A} (p : A -> bool) l k i : In i (where_from k p l) <-> exists a, nth_error l (i - k) = Some a /\ p a = true /\ k <= i.
Proof.
  revert k. induction l as [|b l IH]; intros k; cbn [where_from].
  - split; [intros []|]. intros [a [H _]]. destruct (i - k); discriminate.
  - assert (T : In i (where_from (S k) p l) <-> exists a, nth_error (b :: l) (i - k) = Some a /\ p a = true /\ k < i).
    { rewrite IH. split; intros [a [H1 [H2 H3]]]; exists a.
      - replace (i - k) with (S (i - S k)) by lia. cbn. auto.
      - replace (i - k) with (S (i - S k)) in H1 by lia. cbn in H1. auto. }
    destruct (p b) eqn:E; cbn [In]; rewrite T; split.
    + intros [<-|[a [H1 [H2 H3]]]]; [exists b; rewrite Nat.sub_diag; auto|exists a; repeat split; auto; lia].
    + intros [a [H1 [H2 H3]]]. destruct (Nat.eq_dec k i) as [->|]; [now left|right; exists a; repeat split; auto; lia].
    + intros [a [H1 [H2 H3]]]; exists a; repeat split; auto; lia.
    + intros [a [H1 [H2 H3]]]. destruct (Nat.eq_dec k i) as [->|]; [rewrite Nat.sub_diag in H1; cbn in H1; congruence|exists a; repeat split; auto; lia].
Qed.
Lemma where_In {A} (p : A -> bool) l i : In i (where_ p l) <-> exists a, nth_error l i = Some a /\ p a = true.
Proof. unfold where_. rewrite where_from_In. rewrite Nat.sub_0_r. split; intros [a H]; exists a; intuition lia. Qed.

Lemma nth_error_enum {A} (l : list A) k i : nth_error (combine (seq k (length l)) l) i = option_map (fun a => (k + i, a)) (nth_error l i).
Proof.
  revert k i. induction l as [|a l IH]; intros k [|i]; cbn; try reflexivity; [now rewrite Nat.add_0_r|]. rewrite IH. destruct (nth_error l i); cbn; [|reflexivity]. do 2 f_equal. lia.
Qed.
Lemma mapM_get_spec {A} (l : list A) ids rows : mapM (get l) ids = Ok rows -> length rows = length ids /\ forall n i, nth_error ids n = Some i -> nth_error rows n = nth_error l i /\ nth_error l i <> None.
Proof.
  intros H. split; [exact (mapM_length _ _ _ H)|]. revert rows H. induction ids as [|j ids IH]; intros rows H n i; cbn in H; [destruct n; discriminate|].
  unfold get in H at 1. destruct (nth_error l j) as [a|] eqn:E; cbn in H; [|discriminate]. destruct (mapM (get l) ids) as [bs|] eqn:E2; cbn in H; [|discriminate].
  injection H as <-. destruct n as [|n]; cbn; [intros [= <-]; rewrite E; split; congruence|]. apply IH. reflexivity.
Qed.
Lemma mapM_get_ok {A} (l : list A) ids : (forall i, In i ids -> i < length l) -> exists rows, mapM (get l) ids = Ok rows.
Proof.
  induction ids as [|i ids IH]; intros H; cbn; [eauto|]. unfold get at 1. assert (Hi : i < length l) by (apply H; now left). apply nth_error_Some in Hi. destruct (nth_error l i) as [a|]; [|congruence]. cbn.
  destruct IH as [bs ->]; [intros j Hj; apply H; now right|]. cbn. eauto.
Qed.

Section Grid.
  Context {F : Type} {O : NumOrd F} {OL : OrdLaws F}.
  (** Rows kept by the dominance test. *)
  Lemma lower_In (data : list (mlp F)) i : In i (find_lower_convex data) <->
    exists d, nth_error data i = Some d /\ forall j d', j <> i -> nth_error data j = Some d' -> better d' d = false.
  Proof.
    unfold find_lower_convex. rewrite where_In. split.
    - intros [[k d] [H1 H2]]. rewrite nth_error_enum in H1. destruct (nth_error data i) as [d0|] eqn:E; cbn in H1; [|discriminate]. injection H1 as <- <-.
      exists d0. split; [reflexivity|]. intros j d' Hj Hd. cbn [fst snd] in H2. apply negb_true_iff in H2.
      destruct (better d' d0) eqn:EB; [|reflexivity]. exfalso. rewrite <- not_true_iff_false in H2. apply H2. apply existsb_exists. exists (j, d'). split.
      + apply (nth_error_In _ j). rewrite nth_error_enum, Hd. reflexivity.
      + cbn. rewrite EB. replace (i =? j) with false by (symmetry; apply Nat.eqb_neq; congruence). reflexivity.
    - intros [d [H1 H2]]. exists (i, d). split; [rewrite nth_error_enum, H1; reflexivity|]. cbn [fst snd]. apply negb_true_iff. apply not_true_iff_false. intros H.
      apply existsb_exists in H. destruct H as [[j d'] [H3 H4]]. cbn [fst snd] in H4. apply andb_true_iff in H4. destruct H4 as [H4 H5]. apply In_nth_error in H3. destruct H3 as [n H3]. rewrite nth_error_enum in H3.
      destruct (nth_error data n) as [d0|] eqn:E; cbn in H3; [|discriminate]. injection H3 as <- <-. rewrite (H2 n d0) in H5; [discriminate| |exact E]. intros ->. rewrite Nat.eqb_refl in H4. discriminate.
  Qed.
  Lemma better_irrefl (d : mlp F) : better d d = false.
  Proof. unfold better. destruct (nltb (g_time d) (g_time d)) eqn:E; [|reflexivity]. pose proof (nltb_asym _ _ E). congruence. Qed.
  (** A cheapest row. *)
  Lemma cheapest (l : list (mlp F)) : l <> [] -> exists d, In d l /\ forall d', In d' l -> nltb (g_time d') (g_time d) = false.
  Proof.
    induction l as [|a l IH]; [congruence|]. intros _. destruct l as [|b l].
    - exists a. split; [now left|]. intros d' [<-|[]]. destruct (nltb (g_time a) (g_time a)) eqn:E; [|reflexivity]. pose proof (nltb_asym _ _ E). congruence.
    - destruct IH as [d [H1 H2]]; [discriminate|]. destruct (nltb (g_time a) (g_time d)) eqn:E.
      + exists a. split; [now left|]. intros d' [<-|Hd].
        * destruct (nltb (g_time a) (g_time a)) eqn:E2; [|reflexivity]. pose proof (nltb_asym _ _ E2). congruence.
        * apply (nltb_ntrans _ (g_time d)); [now apply H2|now apply nltb_asym].
      + exists d. split; [now right|]. intros d' [<-|Hd]; [exact E|now apply H2].
  Qed.
  Lemma lower_nonempty (data : list (mlp F)) : data <> [] -> find_lower_convex data <> [].
  Proof.
    intros H. destruct (cheapest data H) as [d [H1 H2]]. apply In_nth_error in H1. destruct H1 as [i Hi]. assert (In i (find_lower_convex data)).
    { apply lower_In. exists d. split; [exact Hi|]. intros j d' _ Hj. unfold better. rewrite H2 by (eapply nth_error_In; eassumption). reflexivity. }
    destruct (find_lower_convex data); [contradiction|discriminate].
  Qed.
  Lemma tinsert_perm x (l : list (mlp F)) : Permutation (tinsert x l) (x :: l).
  Proof. induction l as [|y l IH]; cbn; [reflexivity|]. destruct (nltb _ _); [|reflexivity]. rewrite IH. apply perm_swap. Qed.
  Lemma tsort_perm (l : list (mlp F)) : Permutation (tsort l) l.
  Proof. induction l as [|x l IH]; cbn; [reflexivity|]. now rewrite tinsert_perm, IH. Qed.
  Definition le_time (a b : mlp F) : Prop := nltb (g_time b) (g_time a) = false.
  Lemma tinsert_sorted x (l : list (mlp F)) : StronglySorted le_time l -> StronglySorted le_time (tinsert x l).
  Proof.
    induction 1 as [|y l HS IH HF]; cbn; [repeat constructor|]. rewrite Forall_forall in HF. destruct (nltb (g_time y) (g_time x)) eqn:E; constructor.
    - exact IH.
    - apply Forall_forall. intros z Hz. apply (Permutation_in _ (tinsert_perm x l)) in Hz. destruct Hz as [<-|Hz]; [now apply nltb_asym|now apply HF].
    - constructor; [exact HS|now apply Forall_forall].
    - apply Forall_forall. intros z [<-|Hz]; [exact E|]. apply (nltb_ntrans _ (g_time y)); [now apply HF|exact E].
  Qed.
  Lemma tsort_sorted (l : list (mlp F)) : StronglySorted le_time (tsort l).
  Proof. induction l as [|x l IH]; cbn; [constructor|now apply tinsert_sorted]. Qed.
End Grid.

Lemma mapM_where {A} (q : nat * A -> bool) (t pre : list A) : mapM (get (pre ++ t)) (where_from (length pre) q (combine (seq (length pre) (length t)) t)) = Ok (map snd (filter q (combine (seq (length pre) (length t)) t))).
Proof.
  revert pre. induction t as [|a t IH]; intros pre; cbn [length seq combine where_from filter]; [reflexivity|].
  assert (HT : mapM (get (pre ++ a :: t)) (where_from (S (length pre)) q (combine (seq (S (length pre)) (length t)) t)) = Ok (map snd (filter q (combine (seq (S (length pre)) (length t)) t)))).
  { specialize (IH (pre ++ [a])). rewrite app_length in IH. cbn [length] in IH. rewrite Nat.add_1_r in IH. rewrite <- app_assoc in IH. exact IH. }
  destruct (q (length pre, a)); [|exact HT]. cbn [mapM map snd]. unfold get at 1. rewrite nth_error_app2, Nat.sub_diag by lia. cbn [nth_error bind]. rewrite HT. reflexivity.
Qed.
Lemma sorted_filter {A B} (R : B -> B -> Prop) (g : A -> B) f l : StronglySorted R (map g l) -> StronglySorted R (map g (filter f l)).
Proof.
  induction l as [|a l IH]; cbn; intros H; [constructor|]. inversion H as [|? ? HS HF]; subst. destruct (f a); cbn; [|now apply IH]. constructor; [now apply IH|].
  rewrite Forall_forall in *. intros b Hb. apply HF. apply in_map_iff in Hb. destruct Hb as [c [<- Hc]]. apply filter_In in Hc. apply in_map. tauto.
Qed.
