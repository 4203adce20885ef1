From Verif Require Import Base Model.Structure Proofs.Structure.
From Coq Require Import ZifyBool ZifyNat.

(** ** np.unique *)
Lemma zinsert_In x y l : In y (zinsert x l) <-> y = x \/ In y l.
Proof.
  induction l as [|z l IH]; cbn; [intuition|].
  destruct (x <? z)%Z eqn:E1; cbn; [intuition|].
  destruct (x =? z)%Z eqn:E2; cbn.
  - apply Z.eqb_eq in E2. subst. intuition.
  - rewrite IH. intuition.
Qed.

Lemma zinsert_sorted x l : StronglySorted Z.lt l -> StronglySorted Z.lt (zinsert x l).
Proof.
  induction 1 as [|z l Hs IH Hf]; cbn; [repeat constructor|].
  destruct (x <? z)%Z eqn:E1.
  - constructor; [constructor; assumption|]. constructor; [lia|].
    eapply Forall_impl; [|exact Hf]. cbn; intros; lia.
  - destruct (x =? z)%Z eqn:E2; [constructor; assumption|].
    constructor; [exact IH|]. apply Forall_forall. intros y Hy. apply zinsert_In in Hy.
    destruct Hy as [->|Hy]; [lia|]. rewrite Forall_forall in Hf. auto.
Qed.

Lemma np_unique_In x l : In x (np_unique l) <-> In x l.
Proof.
  induction l as [|y l IH]; cbn; [tauto|]. rewrite zinsert_In. fold (np_unique l).
  rewrite IH. intuition.
Qed.

Lemma np_unique_sorted l : StronglySorted Z.lt (np_unique l).
Proof. induction l as [|x l IH]; cbn; [constructor|]. apply zinsert_sorted, IH. Qed.

Lemma sorted_lt_ext l1 l2 : StronglySorted Z.lt l1 -> StronglySorted Z.lt l2 ->
  (forall x, In x l1 <-> In x l2) -> l1 = l2.
Proof.
  intros H; revert l2. induction H as [|x l1 Hs IH Hf]; intros l2 H2 Hm.
  - destruct l2 as [|y l2]; [reflexivity|]. exfalso. apply (Hm y). now left.
  - destruct l2 as [|y l2]; [exfalso; apply (Hm x); now left|].
    inversion H2 as [|y' l2' H2s H2f]; subst.
    rewrite Forall_forall in Hf, H2f.
    assert (x = y) as ->.
    { destruct (proj1 (Hm x) (or_introl eq_refl)) as [|Hx]; [congruence|].
      destruct (proj2 (Hm y) (or_introl eq_refl)) as [|Hy]; [congruence|].
      specialize (Hf _ Hy). specialize (H2f _ Hx). lia. }
    f_equal. apply IH; [exact H2s|]. intros z. split; intros Hz.
    + destruct (proj1 (Hm z) (or_intror Hz)) as [->|]; [|assumption].
      specialize (Hf _ Hz). lia.
    + destruct (proj2 (Hm z) (or_intror Hz)) as [->|]; [|assumption].
      specialize (H2f _ Hz). lia.
Qed.

Lemma np_unique_perm l1 l2 : Permutation l1 l2 -> np_unique l1 = np_unique l2.
Proof.
  intros H. apply sorted_lt_ext; try apply np_unique_sorted.
  intros x. rewrite !np_unique_In. split; apply Permutation_in; [|symmetry]; exact H.
Qed.

Lemma sorted_Zlt_NoDup l : StronglySorted Z.lt l -> NoDup l.
Proof.
  induction 1 as [|x l Hs IH Hf]; constructor; [|exact IH].
  intros H. rewrite Forall_forall in Hf. specialize (Hf _ H). lia.
Qed.

(** Number of entries below [v]. *)
Definition below (v : Z) (l : list Z) : nat := length (filter (fun x => (x <? v)%Z) l).

Lemma zindex_below v l : StronglySorted Z.lt l -> In v l -> zindex v l = Some (below v l).
Proof.
  induction 1 as [|x l Hs IH Hf]; cbn; intros H; [contradiction|].
  unfold below. cbn. destruct (v =? x)%Z eqn:E.
  - apply Z.eqb_eq in E. subst x. rewrite Z.ltb_irrefl.
    replace (filter _ l) with (@nil Z); [reflexivity|]. symmetry.
    clear IH H Hs. induction Hf as [|y l Hy Hf IHf]; cbn; [reflexivity|].
    replace (y <? v)%Z with false by lia. exact IHf.
  - destruct H as [->|H]; [lia|]. rewrite (IH H).
    rewrite Forall_forall in Hf. specialize (Hf _ H).
    replace (x <? v)%Z with true by lia. reflexivity.
Qed.

Lemma below_lt v l : In v l -> below v l < length l.
Proof.
  unfold below. induction l as [|x l IH]; cbn; [contradiction|].
  intros [->|H].
  - rewrite Z.ltb_irrefl. pose proof (filter_length_le (fun x => (x <? v)%Z) l). lia.
  - destruct (x <? v)%Z; cbn; specialize (IH H); lia.
Qed.

Lemma below_seq l : StronglySorted Z.lt l -> map (fun v => below v l) l = seq 0 (length l).
Proof.
  induction 1 as [|x l Hs IH Hf]; cbn [map length seq]; [reflexivity|]. f_equal.
  - clear IH Hs. unfold below. cbn. rewrite Z.ltb_irrefl.
    induction Hf as [|y l Hy Hf IHf]; cbn; [reflexivity|].
    replace (y <? x)%Z with false by lia. exact IHf.
  - rewrite <- seq_shift, <- IH, map_map. apply map_ext_in. intros v Hv.
    rewrite Forall_forall in Hf. specialize (Hf _ Hv). unfold below. cbn.
    replace (x <? v)%Z with true by lia. reflexivity.
Qed.

Lemma seq_Z_sorted k n : StronglySorted Z.lt (map Z.of_nat (seq k n)).
Proof.
  revert k; induction n as [|n IH]; intros k; cbn; constructor; [apply IH|].
  apply Forall_map, Forall_forall. intros i Hi. apply in_seq in Hi. lia.
Qed.

Lemma write_at_length {B} (l : list B) i v : length (write_at l i v) = length l.
Proof. revert i; induction l as [|x l IH]; intros [|i]; cbn; auto. Qed.

Lemma write_at_same {B} (l : list B) i v : i < length l -> nth_error (write_at l i v) i = Some v.
Proof. revert i; induction l as [|x l IH]; intros [|i] H; cbn in *; try lia; [reflexivity|]. apply IH; lia. Qed.

Lemma write_at_other {B} (l : list B) i j v : i <> j -> nth_error (write_at l i v) j = nth_error l j.
Proof.
  revert i j; induction l as [|x l IH]; intros [|i] [|j] H; cbn; auto; try congruence.
Qed.

Lemma write_ids_length l ivs : length (write_ids l ivs) = length l.
Proof.
  unfold write_ids. revert l; induction ivs as [|[i v] ivs IH]; intros l; cbn; [reflexivity|].
  rewrite IH. apply write_at_length.
Qed.

Lemma write_ids_other l ivs j : ~ In j (map fst ivs) -> nth_error (write_ids l ivs) j = nth_error l j.
Proof.
  unfold write_ids. revert l; induction ivs as [|[i v] ivs IH]; intros l H; cbn in *; [reflexivity|].
  rewrite IH by tauto. apply write_at_other. tauto.
Qed.

Lemma write_ids_same l ivs i v : NoDup (map fst ivs) -> In (i, v) ivs -> i < length l ->
  nth_error (write_ids l ivs) i = Some v.
Proof.
  revert l; induction ivs as [|[j w] ivs IH]; intros l Hd H Hi; cbn in *; [contradiction|].
  inversion Hd; subst. destruct H as [[= -> ->]|H].
  - change (nth_error (write_ids (write_at l i v) ivs) i = Some v).
    rewrite write_ids_other by assumption. apply write_at_same, Hi.
  - apply (IH (write_at l j w)); auto. now rewrite write_at_length.
Qed.

Lemma sum_count_occ (u l : list Z) : NoDup u -> (forall x, In x l -> In x u) ->
  sum (map (fun t => count_occ Z.eq_dec l t) u) = length l.
Proof.
  intros Hd. induction l as [|x l IH]; intros Hi; cbn [length].
  - clear. induction u; cbn; auto.
  - assert (G : forall u, NoDup u ->
      sum (map (fun t => count_occ Z.eq_dec (x :: l) t) u)
      = (if in_dec Z.eq_dec x u then 1 else 0) + sum (map (fun t => count_occ Z.eq_dec l t) u)).
    { clear. intros u Hu. induction Hu as [|y u Hn Hu IHu]; [reflexivity|].
      cbn [map sum fold_right]. fold (sum (map (fun t => count_occ Z.eq_dec (x :: l) t) u)).
      fold (sum (map (fun t => count_occ Z.eq_dec l t) u)). rewrite IHu.
      cbn [count_occ]. destruct (Z.eq_dec x y) as [->|N].
      - destruct (in_dec Z.eq_dec y u); [contradiction|].
        destruct (in_dec Z.eq_dec y (y :: u)) as [_|C]; [lia|]. exfalso; apply C; now left.
      - destruct (in_dec Z.eq_dec x u), (in_dec Z.eq_dec x (y :: u)) as [I|I]; try lia.
        + exfalso. apply I. now right.
        + destruct I; [congruence|contradiction]. }
    rewrite G by exact Hd.
    destruct (in_dec Z.eq_dec x u) as [_|C]; [|exfalso; apply C, Hi; now left].
    rewrite IH; [reflexivity|]. intros; apply Hi; now right.
Qed.

(** ** np.where on an element mask *)
Lemma where_from_spec {A} (p : A -> bool) l k i :
  In i (where_from k p l) <-> k <= i /\ exists a, nth_error l (i - k) = Some a /\ p a = true.
Proof.
  revert k; induction l as [|x l IH]; intros k; cbn.
  - split; [contradiction|]. intros [_ [a [H _]]]. destruct (i - k); discriminate.
  - assert (Hrest : In i (where_from (S k) p l) <->
       k <= i /\ i <> k /\ exists a, nth_error (x :: l) (i - k) = Some a /\ p a = true).
    { rewrite IH. split.
      - intros [H [a [H1 H2]]]. split; [lia|]. split; [lia|]. exists a.
        replace (i - k) with (S (i - S k)) by lia. auto.
      - intros [H [Hn [a [H1 H2]]]]. split; [lia|]. exists a.
        replace (i - k) with (S (i - S k)) in H1 by lia. auto. }
    destruct (p x) eqn:E; cbn; rewrite Hrest.
    + split.
      * intros [->|[H [_ H2]]]; [|auto]. split; [lia|]. rewrite Nat.sub_diag. exists x; auto.
      * intros [H H2]. destruct (Nat.eq_dec k i); [auto|right; auto].
    + split; [tauto|]. intros [H [a [H1 H2]]]. split; [exact H|]. split; [|eauto].
      intros ->. rewrite Nat.sub_diag in H1. cbn in H1. congruence.
Qed.

Lemma where_from_sorted {A} (p : A -> bool) l k : StronglySorted lt (where_from k p l).
Proof.
  revert k; induction l as [|x l IH]; intros k; cbn; [constructor|].
  destruct (p x); [|apply IH]. constructor; [apply IH|].
  apply Forall_forall. intros i Hi. apply where_from_spec in Hi. lia.
Qed.

Lemma where_from_length {A} (p : A -> bool) l k :
  length (where_from k p l) = length (filter p l).
Proof. revert k; induction l as [|x l IH]; intros k; cbn; [auto|]. destruct (p x); cbn; rewrite IH; auto. Qed.

(** Selecting with the mask is reading at the positions of the mask. *)
Lemma select_where_from {B} m (l pre : list B) : length m = length l ->
  mapM (get (pre ++ l)) (where_from (length pre) (fun b => b) m) = Ok (select m l).
Proof.
  revert l pre; induction m as [|b m IH]; intros [|x l] pre H; try discriminate; [reflexivity|].
  cbn in H. injection H as H. specialize (IH l (pre ++ [x]) H).
  rewrite app_length, Nat.add_1_r, <- app_assoc in IH. cbn [app] in IH.
  cbn [where_from select]. destruct b; [|exact IH].
  cbn [mapM]. replace (get (pre ++ x :: l) (length pre)) with (Ok x).
  - cbn [bind]. rewrite IH. reflexivity.
  - symmetry. unfold get. rewrite nth_error_app2, Nat.sub_diag by lia. reflexivity.
Qed.

Lemma select_where {B} m (l : list B) : length m = length l ->
  mapM (get l) (where_ (fun b => b) m) = Ok (select m l).
Proof. apply (select_where_from m l []). Qed.

Lemma mapM_get_perm {B} (l : list B) ids ids' vs : Permutation ids ids' ->
  mapM (get l) ids = Ok vs -> exists vs', mapM (get l) ids' = Ok vs' /\ Permutation vs vs'.
Proof.
  intros H; revert vs. induction H as [|i ids ids' H IH|i j ids|i1 i2 i3 H1 IH1 H2 IH2]; intros vs; cbn.
  - intros [= <-]. exists []. auto.
  - destruct (get l i) as [a|]; cbn; [|discriminate].
    destruct (mapM (get l) ids) as [bs|]; cbn; [|discriminate]. intros [= <-].
    destruct (IH _ eq_refl) as [vs' [E P]]. rewrite E. cbn. eauto.
  - destruct (get l j) as [b|]; cbn; [|discriminate].
    destruct (get l i) as [a|]; cbn; [|discriminate].
    destruct (mapM (get l) ids) as [bs|]; cbn; [|discriminate]. intros [= <-].
    exists (a :: b :: bs). split; [reflexivity|]. constructor.
  - intros E. destruct (IH1 _ E) as [v2 [E2 P2]]. destruct (IH2 _ E2) as [v3 [E3 P3]].
    exists v3. split; [exact E3|]. etransitivity; eassumption.
Qed.

Lemma mapM_get_Forall2 {B} (l : list B) ids vs :
  mapM (get l) ids = Ok vs <-> Forall2 (fun i v => nth_error l i = Some v) ids vs.
Proof.
  revert vs; induction ids as [|i ids IH]; intros vs; cbn.
  - split; [intros [= <-]; constructor|inversion 1; reflexivity].
  - unfold get at 1. destruct (nth_error l i) as [a|] eqn:E; cbn.
    + destruct (mapM (get l) ids) as [bs|] eqn:F; cbn.
      * split; [intros [= <-]; constructor; [exact E|apply IH; reflexivity]|].
        intros H. inversion H; subst. apply IH in H4. injection H4 as <-. congruence.
      * split; [discriminate|]. intros H. inversion H; subst. apply IH in H4. discriminate.
    + split; [discriminate|]. intros H. inversion H; congruence.
Qed.

(** [mapM (get l)] composed with a permutation of positions. *)
Lemma mapM_get_seq {B} (l : list B) : mapM (get l) (seq 0 (length l)) = Ok l.
Proof.
  rewrite mapM_get_Forall2.
  assert (G : forall pre, Forall2 (fun i v => nth_error (pre ++ l) i = Some v)
                (seq (length pre) (length l)) l).
  { induction l as [|x l IH]; intros pre; cbn; constructor.
    - rewrite nth_error_app2, Nat.sub_diag by lia. reflexivity.
    - specialize (IH (pre ++ [x])). rewrite app_length, Nat.add_1_r, <- app_assoc in IH. exact IH. }
  apply (G []).
Qed.

(** What numpy's argsort guarantees: a permutation of the positions that sorts. *)
Definition argsort_ok (argsort : list Z -> list nat) : Prop :=
  forall l, Permutation (argsort l) (seq 0 (length l)) /\
            forall vs, mapM (get l) (argsort l) = Ok vs -> StronglySorted Z.le vs.

Lemma NoDup_app_intro {X} (l1 l2 : list X) : NoDup l1 -> NoDup l2 ->
  (forall x, In x l1 -> In x l2 -> False) -> NoDup (l1 ++ l2).
Proof.
  induction 1 as [|x l1 Hn Hd IH]; cbn; intros H2 H; [exact H2|].
  constructor.
  - rewrite in_app_iff. intros [C|C]; [contradiction|]. apply (H x); auto.
  - apply IH; [exact H2|]. intros y H3 H4. apply (H y); auto.
Qed.

Lemma Forall2_impl {X Y} (R S : X -> Y -> Prop) l1 l2 :
  (forall x y, R x y -> S x y) -> Forall2 R l1 l2 -> Forall2 S l1 l2.
Proof. intros H. induction 1; constructor; auto. Qed.

Lemma filter_listed_nil l : filter (listed []) l = [].
Proof. induction l; cbn; auto. Qed.

Section Spin.
  Context {P A V : Type} (argsort : list Z -> list nat) (Hargsort : argsort_ok argsort).
  Variable st : structure P A V.
  Let E := elements st.
  Let T := types st.
  Hypothesis Hlen : length T = length E.

  (** types carried by the atoms of one element *)
  Definition tys (e : string) : list Z := select (mask e E) T.
  Definition uniq (e : string) := np_unique (tys e).
  Definition rank (e : string) (t : Z) : nat := below t (uniq e).

  Lemma tys_In e t : In t (tys e) <-> exists i, nth_error E i = Some e /\ nth_error T i = Some t.
  Proof.
    unfold tys. clear Hargsort. revert Hlen. unfold mask. generalize T. generalize E. clear.
    induction E as [|x el IH]; intros [|y ty] H; try discriminate; cbn.
    - split; [contradiction|]. intros [[|i] [H1 _]]; discriminate.
    - injection H as H. specialize (IH ty H).
      destruct (String.eqb_spec e x) as [->|N]; cbn.
      + split.
        * intros [->|Hi]; [exists 0; auto|]. apply IH in Hi. destruct Hi as [i Hi]. exists (S i). exact Hi.
        * intros [[|i] [H1 H2]]; cbn in *; [left; congruence|]. right. apply IH. eauto.
      + rewrite IH. split.
        * intros [i Hi]. exists (S i). exact Hi.
        * intros [[|i] [H1 H2]]; cbn in *; [congruence|]. eauto.
  Qed.

  Definition ids0 (e : string) : list nat := where_ (fun b => b) (mask e E).

  Lemma ids0_In e i : In i (ids0 e) <-> nth_error E i = Some e.
  Proof.
    unfold ids0, where_. rewrite where_from_spec. rewrite Nat.sub_0_r. unfold mask.
    rewrite nth_error_map. split.
    - intros [_ [b [H1 H2]]]. destruct (nth_error E i) as [x|]; [|discriminate]. cbn in H1.
      injection H1 as <-. apply String.eqb_eq in H2. congruence.
    - intros ->. split; [lia|]. exists true. cbn. now rewrite String.eqb_refl.
  Qed.

  Lemma ids0_NoDup e : NoDup (ids0 e).
  Proof. apply StronglySorted_lt_NoDup, where_from_sorted. Qed.

  Lemma mask_length e : length (mask e E) = length T.
  Proof. unfold mask. rewrite map_length. auto. Qed.

  Lemma rank_lt e t : In t (tys e) -> rank e t < length (uniq e).
  Proof. intros H. apply below_lt, np_unique_In, H. Qed.

  Lemma local_types_ok e k : exists ids tl,
    local_types argsort st e k = Ok (ids, tl) /\ Permutation ids (ids0 e) /\
    Forall2 (fun i t => exists v, nth_error T i = Some v /\ t = Z.of_nat (rank e v + k)) ids tl
    /\ StronglySorted Z.le tl
    /\ Permutation (map (fun v => Z.of_nat (rank e v + k)) (tys e)) tl.
  Proof.
    unfold local_types. fold E T.
    unfold np_select. rewrite mask_length, Nat.eqb_refl. cbn [bind].
    fold (tys e) (ids0 e).
    destruct (Hargsort (tys e)) as [Hp Hs].
    assert (H0 : mapM (get T) (ids0 e) = Ok (tys e)) by (apply select_where, mask_length).
    assert (L0 : length (ids0 e) = length (tys e)) by (symmetry; eapply mapM_length; exact H0).
    assert (X1 : exists ids, mapM (get (ids0 e)) (argsort (tys e)) = Ok ids /\ Permutation (ids0 e) ids).
    { eapply mapM_get_perm; [symmetry; exact Hp|]. rewrite <- L0. apply mapM_get_seq. }
    destruct X1 as [ids [E1 P1]]. rewrite E1. cbn [bind].
    destruct (mapM_get_perm T _ _ _ P1 H0) as [tl0 [E2 P2]]. rewrite E2. cbn [bind].
    rewrite <- (np_unique_perm _ _ P2). fold (uniq e).
    assert (Ss : StronglySorted Z.le tl0).
    { apply Hs. apply mapM_get_Forall2. apply mapM_get_Forall2 in E1. apply mapM_get_Forall2 in E2. apply mapM_get_Forall2 in H0.
      clear - E1 E2 H0. revert tl0 E2. generalize (argsort (tys e)) as js, E1.
      clear E1. intros js E1. induction E1 as [|j i js ids Hj _ IH]; intros tl0 E2.
      - inversion E2. constructor.
      - inversion E2 as [|i' v' ids' vs' Hv HE2 X1 X2]; subst. constructor; [|apply IH; assumption].
        clear - Hj Hv H0. revert j Hj. induction H0 as [|a b la lb Hab _ IH]; intros [|j] Hj; cbn in *; try discriminate.
        + congruence.
        + apply IH, Hj. }
    assert (E3 : mapM (fun t => match zindex t (uniq e) with
                     | Some k0 => Ok (Z.of_nat (k0 + k)) | None => Err KeyError end) tl0
                 = Ok (map (fun v => Z.of_nat (rank e v + k)) tl0)).
    { assert (Hin : forall t, In t tl0 -> In t (uniq e)).
      { intros t Ht. apply np_unique_In. eapply Permutation_in; [symmetry; exact P2|exact Ht]. }
      clear - Hin. induction tl0 as [|t tl0 IH]; cbn [mapM map]; [reflexivity|].
      rewrite zindex_below; [|apply np_unique_sorted|apply Hin; now left].
      cbn [bind]. rewrite IH; [reflexivity|]. intros; apply Hin; now right. }
    rewrite E3. cbn [bind]. eexists _, _. split; [reflexivity|]. split; [symmetry; exact P1|].
    split; [|split].
    - rewrite mapM_get_Forall2 in E2. clear - E2.
      induction E2 as [|i v ids vs H _ IH]; cbn; constructor; eauto.
    - clear - Ss. induction Ss as [|v vs Hs IH Hf]; cbn; constructor; [exact IH|].
      apply Forall_map. eapply Forall_impl; [|exact Hf]. cbn. intros w Hw.
      unfold rank, below. apply inj_le. apply Nat.add_le_mono_r.
      generalize (uniq e). intros l. induction l as [|x l IHl]; cbn; [lia|].
      destruct (x <? v)%Z eqn:X1, (x <? w)%Z eqn:X2; cbn; lia.
    - apply Permutation_map, P2.
  Qed.

  Lemma uniq_ranks e k : map (fun v => Z.of_nat (rank e v + k)) (uniq e)
                         = map Z.of_nat (seq k (length (uniq e))).
  Proof.
    replace (seq k (length (uniq e))) with (map (fun j => j + k) (seq 0 (length (uniq e)))).
    - rewrite <- (below_seq (uniq e)) by apply np_unique_sorted. rewrite !map_map. reflexivity.
    - generalize (length (uniq e)). intros n. clear. 
      assert (forall a, map (fun j => j + k) (seq a n) = seq (a + k) n) as G; [|apply (G 0)].
      induction n as [|n IH]; intros a; cbn; [reflexivity|]. now rewrite IH.
  Qed.

  Lemma np_unique_tl e k tl : Permutation (map (fun v => Z.of_nat (rank e v + k)) (tys e)) tl ->
    np_unique tl = map Z.of_nat (seq k (length (uniq e))).
  Proof.
    intros Hp. apply sorted_lt_ext; [apply np_unique_sorted|apply seq_Z_sorted|].
    intros x. rewrite (np_unique_In x tl), <- uniq_ranks, in_map_iff. split.
    - intros H. apply (Permutation_in _ (Permutation_sym Hp)) in H. apply in_map_iff in H.
      destruct H as [v [Ev Hv]]. exists v. split; [exact Ev|]. apply np_unique_In, Hv.
    - intros [v [Ev Hv]]. apply (Permutation_in _ Hp). apply in_map_iff. exists v.
      split; [exact Ev|]. apply np_unique_In. exact Hv.
  Qed.

  Definition off (d : list string) : nat := sum (map (fun e => length (uniq e)) d).

  (** type assigned to an atom of element [e] and old type [t] *)
  Definition assigned (d : list string) (e : string) (t : Z) (z : Z) : Prop :=
    exists d1 d2, d = d1 ++ e :: d2 /\ z = Z.of_nat (rank e t + off d1).

  Lemma assigned_app d e t z d' : assigned d e t z -> assigned (d ++ d') e t z.
  Proof.
    intros [d1 [d2 [-> ->]]]. exists d1, (d2 ++ d'). split; [|reflexivity].
    rewrite <- app_assoc. reflexivity.
  Qed.

  Lemma off_app d1 d2 : off (d1 ++ d2) = off d1 + off d2.
  Proof. unfold off. rewrite map_app, sum_app. reflexivity. Qed.

  Definition rinv (d : list string) (s : list Z * nat * nat) : Prop :=
    let '(ty, at_, c) := s in
    length ty = length T /\ at_ = off d /\ c = length (filter (listed d) E) /\ forall i e t, nth_error E i = Some e -> nth_error T i = Some t -> In e d ->
      exists z, nth_error ty i = Some z /\ assigned d e t z.

  Lemma Forall2_In_combine {X Y} (R : X -> Y -> Prop) l1 l2 x :
    Forall2 R l1 l2 -> In x l1 -> exists y, In (x, y) (combine l1 l2) /\ R x y.
  Proof.
    induction 1 as [|a b l1 l2 H _ IH]; cbn; [contradiction|].
    intros [->|Hx]; [eauto|]. destruct (IH Hx) as [y [Hy Hr]]. eauto.
  Qed.

  Lemma listed_count d e : NoDup (d ++ [e]) ->
    length (filter (listed d) E) + count_true (mask e E) = length (filter (listed (d ++ [e])) E).
  Proof.
    intros Hd. assert (Hn : ~ In e d).
    { apply NoDup_remove_2 in Hd. rewrite app_nil_r in Hd. exact Hd. }
    unfold mask. rewrite count_true_map. generalize E. induction E0 as [|x l IH]; cbn [filter]; [reflexivity|].
    assert (Hx : listed (d ++ [e]) x = listed d x || String.eqb e x).
    { unfold listed. rewrite existsb_app. cbn. rewrite orb_false_r, (String.eqb_sym x e). reflexivity. }
    rewrite Hx. destruct (listed d x) eqn:X, (String.eqb_spec e x) as [->|N]; cbn; try lia.
    apply listed_In in X. contradiction.
  Qed.

  Lemma replace_step d e s : NoDup (d ++ [e]) -> rinv d s ->
    exists s', replace_spins_step argsort st s e = Ok s' /\ rinv (d ++ [e]) s'.
  Proof.
    intros Hd. destruct s as [[ty at_] c]. intros [H1 [H2 [H3 H4]]].
    destruct (local_types_ok e at_) as [ids [tl [E1 [P1 [F1 [S1 P2]]]]]].
    unfold replace_spins_step. rewrite E1. cbn [bind]. eexists. split; [reflexivity|].
    assert (Hfst : map fst (combine ids tl) = ids).
    { symmetry. apply combine_maps. eapply Forall2_length; exact F1. }
    split; [|split; [|split]].
    - rewrite write_ids_length. exact H1.
    - rewrite (np_unique_tl _ _ _ P2), map_length, seq_length, off_app, H2. cbn. unfold off. cbn. lia.
    - rewrite H3. apply listed_count, Hd.
    - intros i x t Hx Ht Hin. destruct (String.eqb_spec x e) as [->|N].
      + assert (In i ids) as Hi
          by (eapply Permutation_in; [symmetry; exact P1|]; apply ids0_In; exact Hx).
        destruct (Forall2_In_combine _ _ _ _ F1 Hi) as [z [Hz [v [Hv ->]]]].
        exists (Z.of_nat (rank e v + at_)). split.
        * apply write_ids_same; [|exact Hz|].
          -- rewrite Hfst. eapply Permutation_NoDup; [symmetry; exact P1|apply ids0_NoDup].
          -- rewrite H1. apply nth_error_Some. congruence.
        * exists d, []. split; [reflexivity|]. rewrite Ht in Hv. injection Hv as <-. now rewrite H2.
      + apply in_app_or in Hin. destruct Hin as [Hin|[Hin|[]]]; [|congruence].
        destruct (H4 i x t Hx Ht Hin) as [z [Hz Ha]]. exists z. split; [|apply assigned_app, Ha].
        rewrite write_ids_other; [exact Hz|]. rewrite Hfst. intros Hi.
        apply (Permutation_in _ P1) in Hi. apply ids0_In in Hi. congruence.
  Qed.

  Lemma NoDup_app_l {X} (l1 l2 : list X) : NoDup (l1 ++ l2) -> NoDup l1.
  Proof.
    induction l1 as [|x l1 IH]; cbn; intros H; [constructor|]. inversion H; subst.
    constructor; [|auto]. intros ?. apply H2, in_or_app. auto.
  Qed.

  Lemma replace_fold_spin todo : forall d s, NoDup (d ++ todo) -> rinv d s ->
    exists s', foldM (replace_spins_step argsort st) s todo = Ok s' /\ rinv (d ++ todo) s'.
  Proof.
    induction todo as [|e todo IH]; intros d s Hd Hs; cbn [foldM].
    - exists s. rewrite app_nil_r. auto.
    - replace (d ++ e :: todo) with ((d ++ [e]) ++ todo) in * by now rewrite <- app_assoc.
      destruct (replace_step d e s) as [s1 [E1 H1]]; [eapply NoDup_app_l; exact Hd|exact Hs|].
      rewrite E1. cbn [bind]. apply IH; assumption.
  Qed.

  Lemma fromkeys_spec l : NoDup (fromkeys l) /\ forall x, In x (fromkeys l) <-> In x l.
  Proof.
    unfold fromkeys.
    assert (G : forall acc, NoDup acc ->
      let r := fold_left (fun acc x => if existsb (String.eqb x) acc then acc else acc ++ [x]) l acc in
      NoDup r /\ forall x, In x r <-> In x acc \/ In x l).
    { induction l as [|y l IH]; intros acc Ha; cbn.
      - split; [exact Ha|]. tauto.
      - destruct (existsb (String.eqb y) acc) eqn:X.
        + destruct (IH acc Ha) as [I1 I2]. split; [exact I1|]. intros x. rewrite I2.
          apply (listed_In acc) in X. intuition (subst; auto).
        + assert (~ In y acc) as Hn by (intros C; apply (listed_In acc) in C; unfold listed in C; congruence).
          destruct (IH (acc ++ [y])) as [I1 I2].
          { apply Permutation_NoDup with (y :: acc); [|constructor; assumption].
            apply Permutation_cons_append. }
          split; [exact I1|]. intros x. rewrite I2, in_app_iff. cbn. intuition. }
    destruct (G [] (NoDup_nil _)) as [G1 G2]. split; [exact G1|]. intros x. rewrite G2. cbn. tauto.
  Qed.

  Lemma replace_types_spin els : all_distinct els = false ->
    (forall e, In e E -> In e els) ->
    exists st', replace_types argsort st els = Ok st' /\ elements st' = E /\ positions st' = positions st /\ axis st' = axis st /\ length (types st') = length T /\
      forall i e t, nth_error E i = Some e -> nth_error T i = Some t ->
        exists z, nth_error (types st') i = Some z /\ assigned (fromkeys els) e t z.
  Proof.
    intros Hd Hc. unfold replace_types. rewrite Hd.
    destruct (fromkeys_spec els) as [Hn Hin].
    destruct (replace_fold_spin (fromkeys els) [] (repeat 0%Z (length (types st)), 0, 0)) as [[[ty a] c] [E1 H1]].
    - exact Hn.
    - repeat split.
      + apply repeat_length.
      + now rewrite filter_listed_nil.
      + intros i e t _ _ [].
    - rewrite E1. cbn [bind]. destruct H1 as [H1 [H2 [H3 H4]]]. cbn [app] in *.
      assert (Hall : length (filter (listed (fromkeys els)) E) = length E).
      { apply filter_length_all, forallb_forall. intros x Hx. apply listed_In, Hin, Hc, Hx. }
      rewrite H3, Hall. fold E. rewrite Nat.eqb_refl. eexists. split; [reflexivity|].
      repeat split; cbn; auto. intros i e t Hi Ht. apply H4; auto.
      apply Hin, Hc. eapply nth_error_In, Hi.
  Qed.

  Lemma replace_types_spin_err els : all_distinct els = false ->
    (exists e, In e E /\ ~ In e els) -> replace_types argsort st els = Err RuntimeError.
  Proof.
    intros Hd [x [Hx Hx']]. unfold replace_types. rewrite Hd.
    destruct (fromkeys_spec els) as [Hn Hin].
    destruct (replace_fold_spin (fromkeys els) [] (repeat 0%Z (length (types st)), 0, 0)) as [[[ty a] c] [E1 H1]].
    - exact Hn.
    - repeat split.
      + apply repeat_length.
      + now rewrite filter_listed_nil.
      + intros i e t _ _ [].
    - rewrite E1. cbn [bind]. destruct H1 as [H1 [H2 [H3 H4]]]. cbn [app] in *.
      destruct (Nat.eqb_spec c (length (elements st))) as [C|C]; [|reflexivity].
      exfalso. rewrite H3 in C. fold E in C. apply filter_length_all in C.
      rewrite forallb_forall in C. specialize (C x Hx). apply listed_In, Hin in C. contradiction.
  Qed.

  (** ** permute_atoms_with_spins *)
  Variable pzero : P.
  Variable force : option (list P).
  Hypothesis Hpos : length (positions st) = length E.
  Hypothesis Hfor : match force with Some f => length f = length E | None => True end.
  Let N := length E.

  Definition reads {B} (l : list B) (ids : list nat) (vs : list B) : Prop :=
    Forall2 (fun i v => nth_error l i = Some v) ids vs.

  Definition pinv (d : list string) (sa : pstate P * nat) : Prop :=
    let '(s, at_) := sa in
    exists ids ps tl,
      Permutation ids (flat_map ids0 d) /\
      length ids <= N /\
      p_begin s = length ids /\
      reads (positions st) ids ps /\
      p_pos s = ps ++ repeat pzero (N - length ids) /\
      Forall2 (fun i z => exists e t, nth_error E i = Some e /\ nth_error T i = Some t
                                      /\ assigned d e t z) ids tl /\
      p_typ s = tl ++ repeat 0%Z (N - length ids) /\
      reads E ids (p_ele s) /\
      StronglySorted Z.le tl /\
      Forall (fun z => (z < Z.of_nat (off d))%Z) tl /\
      p_nat s = map (fun k => count_occ Z.eq_dec tl (Z.of_nat k)) (seq 0 (off d)) /\
      at_ = off d /\
      match force with
      | Some f => exists fs, reads f ids fs /\ p_for s = Some (fs ++ repeat pzero (N - length ids))
      | None => p_for s = None
      end.

  Lemma reads_length {B} (l : list B) ids vs : reads l ids vs -> length vs = length ids.
  Proof. intros H. symmetry. eapply Forall2_length. exact H. Qed.

  Lemma reads_exist {B} (l : list B) ids : Forall (fun i => i < length l) ids ->
    exists vs, mapM (get l) ids = Ok vs /\ reads l ids vs.
  Proof.
    induction 1 as [|i ids Hi Hf IH]; cbn.
    - exists []. split; [reflexivity|constructor].
    - destruct IH as [vs [E1 R1]]. rewrite E1.
      apply nth_error_Some in Hi. destruct (nth_error l i) as [v|] eqn:Ev; [|congruence].
      unfold get. rewrite Ev. cbn. exists (v :: vs). split; [reflexivity|]. constructor; assumption.
  Qed.

  Lemma ids_bound d ids : NoDup d -> Permutation ids (flat_map ids0 d) -> length ids <= N.
  Proof.
    intros Hd Hp.
    assert (Hnd : NoDup (flat_map ids0 d)).
    { clear Hp. induction Hd as [|e d Hn Hd IH]; cbn; [constructor|].
      apply NoDup_app_intro; [apply ids0_NoDup|exact IH|].
      intros i H1 H2. apply in_flat_map in H2. destruct H2 as [e' [H2 H3]].
      apply ids0_In in H1, H3. congruence. }
    rewrite (Permutation_length Hp). unfold N.
    rewrite <- (seq_length (length E) 0). apply NoDup_incl_length; [exact Hnd|].
    intros i Hi. apply in_flat_map in Hi. destruct Hi as [e [_ Hi]]. apply ids0_In in Hi.
    apply in_seq. split; [lia|]. cbn. apply nth_error_Some. congruence.
  Qed.

  Lemma count_occ_none (l : list Z) z : ~ In z l -> count_occ Z.eq_dec l z = 0.
  Proof. apply count_occ_not_In. Qed.

  Lemma sorted_app (l1 l2 : list Z) b : StronglySorted Z.le l1 -> StronglySorted Z.le l2 ->
    Forall (fun z => (z < b)%Z) l1 -> Forall (fun z => (b <= z)%Z) l2 -> StronglySorted Z.le (l1 ++ l2).
  Proof.
    intros H1 H2 F1 F2. induction H1 as [|x l1 Hs IH Hf]; cbn; [exact H2|].
    inversion F1; subst. constructor; [apply IH; assumption|].
    apply Forall_app. split; [exact Hf|]. eapply Forall_impl; [|exact F2]. cbn; intros; lia.
  Qed.

  Lemma permute_spins_step_inv d e sa : NoDup (d ++ [e]) -> pinv d sa ->
    exists sa', permute_spins_step argsort st force sa e = Ok sa' /\ pinv (d ++ [e]) sa'.
  Proof.
    intros Hd. destruct sa as [s at_].
    intros [ids [ps [tl [Pids [Hle [Hb [Rp [Ep [Ft [Et [Re [Ss [Fb [En [Ea Hf]]]]]]]]]]]]]]].
    destruct (local_types_ok e at_) as [ids' [tl' [E1 [P1 [F1 [S1 P2]]]]]].
    assert (Pids' : Permutation (ids ++ ids') (flat_map ids0 (d ++ [e]))).
    { rewrite flat_map_app. cbn. rewrite app_nil_r. apply Permutation_app; assumption. }
    pose proof (ids_bound _ _ Hd Pids') as Hle'. rewrite app_length in Hle'.
    assert (Hn : count_true (mask e E) = length ids').
    { rewrite (Permutation_length P1). unfold ids0, where_. rewrite where_from_length.
      clear. induction (mask e E) as [|b l IH]; cbn; [reflexivity|].
      unfold count_true in *. cbn. destruct b; cbn; rewrite IH; reflexivity. }
    assert (Hbd : Forall (fun i => i < N) ids').
    { apply Forall_forall. intros i Hi. apply (Permutation_in _ P1) in Hi. apply ids0_In in Hi.
      apply nth_error_Some. congruence. }
    assert (Hl' : length tl' = length ids') by (symmetry; eapply Forall2_length; exact F1).
    unfold permute_spins_step. fold E. rewrite E1, Hn. cbn [bind].
    destruct (reads_exist (positions st) ids') as [ps' [Ep' Rp']]; [rewrite Hpos; exact Hbd|].
    rewrite Ep'. cbn [bind]. rewrite Ep, Hb.
    pose proof (reads_length _ _ _ Rp) as Lp. pose proof (reads_length _ _ _ Rp') as Lp'.
    rewrite np_assign_app; [|auto|lia|rewrite repeat_length; lia]. cbn [bind].
    assert (Ltl : length tl = length ids) by (symmetry; eapply Forall2_length; exact Ft).
    rewrite Et, np_assign_app; [|auto|lia|rewrite repeat_length; lia]. cbn [bind].
    rewrite (np_unique_tl _ _ _ P2).
    rewrite !skipn_repeat, map_length, seq_length.
    assert (Hrng : Forall (fun z => (Z.of_nat at_ <= z)%Z) tl' /\
                   Forall (fun z => (z < Z.of_nat (off (d ++ [e])))%Z) tl').
    { assert (G : forall z, In z tl' -> (Z.of_nat at_ <= z < Z.of_nat (off (d ++ [e])))%Z).
      { intros z Hz. apply (Permutation_in _ (Permutation_sym P2)) in Hz. apply in_map_iff in Hz.
        destruct Hz as [v [<- Hv]]. apply rank_lt in Hv. rewrite off_app. unfold off at 2. cbn. lia. }
      split; apply Forall_forall; intros z Hz; apply G in Hz; lia. }
    destruct Hrng as [Hr1 Hr2].
    assert (Hel : reads E (ids ++ ids') (p_ele s ++ repeat e (length ids'))).
    { apply Forall2_app; [exact Re|].
      assert (forall i, In i ids' -> nth_error E i = Some e) as G.
      { intros i Hi. apply ids0_In. eapply Permutation_in; eassumption. }
      clear - G. induction ids' as [|i l IH]; cbn; constructor; [apply G; now left|].
      apply IH. intros; apply G; now right. }
    assert (Hty : Forall2 (fun i z => exists e0 t, nth_error E i = Some e0 /\ nth_error T i = Some t
                                      /\ assigned (d ++ [e]) e0 t z) (ids ++ ids') (tl ++ tl')).
    { apply Forall2_app.
      - eapply Forall2_impl; [|exact Ft]. cbn. intros i z [x [t [H1 [H2 H3]]]].
        exists x, t. split; [exact H1|]. split; [exact H2|]. apply assigned_app, H3.
      - assert (forall i, In i ids' -> nth_error E i = Some e) as G.
        { intros i Hi. apply ids0_In. eapply Permutation_in; eassumption. }
        clear - F1 G Ea. induction F1 as [|i z l1 l2 [v [H1 H2]] F IH]; constructor.
        + exists e, v. split; [apply G; now left|]. split; [exact H1|].
          exists d, []. split; [reflexivity|]. rewrite H2, Ea. reflexivity.
        + apply IH. intros; apply G; now right. }
    assert (Hna : p_nat s ++ map (fun t => count_occ Z.eq_dec tl' t) (map Z.of_nat (seq at_ (length (uniq e))))
             = map (fun k => count_occ Z.eq_dec (tl ++ tl') (Z.of_nat k)) (seq 0 (off (d ++ [e])))).
    { rewrite off_app. unfold off at 2. cbn [map sum fold_right]. rewrite Nat.add_0_r.
      rewrite seq_app, map_app, map_map, Nat.add_0_l. f_equal.
      - rewrite En. apply map_ext_in. intros k Hk. apply in_seq in Hk.
        rewrite count_occ_app, (count_occ_none tl'); [lia|].
        intros C. rewrite Forall_forall in Hr1. specialize (Hr1 _ C). lia.
      - rewrite Ea. apply map_ext_in. intros k Hk. apply in_seq in Hk.
        rewrite count_occ_app, (count_occ_none tl); [reflexivity|].
        intros C. rewrite Forall_forall in Fb. specialize (Fb _ C). lia. }
    rewrite Hna.
    assert (Hat : at_ + length (uniq e) = off (d ++ [e])).
    { rewrite off_app, Ea. unfold off at 3. cbn. lia. }
    rewrite Hat.
    assert (Hsrt : StronglySorted Z.le (tl ++ tl')).
    { eapply sorted_app; [exact Ss|exact S1|exact Fb|]. rewrite <- Ea. exact Hr1. }
    assert (Hbnd : Forall (fun z => (z < Z.of_nat (off (d ++ [e])))%Z) (tl ++ tl')).
    { apply Forall_app. split; [|exact Hr2]. eapply Forall_impl; [|exact Fb]. cbn.
      intros z Hz. rewrite off_app. lia. }
    assert (Hpp : reads (positions st) (ids ++ ids') (ps ++ ps')) by (apply Forall2_app; assumption).
    pose proof Hfor as Hfor'.
    destruct force as [f|] eqn:HF.
    - destruct Hf as [fs [Rf Ef]]. rewrite Ef.
      destruct (reads_exist f ids') as [fs' [Ef' Rf']]; [rewrite Hfor'; exact Hbd|].
      rewrite Ef'. cbn [bind].
      pose proof (reads_length _ _ _ Rf) as Lf. pose proof (reads_length _ _ _ Rf') as Lf'.
      rewrite np_assign_app; [|auto|lia|rewrite repeat_length; lia]. cbn [bind].
      eexists. split; [reflexivity|].
      exists (ids ++ ids'), (ps ++ ps'), (tl ++ tl'). cbn [p_begin p_pos p_typ p_ele p_nat p_for].
      rewrite !app_length, !skipn_repeat.
      split; [exact Pids'|]. split; [exact Hle'|]. split; [reflexivity|]. split; [exact Hpp|].
      split; [rewrite <- app_assoc, Lp', Nat.sub_add_distr; reflexivity|].
      split; [exact Hty|].
      split; [rewrite <- app_assoc, Hl', Nat.sub_add_distr; reflexivity|].
      rewrite ?HF.
      split; [exact Hel|]. split; [exact Hsrt|]. split; [exact Hbnd|]. split; [reflexivity|].
      split; [reflexivity|].
      + exists (fs ++ fs'). split; [apply Forall2_app; assumption|].
        rewrite <- app_assoc, ?Lp', ?Hl', ?Lf', Nat.sub_add_distr. reflexivity.
    - cbn [bind]. eexists. split; [reflexivity|].
      exists (ids ++ ids'), (ps ++ ps'), (tl ++ tl'). cbn [p_begin p_pos p_typ p_ele p_nat p_for].
      rewrite !app_length.
      split; [exact Pids'|]. split; [exact Hle'|]. split; [reflexivity|]. split; [exact Hpp|].
      split; [rewrite <- app_assoc, Lp', Nat.sub_add_distr; reflexivity|].
      split; [exact Hty|].
      split; [rewrite <- app_assoc, Hl', Nat.sub_add_distr; reflexivity|].
      rewrite ?HF.
      split; [exact Hel|]. split; [exact Hsrt|]. split; [exact Hbnd|]. split; [reflexivity|].
      split; reflexivity.
  Qed.

  Lemma permute_spins_fold todo : forall d sa, NoDup (d ++ todo) -> pinv d sa ->
    exists sa', foldM (permute_spins_step argsort st force) sa todo = Ok sa' /\ pinv (d ++ todo) sa'.
  Proof.
    induction todo as [|e todo IH]; intros d s Hd Hs; cbn [foldM].
    - exists s. rewrite app_nil_r. auto.
    - replace (d ++ e :: todo) with ((d ++ [e]) ++ todo) in * by now rewrite <- app_assoc.
      destruct (permute_spins_step_inv d e s) as [s1 [E1 H1]]; [eapply NoDup_app_l; exact Hd|exact Hs|].
      rewrite E1. cbn [bind]. apply IH; assumption.
  Qed.

  Lemma flat_ids_all d : NoDup d -> (forall e, In e E -> In e d) ->
    Permutation (flat_map ids0 d) (seq 0 N).
  Proof.
    intros Hd Hc.
    apply NoDup_Permutation; [|apply seq_NoDup|].
    - clear Hc. induction Hd as [|e d Hn Hd IH]; cbn; [constructor|].
      apply NoDup_app_intro; [apply ids0_NoDup|exact IH|].
      intros i H1 H2. apply in_flat_map in H2. destruct H2 as [e' [H2 H3]].
      apply ids0_In in H1, H3. congruence.
    - intros i. rewrite in_flat_map, in_seq. split.
      + intros [e [_ H]]. apply ids0_In in H. split; [lia|]. cbn. apply nth_error_Some. congruence.
      + intros [_ H]. cbn in H. apply nth_error_Some in H.
        destruct (nth_error E i) as [e|] eqn:X; [|congruence].
        exists e. split; [apply Hc; eapply nth_error_In, X|]. apply ids0_In, X.
  Qed.

  Variable det : A -> V.

  Lemma pinv0 : pinv [] (mk_pstate (repeat pzero (length (positions st)))
                        (repeat 0%Z (length (types st))) [] []
                        (match force with
                         | Some f => Some (repeat pzero (length f))
                         | None => None end) 0, 0).
  Proof.
    exists [], [], []. cbn [p_begin p_pos p_typ p_ele p_nat p_for length flat_map app].
    rewrite Nat.sub_0_r. fold T. rewrite Hpos, Hlen.
    repeat split; try constructor; try lia.
    destruct force as [f|]; [|reflexivity]. exists []. split; [constructor|]. cbn. now rewrite Hfor.
  Qed.

  Lemma permute_spins_ok els : (forall e, In e E -> In e els) ->
    exists st' f' ids,
      permute_atoms_with_spins pzero det argsort st els force = Ok (st', f') /\
      Permutation ids (seq 0 N) /\
      reads E ids (elements st') /\ reads (positions st) ids (positions st') /\
      match force with Some f => exists fs, f' = Some fs /\ reads f ids fs | None => f' = None end /\
      Forall2 (fun i z => exists e t, nth_error E i = Some e /\ nth_error T i = Some t
                                      /\ assigned (fromkeys els) e t z) ids (types st') /\
      StronglySorted Z.le (types st') /\
      n_atoms st' = map (fun k => count_occ Z.eq_dec (types st') (Z.of_nat k)) (seq 0 (off (fromkeys els))) /\
      axis st' = axis st.
  Proof.
    intros Hc. destruct (fromkeys_spec els) as [Hn Hin].
    unfold permute_atoms_with_spins.
    destruct (permute_spins_fold (fromkeys els) [] _ Hn pinv0) as [[s at_] [E1 H1]].
    rewrite E1. cbn [bind fst app] in *.
    destruct H1 as [ids [ps [tl [Pids [Hle [Hb [Rp [Ep [Ft [Et [Re [Ss [Fb [En [Ea Hf]]]]]]]]]]]]]]].
    assert (Hall : Permutation ids (seq 0 N)).
    { etransitivity; [exact Pids|]. apply flat_ids_all; [exact Hn|]. intros; apply Hin; auto. }
    pose proof (Permutation_length Hall) as HL. rewrite seq_length in HL.
    rewrite HL, Nat.sub_diag in *. cbn [repeat] in *. rewrite app_nil_r in *.
    pose proof (reads_length _ _ _ Rp) as L1. pose proof (reads_length _ _ _ Re) as L2.
    pose proof (Forall2_length _ _ _ Ft) as L3.
    assert (Lsum : sum (p_nat s) = length tl).
    { rewrite En. rewrite <- (map_map Z.of_nat (fun z => count_occ Z.eq_dec tl z)).
      apply sum_count_occ.
      - apply sorted_Zlt_NoDup, seq_Z_sorted.
      - intros z Hz. rewrite Forall_forall in Fb. specialize (Fb _ Hz).
        assert (0 <= z)%Z as Hz0.
        { clear - Ft Hz. induction Ft as [|i y l1 l2 [e [t [_ [_ [d1 [d2 [_ ->]]]]]]] _ IH]; [contradiction|].
          destruct Hz as [<-|Hz]; [lia|auto]. }
        apply in_map_iff. exists (Z.to_nat z). split; [lia|]. apply in_seq. lia. }
    unfold new_structure. rewrite Ep, Et, L1, L2, Lsum.
    rewrite Nat.eqb_refl. cbn [py_assert bind].
    replace (length ids =? length tl) with true by lia. cbn [py_assert bind].
    eexists _, _, ids. split; [reflexivity|]. cbn. repeat split; auto.
    destruct force as [f|]; [|exact Hf]. destruct Hf as [fs [R1 R2]].
    exists fs. rewrite app_nil_r in R2. auto.
  Qed.
End Spin.
