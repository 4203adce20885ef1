From Verif Require Import Base Model.Structure Proofs.Structure Proofs.StructureSpin.
From Verif Require Spec.Structure.
From Coq Require Import ZifyBool ZifyNat.
Import Spec.Structure.

Lemma sorts_argsort_ok a : sorts a -> argsort_ok a.
Proof.
  intros H l. destruct (H l) as [H1 H2]. split; [exact H1|].
  intros vs Hv. apply H2. apply mapM_get_Forall2. exact Hv.
Qed.

Lemma fold_fromkeys_repeat e m acc : In e acc ->
  fold_left (fun acc x => if existsb (String.eqb x) acc then acc else acc ++ [x]) (repeat e m) acc = acc.
Proof.
  intros H. induction m as [|m IH]; cbn; [reflexivity|].
  replace (existsb (String.eqb e) acc) with true; [exact IH|].
  symmetry. apply (listed_In acc). exact H.
Qed.

Lemma fromkeys_spread blocks : NoDup (map fst blocks) -> fromkeys (spread blocks) = map fst blocks.
Proof.
  intros Hd. unfold fromkeys.
  assert (G : forall acc, NoDup (acc ++ map fst blocks) ->
    fold_left (fun acc x => if existsb (String.eqb x) acc then acc else acc ++ [x]) (spread blocks) acc
    = acc ++ map fst blocks).
  { clear Hd. induction blocks as [|[e m] blocks IH]; intros acc Hd; cbn [spread flat_map map fst].
    - now rewrite app_nil_r.
    - rewrite fold_left_app. cbn [repeat fold_left snd].
      replace (existsb (String.eqb e) acc) with false.
      + rewrite fold_fromkeys_repeat by (apply in_or_app; right; now left).
        fold (spread blocks). cbn in Hd.
        replace (acc ++ e :: map fst blocks) with ((acc ++ [e]) ++ map fst blocks) in *
          by now rewrite <- app_assoc.
        apply IH, Hd.
      + symmetry. destruct (existsb (String.eqb e) acc) eqn:X; [|reflexivity].
        apply (listed_In acc) in X. cbn in Hd. apply NoDup_remove_2 in Hd.
        exfalso. apply Hd, in_or_app. auto. }
  apply (G [] Hd).
Qed.

Lemma fromkeys_length_le l : length (fromkeys l) <= length l.
Proof.
  unfold fromkeys.
  assert (G : forall acc, length (fold_left (fun acc x => if existsb (String.eqb x) acc then acc else acc ++ [x]) l acc)
                          <= length acc + length l).
  { induction l as [|x l IH]; intros acc; cbn; [lia|].
    destruct (existsb (String.eqb x) acc); [specialize (IH acc); lia|].
    specialize (IH (acc ++ [x])). rewrite app_length in IH. cbn in IH. lia. }
  apply (G []).
Qed.

Lemma all_distinct_NoDup l : all_distinct l = true -> NoDup l.
Proof.
  unfold all_distinct. intros H. apply Nat.eqb_eq in H.
  destruct (fromkeys_spec l) as [H1 H2].
  eapply NoDup_incl_NoDup; [exact H1|lia|]. intros x Hx. apply H2, Hx.
Qed.

Lemma below_shift k n j : j <= n -> below (Z.of_nat (k + j)) (map Z.of_nat (seq k n)) = j.
Proof.
  revert k j; induction n as [|n IH]; intros k j Hj; unfold below in *; cbn.
  - lia.
  - destruct j as [|j].
    + replace (Z.of_nat k <? Z.of_nat (k + 0))%Z with false by lia.
      clear. assert (G : forall a, k <= a -> length (filter (fun x => (x <? Z.of_nat (k + 0))%Z) (map Z.of_nat (seq a n))) = 0).
      { induction n as [|n IH]; intros a Ha; cbn; [reflexivity|].
        replace (Z.of_nat a <? Z.of_nat (k + 0))%Z with false by lia. apply IH. lia. }
      apply G. lia.
    + replace (Z.of_nat k <? Z.of_nat (k + S j))%Z with true by lia. cbn.
      f_equal. specialize (IH (S k) j). replace (S k + j) with (k + S j) in IH by lia. apply IH. lia.
Qed.

Lemma map_eq_app_cons {X Y} (f : X -> Y) l d1 e d2 : map f l = d1 ++ e :: d2 ->
  exists l1 x l2, l = l1 ++ x :: l2 /\ map f l1 = d1 /\ f x = e /\ map f l2 = d2.
Proof.
  revert d1; induction l as [|a l IH]; intros [|y d1] H; cbn in H; try discriminate.
  - injection H as <- <-. exists [], a, l. auto.
  - injection H as <- H. destruct (IH _ H) as [l1 [x [l2 [-> [<- [<- <-]]]]]].
    exists (a :: l1), x, l2. auto.
Qed.

Section Blocks.
  Context {P A V : Type} (st : structure P A V).
  Hypothesis Hlen : length (types st) = length (elements st).
  Variable blocks : list (string * nat).
  Hypothesis Hb : NoDup (map fst blocks).
  Let els := spread blocks.

  (** number of channels of the atoms of [e] that occur in the structure *)
  Hypothesis Hcomplete : forall e m, In (e, m) blocks -> length (uniq st e) = S m.

  Lemma off_blocks b1 : (forall x, In x b1 -> In x blocks) ->
    off st (map fst b1) = length (spread b1).
  Proof.
    induction b1 as [|[e m] b1 IH]; cbn; intros H; [reflexivity|].
    change (length (uniq st e) + off st (map fst b1)
            = S (length (repeat e m ++ spread b1))).
    rewrite (Hcomplete e m) by (apply H; now left).
    rewrite app_length, repeat_length, IH; [lia|]. intros; apply H; now right.
  Qed.

  Lemma assigned_points e t z : In t (tys st e) -> assigned st (fromkeys els) e t z ->
    (0 <= z)%Z /\ nth_error els (Z.to_nat z) = Some e.
  Proof.
    intros Ht [d1 [d2 [Hd ->]]]. unfold els in Hd. rewrite fromkeys_spread in Hd by exact Hb.
    destruct (map_eq_app_cons _ _ _ _ _ Hd) as [b1 [[e' m] [b2 [Hbl [<- [E _]]]]]]. cbn in E. subst e'.
    split; [lia|]. rewrite Nat2Z.id. rewrite off_blocks by (intros; rewrite Hbl; apply in_or_app; auto).
    unfold els. rewrite Hbl. unfold spread. rewrite flat_map_app. fold (spread b1).
    rewrite nth_error_app2 by lia. cbn [flat_map fst snd].
    replace (rank st e t + length (spread b1) - length (spread b1)) with (rank st e t) by lia.
    assert (rank st e t < S m) as Hr.
    { rewrite <- (Hcomplete e m); [apply rank_lt, Ht|]. rewrite Hbl. apply in_or_app. right. now left. }
    rewrite nth_error_app1 by (rewrite repeat_length; exact Hr).
    revert Hr. generalize (rank st e t), (S m). clear. intros r n. revert r.
    induction n as [|n IH]; intros [|r] H; cbn; try lia; [reflexivity|]. apply IH. lia.
  Qed.

  Lemma assigned_mono e t1 t2 z1 z2 : NoDup (fromkeys els) -> In t1 (tys st e) -> In t2 (tys st e) ->
    assigned st (fromkeys els) e t1 z1 -> assigned st (fromkeys els) e t2 z2 ->
    ((t1 < t2)%Z <-> (z1 < z2)%Z).
  Proof.
    intros Hn H1 H2 [d1 [d2 [E1 ->]]] [d3 [d4 [E2 ->]]].
    assert (d1 = d3) as <-.
    { rewrite E1 in E2, Hn. clear - E2 Hn. revert d3 E2. induction d1 as [|x d1 IH]; intros [|y d3] E; cbn in *.
      - reflexivity.
      - injection E as -> ->. exfalso. inversion Hn; subst. apply H1. apply in_or_app. right. now left.
      - injection E as -> <-. exfalso. inversion Hn; subst. apply H1. apply in_or_app. right. now left.
      - injection E as -> E. inversion Hn; subst. f_equal. apply IH; assumption. }
    assert (G : forall a b, In a (uniq st e) -> (a < b)%Z -> rank st e a < rank st e b).
    { unfold rank. generalize (uniq st e). clear. intros l a b Ha Hab. unfold below.
      assert (W : forall l, length (filter (fun x => (x <? a)%Z) l) <= length (filter (fun x => (x <? b)%Z) l)).
      { clear -Hab. induction l as [|x l IH]; cbn; [lia|].
        destruct (x <? a)%Z eqn:X1, (x <? b)%Z eqn:X2; cbn; lia. }
      induction l as [|x l IH]; cbn; [contradiction|]. destruct Ha as [->|Ha].
      - rewrite Z.ltb_irrefl. replace (a <? b)%Z with true by lia. cbn. specialize (W l). lia.
      - specialize (IH Ha). destruct (x <? a)%Z eqn:X1, (x <? b)%Z eqn:X2; cbn; lia. }
    assert (I1 : In t1 (uniq st e)) by (apply np_unique_In, H1).
    assert (I2 : In t2 (uniq st e)) by (apply np_unique_In, H2).
    split; intros H.
    - specialize (G t1 t2 I1 H). lia.
    - destruct (Z_lt_ge_dec t1 t2) as [|C]; [assumption|]. exfalso.
      destruct (Z.eq_dec t1 t2) as [->|N]; [lia|].
      specialize (G t2 t1 I2). lia.
  Qed.
End Blocks.

Section Aligned.
  Context {P A V : Type} (st : structure P A V).
  Hypothesis Hlen : length (types st) = length (elements st).
  Variable blocks : list (string * nat).
  Hypothesis Hb : NoDup (map fst blocks).
  Let els := spread blocks.
  (** types are already positions in the model's list *)
  Hypothesis Hal : forall i e t, nth_error (elements st) i = Some e -> nth_error (types st) i = Some t ->
    (0 <= t)%Z /\ nth_error els (Z.to_nat t) = Some e.
  (** every channel occurs *)
  Hypothesis Hco : forall j e, nth_error els j = Some e ->
    exists i, nth_error (elements st) i = Some e /\ nth_error (types st) i = Some (Z.of_nat j).

  Lemma nth_repeat_inv {B} (x : B) n i y : nth_error (repeat x n) i = Some y -> y = x /\ i < n.
  Proof.
    revert i; induction n as [|n IH]; intros [|i] H; cbn in H; try discriminate.
    - injection H as <-. split; [reflexivity|lia].
    - destruct (IH _ H). split; [assumption|lia].
  Qed.

  Lemma nth_repeat_ok {B} (x : B) n i : i < n -> nth_error (repeat x n) i = Some x.
  Proof. revert i; induction n as [|n IH]; intros [|i] H; cbn; try lia; [reflexivity|]. apply IH; lia. Qed.

  Lemma spread_In e bs j : nth_error (spread bs) j = Some e -> In e (map fst bs).
  Proof.
    intros H. apply nth_error_In in H. unfold spread in H. apply in_flat_map in H.
    destruct H as [b [Hb' H]]. apply repeat_spec in H. subst. apply in_map, Hb'.
  Qed.

  Lemma spread_pos b1 e m b2 j : blocks = b1 ++ (e, m) :: b2 ->
    nth_error els j = Some e <-> length (spread b1) <= j < length (spread b1) + S m.
  Proof.
    intros Hbl. assert (Hn1 : ~ In e (map fst b1)).
    { intros C. rewrite Hbl, map_app in Hb. cbn in Hb. apply NoDup_remove_2 in Hb. apply Hb, in_or_app. auto. }
    assert (Hn2 : ~ In e (map fst b2)).
    { intros C. rewrite Hbl, map_app in Hb. cbn in Hb. apply NoDup_remove_2 in Hb. apply Hb, in_or_app. auto. }
    unfold els. rewrite Hbl. unfold spread. rewrite flat_map_app. cbn [flat_map fst snd].
    fold (spread b1) (spread b2).
    destruct (Nat.lt_ge_cases j (length (spread b1))) as [H|H].
    - rewrite nth_error_app1 by exact H. split; [|lia]. intros C. exfalso. apply Hn1. eapply spread_In, C.
    - rewrite nth_error_app2 by exact H.
      destruct (Nat.lt_ge_cases (j - length (spread b1)) (S m)) as [H2|H2].
      + rewrite nth_error_app1 by (rewrite repeat_length; exact H2).
        rewrite nth_repeat_ok by exact H2. split; [lia|reflexivity].
      + rewrite nth_error_app2 by (rewrite repeat_length; exact H2).
        split; [|lia]. intros C. exfalso. apply Hn2. eapply spread_In, C.
  Qed.

  Lemma uniq_aligned b1 e m b2 : blocks = b1 ++ (e, m) :: b2 ->
    uniq st e = map Z.of_nat (seq (length (spread b1)) (S m)).
  Proof.
    intros Hbl. apply sorted_lt_ext; [apply np_unique_sorted|apply seq_Z_sorted|].
    intros x. unfold uniq. rewrite np_unique_In, tys_In by exact Hlen. rewrite in_map_iff. split.
    - intros [i [H1 H2]]. destruct (Hal _ _ _ H1 H2) as [H3 H4].
      apply (spread_pos b1 e m b2 _ Hbl) in H4. exists (Z.to_nat x). split; [lia|]. apply in_seq. lia.
    - intros [j [<- Hj]]. apply in_seq in Hj. apply Hco. apply (spread_pos b1 e m b2 _ Hbl). lia.
  Qed.

  Lemma off_aligned b1 b2 : blocks = b1 ++ b2 -> off st (map fst b1) = length (spread b1).
  Proof.
    intros Hbl. apply (off_blocks st Hlen b1).
    - intros e m Hi. apply in_split in Hi. destruct Hi as [c1 [c2 E]].
      rewrite (uniq_aligned c1 e m (c2 ++ b2)); [now rewrite map_length, seq_length|].
      rewrite Hbl, E, <- app_assoc. reflexivity.
    - auto.
  Qed.

  Lemma assigned_same e t z i : nth_error (elements st) i = Some e -> nth_error (types st) i = Some t ->
    assigned st (fromkeys els) e t z -> z = t.
  Proof.
    intros H1 H2 [d1 [d2 [Hd ->]]]. unfold els in Hd. rewrite fromkeys_spread in Hd by exact Hb.
    destruct (map_eq_app_cons _ _ _ _ _ Hd) as [b1 [[e' m] [b2 [Hbl [<- [E _]]]]]]. cbn in E. subst e'.
    rewrite (off_aligned b1 _ Hbl). unfold rank. rewrite (uniq_aligned _ _ _ _ Hbl).
    destruct (Hal _ _ _ H1 H2) as [H3 H4]. apply (spread_pos b1 e m b2 _ Hbl) in H4.
    set (k := length (spread b1)) in *.
    replace t with (Z.of_nat (k + (Z.to_nat t - k))) at 1 by lia.
    rewrite below_shift by lia. lia.
  Qed.

  Lemma elements_covered e : In e (elements st) -> In e els.
  Proof.
    intros H. apply In_nth_error in H. destruct H as [i Hi].
    assert (i < length (types st)) as Hlt by (rewrite Hlen; apply nth_error_Some; congruence).
    apply nth_error_Some in Hlt. destruct (nth_error (types st) i) as [t|] eqn:Et; [|congruence].
    destruct (Hal _ _ _ Hi Et) as [_ H]. eapply nth_error_In, H.
  Qed.
End Aligned.

Lemma nth_error_ext {X} (l1 l2 : list X) : (forall i, nth_error l1 i = nth_error l2 i) -> l1 = l2.
Proof.
  revert l2; induction l1 as [|a l1 IH]; intros [|b l2] H; auto.
  - specialize (H 0). discriminate.
  - specialize (H 0). discriminate.
  - f_equal; [specialize (H 0); cbn in H; congruence|]. apply IH. intros i. apply (H (S i)).
Qed.

Lemma replace_types_aligned {P A V} argsort (st : structure P A V) blocks :
  sorts argsort ->
  length (types st) = length (elements st) -> NoDup (map fst blocks) ->
  (forall i e t, nth_error (elements st) i = Some e -> nth_error (types st) i = Some t ->
    (0 <= t)%Z /\ nth_error (spread blocks) (Z.to_nat t) = Some e) ->
  (forall j e, nth_error (spread blocks) j = Some e ->
    exists i, nth_error (elements st) i = Some e /\ nth_error (types st) i = Some (Z.of_nat j)) ->
  exists st', replace_types argsort st (spread blocks) = Ok st' /\ types st' = types st
    /\ elements st' = elements st /\ positions st' = positions st.
Proof.
  intros Hs Hl Hb Hal Hco. pose proof (elements_covered st Hl blocks Hal) as Hcov.
  destruct (all_distinct (spread blocks)) eqn:D.
  - apply all_distinct_NoDup in D. rewrite replace_types_distinct by assumption.
    replace (forallb (listed (spread blocks)) (elements st)) with true.
    2:{ symmetry. apply forallb_forall. intros x Hx. apply listed_In, Hcov, Hx. }
    eexists. split; [reflexivity|]. cbn. split; [|auto].
    apply nth_error_ext. intros i.
    destruct (nth_error (elements st) i) as [e|] eqn:Ei.
    + assert (i < length (types st)) as Hlt by (rewrite Hl; apply nth_error_Some; congruence).
      apply nth_error_Some in Hlt. destruct (nth_error (types st) i) as [t|] eqn:Et; [|congruence].
      rewrite (map2_nth _ _ _ _ _ _ Ei Et). f_equal. unfold new_type.
      destruct (Hal _ _ _ Ei Et) as [H1 H2]. rewrite (index_of_unique _ _ _ D H2). lia.
    + apply nth_error_None in Ei.
      assert (nth_error (types st) i = None) as -> by (apply nth_error_None; lia).
      apply nth_error_None. rewrite map2_length; lia.
  - destruct (replace_types_spin argsort (sorts_argsort_ok _ Hs) st Hl (spread blocks) D Hcov)
      as [st' [E1 [E2 [E3 [E4 [E5 E6]]]]]].
    exists st'. split; [exact E1|]. split; [|auto].
    apply nth_error_ext. intros i.
    destruct (nth_error (elements st) i) as [e|] eqn:Ei.
    + assert (i < length (types st)) as Hlt by (rewrite Hl; apply nth_error_Some; congruence).
      apply nth_error_Some in Hlt. destruct (nth_error (types st) i) as [t|] eqn:Et; [|congruence].
      destruct (E6 _ _ _ Ei Et) as [z [Hz Ha]]. rewrite Hz. f_equal.
      eapply assigned_same; eassumption.
    + apply nth_error_None in Ei.
      assert (nth_error (types st) i = None) as -> by (apply nth_error_None; lia).
      apply nth_error_None. lia.
Qed.

(** Permuting: the atoms with their types, positions and forces are unchanged as a multiset. *)
Lemma permute_spins_aligned {P A V} argsort (pzero : P) (det : A -> V) (st : structure P A V) f blocks :
  sorts argsort ->
  length (types st) = length (elements st) -> length (positions st) = length (elements st) ->
  length f = length (elements st) ->
  NoDup (map fst blocks) ->
  (forall i e t, nth_error (elements st) i = Some e -> nth_error (types st) i = Some t ->
    (0 <= t)%Z /\ nth_error (spread blocks) (Z.to_nat t) = Some e) ->
  (forall j e, nth_error (spread blocks) j = Some e ->
    exists i, nth_error (elements st) i = Some e /\ nth_error (types st) i = Some (Z.of_nat j)) ->
  exists st' f', permute_atoms_with_spins pzero det argsort st (spread blocks) (Some f) = Ok (st', Some f')
    /\ StronglySorted Z.le (types st')
    /\ length (elements st') = length (elements st)
    /\ Permutation (combine (records (elements st') (positions st') f') (types st'))
                   (combine (records (elements st) (positions st) f) (types st))
    /\ n_atoms st' = map (fun k => count_occ Z.eq_dec (types st') (Z.of_nat k))
                         (seq 0 (length (spread blocks))).
Proof.
  intros Hs Hl Hp Hf Hb Hal Hco. pose proof (elements_covered st Hl blocks Hal) as Hcov.
  destruct (permute_spins_ok argsort (sorts_argsort_ok _ Hs) st Hl pzero (Some f) Hp Hf det
              (spread blocks) Hcov)
    as [st' [f' [ids [E1 [E2 [E3 [E4 [[fs [-> E5]] [E6 [E7 [E8 E9]]]]]]]]]]].
  exists st', fs. split; [exact E1|]. split; [exact E7|].
  assert (L3 := reads_length _ _ _ E3). pose proof (Permutation_length E2) as L2. rewrite seq_length in L2.
  split; [lia|]. split.
  - assert (E6' : reads (types st) ids (types st')).
    { eapply Forall2_impl; [|exact E6]. cbn. intros i z [e [t [H1 [H2 H3]]]]. rewrite H2. f_equal.
      symmetry. eapply assigned_same; eassumption. }
    assert (R : reads (combine (records (elements st) (positions st) f) (types st)) ids
                      (combine (records (elements st') (positions st') fs) (types st'))).
    { assert (Hc : forall X Y (l1 : list X) (l2 : list Y) v1 v2,
                length l1 = length l2 ->
                reads l1 ids v1 -> reads l2 ids v2 -> reads (combine l1 l2) ids (combine v1 v2)).
      { clear. intros X Y l1 l2 v1 v2 HL H1. revert v2. induction H1 as [|i a ids v1 Ha _ IH]; intros v2 H2.
        - constructor.
        - inversion H2 as [|i' b ids' v2' Hb' H2']; subst. cbn. constructor; [|apply IH; assumption].
          clear - Ha Hb' HL. revert l2 i Ha Hb' HL. induction l1 as [|x l1 IH]; intros [|y l2] [|i] Ha Hb HL;
            cbn in *; try discriminate.
          + congruence.
          + apply IH; auto. }
      unfold records. repeat apply Hc; auto; rewrite ?combine_length; lia. }
    apply mapM_get_Forall2 in R.
    destruct (mapM_get_perm _ _ _ _ E2 R) as [vs' [R2 R3]].
    set (big := combine (records (elements st) (positions st) f) (types st)) in *.
    assert (LB : length big = length (elements st)).
    { unfold big, records. rewrite !combine_length. lia. }
    rewrite <- LB, mapM_get_seq in R2. injection R2 as <-. exact R3.
  - rewrite E8. f_equal. f_equal. rewrite fromkeys_spread by exact Hb.
    rewrite <- (app_nil_r blocks) at 2. rewrite (off_aligned st Hl blocks Hb Hal Hco blocks []) by now rewrite app_nil_r.
    now rewrite app_nil_r.
Qed.

(** A concrete argsort meeting the specification: insertion sort of positions. *)
Fixpoint pinsert (l : list Z) (i : nat) (s : list nat) : list nat :=
  match s with
  | [] => [i]
  | j :: t => match nth_error l i, nth_error l j with
              | Some a, Some b => if (a <=? b)%Z then i :: s else j :: pinsert l i t
              | _, _ => i :: s
              end
  end.
Definition insertion_argsort (l : list Z) : list nat :=
  fold_right (pinsert l) [] (seq 0 (length l)).

Lemma pinsert_perm l i s : Permutation (pinsert l i s) (i :: s).
Proof.
  induction s as [|j s IH]; cbn; [constructor; constructor|].
  destruct (nth_error l i) as [a|]; [|reflexivity]. destruct (nth_error l j) as [b|]; [|reflexivity].
  destruct (a <=? b)%Z; [reflexivity|]. rewrite IH. apply perm_swap.
Qed.

Definition le_at (l : list Z) (i j : nat) : Prop :=
  forall a b, nth_error l i = Some a -> nth_error l j = Some b -> (a <= b)%Z.

Lemma pinsert_sorted l i s : i < length l -> Forall (fun j => j < length l) s ->
  StronglySorted (le_at l) s -> StronglySorted (le_at l) (pinsert l i s).
Proof.
  intros Hi Hb Hs. induction Hs as [|j s Hs IH Hf]; cbn.
  - repeat constructor.
  - inversion Hb as [|? ? Hj Hb']; subst.
    apply nth_error_Some in Hi as Hi'. apply nth_error_Some in Hj as Hj'.
    destruct (nth_error l i) as [a|] eqn:Ea; [|congruence].
    destruct (nth_error l j) as [b|] eqn:Eb; [|congruence].
    destruct (a <=? b)%Z eqn:C.
    + constructor; [constructor; assumption|]. constructor.
      * intros x y Hx Hy. rewrite Ea in Hx. rewrite Eb in Hy. injection Hx as <-. injection Hy as <-. lia.
      * eapply Forall_impl; [|exact Hf]. intros k Hk x y Hx Hy.
        rewrite Ea in Hx. injection Hx as <-. specialize (Hk b y Eb Hy). lia.
    + constructor; [apply IH; assumption|].
      apply (Permutation_Forall (Permutation_sym (pinsert_perm l i s))). constructor; [|exact Hf].
      intros x y Hx Hy. rewrite Eb in Hx. rewrite Ea in Hy. injection Hx as <-. injection Hy as <-. lia.
Qed.

Lemma insertion_argsort_sorts : sorts insertion_argsort.
Proof.
  intros l. unfold insertion_argsort.
  assert (G : forall is, Forall (fun j => j < length l) is ->
     Permutation (fold_right (pinsert l) [] is) is /\ StronglySorted (le_at l) (fold_right (pinsert l) [] is)).
  { induction 1 as [|i is Hi Hf [IH1 IH2]]; cbn; [split; constructor|]. split.
    - rewrite pinsert_perm. constructor. exact IH1.
    - apply pinsert_sorted; [exact Hi| |exact IH2].
      eapply Permutation_Forall; [symmetry; exact IH1|exact Hf]. }
  destruct (G (seq 0 (length l))) as [G1 G2].
  { apply Forall_forall. intros i Hi. apply in_seq in Hi. lia. }
  split; [exact G1|]. intros vs Hv. clear G1.
  induction Hv as [|i v is vs Hiv Hv IH]; [constructor|].
  inversion G2 as [|? ? Gs Gf]; subst. constructor; [apply IH; exact Gs|].
  clear - Hiv Gf Hv. induction Hv as [|j w js ws Hjw _ IH]; [constructor|].
  inversion Gf; subst. constructor; [|apply IH; assumption]. eapply H1; eassumption.
Qed.

Import String.StringSyntax.
Local Open Scope string_scope.

Lemma replace_types_missing_channel :
  exists (argsort : list Z -> list nat) (st st' : structure Z unit unit),
    sorts argsort /\
    (forall i e t, nth_error (elements st) i = Some e -> nth_error (types st) i = Some t ->
       (0 <= t)%Z /\ nth_error (spread [("Fe", 1); ("O", 0)]) (Z.to_nat t) = Some e) /\
    replace_types argsort st (spread [("Fe", 1); ("O", 0)]) = Ok st' /\
    types st = [1; 2]%Z /\ types st' = [0; 1]%Z.
Proof.
  exists insertion_argsort,
    (mk_structure tt [10; 20]%Z [1; 1] ["Fe"; "O"] [1; 2]%Z tt None),
    (mk_structure tt [10; 20]%Z [1; 1] ["Fe"; "O"] [0; 1]%Z tt None).
  split; [exact insertion_argsort_sorts|]. split; [|split; [vm_compute; reflexivity|auto]].
  intros [|[|[|i]]] e t H1 H2; cbn in *; try discriminate;
      injection H1 as <-; injection H2 as <-; (split; [lia|reflexivity]).
Qed.

Lemma permute_missing_element :
  exists (argsort : list Z -> list nat) (st st' : structure Z unit unit),
    sorts argsort /\
    permute_atoms_with_spins 0%Z (fun _ => tt) argsort st ["Mg"; "O"] None = Ok (st', None) /\
    elements st' = ["O"] /\ types st' = [0]%Z /\ n_atoms st' = [1].
Proof.
  exists insertion_argsort,
    (mk_structure tt [10]%Z [0; 1] ["O"] [1]%Z tt None),
    (mk_structure tt [10]%Z [1] ["O"] [0]%Z tt None).
  split; [exact insertion_argsort_sorts|]. split; [vm_compute; reflexivity|auto].
Qed.
