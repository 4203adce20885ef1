From Verif Require Import Base Model.Split.
From Coq Require Import ZifyBool ZifyNat.
Ltac Zify.zify_post_hook ::= Z.div_mod_to_equations.
Local Open Scope Z_scope.

Lemma rhe_bounds a b : 0 < b -> 2 * a - b <= 2 * b * round_half_even a b <= 2 * a + b.
Proof.
  intros Hb. unfold round_half_even.
  pose proof (Z.div_mod a b ltac:(lia)) as E.
  pose proof (Z.mod_pos_bound a b Hb) as M.
  set (q := a / b) in *. set (r := a mod b) in *. clearbody q r. subst a.
  destruct (2 * r <? b) eqn:H1; [nia|].
  destruct (b <? 2 * r) eqn:H2; [nia|].
  destruct (Z.even q); nia.
Qed.

(** Rounding respects integer lower/upper bounds. *)
Lemma rhe_ge a b k : 0 < b -> k * b <= a -> k <= round_half_even a b.
Proof. intros Hb H. pose proof (rhe_bounds a b Hb). nia. Qed.
Lemma rhe_le a b k : 0 < b -> a <= k * b -> round_half_even a b <= k.
Proof. intros Hb H. pose proof (rhe_bounds a b Hb). nia. Qed.

Lemma rhe_exact b k : 0 < b -> round_half_even (k * b) b = k.
Proof.
  intros Hb. apply Z.le_antisymm; [apply rhe_le|apply rhe_ge]; lia.
Qed.

(** With a step of exactly one this fails on ties (1.5 and 2.5 both round to 2),
    so the step has to exceed one. *)
Lemma rhe_step a c b : 0 < b -> b < c - a -> round_half_even a b < round_half_even c b.
Proof.
  intros Hb Hd. unfold round_half_even.
  pose proof (Z.div_mod a b ltac:(lia)) as E1.
  pose proof (Z.mod_pos_bound a b Hb) as M1.
  pose proof (Z.div_mod c b ltac:(lia)) as E2.
  pose proof (Z.mod_pos_bound c b Hb) as M2.
  set (q1 := a / b) in *. set (r1 := a mod b) in *.
  set (q2 := c / b) in *. set (r2 := c mod b) in *.
  clearbody q1 r1 q2 r2. subst a c.
  assert (q1 + 1 <= q2) by nia.
  assert (q1 + 2 <= q2 \/ (q2 = q1 + 1 /\ r1 < r2)) as [H2|[-> H2]] by nia.
  - destruct (2 * r1 <? b) eqn:?, (b <? 2 * r1) eqn:?, (2 * r2 <? b) eqn:?,
      (b <? 2 * r2) eqn:?, (Z.even q1) eqn:?, (Z.even q2) eqn:?; lia.
  - replace (Z.even (q1 + 1)) with (negb (Z.even q1))
      by (rewrite Z.even_add; destruct (Z.even q1); reflexivity).
    destruct (2 * r1 <? b) eqn:?, (b <? 2 * r1) eqn:?, (2 * r2 <? b) eqn:?,
      (b <? 2 * r2) eqn:?, (Z.even q1) eqn:?; cbn [negb]; lia.
Qed.

Lemma rhe_mono a c b : 0 < b -> a <= c -> round_half_even a b <= round_half_even c b.
Proof.
  intros Hb Hd. unfold round_half_even.
  pose proof (Z.div_mod a b ltac:(lia)) as E1.
  pose proof (Z.mod_pos_bound a b Hb) as M1.
  pose proof (Z.div_mod c b ltac:(lia)) as E2.
  pose proof (Z.mod_pos_bound c b Hb) as M2.
  set (q1 := a / b) in *. set (r1 := a mod b) in *.
  set (q2 := c / b) in *. set (r2 := c mod b) in *.
  clearbody q1 r1 q2 r2. subst a c.
  assert (q1 + 1 <= q2 \/ (q2 = q1 /\ r1 <= r2)) as [H2|[-> H2]] by nia.
  - destruct (2 * r1 <? b) eqn:?, (b <? 2 * r1) eqn:?, (2 * r2 <? b) eqn:?,
      (b <? 2 * r2) eqn:?, (Z.even q1) eqn:?, (Z.even q2) eqn:?; lia.
  - destruct (2 * r1 <? b) eqn:?, (b <? 2 * r1) eqn:?, (2 * r2 <? b) eqn:?,
      (b <? 2 * r2) eqn:?, (Z.even q1) eqn:?; lia.
Qed.

Section Fixed.
  Variables (n m : nat).
  Hypothesis Hm : (m <= n)%nat.

  (** The list of test ids as naturals. *)
  Definition tid (i : nat) : nat :=
    if (m =? 1)%nat then 0%nat
    else Z.to_nat (round_half_even (Z.of_nat i * (Z.of_nat n - 1)) (Z.of_nat m - 1)).

  Lemma tid_bounds i : (i < m)%nat ->
    m <> 1%nat ->
    0 <= round_half_even (Z.of_nat i * (Z.of_nat n - 1)) (Z.of_nat m - 1) < Z.of_nat n.
  Proof.
    intros Hi H1. split.
    - apply rhe_ge; nia.
    - enough (round_half_even (Z.of_nat i * (Z.of_nat n - 1)) (Z.of_nat m - 1) <= Z.of_nat n - 1) by lia.
      apply rhe_le; nia.
  Qed.

  Lemma tid_lt i : (i < m)%nat -> (tid i < n)%nat.
  Proof.
    intros Hi. unfold tid. destruct (m =? 1)%nat eqn:E; [lia|].
    pose proof (tid_bounds i Hi ltac:(lia)). lia.
  Qed.

  Lemma tid_mono i j : (i < j)%nat -> (j < m)%nat -> (tid i < tid j)%nat.
  Proof.
    intros Hij Hj. unfold tid. destruct (m =? 1)%nat eqn:E; [lia|].
    pose proof (tid_bounds i ltac:(lia) ltac:(lia)).
    pose proof (tid_bounds j ltac:(lia) ltac:(lia)).
    enough (round_half_even (Z.of_nat i * (Z.of_nat n - 1)) (Z.of_nat m - 1)
            < round_half_even (Z.of_nat j * (Z.of_nat n - 1)) (Z.of_nat m - 1)) by lia.
    destruct (Nat.eq_dec m n) as [Emn|Nmn].
    - rewrite <- Emn, !rhe_exact by lia. lia.
    - apply rhe_step; nia.
  Qed.

  Lemma tid_first : (1 <= m)%nat -> tid 0 = 0%nat.
  Proof.
    intros H1. unfold tid. destruct (m =? 1)%nat eqn:E; [reflexivity|].
    change (Z.of_nat 0 * (Z.of_nat n - 1)) with (0 * (Z.of_nat m - 1)).
    rewrite rhe_exact by lia. reflexivity.
  Qed.

  Lemma tid_last : (2 <= m)%nat -> tid (m - 1) = (n - 1)%nat.
  Proof.
    intros H2. unfold tid. destruct (m =? 1)%nat eqn:E; [lia|].
    replace (Z.of_nat (m - 1) * (Z.of_nat n - 1)) with ((Z.of_nat n - 1) * (Z.of_nat m - 1)) by lia.
    rewrite rhe_exact; lia.
  Qed.
End Fixed.

Lemma linspace_tid n m : (m <= n)%nat ->
  exists l, linspace_ids (Z.of_nat n) (Z.of_nat m) = Ok l /\
            mapM (np_index (Z.of_nat n)) l = Ok (map (tid n m) (seq 0 m)).
Proof.
  intros Hm. unfold linspace_ids.
  replace (Z.of_nat m <? 0) with false by lia.
  destruct (Z.of_nat m =? 1) eqn:E.
  - assert (m = 1%nat) as -> by lia. eexists; split; [reflexivity|].
    cbn [seq map mapM]. unfold np_index.
    replace ((- Z.of_nat n <=? 0) && (0 <? Z.of_nat n)) with true by lia. reflexivity.
  - eexists; split; [reflexivity|]. rewrite Nat2Z.id.
    assert (m <> 1%nat) as H1 by lia.
    assert (H : forall i, In i (seq 0 m) -> (i < m)%nat) by (intros i; rewrite in_seq; lia).
    induction (seq 0 m) as [|i l IH]; [reflexivity|].
    cbn [map mapM]. rewrite IH by (intros; apply H; right; assumption).
    pose proof (tid_bounds n m Hm i (H i (or_introl eq_refl)) H1) as B.
    unfold np_index at 1.
    set (x := round_half_even _ _) in *.
    replace ((- Z.of_nat n <=? x) && (x <? Z.of_nat n)) with true by lia.
    replace (x <? 0) with false by lia. cbn [bind].
    unfold tid at 2. replace (m =? 1)%nat with false by lia. reflexivity.
Qed.

Lemma where_from_map_seq (p : nat -> bool) k b n :
  where_from k (fun x : bool => x) (map p (seq b n))
  = map (fun i => (i - b + k)%nat) (filter p (seq b n)).
Proof.
  revert k b; induction n as [|n IH]; intros k b; [reflexivity|].
  cbn [seq map where_from filter]. rewrite IH.
  assert (E : map (fun i => (i - S b + S k)%nat) (filter p (seq (S b) n))
            = map (fun i => (i - b + k)%nat) (filter p (seq (S b) n))).
  { apply map_ext_in. intros i Hi. apply filter_In in Hi. destruct Hi as [Hi _].
    apply in_seq in Hi. lia. }
  destruct (p b); cbn [map]; rewrite E; [|reflexivity].
  f_equal. lia.
Qed.

Lemma where_map_seq p n : where_ (fun x : bool => x) (map p (seq 0 n)) = filter p (seq 0 n).
Proof.
  unfold where_. rewrite where_from_map_seq. rewrite <- (map_id (filter p (seq 0 n))) at 2.
  apply map_ext. intros. lia.
Qed.

Lemma sorted_map_tid n m : (m <= n)%nat -> StronglySorted lt (map (tid n m) (seq 0 m)).
Proof.
  intros Hm.
  assert (H : forall k b, (b + k <= m)%nat -> StronglySorted lt (map (tid n m) (seq b k))).
  { induction k as [|k IH]; intros b Hb; cbn; constructor; [apply IH; lia|].
    apply Forall_forall. intros x Hx. apply in_map_iff in Hx. destruct Hx as [j [<- Hj]].
    apply in_seq in Hj. apply tid_mono; lia. }
  apply H. lia.
Qed.

Lemma complement_perm (t : list nat) n :
  NoDup t -> (forall i, In i t -> (i < n)%nat) ->
  Permutation (filter (fun i => negb (mem i t)) (seq 0 n) ++ t) (seq 0 n).
Proof.
  intros Hd Hr. apply NoDup_Permutation.
  - rewrite <- rev_involutive. apply NoDup_rev. rewrite rev_app_distr.
    apply NoDup_rev in Hd. 
    assert (G : forall a b : list nat, NoDup a -> NoDup b -> (forall x, In x a -> ~ In x b) -> NoDup (a ++ b)).
    { clear. induction a as [|x a IH]; cbn; intros b Ha Hb H; [exact Hb|].
      inversion Ha; subst. constructor.
      - rewrite in_app_iff. intros [?|?]; [auto|]. eapply H; eauto.
      - apply IH; auto. }
    apply G; [exact Hd|apply NoDup_rev, NoDup_filter, seq_NoDup|].
    intros x Hx Hy. apply in_rev in Hx, Hy. apply filter_In in Hy. destruct Hy as [_ Hy].
    apply negb_true_iff, mem_false in Hy. auto.
  - apply seq_NoDup.
  - intros x. rewrite in_app_iff, filter_In, in_seq, negb_true_iff, mem_false. split.
    + intros [[? _]|H]; [lia|]. apply Hr in H. lia.
    + intros H. destruct (in_dec Nat.eq_dec x t); [right; auto|left; split; [lia|auto]].
Qed.

(** Main lemma about ids. *)
Lemma split_ids_spec n p q :
  0 < q -> 0 <= p <= q ->
  exists train test,
    split_ids_train_test n p q = Ok (train, test) /\
    Permutation (train ++ test) (seq 0 n) /\
    StronglySorted lt train /\ StronglySorted lt test /\
    Z.of_nat (length train) = round_half_even (Z.of_nat n * p) q /\
    (1 <= length test -> In 0 test)%nat /\
    (2 <= length test -> In (n - 1) test)%nat.
Proof.
  intros Hq Hp.
  assert (0 <= round_half_even (Z.of_nat n * p) q <= Z.of_nat n) as Hn
    by (split; [apply rhe_ge|apply rhe_le]; nia).
  set (nt := round_half_even (Z.of_nat n * p) q) in *.
  set (m := Z.to_nat (Z.of_nat n - nt)).
  assert (Hm : (m <= n)%nat) by lia.
  destruct (linspace_tid n m Hm) as [l [El Ml]].
  exists (filter (fun i => negb (mem i (map (tid n m) (seq 0 m)))) (seq 0 n)),
         (map (tid n m) (seq 0 m)).
  assert (P : Permutation
     (filter (fun i => negb (mem i (map (tid n m) (seq 0 m)))) (seq 0 n) ++ map (tid n m) (seq 0 m))
     (seq 0 n)).
  { apply complement_perm.
    - apply StronglySorted_lt_NoDup, sorted_map_tid, Hm.
    - intros i Hi. apply in_map_iff in Hi. destruct Hi as [j [<- Hj]]. apply in_seq in Hj.
      apply tid_lt; lia. }
  repeat split.
  - unfold split_ids_train_test. fold nt.
    replace (Z.of_nat n - nt) with (Z.of_nat m) by lia.
    rewrite El. cbn [bind]. rewrite Ml. cbn [bind]. rewrite where_map_seq. reflexivity.
  - exact P.
  - apply StronglySorted_filter, StronglySorted_seq.
  - apply sorted_map_tid, Hm.
  - apply Permutation_length in P. rewrite app_length, map_length, !seq_length in P. lia.
  - rewrite map_length, seq_length. intros H. apply in_map_iff. exists 0%nat.
    rewrite in_seq. split; [apply tid_first; lia|lia].
  - rewrite map_length, seq_length. intros H. apply in_map_iff. exists (m - 1)%nat.
    rewrite in_seq. split; [apply tid_last; lia|lia].
Qed.

Lemma mapM_get {A} (l : list A) ids :
  (forall i, In i ids -> (i < length l)%nat) ->
  exists r, mapM (get l) ids = Ok r /\ Forall2 (fun i a => nth_error l i = Some a) ids r.
Proof.
  induction ids as [|i ids IH]; cbn; intros H; [eexists; split; [reflexivity|constructor]|].
  destruct IH as [r [-> Hr]]; [intros; apply H; right; assumption|].
  destruct (nth_error l i) as [a|] eqn:E.
  - unfold get at 1. rewrite E. cbn. eexists; split; [reflexivity|]. constructor; auto.
  - apply nth_error_None in E. specialize (H i (or_introl eq_refl)). lia.
Qed.

Lemma Forall2_nth_perm {A} (l : list A) ids r :
  Forall2 (fun i a => nth_error l i = Some a) ids r ->
  Permutation ids (seq 0 (length l)) -> Permutation r l.
Proof.
  intros F P.
  assert (Hm : map Some r = map (nth_error l) ids).
  { clear P. induction F as [|i a ids r Hi F IH]; cbn; [reflexivity|].
    rewrite Hi, IH. reflexivity. }
  assert (Hs : map (nth_error l) (seq 0 (length l)) = map Some l).
  { clear. assert (G : forall pre l, map (nth_error (pre ++ l)) (seq (length pre) (length l)) = @map A _ Some l).
    { intros pre l0; revert pre; induction l0 as [|a l0 IH]; intros pre; cbn; [reflexivity|].
      rewrite nth_error_app2, Nat.sub_diag by lia. cbn. f_equal.
      specialize (IH (pre ++ [a])). rewrite <- app_assoc in IH. cbn in IH.
      rewrite app_length in IH. cbn in IH. rewrite Nat.add_1_r in IH. exact IH. }
    apply (G []). }
  assert (Pm : Permutation (map Some r) (map Some l)).
  { rewrite Hm, <- Hs. apply Permutation_map, P. }
  clear -Pm.
  set (f := fun o : option A => match o with Some a => [a] | None => [] end).
  assert (F : forall l, flat_map f (map Some l) = l).
  { induction l0 as [|a l0 IH]; cbn; [reflexivity|]. rewrite IH. reflexivity. }
  rewrite <- (F r), <- (F l). apply Permutation_flat_map, Pm.
Qed.

Lemma split_files_spec {A} (files : list A) p q :
  0 < q -> 0 <= p <= q ->
  exists train test,
    split_train_test files p q = Ok (train, test) /\
    Permutation (train ++ test) files /\
    Z.of_nat (length train) = round_half_even (Z.of_nat (length files) * p) q.
Proof.
  intros Hq Hp.
  destruct (split_ids_spec (length files) p q Hq Hp) as
    [tr [te [E [P [_ [_ [L _]]]]]]].
  assert (In_ : forall i, In i (tr ++ te) -> (i < length files)%nat).
  { intros i Hi. apply (Permutation_in _ P) in Hi. apply in_seq in Hi. lia. }
  destruct (mapM_get files tr) as [a [Ea Fa]]; [intros; apply In_, in_app_iff; auto|].
  destruct (mapM_get files te) as [b [Eb Fb]]; [intros; apply In_, in_app_iff; auto|].
  exists a, b. repeat split.
  - unfold split_train_test. rewrite E. cbn [bind]. rewrite Ea. cbn [bind]. rewrite Eb. reflexivity.
  - eapply Forall2_nth_perm; [apply Forall2_app; eassumption|exact P].
  - rewrite <- L. apply Forall2_length in Fa. congruence.
Qed.

Lemma split_ratio_gt_one n p q :
  0 < q -> Z.of_nat n < round_half_even (Z.of_nat n * p) q ->
  split_ids_train_test n p q = Err ValueError.
Proof.
  intros Hq H. unfold split_ids_train_test, linspace_ids.
  replace (Z.of_nat n - round_half_even (Z.of_nat n * p) q <? 0) with true by lia. reflexivity.
Qed.

Lemma split_ids_full n p q :
  0 < q -> 0 <= p <= q ->
  exists train test,
    split_ids_train_test n p q = Ok (train, test) /\
    Permutation (train ++ test) (seq 0 n) /\
    StronglySorted lt train /\ StronglySorted lt test /\
    Z.abs (2 * q * Z.of_nat (length train) - 2 * Z.of_nat n * p) <= q /\
    (Z.abs (2 * q * Z.of_nat (length train) - 2 * Z.of_nat n * p) = q ->
     Nat.even (length train) = true) /\
    (1 <= length test -> In 0 test)%nat /\
    (2 <= length test -> In (n - 1) test)%nat.
Proof.
  intros Hq Hp. destruct (split_ids_spec n p q Hq Hp) as [tr [te [E [P [S1 [S2 [L [F1 F2]]]]]]]].
  exists tr, te. repeat (split; [assumption|]).
  assert (G : forall a, 0 <= a -> let r := round_half_even a q in
     Z.abs (2 * q * r - 2 * a) <= q /\ (Z.abs (2 * q * r - 2 * a) = q -> Z.even r = true)).
  { intros a Ha. unfold round_half_even.
    pose proof (Z.div_mod a q ltac:(lia)) as D. pose proof (Z.mod_pos_bound a q Hq) as M.
    set (d := a / q) in *. set (m := a mod q) in *.
    assert (X : forall k, 2 * q * (d + k) - 2 * a = 2 * (q * k) - 2 * m) by (intros; rewrite D; ring).
    destruct (2 * m <? q) eqn:C1.
    - replace d with (d + 0) by ring. rewrite X. split; [lia|]. intros; lia.
    - destruct (q <? 2 * m) eqn:C2.
      + rewrite X. split; [lia|intros; lia].
      + destruct (Z.even d) eqn:C3.
        * replace (2 * q * d) with (2 * q * (d + 0)) by ring. rewrite X. split; [lia|auto].
        * rewrite X. split; [lia|]. intros _. rewrite Z.even_add, C3. reflexivity. }
  destruct (G (Z.of_nat n * p) ltac:(nia)) as [G1 G2]. rewrite <- L in *.
  replace (2 * Z.of_nat n * p) with (2 * (Z.of_nat n * p)) by ring.
  split; [exact G1|]. split; [|auto].
  intros H. specialize (G2 H). rewrite <- G2. symmetry. clear.
  assert (Hev : forall k, Z.even (Z.of_nat k) = Nat.even k).
  { induction k as [|k IH]; [reflexivity|].
    rewrite Nat2Z.inj_succ, Z.even_succ, <- Z.negb_even, IH, Nat.even_succ, <- Nat.negb_even. reflexivity. }
  apply Hev.
Qed.

Lemma split_files_ids {A} (files : list A) p q :
  0 < q -> 0 <= p <= q ->
  exists tri tei train test,
    split_ids_train_test (length files) p q = Ok (tri, tei) /\
    split_train_test files p q = Ok (train, test) /\
    Forall2 (fun i f => nth_error files i = Some f) tri train /\
    Forall2 (fun i f => nth_error files i = Some f) tei test /\
    Permutation (train ++ test) files.
Proof.
  intros Hq Hp.
  destruct (split_ids_spec (length files) p q Hq Hp) as
    [tr [te [E [P [_ [_ [L _]]]]]]].
  assert (In_ : forall i, In i (tr ++ te) -> (i < length files)%nat).
  { intros i Hi. apply (Permutation_in _ P) in Hi. apply in_seq in Hi. lia. }
  destruct (mapM_get files tr) as [a [Ea Fa]]; [intros; apply In_, in_app_iff; auto|].
  destruct (mapM_get files te) as [b [Eb Fb]]; [intros; apply In_, in_app_iff; auto|].
  exists tr, te, a, b. repeat split; auto.
  - unfold split_train_test. rewrite E. cbn [bind]. rewrite Ea. cbn [bind]. rewrite Eb. reflexivity.
  - eapply Forall2_nth_perm; [apply Forall2_app; eassumption|exact P].
Qed.
