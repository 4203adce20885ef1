(** Numbering lemmas: type pairs (C16) and order-parameter keys (C17). *)
From Verif Require Import Base Model.Cxx Model.Mapping Proofs.Cxx.

(** Concatenations indexed by consecutive numbers. *)
Section FlatSeq.
  Context {A : Type} (f : nat -> list A).
  Definition off (n : nat) : nat := sum (map (fun k => length (f k)) (seq 0 n)).
  Lemma off_S n : off (S n) = off n + length (f n).
  Proof. unfold off. rewrite seq_S, map_app, sum_app. cbn. lia. Qed.
  Lemma off_mono a b : a <= b -> off a <= off b.
  Proof. induction 1; [reflexivity|]. rewrite off_S. lia. Qed.
  Lemma flat_seq_S n : flat_map f (seq 0 (S n)) = flat_map f (seq 0 n) ++ f n.
  Proof. rewrite seq_S, flat_map_app. cbn. now rewrite app_nil_r. Qed.
  Lemma flat_seq_length n : length (flat_map f (seq 0 n)) = off n.
  Proof. induction n as [|n IH]; [reflexivity|]. rewrite flat_seq_S, app_length, IH, off_S. reflexivity. Qed.
  Lemma flat_seq_nth n i j d : i < n -> j < length (f i) -> nth (off i + j) (flat_map f (seq 0 n)) d = nth j (f i) d.
  Proof.
    induction n as [|n IH]; intros Hi Hj; [lia|]. rewrite flat_seq_S.
    destruct (Nat.eq_dec i n) as [->|E].
    - rewrite app_nth2 by (rewrite flat_seq_length; lia). f_equal. rewrite flat_seq_length. lia.
    - rewrite app_nth1; [apply IH; lia|]. rewrite flat_seq_length.
      assert (off (S i) <= off n) by (apply off_mono; lia). rewrite off_S in H. lia.
  Qed.
  Lemma flat_seq_inv n g : g < off n -> exists i j, i < n /\ j < length (f i) /\ g = off i + j.
  Proof.
    induction n as [|n IH]; intros H; [cbn in H; lia|]. rewrite off_S in H.
    destruct (Nat.lt_ge_cases g (off n)) as [L|L].
    - destruct (IH L) as [i [j [Hi Hj]]]. exists i, j. split; [lia|exact Hj].
    - exists n, (g - off n). lia.
  Qed.
End FlatSeq.

(** * Type pairs *)
Lemma tp_loop_In n i j : In (i, j) (tp_loop n) <-> i <= j < n.
Proof.
  unfold tp_loop. rewrite in_flat_map. split.
  - intros [x [Hx H]]. apply in_seq in Hx. apply in_map_iff in H. destruct H as [y [E Hy]].
    injection E as -> ->. apply in_seq in Hy. lia.
  - intros H. exists i. split; [apply in_seq; lia|]. apply in_map_iff. exists j. split; [reflexivity|apply in_seq; lia].
Qed.
Lemma NoDup_app_intro {A} (a b : list A) : NoDup a -> NoDup b -> (forall x, In x a -> ~ In x b) -> NoDup (a ++ b).
Proof.
  induction 1 as [|x a Hn Hd IH]; intros Hb H; cbn; [exact Hb|].
  constructor; [|apply IH; [exact Hb|intros y Hy; apply H; now right]].
  rewrite in_app_iff. intros [C|C]; [contradiction|]. exact (H x (or_introl eq_refl) C).
Qed.
Lemma NoDup_flat_map {A B} (f : A -> list B) l :
  NoDup l -> (forall x, In x l -> NoDup (f x)) ->
  (forall x y z, In x l -> In y l -> In z (f x) -> In z (f y) -> x = y) -> NoDup (flat_map f l).
Proof.
  induction 1 as [|x l Hn Hd IH]; intros H1 H2; cbn; [constructor|].
  apply NoDup_app_intro.
  - apply H1. now left.
  - apply IH; [intros; apply H1; now right|]. intros a b z Ha Hb. apply H2; now right.
  - intros z Hz C. apply in_flat_map in C. destruct C as [y [Hy Hz']].
    assert (x = y) by (apply (H2 x y z); [now left|now right|assumption|assumption]). subst. contradiction.
Qed.
Lemma tp_loop_nodup n : NoDup (tp_loop n).
Proof.
  unfold tp_loop. apply NoDup_flat_map; [apply seq_NoDup| |].
  - intros i _. apply FinFun.Injective_map_NoDup; [intros a b E; congruence|apply seq_NoDup].
  - intros x y z _ _ Hx Hy. apply in_map_iff in Hx, Hy. destruct Hx as [? [<- _]], Hy as [? [E _]]. congruence.
Qed.
Lemma tp_loop_length n : 2 * length (tp_loop n) = n * (n + 1).
Proof.
  unfold tp_loop.
  assert (G : forall k, k <= n -> 2 * length (flat_map (fun i => map (pair i) (seq i (n - i))) (seq (n - k) k)) = k * (k + 1)).
  { induction k as [|k IH]; intros Hk; [reflexivity|]. cbn [seq flat_map].
    rewrite app_length, map_length, seq_length. replace (S (n - S k)) with (n - k) by lia.
    specialize (IH ltac:(lia)). nia. }
  specialize (G n (le_n n)). now rewrite Nat.sub_diag in G.
Qed.

Definition ent (t : list (list nat)) i j := nth j (nth i t []) 0.
Definition dims (n : nat) (t : list (list nat)) := length t = n /\ forall i, i < n -> length (nth i t []) = n.
Lemma set2_dims n i j v t : dims n t -> dims n (set2 i j v t).
Proof.
  intros [H1 H2]. unfold set2. split; [now rewrite upd_length|]. intros k Hk. rewrite upd_nth.
  destruct ((k =? i) && (i <? length t)) eqn:E; [|auto].
  apply andb_true_iff in E. destruct E as [E _]. apply Nat.eqb_eq in E. subst. rewrite upd_length. auto.
Qed.
Lemma set2_ent n i j v t a b : dims n t -> i < n -> j < n ->
  ent (set2 i j v t) a b = if (a =? i) && (b =? j) then v else ent t a b.
Proof.
  intros [H1 H2] Hi Hj. unfold ent, set2. rewrite upd_nth.
  assert (i <? length t = true) as -> by (apply Nat.ltb_lt; lia). rewrite andb_true_r.
  destruct (Nat.eqb_spec a i) as [->|E]; cbn [andb]; [|reflexivity].
  rewrite upd_nth. rewrite H2 by exact Hi.
  assert (j <? n = true) as -> by (apply Nat.ltb_lt; lia). rewrite andb_true_r.
  reflexivity.
Qed.

Lemma tp_fold n L : NoDup L -> (forall i j, In (i, j) L -> i <= j < n) ->
  let st := fold_left tp_step L (repeat (repeat 0 n) n, []) in
  snd st = L /\ dims n (fst st) /\
  forall k i j, nth_error L k = Some (i, j) -> ent (fst st) i j = k /\ ent (fst st) j i = k.
Proof.
  induction L as [|[i j] L IH] using rev_ind; intros Hd HL; cbn zeta in *.
  - cbn. split; [reflexivity|]. split.
    + split; [apply repeat_length|]. intros i Hi.
      rewrite (nth_indep _ [] (repeat 0 n)) by (rewrite repeat_length; exact Hi).
      rewrite nth_repeat. apply repeat_length.
    + intros [|k] i j; discriminate.
  - rewrite fold_left_app. cbn [fold_left].
    apply NoDup_remove in Hd. rewrite app_nil_r in Hd. destruct Hd as [Hd Hn].
    destruct IH as [I1 [I2 I3]]; [exact Hd|intros; apply HL; apply in_app_iff; now left|].
    destruct (fold_left tp_step L _) as [tbl ty]. cbn [fst snd] in *. subst ty.
    assert (Hij : i <= j < n) by (apply HL; apply in_app_iff; right; now left).
    cbn -[set2 ent app]. split; [reflexivity|]. split; [apply set2_dims, set2_dims, I2|].
    intros k a b Hk.
    rewrite !(set2_ent n) by (try apply set2_dims; try assumption; lia).
    destruct (Nat.lt_ge_cases k (length L)) as [Lk|Lk].
    + rewrite nth_error_app1 in Hk by exact Lk. destruct (I3 _ _ _ Hk) as [E1 E2].
      assert (Ne : (a, b) <> (i, j)) by (intros C; apply Hn; rewrite <- C; eapply nth_error_In; exact Hk).
      assert (Hab : a <= b < n) by (apply HL; apply in_app_iff; left; eapply nth_error_In; exact Hk).
      rewrite E1, E2.
      split.
      * destruct (Nat.eqb_spec a i), (Nat.eqb_spec b j); cbn; try congruence;
          destruct (Nat.eqb_spec a j), (Nat.eqb_spec b i); cbn; try congruence;
          subst; exfalso; apply Ne; f_equal; lia.
      * destruct (Nat.eqb_spec b i), (Nat.eqb_spec a j); cbn;
          destruct (Nat.eqb_spec b j), (Nat.eqb_spec a i); cbn; try congruence;
          subst; exfalso; apply Ne; f_equal; lia.
    + assert (k = length L).
      { assert (k < length (L ++ [(i, j)])) by (apply nth_error_Some; congruence). rewrite app_length in H. cbn in H. lia. }
      subst k. rewrite nth_error_app2, Nat.sub_diag in Hk by lia. injection Hk as <- <-.
      rewrite !Nat.eqb_refl. cbn.
      split; [reflexivity|]. destruct ((j =? i) && (i =? j)); reflexivity.
Qed.

Lemma tp_to_types_loop n : tp_to_types n = tp_loop n.
Proof. apply (tp_fold n (tp_loop n) (tp_loop_nodup n)). intros i j. apply tp_loop_In. Qed.
Lemma tpair_nth n k i j : nth_error (tp_to_types n) k = Some (i, j) -> tpair n i j = k /\ tpair n j i = k.
Proof.
  rewrite tp_to_types_loop. apply (tp_fold n (tp_loop n) (tp_loop_nodup n)). intros a b. apply tp_loop_In.
Qed.
Lemma tpair_sym n i j : i < n -> j < n -> tpair n i j = tpair n j i.
Proof.
  intros Hi Hj.
  assert (G : forall i j, i <= j < n -> tpair n i j = tpair n j i).
  { intros a b H. apply tp_loop_In in H. rewrite <- tp_to_types_loop in H.
    apply In_nth_error in H. destruct H as [k Hk]. apply tpair_nth in Hk. lia. }
  destruct (Nat.le_ge_cases i j); [apply G|symmetry; apply G]; lia.
Qed.
Lemma tpair_types n i j : i < n -> j < n ->
  nth_error (tp_to_types n) (tpair n i j) = Some (Nat.min i j, Nat.max i j).
Proof.
  intros Hi Hj.
  assert (G : forall i j, i <= j < n -> nth_error (tp_to_types n) (tpair n i j) = Some (i, j)).
  { intros a b H. apply tp_loop_In in H. rewrite <- tp_to_types_loop in H.
    apply In_nth_error in H. destruct H as [k Hk]. pose proof (tpair_nth _ _ _ _ Hk) as [E _]. now rewrite E. }
  destruct (Nat.le_ge_cases i j) as [L|L].
  - rewrite G by lia. now rewrite Nat.min_l, Nat.max_r by lia.
  - rewrite tpair_sym, G by lia. now rewrite Nat.min_r, Nat.max_l by lia.
Qed.
Lemma tp_types_length n : 2 * length (tp_to_types n) = n * (n + 1).
Proof. rewrite tp_to_types_loop. apply tp_loop_length. Qed.
Lemma tpair_lt n i j : i < n -> j < n -> tpair n i j < length (tp_to_types n).
Proof. intros Hi Hj. apply nth_error_Some. rewrite tpair_types by assumption. discriminate. Qed.
Lemma tpair_inj n i j k l : i < n -> j < n -> k < n -> l < n -> tpair n i j = tpair n k l ->
  (i = k /\ j = l) \/ (i = l /\ j = k).
Proof.
  intros Hi Hj Hk Hl E. pose proof (tpair_types n i j Hi Hj) as H1. pose proof (tpair_types n k l Hk Hl) as H2.
  rewrite E in H1. rewrite H1 in H2. injection H2 as H3 H4. lia.
Qed.

Theorem type_pairs_numbering n :
  2 * length (tp_to_types n) = n * (n + 1) /\
  (forall i j, i < n -> j < n ->
     tpair n i j = tpair n j i /\
     nth_error (tp_to_types n) (tpair n i j) = Some (Nat.min i j, Nat.max i j)) /\
  (forall tp, tp < length (tp_to_types n) -> exists i j, i <= j < n /\ tpair n i j = tp).
Proof.
  split; [apply tp_types_length|]. split.
  - intros i j Hi Hj. split; [now apply tpair_sym|now apply tpair_types].
  - intros tp H. apply nth_error_Some in H. destruct (nth_error (tp_to_types n) tp) as [[i j]|] eqn:E; [|congruence].
    exists i, j. split.
    + rewrite tp_to_types_loop in E. apply tp_loop_In. eapply nth_error_In; exact E.
    + now apply tpair_nth in E.
Qed.

(** * (l, m) attributes *)
Definition lmrow (l : nat) : list lmAttr :=
  map (fun k => lm_attr l (Z.of_nat k - Z.of_nat l)%Z) (seq 0 (2 * l + 1)).
Lemma lm_off l : off lmrow l = l * l.
Proof.
  induction l as [|l IH]; [reflexivity|]. rewrite off_S, IH. unfold lmrow. rewrite map_length, seq_length. lia.
Qed.
Lemma lm_attrs_length maxl : length (lm_attrs maxl) = (maxl + 1) * (maxl + 1).
Proof. change (length (flat_map lmrow (seq 0 (maxl + 1))) = (maxl + 1) * (maxl + 1)). now rewrite flat_seq_length, lm_off. Qed.
Lemma lmrow_nth l k d : k < 2 * l + 1 -> nth k (lmrow l) d = lm_attr l (Z.of_nat k - Z.of_nat l).
Proof.
  intros H. unfold lmrow.
  rewrite (nth_indep _ d (lm_attr l (Z.of_nat 0 - Z.of_nat l))) by (rewrite map_length, seq_length; exact H).
  rewrite (map_nth (fun k => lm_attr l (Z.of_nat k - Z.of_nat l)%Z) (seq 0 (2 * l + 1)) 0 k). now rewrite seq_nth.
Qed.
Lemma lm_attrs_nth maxl l k d : l <= maxl -> k < 2 * l + 1 ->
  nth (l * l + k) (lm_attrs maxl) d = lm_attr l (Z.of_nat k - Z.of_nat l).
Proof.
  intros Hl Hk. change (lm_attrs maxl) with (flat_map lmrow (seq 0 (maxl + 1))).
  rewrite <- lm_off. rewrite flat_seq_nth.
  - now apply lmrow_nth.
  - lia.
  - unfold lmrow. rewrite map_length, seq_length. exact Hk.
Qed.
Lemma lm_index_inv maxl lm : lm < length (lm_attrs maxl) ->
  exists l k, l <= maxl /\ k < 2 * l + 1 /\ lm = l * l + k.
Proof.
  intros H. change (lm_attrs maxl) with (flat_map lmrow (seq 0 (maxl + 1))) in H. rewrite flat_seq_length in H.
  destruct (flat_seq_inv _ _ _ H) as [l [k [Hl [Hk E]]]]. exists l, k. rewrite lm_off in E.
  unfold lmrow in Hk. rewrite map_length, seq_length in Hk. lia.
Qed.

(** * Global keys *)
Section Keys.
  Variables (n_fn maxl : nat) (tpn : list (list nat)).
  Let T n := nth n (n_to_tp n_fn tpn) [].
  Let n_lm := length (lm_attrs maxl).
  Definition tprow n lm : list (nat * nat * nat) := map (fun tp => (n, lm, tp)) (T n).
  Definition nrow n : list (nat * nat * nat) := flat_map (tprow n) (seq 0 n_lm).
  Lemma loop_rows : nlmtp_loop n_fn maxl tpn = flat_map nrow (seq 0 n_fn).
  Proof. reflexivity. Qed.
  Lemma tprow_off n lm : off (tprow n) lm = lm * length (T n).
  Proof. induction lm as [|lm IH]; [reflexivity|]. rewrite off_S, IH. unfold tprow. rewrite map_length. lia. Qed.
  Lemma nrow_length n : length (nrow n) = n_lm * length (T n).
  Proof. unfold nrow. rewrite flat_seq_length. apply tprow_off. Qed.
  (** The key at a given position. *)
  Lemma key_at n lm j d : n < n_fn -> lm < n_lm -> j < length (T n) ->
    off nrow n + (lm * length (T n) + j) < length (nlmtp_loop n_fn maxl tpn) /\
    nth (off nrow n + (lm * length (T n) + j)) (nlmtp_loop n_fn maxl tpn) d = (n, lm, nth j (T n) 0).
  Proof.
    intros Hn Hlm Hj. rewrite loop_rows.
    assert (Hin : lm * length (T n) + j < length (nrow n)) by (rewrite nrow_length; nia).
    split.
    - rewrite flat_seq_length. assert (off nrow (S n) <= off nrow n_fn) by (apply off_mono; lia).
      rewrite off_S in H. lia.
    - rewrite flat_seq_nth by assumption. unfold nrow. rewrite <- tprow_off. rewrite flat_seq_nth; [|exact Hlm|unfold tprow; now rewrite map_length].
      unfold tprow. rewrite (nth_indep _ d (n, lm, 0)) by now rewrite map_length.
      exact (map_nth (fun tp => (n, lm, tp)) (T n) 0 j).
  Qed.
  Lemma key_inv g : g < length (nlmtp_loop n_fn maxl tpn) ->
    exists n lm j, n < n_fn /\ lm < n_lm /\ j < length (T n) /\ g = off nrow n + (lm * length (T n) + j).
  Proof.
    intros H. rewrite loop_rows, flat_seq_length in H.
    destruct (flat_seq_inv _ _ _ H) as [n [r [Hn [Hr E]]]].
    unfold nrow in Hr. rewrite flat_seq_length in Hr.
    destruct (flat_seq_inv _ _ _ Hr) as [lm [j [Hlm [Hj E']]]]. rewrite tprow_off in E'.
    unfold tprow in Hj. rewrite map_length in Hj. exists n, lm, j. subst. auto.
  Qed.

  (** The attribute created for the key with number [g]. *)
  Definition key_attr (g c : nat) (k : nat * nat * nat) : nlmtpAttr :=
    let '(n, lm, tp) := k in
    let la := nth lm (lm_attrs maxl) (lm_attr 0 0) in
    NLM n (n_id tpn tp n) la tp g c (Z.of_nat g - 2 * lm_m la * Z.of_nat (length (T n))) 0 0 0 0.
  Lemma global_fold L :
    let st := fold_left (nlmtp_step n_fn maxl tpn) L ([], [], []) in
    length (fst (fst st)) = length L /\
    (forall g k, nth_error L g = Some k -> exists c, nth_error (fst (fst st)) g = Some (key_attr g c k)) /\
    (NoDup L -> forall g n lm tp, nth_error L g = Some (n, lm, tp) -> um_get [n; lm; tp] (snd st) = g) /\
    snd (fst st) = filter (fun a => negb (lm_conj (a_lm a))) (fst (fst st)).
  Proof.
    induction L as [|x L IH] using rev_ind; cbn zeta.
    - cbn. split; [reflexivity|]. split; [intros [|g]; discriminate|]. split; [intros _ [|g]; discriminate|reflexivity].
    - rewrite fold_left_app. cbn [fold_left]. destruct IH as [I1 [I2 [I3 I4]]].
      destruct (fold_left (nlmtp_step n_fn maxl tpn) L ([], [], [])) as [[all nc] m]. cbn [fst snd] in *.
      destruct x as [[n lm] tp]. cbn -[nth lm_attrs um_set].
      split; [rewrite !app_length, I1; reflexivity|]. split; [|split].
      + intros g k Hk. destruct (Nat.lt_ge_cases g (length L)) as [Lg|Lg].
        * rewrite nth_error_app1 in Hk by exact Lg. destruct (I2 _ _ Hk) as [c Hc]. exists c.
          now rewrite nth_error_app1 by lia.
        * assert (g = length L).
          { assert (g < length (L ++ [(n, lm, tp)])) by (apply nth_error_Some; congruence). rewrite app_length in H. cbn in H. lia. }
          subst g. rewrite nth_error_app2, Nat.sub_diag in Hk by lia. injection Hk as <-.
          exists (length nc). rewrite nth_error_app2, I1, Nat.sub_diag by lia. cbn [nth_error]. unfold key_attr. reflexivity.
      + intros Hd g n' lm' tp' Hk. apply NoDup_remove in Hd. rewrite app_nil_r in Hd. destruct Hd as [Hd Hn].
        rewrite um_get_set. destruct (Nat.lt_ge_cases g (length L)) as [Lg|Lg].
        * rewrite nth_error_app1 in Hk by exact Lg.
          destruct (leqb [n'; lm'; tp'] [n; lm; tp]) eqn:E; [|now apply I3].
          apply leqb_eq in E. injection E as -> -> ->. exfalso. apply Hn. eapply nth_error_In; exact Hk.
        * assert (g = length L).
          { assert (g < length (L ++ [(n, lm, tp)])) by (apply nth_error_Some; congruence). rewrite app_length in H. cbn in H. lia. }
          subst g. rewrite nth_error_app2, Nat.sub_diag in Hk by lia. injection Hk as <- <- <-.
          now rewrite leqb_refl.
      + rewrite filter_app. cbn [filter a_lm]. destruct (lm_conj (nth lm (lm_attrs maxl) (lm_attr 0 0))); cbn [negb];
          [now rewrite app_nil_r|now rewrite <- I4].
  Qed.

  Lemma attrs_length : length (nlmtp_attrs n_fn maxl tpn) = length (nlmtp_loop n_fn maxl tpn).
  Proof. apply (global_fold (nlmtp_loop n_fn maxl tpn)). Qed.
  Lemma attrs_at n lm j d : n < n_fn -> lm < n_lm -> j < length (T n) ->
    exists c, nth (off nrow n + (lm * length (T n) + j)) (nlmtp_attrs n_fn maxl tpn) d
      = key_attr (off nrow n + (lm * length (T n) + j)) c (n, lm, nth j (T n) 0).
  Proof.
    intros Hn Hlm Hj. destruct (key_at n lm j (0, 0, 0) Hn Hlm Hj) as [Hg E].
    destruct (global_fold (nlmtp_loop n_fn maxl tpn)) as [_ [H _]].
    destruct (H _ _ (eq_trans (nth_error_nth' _ (0, 0, 0) Hg) (f_equal _ E))) as [c Hc].
    exists c. now apply nth_error_nth.
  Qed.

  (** C17 for the global numbering. *)
  Theorem conj_index g a : nth_error (nlmtp_attrs n_fn maxl tpn) g = Some a ->
    exists g' a', Z.of_nat g' = a_gcj a /\ nth_error (nlmtp_attrs n_fn maxl tpn) g' = Some a' /\
      a_n a' = a_n a /\ a_tp a' = a_tp a /\ a_n_id a' = a_n_id a /\
      lm_l (a_lm a') = lm_l (a_lm a) /\ lm_m (a_lm a') = (- lm_m (a_lm a))%Z /\
      a_gcj a' = Z.of_nat g /\ a_gid a = g /\
      a_lm a = lm_attr (lm_l (a_lm a)) (lm_m (a_lm a)) /\ (Z.abs (lm_m (a_lm a)) <= Z.of_nat (lm_l (a_lm a)))%Z /\
      (lm_m (a_lm a) = 0%Z -> g' = g).
  Proof.
    intros Ha. assert (Hg : g < length (nlmtp_attrs n_fn maxl tpn)) by (apply nth_error_Some; congruence).
    rewrite attrs_length in Hg. destruct (key_inv g Hg) as [n [lm [j [Hn [Hlm [Hj E]]]]]].
    destruct (lm_index_inv _ _ Hlm) as [l [k [Hl [Hk El]]]].
    set (d := NLM 0 0 (lm_attr 0 0) 0 0 0 0 0 0 0 0).
    destruct (attrs_at n lm j d Hn Hlm Hj) as [c Hc]. rewrite <- E in Hc.
    rewrite (nth_error_nth _ _ d Ha) in Hc. subst a. rewrite Ha || idtac.
    assert (Hlm' : l * l + (2 * l - k) < n_lm).
    { unfold n_lm. rewrite lm_attrs_length. nia. }
    destruct (key_at n (l * l + (2 * l - k)) j (0, 0, 0) Hn Hlm' Hj) as [Hg' _].
    destruct (attrs_at n (l * l + (2 * l - k)) j d Hn Hlm' Hj) as [c' Hc'].
    set (g' := off nrow n + ((l * l + (2 * l - k)) * length (T n) + j)) in *.
    exists g', (key_attr g' c' (n, l * l + (2 * l - k), nth j (T n) 0)).
    unfold key_attr. cbn [a_n a_tp a_n_id a_lm a_gcj a_gid].
    rewrite El. rewrite !(lm_attrs_nth maxl l) by lia. cbn [lm_attr lm_l lm_m].
    assert (Eg : Z.of_nat g' = (Z.of_nat g - 2 * (Z.of_nat k - Z.of_nat l) * Z.of_nat (length (T n)))%Z).
    { unfold g'. rewrite E, El. rewrite !Nat2Z.inj_add, !Nat2Z.inj_mul, !Nat2Z.inj_add, Nat2Z.inj_sub by lia.
      rewrite !Nat2Z.inj_mul. lia. }
    split; [exact Eg|]. split.
    { rewrite (nth_error_nth' _ d) by (rewrite attrs_length; exact Hg'). f_equal. rewrite Hc'. unfold key_attr.
      rewrite (lm_attrs_nth maxl l) by lia. reflexivity. }
    repeat split; try reflexivity; try lia.
  Qed.
End Keys.


(** * Local numbering *)
Lemma push_length {A} t (x : A) v : length (push t x v) = length v.
Proof. apply upd_length. Qed.
Lemma push_nth {A} t t1 (x : A) v : t1 < length v ->
  nth t (push t1 x v) [] = nth t v [] ++ (if t =? t1 then [x] else []).
Proof.
  intros H. unfold push. rewrite upd_nth. apply Nat.ltb_lt in H. rewrite H, andb_true_r.
  destruct (Nat.eqb_spec t t1) as [->|E]; [reflexivity|now rewrite app_nil_r].
Qed.
Lemma nth_error_snoc {A} (l : list A) x h y :
  nth_error (l ++ [x]) h = Some y -> (h < length l /\ nth_error l h = Some y) \/ (h = length l /\ x = y).
Proof.
  intros H. destruct (Nat.lt_ge_cases h (length l)) as [C|C].
  - left. rewrite nth_error_app1 in H by exact C. auto.
  - right. rewrite nth_error_app2 in H by exact C. destruct (h - length l) as [|d] eqn:E.
    + injection H as ->. split; [lia|reflexivity].
    + destruct d; discriminate.
Qed.
Lemma nth_repeat_nil {A} n t : nth t (repeat (@nil A) n) [] = [].
Proof. revert t. induction n as [|n IH]; intros [|t]; cbn; auto. Qed.
Lemma map_combine_seq {A B} (f : nat -> list A -> B) (v : list (list A)) b :
  map (fun tl => f (fst tl) (snd tl)) (combine (seq b (length v)) v) = map (fun k => f (b + k) (nth k v [])) (seq 0 (length v)).
Proof.
  revert b. induction v as [|x v IH]; intros b; [reflexivity|].
  cbn [length seq combine map]. rewrite IH. cbn [nth]. f_equal; [f_equal; cbn; lia|].
  rewrite <- seq_shift, map_map. apply map_ext. intros k. cbn [nth]. f_equal. lia.
Qed.

Section Local.
  Variables (nt : nat).
  Let types := tp_to_types nt.
  Definition ends (tp : nat) : nat * nat := nth tp types (0, 0).
  Definition touch (t tp : nat) : bool := (fst (ends tp) =? t) || (snd (ends tp) =? t).
  Definition oth (t tp : nat) : nat := if fst (ends tp) =? t then snd (ends tp) else fst (ends tp).
  Lemma ends_lt tp : tp < length types -> fst (ends tp) < nt /\ snd (ends tp) < nt.
  Proof.
    intros H. unfold ends. destruct (nth tp types (0, 0)) as [i j] eqn:E.
    assert (I : In (i, j) types) by (rewrite <- E; now apply nth_In).
    unfold types in I. rewrite tp_to_types_loop in I. apply tp_loop_In in I. cbn. lia.
  Qed.
  Lemma ends_tpair t1 t2 : t1 < nt -> t2 < nt -> ends (tpair nt t1 t2) = (Nat.min t1 t2, Nat.max t1 t2).
  Proof. intros H1 H2. unfold ends, types. apply nth_error_nth. now apply tpair_types. Qed.
  Lemma touch_tpair t1 t2 : t1 < nt -> t2 < nt -> touch t1 (tpair nt t1 t2) = true /\ oth t1 (tpair nt t1 t2) = t2.
  Proof.
    intros H1 H2. unfold touch, oth. rewrite ends_tpair by assumption. cbn [fst snd].
    destruct (Nat.le_ge_cases t1 t2).
    - rewrite Nat.min_l, Nat.max_r by lia. now rewrite Nat.eqb_refl.
    - rewrite Nat.min_r, Nat.max_l by lia. rewrite Nat.eqb_refl. split; [apply orb_true_r|].
      destruct (Nat.eqb_spec t2 t1); congruence.
  Qed.
  Lemma touch_inv t tp : tp < length types -> t < nt -> touch t tp = true -> tp = tpair nt t (oth t tp) /\ oth t tp < nt.
  Proof.
    intros H Ht E. pose proof (ends_lt tp H) as [H1 H2]. unfold touch, oth in *.
    assert (K : tpair nt (fst (ends tp)) (snd (ends tp)) = tp /\ tpair nt (snd (ends tp)) (fst (ends tp)) = tp).
    { apply tpair_nth. fold types. rewrite (nth_error_nth' _ (0, 0)) by exact H. fold (ends tp). now destruct (ends tp). }
    destruct (Nat.eqb_spec (fst (ends tp)) t) as [<-|N].
    - split; [now symmetry|exact H2].
    - cbn in E. apply Nat.eqb_eq in E. subst t. split; [now symmetry|exact H1].
  Qed.

  (** ** pair order parameters *)
  Lemma ntp_step_spec v m a v' m' : length v = nt -> p_tp a < length types ->
    ntp_local_step types (v, m) a = (v', m') ->
    length v' = nt /\
    (forall t, t < nt -> nth t v' [] = nth t v [] ++
       (if touch t (p_tp a)
        then [NTP (p_n a) (p_n_id a) (p_tp a) (p_gid a) (length (nth t v [])) (length (nth (oth t (p_tp a)) v []))] else [])) /\
    (forall g t, um_get [g; t] m' = if (g =? p_gid a) && touch t (p_tp a) then length (nth t v []) else um_get [g; t] m).
  Proof.
    intros Hv Ha E. unfold ntp_local_step in E. change (nth (p_tp a) types (0, 0)) with (ends (p_tp a)) in E.
    pose proof (ends_lt _ Ha) as [H1 H2]. unfold touch, oth. destruct (ends (p_tp a)) as [t1 t2]. cbn [fst snd] in *.
    destruct (Nat.eqb_spec t1 t2) as [Q|Ne]; [subst t2|]; injection E as <- <-.
    - split; [now rewrite push_length|]. split.
      + intros t Ht. rewrite push_nth by lia. rewrite orb_diag, (Nat.eqb_sym t1 t).
        destruct (Nat.eqb_spec t t1) as [->|]; reflexivity.
      + intros g t. rewrite um_get_set. cbn [leqb]. rewrite andb_true_r, orb_diag, (Nat.eqb_sym t t1).
        destruct (Nat.eqb_spec t1 t) as [->|]; rewrite ?andb_false_r; reflexivity.
    - split; [now rewrite !push_length|]. split.
      + intros t Ht. rewrite !push_nth by (rewrite ?push_length; lia). rewrite (Nat.eqb_sym t1 t), (Nat.eqb_sym t2 t).
        destruct (Nat.eqb_spec t t1) as [E1|]; destruct (Nat.eqb_spec t t2) as [E2|]; cbn [orb]; rewrite ?app_nil_r; try congruence;
          subst t; rewrite ?Nat.eqb_refl; try reflexivity; destruct (Nat.eqb_spec t2 t1); congruence.
      + intros g t. rewrite !um_get_set. cbn [leqb]. rewrite !andb_true_r, (Nat.eqb_sym t t1), (Nat.eqb_sym t t2).
        destruct (Nat.eqb_spec t1 t) as [E1|]; destruct (Nat.eqb_spec t2 t) as [E2|]; destruct (g =? p_gid a); cbn; congruence.
  Qed.
  Definition pcore (a : ntpAttr) := (p_n a, p_n_id a, p_tp a, p_gid a).
  Definition pcmp (a : ntpAttr) := NTPC (p_n_id a) (p_il a) (p_jl a).
  Definition pswap (c : ntpAttrC) := NTPC (pc_n_id c) (pc_jl c) (pc_il c).
  Lemma ntp_local_spec L : (forall a, In a L -> p_tp a < length types) ->
    let st := ntp_local nt L in
    length (fst st) = nt /\
    (forall t, t < nt -> map pcore (nth t (fst st) []) = map pcore (filter (fun a => touch t (p_tp a)) L)) /\
    (forall t h a, t < nt -> nth_error (nth t (fst st) []) h = Some a -> p_il a = h) /\
    (NoDup (map p_gid L) -> forall t h a, t < nt -> nth_error (nth t (fst st) []) h = Some a -> um_get [p_gid a; t] (snd st) = h) /\
    (forall t1 t2, t1 < nt -> t2 < nt ->
       map pcmp (filter (fun a => p_tp a =? tpair nt t1 t2) (nth t1 (fst st) [])) =
       map pswap (map pcmp (filter (fun a => p_tp a =? tpair nt t1 t2) (nth t2 (fst st) [])))).
  Proof.
    unfold ntp_local. fold types. induction L as [|a L IH] using rev_ind; intros HL; cbn zeta in *.
    - cbn. split; [apply repeat_length|].
      split; [intros t Ht; now rewrite nth_repeat_nil|].
      split; [intros t h a Ht; rewrite nth_repeat_nil; destruct h; discriminate|].
      split; [intros _ t h a Ht; rewrite nth_repeat_nil; destruct h; discriminate|].
      intros t1 t2 _ _. now rewrite !nth_repeat_nil.
    - destruct IH as [I1 [I2 [I3 [I4 I5]]]]; [intros; apply HL, in_app_iff; now left|].
      rewrite fold_left_app. cbn [fold_left].
      destruct (fold_left (ntp_local_step types) L (repeat [] nt, [])) as [v m]. cbn [fst snd] in *.
      destruct (ntp_local_step types (v, m) a) as [v' m'] eqn:E.
      assert (Ha : p_tp a < length types) by (apply HL, in_app_iff; right; now left).
      destruct (ntp_step_spec _ _ _ _ _ I1 Ha E) as [S1 [S2 S3]]. cbn [fst snd].
      split; [exact S1|]. split; [|split; [|split]].
      + intros t Ht. rewrite (S2 t Ht), filter_app, !map_app, (I2 t Ht). cbn [filter].
        destruct (touch t (p_tp a)); reflexivity.
      + intros t h b Ht. rewrite (S2 t Ht). destruct (touch t (p_tp a)); [|rewrite app_nil_r; apply I3, Ht].
        intros H. apply nth_error_snoc in H. destruct H as [[_ H]|[-> <-]]; [now apply (I3 t)|reflexivity].
      + intros Hd t h b Ht. rewrite map_app in Hd. cbn [map] in Hd. apply NoDup_remove in Hd. rewrite app_nil_r in Hd. destruct Hd as [Hd Hn].
        rewrite (S2 t Ht), S3. intros H.
        assert (G : forall h b, nth_error (nth t v []) h = Some b -> p_gid b <> p_gid a).
        { intros h' b' H' C. apply Hn. rewrite <- C. apply nth_error_In in H'. apply (in_map pcore) in H'.
          rewrite (I2 t Ht) in H'. apply in_map_iff in H'. destruct H' as [z [Ez Hz]]. apply filter_In in Hz.
          unfold pcore in Ez. injection Ez as _ _ _ Ez. rewrite <- Ez. apply in_map, Hz. }
        destruct (touch t (p_tp a)).
        * apply nth_error_snoc in H. destruct H as [[_ H]|[-> <-]].
          -- destruct (Nat.eqb_spec (p_gid b) (p_gid a)) as [C|C]; [exfalso; exact (G _ _ H C)|]. cbn. now apply I4.
          -- cbn [p_gid]. now rewrite Nat.eqb_refl.
        * rewrite app_nil_r in H. rewrite andb_false_r. now apply I4.
      + intros t1 t2 H1 H2. rewrite (S2 t1 H1), (S2 t2 H2), !filter_app, !map_app, (I5 t1 t2 H1 H2). f_equal.
        destruct (Nat.eqb_spec (p_tp a) (tpair nt t1 t2)) as [Et|Nt].
        * destruct (touch_tpair t1 t2 H1 H2) as [T1 O1].
          destruct (touch_tpair t2 t1 H2 H1) as [T2 O2]. rewrite (tpair_sym nt t2 t1) in T2, O2 by assumption.
          rewrite Et, T1, T2, O1, O2. cbn [filter p_tp]. now rewrite Nat.eqb_refl.
        * apply Nat.eqb_neq in Nt.
          destruct (touch t1 (p_tp a)), (touch t2 (p_tp a)); cbn [filter p_tp]; rewrite ?Nt; reflexivity.
  Qed.

  (** ** gtinv order parameters *)
  Definition gcmp (a : nlmtpAttr) := NLMC (a_n_id a) (lm_key (a_lm a)) (lm_m (a_lm a)) (lm_sign (a_lm a)) (a_inc a) (a_jnc a).
  Definition gswap (c : nlmtpAttrC) := NLMC (c_n_id c) (c_key c) (c_m c) (c_sign c) (c_jnc c) (c_inc c).
  Definition gcore (a : nlmtpAttr) := (a_n a, a_n_id a, a_lm a, a_tp a, a_gid a, a_gcj a).
  Definition noconj (a : nlmtpAttr) := negb (lm_conj (a_lm a)).
  Lemma nlmtp_step_spec v c m a v' c' m' : length v = nt -> length c = nt -> a_tp a < length types ->
    nlmtp_local_step types (v, c, m) a = (v', c', m') ->
    let new t := with_local a (length (nth t v [])) (length (nth t c [])) (length (nth (oth t (a_tp a)) c [])) in
    length v' = nt /\ length c' = nt /\
    (forall t, t < nt -> nth t v' [] = nth t v [] ++ (if touch t (a_tp a) then [new t] else [])) /\
    (forall t, t < nt -> nth t c' [] = nth t c [] ++ (if touch t (a_tp a) && noconj a then [new t] else [])) /\
    (forall g t, um_get [g; t] m' = if (g =? a_gid a) && touch t (a_tp a) then length (nth t v []) else um_get [g; t] m).
  Proof.
    intros Hv Hc Ha E. unfold nlmtp_local_step in E. change (nth (a_tp a) types (0, 0)) with (ends (a_tp a)) in E. cbn zeta.
    pose proof (ends_lt _ Ha) as [H1 H2]. unfold touch, oth, noconj. destruct (ends (a_tp a)) as [t1 t2]. cbn [fst snd] in *.
    destruct (Nat.eqb_spec t1 t2) as [Q|Ne]; [subst t2|]; injection E as <- <- <-.
    - split; [now rewrite push_length|]. split; [destruct (lm_conj (a_lm a)); now rewrite ?push_length|]. split; [|split].
      + intros t Ht. rewrite push_nth by lia. rewrite orb_diag, (Nat.eqb_sym t1 t).
        destruct (Nat.eqb_spec t t1) as [->|]; reflexivity.
      + intros t Ht. rewrite orb_diag, (Nat.eqb_sym t1 t).
        destruct (lm_conj (a_lm a)); cbn [negb]; [now rewrite andb_false_r, app_nil_r|]. rewrite push_nth by lia. rewrite andb_true_r.
        destruct (Nat.eqb_spec t t1) as [->|]; reflexivity.
      + intros g t. rewrite um_get_set. cbn [leqb]. rewrite andb_true_r, orb_diag, (Nat.eqb_sym t t1).
        destruct (Nat.eqb_spec t1 t) as [->|]; rewrite ?andb_false_r; reflexivity.
    - split; [now rewrite !push_length|]. split; [destruct (lm_conj (a_lm a)); now rewrite ?push_length|]. split; [|split].
      + intros t Ht. rewrite !push_nth by (rewrite ?push_length; lia). rewrite (Nat.eqb_sym t1 t), (Nat.eqb_sym t2 t).
        destruct (Nat.eqb_spec t t1) as [E1|]; destruct (Nat.eqb_spec t t2) as [E2|]; cbn [orb]; rewrite ?app_nil_r; try congruence;
          subst t; rewrite ?Nat.eqb_refl; try reflexivity; destruct (Nat.eqb_spec t2 t1); congruence.
      + intros t Ht. destruct (lm_conj (a_lm a)); cbn [negb]; [now rewrite andb_false_r, app_nil_r|].
        rewrite !push_nth by (rewrite ?push_length; lia). rewrite (Nat.eqb_sym t1 t), (Nat.eqb_sym t2 t), andb_true_r.
        destruct (Nat.eqb_spec t t1) as [E1|]; destruct (Nat.eqb_spec t t2) as [E2|]; cbn [orb]; rewrite ?app_nil_r; try congruence;
          subst t; rewrite ?Nat.eqb_refl; try reflexivity; destruct (Nat.eqb_spec t2 t1); congruence.
      + intros g t. rewrite !um_get_set. cbn [leqb]. rewrite !andb_true_r, (Nat.eqb_sym t t1), (Nat.eqb_sym t t2).
        destruct (Nat.eqb_spec t1 t) as [E1|]; destruct (Nat.eqb_spec t2 t) as [E2|]; destruct (g =? a_gid a); cbn; congruence.
  Qed.
  Lemma nlmtp_local_spec L : (forall a, In a L -> a_tp a < length types) ->
    let st := nlmtp_local nt L in
    let v := fst (fst st) in let c := snd (fst st) in let m := snd st in
    length v = nt /\ length c = nt /\
    (forall t, t < nt -> nth t c [] = filter noconj (nth t v [])) /\
    (forall t, t < nt -> map gcore (nth t v []) = map gcore (filter (fun a => touch t (a_tp a)) L)) /\
    (forall t h a, t < nt -> nth_error (nth t v []) h = Some a -> a_il a = h) /\
    (forall t k a, t < nt -> nth_error (nth t c []) k = Some a -> a_inc a = k) /\
    (NoDup (map a_gid L) -> forall t h a, t < nt -> nth_error (nth t v []) h = Some a -> um_get [a_gid a; t] m = h) /\
    (forall t1 t2, t1 < nt -> t2 < nt ->
       map gcmp (filter (fun a => a_tp a =? tpair nt t1 t2) (nth t1 c [])) =
       map gswap (map gcmp (filter (fun a => a_tp a =? tpair nt t1 t2) (nth t2 c [])))).
  Proof.
    unfold nlmtp_local. fold types. induction L as [|a L IH] using rev_ind; intros HL; cbn zeta in *.
    - cbn. split; [apply repeat_length|]. split; [apply repeat_length|].
      split; [intros t Ht; now rewrite nth_repeat_nil|].
      split; [intros t Ht; now rewrite nth_repeat_nil|].
      split; [intros t h a Ht; rewrite nth_repeat_nil; destruct h; discriminate|].
      split; [intros t h a Ht; rewrite nth_repeat_nil; destruct h; discriminate|].
      split; [intros _ t h a Ht; rewrite nth_repeat_nil; destruct h; discriminate|].
      intros t1 t2 _ _. now rewrite !nth_repeat_nil.
    - destruct IH as [I1 [I2 [I3 [I4 [I5 [I6 [I7 I8]]]]]]]; [intros; apply HL, in_app_iff; now left|].
      rewrite fold_left_app. cbn [fold_left].
      destruct (fold_left (nlmtp_local_step types) L (repeat [] nt, repeat [] nt, [])) as [[v c] m]. cbn [fst snd] in *.
      destruct (nlmtp_local_step types (v, c, m) a) as [[v' c'] m'] eqn:E.
      assert (Ha : a_tp a < length types) by (apply HL, in_app_iff; right; now left).
      destruct (nlmtp_step_spec _ _ _ _ _ _ _ I1 I2 Ha E) as [S1 [S1' [S2 [S2' S3]]]]. cbn [fst snd].
      split; [exact S1|]. split; [exact S1'|]. split; [|split; [|split; [|split; [|split]]]].
      + intros t Ht. rewrite (S2 t Ht), (S2' t Ht), filter_app, (I3 t Ht). f_equal.
        destruct (touch t (a_tp a)); [|reflexivity]. cbn [andb filter].
        change (noconj (with_local a (length (nth t v [])) (length (filter noconj (nth t v []))) (length (nth (oth t (a_tp a)) c []))))
          with (noconj a). destruct (noconj a); reflexivity.
      + intros t Ht. rewrite (S2 t Ht), filter_app, !map_app, (I4 t Ht). cbn [filter].
        destruct (touch t (a_tp a)); reflexivity.
      + intros t h b Ht. rewrite (S2 t Ht). destruct (touch t (a_tp a)); [|rewrite app_nil_r; apply I5, Ht].
        intros H. apply nth_error_snoc in H. destruct H as [[_ H]|[-> <-]]; [now apply (I5 t)|reflexivity].
      + intros t h b Ht. rewrite (S2' t Ht). destruct (touch t (a_tp a) && noconj a); [|rewrite app_nil_r; apply I6, Ht].
        intros H. apply nth_error_snoc in H. destruct H as [[_ H]|[-> <-]]; [now apply (I6 t)|reflexivity].
      + intros Hd t h b Ht. rewrite map_app in Hd. cbn [map] in Hd. apply NoDup_remove in Hd. rewrite app_nil_r in Hd. destruct Hd as [Hd Hn].
        rewrite (S2 t Ht), S3. intros H.
        assert (G : forall h b, nth_error (nth t v []) h = Some b -> a_gid b <> a_gid a).
        { intros h' b' H' C. apply Hn. rewrite <- C. apply nth_error_In in H'. apply (in_map gcore) in H'.
          rewrite (I4 t Ht) in H'. apply in_map_iff in H'. destruct H' as [z [Ez Hz]]. apply filter_In in Hz.
          unfold gcore in Ez. injection Ez as _ _ _ _ Ez _. rewrite <- Ez. apply in_map, Hz. }
        destruct (touch t (a_tp a)).
        * apply nth_error_snoc in H. destruct H as [[_ H]|[-> <-]].
          -- destruct (Nat.eqb_spec (a_gid b) (a_gid a)) as [C|C]; [exfalso; exact (G _ _ H C)|]. cbn. now apply I7.
          -- cbn [with_local a_gid]. now rewrite Nat.eqb_refl.
        * rewrite app_nil_r in H. rewrite andb_false_r. now apply I7.
      + intros t1 t2 H1 H2. rewrite (S2' t1 H1), (S2' t2 H2), !filter_app, !map_app, (I8 t1 t2 H1 H2). f_equal.
        destruct (Nat.eqb_spec (a_tp a) (tpair nt t1 t2)) as [Et|Nt].
        * destruct (touch_tpair t1 t2 H1 H2) as [T1 O1].
          destruct (touch_tpair t2 t1 H2 H1) as [T2 O2]. rewrite (tpair_sym nt t2 t1) in T2, O2 by assumption.
          rewrite Et, T1, T2, O1, O2. destruct (noconj a); [|reflexivity]. cbn [andb filter with_local a_tp]. rewrite Et, Nat.eqb_refl. reflexivity.
        * apply Nat.eqb_neq in Nt.
          destruct (touch t1 (a_tp a)), (touch t2 (a_tp a)), (noconj a); cbn [filter andb with_local a_tp]; rewrite ?Nt; reflexivity.
  Qed.
End Local.

(** * The maps built by the constructor *)
Lemma tp_to_n_length nt cond : length (tp_to_n nt cond) = length (tp_to_types nt).
Proof. apply map_length. Qed.
Lemma tpn_loop_In tpn tp n : In (tp, n) (tpn_loop tpn) <-> tp < length tpn /\ In n (nth tp tpn []).
Proof.
  unfold tpn_loop. rewrite (map_combine_seq (fun k l => map (pair k) l) tpn 0).
  rewrite in_concat. split.
  - intros [l [Hl H]]. apply in_map_iff in Hl. destruct Hl as [k [<- Hk]]. apply in_seq in Hk.
    apply in_map_iff in H. destruct H as [x [E Hx]]. injection E as <- <-. cbn in *. split; [lia|exact Hx].
  - intros [H1 H2]. eexists. split; [apply in_map_iff; exists tp; split; [reflexivity|apply in_seq; lia]|].
    apply in_map_iff. exists n. split; [reflexivity|exact H2].
Qed.
Lemma n_to_tp_In n_fn tpn n tp : n < n_fn -> (In tp (nth n (n_to_tp n_fn tpn) []) <-> tp < length tpn /\ In n (nth tp tpn [])).
Proof.
  intros Hn. unfold n_to_tp. rewrite group_nth by exact Hn. rewrite <- tpn_loop_In, in_map_iff. split.
  - intros [[x y] [<- H]]. apply filter_In in H. destruct H as [H E]. apply Nat.eqb_eq in E. cbn in *. now subst.
  - intros H. exists (tp, n). split; [reflexivity|]. apply filter_In. split; [exact H|]. cbn. apply Nat.eqb_refl.
Qed.
Lemma nlmtp_attrs_tp n_fn maxl tpn a : In a (nlmtp_attrs n_fn maxl tpn) ->
  a_n a < n_fn /\ a_tp a < length tpn /\ In (a_n a) (nth (a_tp a) tpn []) /\ a_n_id a = n_id tpn (a_tp a) (a_n a).
Proof.
  intros H. apply In_nth_error in H. destruct H as [g Hg].
  assert (L : g < length (nlmtp_loop n_fn maxl tpn)) by (rewrite <- attrs_length; apply nth_error_Some; congruence).
  destruct (key_inv _ _ _ _ L) as [n [lm [j [Hn [Hlm [Hj E]]]]]].
  destruct (attrs_at n_fn maxl tpn n lm j a Hn Hlm Hj) as [c Hc]. rewrite <- E, (nth_error_nth _ _ _ Hg) in Hc.
  subst a. cbn. split; [exact Hn|].
  assert (I : In (nth j (nth n (n_to_tp n_fn tpn) []) 0) (nth n (n_to_tp n_fn tpn) [])) by (apply nth_In; exact Hj).
  apply n_to_tp_In in I; [|exact Hn]. tauto.
Qed.
Lemma seq_by_nth {A} (f : A -> nat) l : (forall g a, nth_error l g = Some a -> f a = g) -> map f l = seq 0 (length l).
Proof.
  intros H. induction l as [|x l IH] using rev_ind; [reflexivity|].
  rewrite map_app, app_length, IH.
  - rewrite seq_app. cbn. f_equal. f_equal. rewrite (H (length l) x); [reflexivity|].
    rewrite nth_error_app2, Nat.sub_diag by lia. reflexivity.
  - intros g a Hg. apply H. rewrite nth_error_app1; [exact Hg|apply nth_error_Some; congruence].
Qed.
Lemma nlmtp_attrs_gid n_fn maxl tpn : map a_gid (nlmtp_attrs n_fn maxl tpn) = seq 0 (length (nlmtp_attrs n_fn maxl tpn)).
Proof. apply seq_by_nth. intros g a H. destruct (conj_index _ _ _ _ _ H) as [? [? H']]. tauto. Qed.
Lemma ntp_fold tpn L :
  let r := fold_left (fun acc tn => acc ++ [NTP (snd tn) (n_id tpn (fst tn) (snd tn)) (fst tn) (length acc) 0 0]) L [] in
  length r = length L /\
  forall g tn, nth_error L g = Some tn -> nth_error r g = Some (NTP (snd tn) (n_id tpn (fst tn) (snd tn)) (fst tn) g 0 0).
Proof.
  cbn zeta. induction L as [|x L [I1 I2]] using rev_ind; [split; [reflexivity|intros [|g]; discriminate]|].
  rewrite fold_left_app. cbn [fold_left]. rewrite !app_length, I1. split; [reflexivity|].
  intros g tn H. apply nth_error_snoc in H. destruct H as [[Hg H]|[-> ->]].
  - rewrite nth_error_app1 by lia. now apply I2.
  - rewrite nth_error_app2, I1, Nat.sub_diag by lia. reflexivity.
Qed.
Lemma ntp_global_at tpn g : 
  nth_error (ntp_global tpn) g = option_map (fun tn => NTP (snd tn) (n_id tpn (fst tn) (snd tn)) (fst tn) g 0 0) (nth_error (tpn_loop tpn) g).
Proof.
  destruct (ntp_fold tpn (tpn_loop tpn)) as [H1 H2]. fold (ntp_global tpn) in *.
  destruct (nth_error (tpn_loop tpn) g) as [tn|] eqn:E; cbn; [now apply H2|].
  apply nth_error_None in E. apply nth_error_None. rewrite <- H1 in E. exact E.
Qed.
Lemma ntp_global_tp tpn a : In a (ntp_global tpn) -> p_tp a < length tpn /\ In (p_n a) (nth (p_tp a) tpn []) /\ p_n_id a = n_id tpn (p_tp a) (p_n a).
Proof.
  intros H. apply In_nth_error in H. destruct H as [g Hg]. rewrite ntp_global_at in Hg.
  destruct (nth_error (tpn_loop tpn) g) as [[tp n]|] eqn:E; [|discriminate]. injection Hg as <-. cbn.
  apply nth_error_In in E. apply tpn_loop_In in E. tauto.
Qed.
Lemma ntp_global_gid tpn : map p_gid (ntp_global tpn) = seq 0 (length (ntp_global tpn)).
Proof.
  apply seq_by_nth. intros g a H. rewrite ntp_global_at in H. destruct (nth_error (tpn_loop tpn) g); [|discriminate].
  now injection H as <-.
Qed.

Lemma nth_map_lt {A B} (f : A -> B) l k d d' : k < length l -> nth k (map f l) d = f (nth k l d').
Proof. intros H. rewrite (nth_indep _ d (f d')) by (rewrite map_length; exact H). apply map_nth. Qed.
Lemma nth_error_map_inv {A B} (f : A -> B) l k y : nth_error (map f l) k = Some y -> exists x, nth_error l k = Some x /\ y = f x.
Proof. rewrite nth_error_map. destruct (nth_error l k) as [x|]; cbn; intros H; [|discriminate]. injection H as <-. eauto. Qed.
Lemma map_eq_nth {A B C} (f : A -> C) (g : B -> C) l l' k a :
  map f l = map g l' -> nth_error l k = Some a -> exists b, nth_error l' k = Some b /\ f a = g b.
Proof.
  intros E H. assert (K : nth_error (map f l) k = Some (f a)) by (rewrite nth_error_map, H; reflexivity).
  rewrite E in K. apply nth_error_map_inv in K. exact K.
Qed.

(** Everything the other modules use about the pair maps. *)
Record pair_ok (nt : nat) (cond : nat -> nat -> list nat) (M : pair_maps) : Prop := {
  po_len : length (pm_loc M) = nt /\ length (pm_tp M) = nt;
  po_all : pm_ntp M = ntp_global (tp_to_n nt cond);
  po_loc : forall t h a, t < nt -> nth_error (nth t (pm_loc M) []) h = Some a ->
    p_il a = h /\ um_get [p_gid a; t] (pm_iloc M) = h /\ touch nt t (p_tp a) = true /\ p_tp a < length (tp_to_types nt) /\
    In (p_n a) (nth (p_tp a) (tp_to_n nt cond) []) /\ p_n_id a = n_id (tp_to_n nt cond) (p_tp a) (p_n a) /\
    exists b, nth_error (pm_ntp M) (p_gid a) = Some b /\ pcore b = pcore a;
  po_glob : forall t g b, t < nt -> nth_error (pm_ntp M) g = Some b -> touch nt t (p_tp b) = true ->
    exists h a, nth_error (nth t (pm_loc M) []) h = Some a /\ pcore a = pcore b /\ um_get [g; t] (pm_iloc M) = h /\ p_gid b = g;
  po_tp : forall t tp, t < nt -> tp < length (tp_to_types nt) ->
    nth tp (nth t (pm_tp M) []) [] = map pcmp (filter (fun a => p_tp a =? tp) (nth t (pm_loc M) []));
  po_swap : forall t1 t2, t1 < nt -> t2 < nt ->
    nth (tpair nt t1 t2) (nth t1 (pm_tp M) []) [] = map pswap (nth (tpair nt t1 t2) (nth t2 (pm_tp M) []) []) }.
Theorem mapping_pair_ok nt cond : pair_ok nt cond (mapping_pair nt cond).
Proof.
  unfold mapping_pair. set (tpn := tp_to_n nt cond).
  assert (HL : forall a, In a (ntp_global tpn) -> p_tp a < length (tp_to_types nt)).
  { intros a H. apply ntp_global_tp in H. unfold tpn in H. rewrite tp_to_n_length in H. tauto. }
  destruct (ntp_local_spec nt (ntp_global tpn) HL) as [S1 [S2 [S3 [S4 S5]]]].
  assert (ND : NoDup (map p_gid (ntp_global tpn))) by (rewrite ntp_global_gid; apply seq_NoDup).
  specialize (S4 ND).
  destruct (ntp_local nt (ntp_global tpn)) as [v m]. cbn [fst snd] in *.
  assert (TP : forall t tp, t < nt -> tp < length (tp_to_types nt) ->
    nth tp (nth t (map (ntp_compact (length (tp_to_types nt))) v) []) [] = map pcmp (filter (fun a => p_tp a =? tp) (nth t v []))).
  { intros t tp Ht Htp. rewrite (nth_map_lt _ v t [] []) by lia. unfold ntp_compact. now rewrite group_nth by exact Htp. }
  constructor; cbn [pm_loc pm_tp pm_ntp pm_iloc].
  - rewrite map_length. auto.
  - reflexivity.
  - intros t h a Ht Ha.
    destruct (map_eq_nth _ _ _ _ _ _ (S2 t Ht) Ha) as [b [Hb E]]. apply nth_error_In, filter_In in Hb. destruct Hb as [Hb Tb].
    pose proof (ntp_global_tp _ _ Hb) as [B1 [B2 B3]]. unfold pcore in E. injection E as E1 E2 E3 E4.
    rewrite E1, E2, E3, E4. repeat split.
    + now apply (S3 t).
    + rewrite <- E4. now apply S4.
    + exact Tb.
    + now apply HL.
    + exact B2.
    + exact B3.
    + apply In_nth_error in Hb. destruct Hb as [g Hg]. exists b.
      assert (p_gid b = g).
      { rewrite ntp_global_at in Hg. destruct (nth_error (tpn_loop tpn) g); [|discriminate]. now injection Hg as <-. }
      subst g. split; [exact Hg|]. unfold pcore. congruence.
  - intros t g b Ht Hb Tb. assert (Ib : In b (filter (fun a => touch nt t (p_tp a)) (ntp_global tpn))).
    { apply filter_In. split; [eapply nth_error_In; exact Hb|exact Tb]. }
    apply In_nth_error in Ib. destruct Ib as [h Hh].
    destruct (map_eq_nth _ _ _ _ _ _ (eq_sym (S2 t Ht)) Hh) as [a [Ha E]]. exists h, a.
    assert (Eg : p_gid b = g).
    { rewrite ntp_global_at in Hb. destruct (nth_error (tpn_loop tpn) g); [|discriminate]. now injection Hb as <-. }
    repeat split; [exact Ha|now symmetry| |exact Eg].
    assert (p_gid a = g) by (unfold pcore in E; injection E; congruence). rewrite <- H. now apply S4.
  - exact TP.
  - intros t1 t2 H1 H2. rewrite !TP by (try assumption; now apply tpair_lt). now apply S5.
Qed.

(** Everything the other modules use about the gtinv maps. *)
Definition a_def : nlmtpAttr := NLM 0 0 (lm_attr 0 0) 0 0 0 0 0 0 0 0.
Record gtinv_ok (nt n_fn maxl : nat) (cond : nat -> nat -> list nat) (M : gtinv_maps) : Prop := {
  go_len : length (gm_loc M) = nt /\ length (gm_nc M) = nt /\ length (gm_tp M) = nt;
  go_all : gm_all M = nlmtp_attrs n_fn maxl (tp_to_n nt cond);
  go_nc : forall t, t < nt -> nth t (gm_nc M) [] = filter noconj (nth t (gm_loc M) []);
  go_loc : forall t h a, t < nt -> nth_error (nth t (gm_loc M) []) h = Some a ->
    a_il a = h /\ um_get [a_gid a; t] (gm_iloc M) = h /\ touch nt t (a_tp a) = true /\ a_tp a < length (tp_to_types nt) /\
    In (a_n a) (nth (a_tp a) (tp_to_n nt cond) []) /\ a_n_id a = n_id (tp_to_n nt cond) (a_tp a) (a_n a) /\
    exists b, nth_error (gm_all M) (a_gid a) = Some b /\ gcore b = gcore a;
  go_inc : forall t k a, t < nt -> nth_error (nth t (gm_nc M) []) k = Some a -> a_inc a = k;
  go_conj : forall t h a, t < nt -> nth_error (nth t (gm_loc M) []) h = Some a ->
    exists a', nth_error (nth t (gm_loc M) []) (a_icj a) = Some a' /\ a_icj a' = h /\
      a_n a' = a_n a /\ a_n_id a' = a_n_id a /\ a_tp a' = a_tp a /\
      a_lm a' = lm_attr (lm_l (a_lm a)) (- lm_m (a_lm a)) /\
      a_lm a = lm_attr (lm_l (a_lm a)) (lm_m (a_lm a)) /\
      (Z.abs (lm_m (a_lm a)) <= Z.of_nat (lm_l (a_lm a)))%Z /\ (lm_m (a_lm a) = 0%Z -> a_icj a = h) /\
      Z.of_nat (a_gid a') = a_gcj a;
  go_glob : forall t g b, t < nt -> nth_error (gm_all M) g = Some b -> touch nt t (a_tp b) = true ->
    exists h a, nth_error (nth t (gm_loc M) []) h = Some a /\ gcore a = gcore b /\ um_get [g; t] (gm_iloc M) = h /\ a_gid b = g;
  go_tp : forall t tp, t < nt -> tp < length (tp_to_types nt) ->
    nth tp (nth t (gm_tp M) []) [] = map gcmp (filter (fun a => a_tp a =? tp) (nth t (gm_nc M) []));
  go_swap : forall t1 t2, t1 < nt -> t2 < nt ->
    nth (tpair nt t1 t2) (nth t1 (gm_tp M) []) [] = map gswap (nth (tpair nt t1 t2) (nth t2 (gm_tp M) []) []) }.
Lemma map_filter_comm {A B} (f : A -> B) (p : B -> bool) (q : A -> bool) l :
  (forall x, p (f x) = q x) -> filter p (map f l) = map f (filter q l).
Proof. intros H. induction l as [|x l IH]; cbn; [reflexivity|]. rewrite H. destruct (q x); cbn; now rewrite IH. Qed.
Theorem mapping_gtinv_ok nt n_fn maxl cond : gtinv_ok nt n_fn maxl cond (mapping_gtinv nt n_fn maxl cond).
Proof.
  unfold mapping_gtinv. set (tpn := tp_to_n nt cond). set (G := nlmtp_attrs n_fn maxl tpn).
  assert (HL : forall a, In a G -> a_tp a < length (tp_to_types nt)).
  { intros a H. apply nlmtp_attrs_tp in H. unfold tpn in H. rewrite tp_to_n_length in H. tauto. }
  destruct (nlmtp_local_spec nt G HL) as [S1 [S1' [S2 [S3 [S4 [S5 [S6 S7]]]]]]].
  assert (ND : NoDup (map a_gid G)) by (unfold G; rewrite nlmtp_attrs_gid; apply seq_NoDup).
  specialize (S6 ND).
  destruct (nlmtp_local nt G) as [[v c] m]. cbn [fst snd] in *.
  set (v' := map (fun tl => map (with_conj m (fst tl)) (snd tl)) (combine (seq 0 nt) v)).
  set (c' := map (fun tl => map (with_conj m (fst tl)) (snd tl)) (combine (seq 0 nt) c)).
  assert (V : forall t, t < nt -> nth t v' [] = map (with_conj m t) (nth t v [])).
  { intros t Ht. unfold v'. rewrite <- S1 at 1. rewrite (map_combine_seq (fun k l => map (with_conj m k) l) v 0).
    rewrite (nth_map_lt _ _ t [] 0) by (rewrite seq_length; lia). now rewrite seq_nth by lia. }
  assert (C : forall t, t < nt -> nth t c' [] = map (with_conj m t) (nth t c [])).
  { intros t Ht. unfold c'. rewrite <- S1' at 1. rewrite (map_combine_seq (fun k l => map (with_conj m k) l) c 0).
    rewrite (nth_map_lt _ _ t [] 0) by (rewrite seq_length; lia). now rewrite seq_nth by lia. }
  assert (LV : length v' = nt) by (unfold v'; rewrite map_length, combine_length, seq_length; lia).
  assert (LC : length c' = nt) by (unfold c'; rewrite map_length, combine_length, seq_length; lia).
  assert (TP : forall t tp, t < nt -> tp < length (tp_to_types nt) ->
    nth tp (nth t (map (nlmtp_compact (length (tp_to_types nt))) c') []) [] = map gcmp (filter (fun a => a_tp a =? tp) (nth t c' []))).
  { intros t tp Ht Htp. rewrite (nth_map_lt _ c' t [] []) by lia. unfold nlmtp_compact. now rewrite group_nth by exact Htp. }
  assert (GB : forall t g b, t < nt -> nth_error G g = Some b -> touch nt t (a_tp b) = true ->
    exists h a, nth_error (nth t v []) h = Some a /\ gcore a = gcore b /\ um_get [g; t] m = h /\ a_gid b = g).
  { intros t g b Ht Hb Tb. assert (Ib : In b (filter (fun a => touch nt t (a_tp a)) G)).
    { apply filter_In. split; [eapply nth_error_In; exact Hb|exact Tb]. }
    apply In_nth_error in Ib. destruct Ib as [h Hh].
    destruct (map_eq_nth _ _ _ _ _ _ (eq_sym (S3 t Ht)) Hh) as [a [Ha E]]. exists h, a.
    assert (Eg : a_gid b = g) by (destruct (conj_index _ _ _ _ _ Hb) as [? [? ?]]; tauto).
    repeat split; [exact Ha|now symmetry| |exact Eg].
    assert (a_gid a = g) by (unfold gcore in E; injection E; congruence). rewrite <- H. now apply S6. }
  assert (LO : forall t h a, t < nt -> nth_error (nth t v []) h = Some a ->
    exists b, nth_error G (a_gid a) = Some b /\ gcore b = gcore a /\ touch nt t (a_tp a) = true).
  { intros t h a Ht Ha.
    destruct (map_eq_nth _ _ _ _ _ _ (S3 t Ht) Ha) as [b [Hb E]]. apply nth_error_In, filter_In in Hb. destruct Hb as [Hb Tb].
    apply In_nth_error in Hb. destruct Hb as [g Hg]. exists b.
    assert (Eg : a_gid b = g) by (destruct (conj_index _ _ _ _ _ Hg) as [? [? ?]]; tauto).
    assert (E' : a_gid a = a_gid b /\ a_tp a = a_tp b) by (unfold gcore in E; injection E; auto).
    destruct E' as [E1 E2]. rewrite E1, Eg, E2. auto. }
  constructor; cbn [gm_loc gm_nc gm_tp gm_all gm_iloc].
  - rewrite map_length. auto.
  - reflexivity.
  - intros t Ht. rewrite (V t Ht), (C t Ht), (S2 t Ht). symmetry. now apply map_filter_comm.
  - intros t h a Ht Ha. rewrite (V t Ht) in Ha. apply nth_error_map_inv in Ha. destruct Ha as [a0 [Ha ->]].
    destruct (LO t h a0 Ht Ha) as [b [Hb [E Tb]]].
    cbn [with_conj a_il a_gid a_tp a_n a_n_id].
    pose proof (nlmtp_attrs_tp _ _ _ _ (nth_error_In _ _ Hb)) as [_ [_ [B2 B3]]].
    assert (E' : a_n b = a_n a0 /\ a_n_id b = a_n_id a0 /\ a_tp b = a_tp a0) by (unfold gcore in E; injection E; auto).
    destruct E' as [E1 [E2 E3]]. rewrite E1, E2, E3 in *.
    repeat split; [now apply (S4 t)|now apply S6|exact Tb| |exact B2|exact B3|].
    + rewrite <- E3. apply HL. eapply nth_error_In; exact Hb.
    + exists b. split; [exact Hb|exact E].
  - intros t k a Ht Ha. rewrite (C t Ht) in Ha. apply nth_error_map_inv in Ha. destruct Ha as [a0 [Ha ->]]. exact (S5 t k a0 Ht Ha).
  - intros t h a Ht Ha. rewrite (V t Ht) in *. apply nth_error_map_inv in Ha. destruct Ha as [a0 [Ha ->]].
    destruct (LO t h a0 Ht Ha) as [b [Hb [E Tb]]].
    destruct (conj_index _ _ _ _ _ Hb) as [g' [b' [Q1 [Q2 [Q3 [Q4 [Q5 [Q6 [Q7 [Q8 [Q9 [Q10 [Q11 Q12]]]]]]]]]]]]].
    assert (E' : a_n b = a_n a0 /\ a_n_id b = a_n_id a0 /\ a_lm b = a_lm a0 /\ a_tp b = a_tp a0 /\ a_gcj b = a_gcj a0)
      by (unfold gcore in E; injection E; auto).
    destruct E' as [E1 [E2 [E3 [E4 E5]]]].
    destruct (GB t g' b' Ht Q2) as [h' [a' [R1 [R2 [R3 R4]]]]]; [rewrite Q4, E4; exact Tb|].
    assert (E' : a_n a' = a_n b' /\ a_n_id a' = a_n_id b' /\ a_lm a' = a_lm b' /\ a_tp a' = a_tp b' /\ a_gid a' = a_gid b' /\ a_gcj a' = a_gcj b')
      by (unfold gcore in R2; injection R2; auto 10).
    destruct E' as [E1' [E2' [E3' [E4' [E5' E6']]]]].
    assert (I1 : um_get [Z.to_nat (a_gcj a0); t] m = h') by (rewrite <- E5, <- Q1, Nat2Z.id; exact R3).
    exists (with_conj m t a'). cbn [with_conj a_icj a_n a_n_id a_tp a_lm a_gcj a_gid]. rewrite I1.
    split; [rewrite nth_error_map, R1; reflexivity|]. split.
    { rewrite E6', Q8, Nat2Z.id. now apply S6. }
    destruct (conj_index _ _ _ _ _ Q2) as [? [? [_ [_ [_ [_ [_ [_ [_ [_ [_ [Q10' _]]]]]]]]]]]].
    rewrite E3', Q10', Q6, Q7, <- E3.
    repeat split; try congruence.
    intros Hm. assert (g' = a_gid a0) by (apply Q12; rewrite Hm; reflexivity).
    subst g'. rewrite H in R3. rewrite <- R3. now apply S6.
  - intros t g b Ht Hb Tb. destruct (GB t g b Ht Hb Tb) as [h [a [H1 [H2 [H3 H4]]]]].
    exists h, (with_conj m t a). rewrite (V t Ht), nth_error_map, H1. auto.
  - exact TP.
  - intros t1 t2 H1 H2. rewrite !TP by (try assumption; now apply tpair_lt).
    rewrite (C t1 H1), (C t2 H2).
    rewrite (map_filter_comm (with_conj m t1) _ (fun a => a_tp a =? tpair nt t1 t2)) by reflexivity.
    rewrite (map_filter_comm (with_conj m t2) _ (fun a => a_tp a =? tpair nt t1 t2)) by reflexivity.
    rewrite !map_map. specialize (S7 t1 t2 H1 H2). rewrite map_map in S7. exact S7.
Qed.

Lemma type_pairs_dims n : length (type_pairs n) = n /\ forall i, i < n -> length (nth i (type_pairs n) []) = n.
Proof. apply (tp_fold n (tp_loop n) (tp_loop_nodup n)). intros i j. apply tp_loop_In. Qed.
Lemma local_conjugate nt n_fn maxl cond t h a :
  let M := mapping_gtinv nt n_fn maxl cond in
  t < nt -> nth_error (nth t (gm_loc M) []) h = Some a ->
  a_il a = h /\
  exists a', nth_error (nth t (gm_loc M) []) (a_icj a) = Some a' /\ a_icj a' = h /\
    a_n a' = a_n a /\ a_tp a' = a_tp a /\ lm_l (a_lm a') = lm_l (a_lm a) /\
    lm_m (a_lm a') = (- lm_m (a_lm a))%Z /\ Z.of_nat (a_gid a') = a_gcj a /\
    (lm_m (a_lm a) = 0%Z -> a_icj a = h).
Proof.
  intros M Ht Ha. pose proof (mapping_gtinv_ok nt n_fn maxl cond) as W. fold M in W. split.
  - now apply (go_loc _ _ _ _ _ W t).
  - destruct (go_conj _ _ _ _ _ W t h a Ht Ha) as [a' [Q1 [Q2 [Q3 [Q4 [Q5 [Q6 [Q7 [Q8 [Q9 Q10]]]]]]]]]].
    exists a'. rewrite Q6. cbn [lm_attr lm_l lm_m]. auto 10.
Qed.
Lemma local_noconj nt n_fn maxl cond t :
  let M := mapping_gtinv nt n_fn maxl cond in
  t < nt ->
  nth t (gm_nc M) [] = filter (fun a => (lm_m (a_lm a) <=? 0)%Z) (nth t (gm_loc M) []) /\
  forall k a, nth_error (nth t (gm_nc M) []) k = Some a -> a_inc a = k.
Proof.
  intros M Ht. pose proof (mapping_gtinv_ok nt n_fn maxl cond) as W. fold M in W. split.
  - rewrite (go_nc _ _ _ _ _ W t Ht). apply filter_ext_in. intros a Ha.
    apply In_nth_error in Ha. destruct Ha as [h Ha].
    destruct (go_conj _ _ _ _ _ W t h a Ht Ha) as [a' [Q1 [Q2 [Q3 [Q4 [Q5 [Q6 [Q7 [Q8 [Q9 Q10]]]]]]]]]].
    unfold noconj. rewrite Q7. cbn [lm_attr lm_conj lm_m]. rewrite negb_involutive.
    destruct (Z.leb_spec (lm_m (a_lm a)) 0), (Z.ltb_spec (lm_m (a_lm a)) 1); try reflexivity; lia.
  - intros k a. now apply (go_inc _ _ _ _ _ W t).
Qed.
