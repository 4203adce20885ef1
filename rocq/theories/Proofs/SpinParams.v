From Verif Require Import Base Model.SpinParams.

(** The original type of a new type *)
Fixpoint origin (sp : list bool) (t : nat) : nat :=
  match sp with [] => 0 | s :: sp => let k := if s then 2 else 1 in if t <? k then 0 else S (origin sp (t - k)) end.
Definition doubled (sp : list bool) : nat := length sp + length (filter (fun b => b) sp).
Lemma origin_lt sp t : t < doubled sp -> origin sp t < length sp.
Proof. revert t. induction sp as [|s sp IH]; intros t H; unfold doubled in *; cbn [length filter] in *; [lia|]. cbn [origin]. destruct s; cbn [length] in H; [destruct (Nat.ltb_spec t 2); [lia|]; specialize (IH (t - 2))|destruct (Nat.ltb_spec t 1); [lia|]; specialize (IH (t - 1))]; lia. Qed.
Lemma origin_mono sp t u : t <= u -> u < doubled sp -> origin sp t <= origin sp u.
Proof.
  revert t u. induction sp as [|s sp IH]; intros t u H HU; unfold doubled in *; cbn [length filter origin] in *; [lia|]. destruct s; cbn [length] in HU.
  - destruct (Nat.ltb_spec t 2); [lia|]. destruct (Nat.ltb_spec u 2); [lia|]. apply le_n_S, IH; lia.
  - destruct (Nat.ltb_spec t 1); [lia|]. destruct (Nat.ltb_spec u 1); [lia|]. apply le_n_S, IH; lia.
Qed.
Lemma origin_count sp i s : nth_error sp i = Some s -> length (filter (fun t => origin sp t =? i) (seq 0 (doubled sp))) = if s then 2 else 1.
Proof.
  assert (G : forall sp (p : nat -> bool) b n, length (filter (fun t => p (origin sp (t - b))) (seq b n)) = length (filter (fun t => p (origin sp t)) (seq 0 n))).
  { clear. intros sp p b n. assert (K : forall n b c, b <= c -> length (filter (fun t => p (origin sp (t - b))) (seq c n)) = length (filter (fun t => p (origin sp t)) (seq (c - b) n))).
    { clear. induction n as [|n IH]; intros b c H; cbn [seq filter]; [reflexivity|]. specialize (IH b (S c) ltac:(lia)). replace (S c - b) with (S (c - b)) in IH by lia. destruct (p (origin sp (c - b))); cbn [length]; rewrite IH; reflexivity. }
    rewrite (K n b b) by lia. now rewrite Nat.sub_diag. }
  revert i. induction sp as [|s0 sp IH]; intros i H; [destruct i; discriminate|].
  assert (HZ : forall k n i', length (filter (fun t => S (origin sp (t - k)) =? S i') (seq k n)) = length (filter (fun t => origin sp t =? i') (seq 0 n))) by (intros k n i'; exact (G sp (fun o => o =? i') k n)).
  assert (HN : forall k n, filter (fun t => S (origin sp (t - k)) =? 0) (seq k n) = []) by (intros k n; induction (seq k n) as [|x l IHl]; [reflexivity|exact IHl]).
  assert (ED : doubled (s0 :: sp) = (if s0 then 2 else 1) + doubled sp) by (unfold doubled; destruct s0; cbn [length filter]; lia). rewrite ED, seq_app, filter_app, app_length. cbn [Nat.add]. set (k := if s0 then 2 else 1) in *.
  assert (E2 : filter (fun t => origin (s0 :: sp) t =? i) (seq k (doubled sp)) = filter (fun t => S (origin sp (t - k)) =? i) (seq k (doubled sp))).
  { apply filter_ext_in. intros t Ht. apply in_seq in Ht. cbn [origin]. fold k. destruct (Nat.ltb_spec t k); [lia|reflexivity]. }
  rewrite E2. destruct i as [|i]; cbn [nth_error] in H.
  - injection H as ->. rewrite HN. unfold k. destruct s; reflexivity.
  - rewrite HZ, (IH i H). assert (E3 : filter (fun t => origin (s0 :: sp) t =? S i) (seq 0 k) = []) by (unfold k; destruct s0; reflexivity). rewrite E3. reflexivity.
Qed.

Section Spread.
  Variables (El E W : Type).
  Lemma repeat_nth {A} (a : A) k l t : nth_error (repeat a k ++ l) t = if t <? k then Some a else nth_error l (t - k).
  Proof. revert t. induction k as [|k IH]; intros t; cbn [repeat app]; [rewrite Nat.sub_0_r; reflexivity|]. destruct t as [|t]; [reflexivity|]. cbn [nth_error]. rewrite IH. reflexivity. Qed.
  Lemma spread_ok (els : list El) (en : list E) sp n els' en' sp' m n' : length els = length sp -> length en = length sp -> spread El E els en sp n = (els', en', sp', m, n') ->
    n' = n + doubled sp /\ length els' = doubled sp /\ length en' = doubled sp /\ length sp' = doubled sp /\
    (forall t, t < doubled sp -> nth_error els' t = nth_error els (origin sp t) /\ nth_error en' t = nth_error en (origin sp t) /\ nth_error sp' t = nth_error sp (origin sp t)) /\
    (forall i t, In t (nth i m []) <-> n <= t < n' /\ origin sp (t - n) = i).
  Proof.
    revert en sp n els' en' sp' m n'. induction els as [|e els IH]; intros [|a en] [|s sp] n els' en' sp' m n' H1 H2 H; try discriminate.
    - cbn [spread] in H. injection H as <- <- <- <- <-. unfold doubled. cbn [length filter]. repeat split; try lia; try (intros; lia); destruct i; contradiction.
    - cbn [spread] in H. cbn [length] in H1, H2. set (k := if s then 2 else 1) in *. assert (ED : doubled (s :: sp) = k + doubled sp) by (unfold doubled, k; destruct s; cbn [length filter]; lia).
      destruct (spread El E els en sp (n + k)) as [[[[els1 en1] sp1] m1] n1] eqn:ES. injection H as <- <- <- <- <-.
      destruct (IH en sp (n + k) els1 en1 sp1 m1 n1 ltac:(lia) ltac:(lia) ES) as [K1 [K2 [K3 [K4 [K5 K6]]]]]. rewrite ED, !app_length, !repeat_length, K2, K3, K4.
      split; [lia|]. split; [reflexivity|]. split; [reflexivity|]. split; [reflexivity|]. split.
      + intros t Ht. rewrite !repeat_nth. cbn [origin]. fold k. destruct (Nat.ltb_spec t k); [repeat split|]. cbn [nth_error]. apply K5. lia.
      + intros i t. cbn [origin]. fold k. destruct i as [|i]; cbn [nth].
        * rewrite in_seq. destruct (Nat.ltb_spec (t - n) k); split; try (intros; split; lia); intros [? ?]; lia.
        * rewrite K6. destruct (Nat.ltb_spec (t - n) k); split.
          -- intros [H3 H4]. lia. -- intros [H3 H4]. discriminate.
          -- intros [H3 H4]. split; [lia|]. rewrite <- H4. f_equal. f_equal. lia.
          -- intros [H3 H4]. injection H4 as H4. split; [lia|]. rewrite <- H4. f_equal. lia.
  Qed.
  Lemma key_eqb_eq a b : key_eqb a b = true <-> a = b.
  Proof. destruct a, b. unfold key_eqb. cbn [fst snd]. rewrite andb_true_iff, !Nat.eqb_eq. split; [intros [-> ->]; reflexivity|intros [= -> ->]; auto]. Qed.
  Lemma key_eqb_refl a : key_eqb a a = true.
  Proof. now apply key_eqb_eq. Qed.
  Lemma dict_get_set (d : list ((nat * nat) * W)) k v k' : dict_get W (dict_set W d k v) k' = if key_eqb k' k then Some v else dict_get W d k'.
  Proof.
    induction d as [|[k0 v0] d IH]; cbn [dict_set]; unfold dict_get; cbn [find fst].
    - destruct (key_eqb k' k); reflexivity.
    - destruct (key_eqb k k0) eqn:E1; cbn [find fst].
      + apply key_eqb_eq in E1. subst k0. destruct (key_eqb k' k); reflexivity.
      + fold (dict_get W (dict_set W d k v) k'). destruct (key_eqb k' k0) eqn:E2.
        * destruct (key_eqb k' k) eqn:E3; [|reflexivity]. apply key_eqb_eq in E2, E3. subst. rewrite key_eqb_refl in E1. discriminate.
        * unfold dict_get in IH. exact IH.
  Qed.
  Lemma inner_get (v : W) (ts : list (nat * nat)) acc k : dict_get W (fold_left (fun acc t => dict_set W acc (Nat.min (fst t) (snd t), Nat.max (fst t) (snd t)) v) ts acc) k =
    if existsb (fun t => key_eqb k (Nat.min (fst t) (snd t), Nat.max (fst t) (snd t))) ts then Some v else dict_get W acc k.
  Proof.
    revert acc. induction ts as [|t ts IH]; intros acc; cbn [fold_left existsb]; [reflexivity|]. rewrite IH, dict_get_set. destruct (key_eqb k _); cbn [orb]; [destruct (existsb _ ts); reflexivity|reflexivity].
  Qed.
  (** Revised tables: [o] gives the original type of a new type below [n]. *)
  Lemma revise_get (m : list (list nat)) (o : nat -> nat) n (d : list ((nat * nat) * W)) : (forall i t, In t (nth i m []) <-> t < n /\ o t = i) -> (forall t u, t <= u -> u < n -> o t <= o u) ->
    (forall q, In q d -> fst (fst q) <= snd (fst q)) -> NoDup (map fst d) ->
    forall t u, dict_get W (revise W m d) (t, u) = if (t <=? u) && (u <? n) then dict_get W d (o t, o u) else None.
  Proof.
    intros HM HO HK HN t u. unfold revise.
    assert (G : forall d acc, (forall q, In q d -> fst (fst q) <= snd (fst q)) -> NoDup (map fst d) -> dict_get W (fold_left (fun acc q => fold_left (fun acc t => dict_set W acc (Nat.min (fst t) (snd t), Nat.max (fst t) (snd t)) (snd q)) (list_prod (map_get m (fst (fst q))) (map_get m (snd (fst q)))) acc) d acc) (t, u) =
      if (t <=? u) && (u <? n) then (match dict_get W d (o t, o u) with Some v => Some v | None => dict_get W acc (t, u) end) else dict_get W acc (t, u)).
    { clear d HK HN. induction d as [|[[a b] v] d IH]; intros acc HK HN; cbn [fold_left].
      - unfold dict_get at 2. cbn [find]. destruct (_ && _); reflexivity.
      - inversion HN as [|? ? HN1 HN2]; subst. rewrite IH by (auto; intros; apply HK; now right). cbn [fst snd]. rewrite inner_get.
        assert (HAB : a <= b) by exact (HK _ (or_introl eq_refl)).
        assert (EX : existsb (fun q => key_eqb (t, u) (Nat.min (fst q) (snd q), Nat.max (fst q) (snd q))) (list_prod (map_get m a) (map_get m b)) = (t <=? u) && (u <? n) && key_eqb (o t, o u) (a, b)).
        { apply eq_true_iff_eq. rewrite existsb_exists, !andb_true_iff, Nat.leb_le, Nat.ltb_lt. rewrite key_eqb_eq. split.
          - intros [[x y] [Hxy EE]]. apply in_prod_iff in Hxy. destruct Hxy as [Hx Hy]. apply HM in Hx, Hy. cbn [fst snd] in EE. apply key_eqb_eq in EE. injection EE as -> ->. destruct Hx as [Hx Ex], Hy as [Hy Ey].
            destruct (Nat.le_gt_cases x y) as [L|L].
            + rewrite Nat.min_l, Nat.max_r by lia. split; [lia|]. congruence.
            + rewrite Nat.min_r, Nat.max_l by lia. split; [lia|]. assert (o y <= o x) by (apply HO; lia). assert (a = b) by lia. congruence.
          - intros [[H1 H2] EE]. injection EE as <- <-. exists (t, u). split; [apply in_prod_iff; split; apply HM; split; (reflexivity || lia)|]. cbn [fst snd]. rewrite Nat.min_l, Nat.max_r by lia. apply key_eqb_refl. }
        rewrite EX. destruct ((t <=? u) && (u <? n)); cbn [andb]; [|reflexivity]. unfold dict_get at 3. cbn [find fst]. fold (dict_get W d (o t, o u)). destruct (key_eqb (o t, o u) (a, b)) eqn:EK; [|reflexivity].
        apply key_eqb_eq in EK. cbn [snd]. replace (dict_get W d (o t, o u)) with (@None W); [reflexivity|]. symmetry. unfold dict_get. destruct (find _ d) as [q|] eqn:EF; [|reflexivity]. apply find_some in EF. destruct EF as [Hq Eq]. apply key_eqb_eq in Eq. exfalso. apply HN1. rewrite EK in Eq. rewrite Eq. now apply in_map. }
    rewrite G by assumption. unfold dict_get at 2 3. cbn [find]. destruct (_ && _); [|reflexivity]. destruct (dict_get W d (o t, o u)); reflexivity.
  Qed.
End Spread.
