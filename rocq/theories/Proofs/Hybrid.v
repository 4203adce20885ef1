From Verif Require Import Base Num Model.Structure Model.Hybrid Proofs.Index Proofs.RegressWeights.
From Coq Require Import Ring Field.

Lemma cumulative_length n ns : length (cumulative_from n ns) = length ns.
Proof. revert n; induction ns; intros; cbn; congruence. Qed.
Lemma cumulative_nth ns : forall n i, i < length ns -> nth_error (cumulative_from n ns) i = Some (n + sum (firstn (S i) ns)).
Proof.
  induction ns as [|k ns IH]; intros n [|i] H; cbn in H; try lia; cbn [cumulative_from nth_error].
  - cbn. f_equal. lia.
  - rewrite IH by lia. cbn [firstn sum fold_right]. f_equal. unfold sum. cbn. lia.
Qed.
Lemma bounds_spec ns i : i < length ns -> bounds (cumulative ns) i = Ok (sum (firstn i ns), sum (firstn (S i) ns)).
Proof.
  intros H. unfold bounds, cumulative, get.
  rewrite (cumulative_nth ns 0 i) by exact H. cbn [Nat.add].
  destruct i as [|i]; [reflexivity|]. cbn [Nat.eqb]. replace (S i - 1) with i by lia. rewrite (cumulative_nth ns 0 i) by lia. reflexivity.
Qed.

Fixpoint pieces {A} (ns : list nat) (l : list A) : list (list A) :=
  match ns with [] => [] | k :: t => firstn k l :: pieces t (skipn k l) end.

Lemma slice_skip {A} a b (l : list A) k : slice (k + a) (k + b) l = slice a b (skipn k l).
Proof.
  unfold slice. rewrite skipn_firstn_comm. replace (k + b - (k + a)) with (b - a) by lia.
  rewrite (skipn_firstn_comm a b). f_equal. revert l. induction k as [|k IH]; intros l; [reflexivity|].
  destruct l; [now rewrite !skipn_nil|]. cbn. apply IH.
Qed.

Lemma division_pieces {A B} ns (f : nat -> nat -> B) (g : list A -> B) (l : list A) :
  (forall b e, f b e = g (slice b e l)) ->
  mapM (fun i => do (b, e) <- bounds (cumulative ns) i; Ok (f b e)) (seq 0 (length ns)) = Ok (map g (pieces ns l)).
Proof.
  intros Hf.
  rewrite (mapM_Ok _ (fun i => g (slice (sum (firstn i ns)) (sum (firstn (S i) ns)) l))).
  - f_equal. rewrite <- (map_map (fun i => slice (sum (firstn i ns)) (sum (firstn (S i) ns)) l) g). f_equal.
    clear. revert l. induction ns as [|k ns IH]; intros l; [reflexivity|]. cbn [length seq map pieces]. f_equal.
    + cbn [firstn sum fold_right]. rewrite Nat.add_0_r. unfold slice. reflexivity.
    + rewrite <- IH, <- seq_shift, map_map. apply map_ext. intros i.
      change (firstn (S i) (k :: ns)) with (k :: firstn i ns). change (firstn (S (S i)) (k :: ns)) with (k :: firstn (S i) ns).
      apply slice_skip.
  - intros i Hi. apply in_seq in Hi. rewrite bounds_spec by lia. cbn [bind]. now rewrite Hf.
Qed.

Lemma pieces_spec {A} ns : forall (l : list A), length l = sum ns ->
  concat (pieces ns l) = l /\ map (@length A) (pieces ns l) = ns.
Proof.
  induction ns as [|k ns IH]; intros l H; cbn [pieces concat map].
  - destruct l; [auto|discriminate].
  - cbn in H. fold (sum ns) in H. destruct (IH (skipn k l)) as [H1 H2]; [rewrite skipn_length; lia|].
    rewrite H1, H2, firstn_skipn, firstn_length. split; [reflexivity|]. f_equal. lia.
Qed.

Lemma division_eq {A} ns (l : list A) : hybrid_division (length ns) (cumulative ns) l = Ok (pieces ns l).
Proof.
  rewrite <- (map_id (pieces ns l)). exact (division_pieces ns (fun b e => slice b e l) (fun x => x) l (fun _ _ => eq_refl)).
Qed.
Lemma hybrid_division_spec {A} ns (l : list A) : length l = sum ns ->
  exists ps, hybrid_division (length ns) (cumulative ns) l = Ok ps /\ map (@length A) ps = ns /\ concat ps = l.
Proof.
  intros H. exists (pieces ns l). destruct (pieces_spec ns l H) as [H1 H2]. split; [|auto].
  apply division_eq.
Qed.

Lemma combine_firstn {A B} k (a : list A) (b : list B) : firstn k (combine a b) = combine (firstn k a) (firstn k b).
Proof. revert a b; induction k as [|k IH]; intros [|x a] [|y b]; cbn; try reflexivity. now rewrite IH. Qed.
Lemma combine_skipn {A B} k (a : list A) (b : list B) : length a = length b -> skipn k (combine a b) = combine (skipn k a) (skipn k b).
Proof. revert a b; induction k as [|k IH]; intros [|x a] [|y b] H; try discriminate; cbn; try reflexivity. apply IH. now injection H. Qed.

Section H.
  Context {F : Type} {N : Num F} {L : FieldLaws F}.
  Local Open Scope num_scope.
  Add Field Ffield : (field_laws (F:=F)).

  Lemma pieces_div ns : forall (c s : list F), length c = length s ->
    map (fun q => div_lists (fst q) (snd q)) (combine (pieces ns c) (pieces ns s)) = pieces ns (div_lists c s).
  Proof.
    induction ns as [|k ns IH]; intros c s H; [reflexivity|]. cbn [pieces combine map fst snd]. f_equal.
    - unfold div_lists. rewrite <- combine_firstn. apply eq_sym, firstn_map.
    - rewrite IH by (rewrite !skipn_length; lia). f_equal. unfold div_lists. rewrite <- combine_skipn by exact H. symmetry. apply skipn_map.
  Qed.

  Lemma scaled_spec ns (c s : list F) : length c = sum ns -> length s = sum ns ->
    exists ps, scaled_coeffs (length ns) (cumulative ns) c s = Ok ps /\ saved_coeffs (length ns) (cumulative ns) c s = Ok ps /\
      map (@length F) ps = ns /\ concat ps = div_lists c s.
  Proof.
    intros Hc Hs. exists (pieces ns (div_lists c s)).
    assert (Hl : length (div_lists c s) = sum ns) by (unfold div_lists; rewrite map_length, combine_length; lia).
    destruct (pieces_spec ns (div_lists c s) Hl) as [H1 H2].
    split; [|split; [|auto]].
    - unfold scaled_coeffs. rewrite !division_eq. cbn [bind]. rewrite pieces_div by lia. reflexivity.
    - unfold saved_coeffs.
      etransitivity; [apply (division_pieces ns (fun b e => div_lists (slice b e c) (slice b e s))
                 (fun l => div_lists (map fst l) (map snd l)) (combine c s))|].
      2:{ f_equal. assert (E : forall ns (c s : list F), length c = length s ->
          map (fun l => div_lists (map fst l) (map snd l)) (pieces ns (combine c s)) = pieces ns (div_lists c s)).
        { clear. induction ns as [|k ns IH]; intros c s H; [reflexivity|]. cbn [pieces map]. f_equal.
          - unfold div_lists. rewrite firstn_map, combine_firstn. f_equal.
            assert (H' : length (firstn k c) = length (firstn k s)) by (rewrite !firstn_length; lia).
            revert H'. generalize (firstn k c) (firstn k s). clear. intros u v.
            revert v; induction u as [|x u IH]; intros [|y v] H; try discriminate; [reflexivity|]. cbn. f_equal. apply IH. now injection H.
          - rewrite combine_skipn by exact H. rewrite IH by (rewrite !skipn_length; lia). f_equal. unfold div_lists.
            rewrite <- combine_skipn by exact H. symmetry. apply skipn_map. }
        apply E. lia. }
      + intros b e. f_equal.
        * unfold slice. rewrite <- skipn_map, <- firstn_map. f_equal. f_equal.
          assert (H : length c = length s) by lia. revert H. clear. revert s; induction c as [|x c IH]; intros [|y s] H; try discriminate; [reflexivity|]. cbn. f_equal. apply IH. now injection H.
        * unfold slice. rewrite <- skipn_map, <- firstn_map. f_equal. f_equal.
          assert (H : length c = length s) by lia. revert H. clear. revert s; induction c as [|x c IH]; intros [|y s] H; try discriminate; [reflexivity|]. cbn. f_equal. apply IH. now injection H.
  Qed.

  Lemma put_spec xs : forall pre mid post : list F, length mid = length xs ->
    put (pre ++ mid ++ post) (length pre) xs = pre ++ xs ++ post.
  Proof.
    induction xs as [|x xs IH]; intros pre [|m mid] post H; try discriminate; [reflexivity|]. cbn [put app].
    rewrite write_at_mid. replace (pre ++ x :: mid ++ post) with ((pre ++ [x]) ++ mid ++ post) by (rewrite <- app_assoc; reflexivity).
    replace (S (length pre)) with (length (pre ++ [x])) by (rewrite app_length; cbn; lia).
    rewrite IH by (now injection H). rewrite <- app_assoc. reflexivity.
  Qed.
  Lemma fill_spec ns : forall (parts : list (list F)) pre rest,
    map (@length F) parts = ns -> length rest = sum ns ->
    fill (pre ++ rest) (length pre) (cumulative_from (length pre) ns) parts = pre ++ concat parts.
  Proof.
    induction ns as [|k ns IH]; intros [|xs parts] pre rest H1 H2; try discriminate.
    - destruct rest; [reflexivity|discriminate].
    - cbn in H1, H2. fold (sum ns) in H2. injection H1 as H3 H4. cbn [cumulative_from fill concat].
      rewrite <- (firstn_skipn k rest). rewrite put_spec by (rewrite firstn_length; lia).
      replace (length pre + k)%nat with (length (pre ++ xs)) by (rewrite app_length; lia).
      rewrite app_assoc. rewrite IH; [now rewrite <- app_assoc|exact H4|rewrite skipn_length; lia].
  Qed.
  Lemma last_cumulative ns : forall n, last (cumulative_from n ns) n = (n + sum ns)%nat.
  Proof.
    induction ns as [|k ns IH]; intros n; [cbn; lia|]. cbn [cumulative_from sum fold_right]. fold (sum ns).
    transitivity (last (cumulative_from (n + k) ns) (n + k)%nat).
    - destruct (cumulative_from (n + k) ns) as [|c l] eqn:E; [reflexivity|]. cbn [last]. clear. revert c. induction l as [|d l IH]; intros c; [reflexivity|]. apply IH.
    - rewrite IH. lia.
  Qed.
  Lemma hybrid_row_spec ns (parts : list (list F)) : map (@length F) parts = ns ->
    hybrid_row (cumulative ns) parts = concat parts.
  Proof.
    intros H. unfold hybrid_row, cumulative. rewrite last_cumulative. cbn [Nat.add].
    apply (fill_spec ns parts [] (repeat 0 (sum ns)) H). apply repeat_length.
  Qed.

  Lemma ldot_concat (us vs : list (list F)) : map (@length F) us = map (@length F) vs ->
    ldot (concat us) (concat vs) = nsumf (fun q => ldot (fst q) (snd q)) (combine us vs).
  Proof.
    revert vs; induction us as [|u us IH]; intros [|v vs] H; try discriminate; [reflexivity|]. cbn [map] in H. injection H as H1 H2.
    cbn [concat combine]. rewrite nsumf_cons. unfold ldot at 1. rewrite combine_app by exact H1. rewrite nsumf_app. cbn [fst snd].
    fold (ldot u v). fold (ldot (concat us) (concat vs)). now rewrite IH.
  Qed.

  Lemma hybrid_prediction ns (parts : list (list F)) (c s : list F) :
    map (@length F) parts = ns -> length c = sum ns -> length s = sum ns ->
    exists ps, saved_coeffs (length ns) (cumulative ns) c s = Ok ps /\ length ps = length ns /\
      ldot (hybrid_row (cumulative ns) parts) (div_lists c s) = nsumf (fun q => ldot (fst q) (snd q)) (combine parts ps).
  Proof.
    intros H1 H2 H3. destruct (scaled_spec ns c s H2 H3) as [ps [_ [E [Hl Hc]]]]. exists ps. split; [exact E|]. split.
    - rewrite <- Hl. now rewrite map_length.
    - rewrite hybrid_row_spec by exact H1. rewrite <- Hc. apply ldot_concat. congruence.
  Qed.
End H.
