From Verif Require Import Base Num Model.Batch Model.Regress Proofs.Batch.
From Coq Require Import Ring ZifyBool ZifyNat.

Definition bsize (p n_batch : nat) : nat := Nat.max 100 (p / n_batch).

Lemma blocks_as_map k : forall from n b, blocks k from n b
  = map (fun t => (from + t * b, Nat.min n (from + t * b + b))) (seq 0 k).
Proof.
  induction k as [|k IH]; intros from n b; [reflexivity|]. cbn [blocks seq map]. f_equal.
  - f_equal; [lia|f_equal; lia].
  - rewrite IH, <- seq_shift, map_map. apply map_ext. intros t. f_equal; [cbn; lia|f_equal; cbn; lia].
Qed.

Lemma enum_map {A} (f : nat -> A) K : enum (map f (seq 0 K)) = map (fun t => (t, f t)) (seq 0 K).
Proof.
  unfold enum. rewrite map_length, seq_length. generalize 0 as s. induction K as [|K IH]; intros s; [reflexivity|].
  cbn. f_equal. apply IH.
Qed.

Section Blocks.
  Context {F : Type} {N : Num F}.
  Variables (p n_batch : nat).
  Notation b := (bsize p n_batch).
  Notation K := ((p + b - 1) / b).
  Definition blk (t : nat) : Z * Z := toZ (0 + t * b, Nat.min p (0 + t * b + b)).

  Lemma bsize_pos : 1 <= b.
  Proof. unfold bsize. lia. Qed.

  Lemma feature_blocks_eq : feature_blocks p n_batch = Ok (map blk (seq 0 K)).
  Proof.
    unfold feature_blocks. fold b. rewrite batches_blocks by apply bsize_pos.
    rewrite blocks_as_map, map_map. reflexivity.
  Qed.

  Lemma in_blk t i : i < p -> in_block (blk t) i = (t =? i / b).
  Proof.
    intros Hi. unfold in_block, blk, toZ. cbn [fst snd Nat.add]. pose proof bsize_pos as Hb.
    pose proof (Nat.div_mod i b ltac:(lia)) as D. pose proof (Nat.mod_upper_bound i b ltac:(lia)) as M.
    set (q := i / b) in *. set (r := i mod b) in *. set (bb := b) in *. clearbody q r bb.
    destruct (Nat.eqb_spec t q) as [->|Ht].
    - apply andb_true_intro. split; [apply Z.leb_le|apply Z.ltb_lt]; nia.
    - apply andb_false_iff. destruct (Nat.lt_ge_cases t q); [right|left].
      + apply Z.ltb_ge. nia.
      + apply Z.leb_gt. nia.
  Qed.

  Lemma div_lt_K i : i < p -> i / b < K.
  Proof.
    intros Hi. pose proof bsize_pos as Hb. apply (Nat.lt_le_trans _ (i / b + 1)); [lia|].
    replace (i / b + 1) with ((i + 1 * b) / b) by (rewrite Nat.div_add; lia).
    apply Nat.div_le_mono; lia.
  Qed.

  (** A double loop over blocks, seen from one matrix element. *)
  Section Loop.
    Variable up : bool.                       (** add above the diagonal, or copy below it *)
    Variable step : Z * Z -> Z * Z -> mat F -> mat F.
    Definition guard (ib jb : nat) : bool := if up then ib <=? jb else jb <? ib.
    Definition inner (ib : nat * (Z * Z)) (js : list (nat * (Z * Z))) (m : mat F) : mat F :=
      fold_left (fun m jb => if guard (fst ib) (fst jb) then step (snd ib) (snd jb) m else m) js m.
    Definition outer (is js : list (nat * (Z * Z))) (m : mat F) : mat F :=
      fold_left (fun m ib => inner ib js m) is m.

    Lemma inner_app ib l1 x l2 m : inner ib (l1 ++ x :: l2) m
      = inner ib l2 (if guard (fst ib) (fst x) then step (snd ib) (snd x) (inner ib l1 m) else inner ib l1 m).
    Proof. unfold inner. now rewrite fold_left_app. Qed.
    Lemma outer_app l1 x l2 js m : outer (l1 ++ x :: l2) js m = outer l2 js (inner x js (outer l1 js m)).
    Proof. unfold outer. now rewrite fold_left_app. Qed.

    (** Elements outside the guarded blocks are untouched. *)
    Hypothesis Hstep : forall bi bj m i j, in_block bi i && in_block bj j = false -> step bi bj m i j = m i j.

    Lemma inner_skip ib ts m i j : i < p -> j < p ->
      (ib =? i / b) && existsb (fun t => t =? j / b) ts && guard (i / b) (j / b) = false ->
      inner (ib, blk ib) (map (fun t => (t, blk t)) ts) m i j = m i j.
    Proof.
      intros Hi Hj. revert m. unfold inner. induction ts as [|t ts IH]; intros m H; [reflexivity|].
      cbn [map fold_left fst snd].
      assert (H' : (ib =? i / b) && existsb (fun t => t =? j / b) ts && guard (i / b) (j / b) = false).
      { cbn [existsb] in H. destruct (ib =? i / b), (t =? j / b), (existsb (fun t => t =? j / b) ts), (guard (i / b) (j / b)); try reflexivity; discriminate. }
      rewrite (IH _ H'). destruct (guard ib t) eqn:G; [|reflexivity].
      apply Hstep. rewrite !in_blk by assumption.
      destruct (Nat.eqb_spec ib (i / b)) as [->|]; [|reflexivity]. destruct (Nat.eqb_spec t (j / b)) as [->|]; [|reflexivity].
      rewrite G in H. cbn [existsb] in H. rewrite Nat.eqb_refl in H. discriminate.
    Qed.
    Lemma outer_skip ss ts m i j : i < p -> j < p ->
      existsb (fun s => s =? i / b) ss && existsb (fun t => t =? j / b) ts && guard (i / b) (j / b) = false ->
      outer (map (fun t => (t, blk t)) ss) (map (fun t => (t, blk t)) ts) m i j = m i j.
    Proof.
      intros Hi Hj. revert m. unfold outer. induction ss as [|s ss IH]; intros m H; [reflexivity|].
      cbn [map fold_left]. cbn [existsb] in H.
      rewrite IH.
      - apply inner_skip; auto.
        destruct (s =? i / b), (existsb (fun t => t =? j / b) ts), (guard (i / b) (j / b)); try reflexivity;
        destruct (existsb (fun s => s =? i / b) ss); discriminate.
      - destruct (s =? i / b), (existsb (fun t => t =? j / b) ts), (guard (i / b) (j / b)); try reflexivity;
        destruct (existsb (fun s => s =? i / b) ss); try reflexivity; discriminate.
    Qed.

    (** Elements inside are changed exactly once; [val] is what they become, depending on
        parts of the matrix [keep] that the loop does not touch. *)
    Variable val : mat F -> nat -> nat -> F.
    Hypothesis Hval : forall bi bj m i j, in_block bi i && in_block bj j = true -> step bi bj m i j = val m i j.
    Lemma existsb_seq_mem k s n : existsb (fun t => t =? k) (seq s n) = ((s <=? k) && (k <? s + n)).
    Proof.
      revert s. induction n as [|n IH]; intros s; cbn [seq existsb].
      - symmetry. destruct (s <=? k) eqn:E1; [|reflexivity]. cbn. apply Nat.ltb_ge. lia.
      - rewrite IH. destruct (Nat.eqb_spec s k); cbn [orb]; [symmetry; apply andb_true_intro; split; [apply Nat.leb_le|apply Nat.ltb_lt]; lia|].
        apply Bool.eq_iff_eq_true. rewrite !andb_true_iff, !Nat.leb_le, !Nat.ltb_lt. lia.
    Qed.
    Lemma outer_hit m i j : i < p -> j < p -> guard (i / b) (j / b) = true ->
      (forall m', (forall i' j', i' < p -> j' < p -> (i' / b <> i / b \/ j' / b <> j / b) ->
                     guard (i' / b) (j' / b) = false -> m' i' j' = m i' j') ->
                  m' i j = m i j -> val m' i j = val m i j) ->
      outer (map (fun t => (t, blk t)) (seq 0 K)) (map (fun t => (t, blk t)) (seq 0 K)) m i j = val m i j.
    Proof.
      intros Hi Hj G Hcong. pose proof (div_lt_K i Hi) as Li. pose proof (div_lt_K j Hj) as Lj.
      set (a := i / b) in *. set (c := j / b) in *.
      assert (Sa : seq 0 K = seq 0 a ++ a :: seq (S a) (K - S a)).
      { replace K with (a + S (K - S a)) at 1 by lia. rewrite seq_app. reflexivity. }
      assert (Sc : seq 0 K = seq 0 c ++ c :: seq (S c) (K - S c)).
      { replace K with (c + S (K - S c)) at 1 by lia. rewrite seq_app. reflexivity. }
      set (ts := map (fun t => (t, blk t)) (seq 0 K)).
      set (m1 := outer (map (fun t => (t, blk t)) (seq 0 a)) ts m).
      set (m3 := inner (a, blk a) (map (fun t => (t, blk t)) (seq 0 c)) m1).
      assert (E : outer ts ts m = outer (map (fun t => (t, blk t)) (seq (S a) (K - S a))) ts
                    (inner (a, blk a) (map (fun t => (t, blk t)) (seq (S c) (K - S c))) (step (blk a) (blk c) m3))).
      { unfold ts at 1. rewrite Sa, map_app. cbn [map]. rewrite outer_app. fold ts m1. f_equal.
        unfold ts. rewrite Sc, map_app. cbn [map]. rewrite inner_app. cbn [fst snd]. rewrite G. reflexivity. }
      rewrite E. clear E. unfold ts.
      rewrite outer_skip; [|assumption|assumption|].
      2:{ rewrite existsb_seq_mem. fold a c.
          replace ((S a <=? a) && (a <? S a + (K - S a))) with false by lia. reflexivity. }
      rewrite inner_skip; [|assumption|assumption|].
      2:{ rewrite existsb_seq_mem. fold a c.
          replace ((S c <=? c) && (c <? S c + (K - S c))) with false by lia. rewrite andb_false_r. reflexivity. }
      rewrite Hval by (rewrite !in_blk by assumption; fold a c; now rewrite !Nat.eqb_refl).
      assert (S1 : forall i' j', i' < p -> j' < p -> guard (i' / b) (j' / b) = false -> m1 i' j' = m i' j').
      { intros i' j' Hi' Hj' G'. unfold m1, ts. apply outer_skip; auto. rewrite G'. now rewrite andb_false_r. }
      assert (S3 : forall i' j', i' < p -> j' < p -> guard (i' / b) (j' / b) = false -> m3 i' j' = m1 i' j').
      { intros i' j' Hi' Hj' G'. unfold m3. apply inner_skip; auto. rewrite G'. now rewrite andb_false_r. }
      apply Hcong.
      - intros i' j' Hi' Hj' _ G'. rewrite S3, S1; auto.
      - unfold m3. rewrite inner_skip; [|assumption|assumption|].
        + unfold m1, ts. apply outer_skip; auto. rewrite existsb_seq_mem. fold a.
          replace ((0 <=? a) && (a <? 0 + a)) with false by lia. reflexivity.
        + rewrite existsb_seq_mem. fold a c. replace ((0 <=? c) && (c <? 0 + c)) with false by lia.
          rewrite andb_false_r. reflexivity.
    Qed.
  End Loop.

  (** ** Accumulation above the diagonal *)
  Context {L : RingLaws F}.
  Local Open Scope num_scope.
  Add Ring Frb : (ring_laws (F:=F)).

  Definition start (xtx : option (mat F)) : mat F := match xtx with Some m => m | None => fun _ _ => 0 end.

  Lemma sum_large_spec xtx (x : list (vec F)) :
    exists m, sum_large_xtx p n_batch xtx x = Ok m /\
      forall i j, (i < p)%nat -> (j < p)%nat ->
        m i j = if (i / b <=? j / b)%nat then start xtx i j + xtx_of x i j else start xtx i j.
  Proof.
    unfold sum_large_xtx. rewrite feature_blocks_eq. cbn [bind]. rewrite enum_map.
    eexists. split; [reflexivity|]. intros i j Hi Hj.
    change (outer true (add_block x) (map (fun t => (t, blk t)) (seq 0 K)) (map (fun t => (t, blk t)) (seq 0 K)) (start xtx) i j
            = if (i / b <=? j / b)%nat then start xtx i j + xtx_of x i j else start xtx i j).
    assert (H1 : forall bi bj (m : mat F) i j, in_block bi i && in_block bj j = false -> add_block x bi bj m i j = m i j).
    { intros bi bj m i' j' H. unfold add_block. now rewrite H. }
    destruct (i / b <=? j / b)%nat eqn:G.
    - rewrite (outer_hit true (add_block x) H1 (fun m i j => m i j + xtx_of x i j)); auto.
      + intros bi bj m i' j' H. unfold add_block. now rewrite H.
      + intros m' _ E. now rewrite E.
    - apply outer_skip; auto. cbn [guard]. rewrite G. now rewrite andb_false_r.
  Qed.

  (** ** Copy to below the diagonal *)
  Lemma symmetrize_spec (m : mat F) :
    exists m', symmetrize_xtx p n_batch m = Ok m' /\
      forall i j, (i < p)%nat -> (j < p)%nat -> m' i j = if (j / b <? i / b)%nat then m j i else m i j.
  Proof.
    unfold symmetrize_xtx. rewrite feature_blocks_eq. cbn [bind]. rewrite enum_map.
    eexists. split; [reflexivity|]. intros i j Hi Hj.
    change (outer false copy_block (map (fun t => (t, blk t)) (seq 0 K)) (map (fun t => (t, blk t)) (seq 0 K)) m i j
            = if (j / b <? i / b)%nat then m j i else m i j).
    assert (H1 : forall bi bj (m : mat F) i j, in_block bi i && in_block bj j = false -> copy_block bi bj m i j = m i j).
    { intros bi bj m' i' j' H. unfold copy_block. now rewrite H. }
    destruct (j / b <? i / b)%nat eqn:G.
    - rewrite (outer_hit false copy_block H1 (fun m i j => m j i)); auto.
      + intros bi bj m' i' j' H. unfold copy_block. now rewrite H.
      + intros m' E _. apply E; auto.
        * apply Nat.ltb_lt in G. lia.
        * cbn [guard]. apply Nat.ltb_lt in G. apply Nat.ltb_ge. lia.
    - apply outer_skip; auto. cbn [guard]. rewrite G. now rewrite andb_false_r.
  Qed.
End Blocks.
