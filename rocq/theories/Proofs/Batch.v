From Verif Require Import Base Model.Batch.
From Coq Require Import ZifyBool ZifyNat Zify.
Local Open Scope nat_scope.

(** The pairs as natural numbers. *)
Fixpoint blocks (k : nat) (from n b : nat) : list (nat * nat) :=
  match k with
  | 0 => []
  | S k' => (from, Nat.min n (from + b)) :: blocks k' (from + b) n b
  end.

Lemma blocks_cover b (Hb : 1 <= b) k : forall from n, from <= n -> n <= from + k * b ->
  flat_map (fun p => seq (fst p) (snd p - fst p)) (blocks k from n b) = seq from (n - from).
Proof.
  induction k as [|k IH]; intros from n H1 H2; cbn [blocks flat_map].
  - replace (n - from) with 0 by lia. reflexivity.
  - cbn [fst snd]. destruct (Nat.le_gt_cases n (from + b)).
    + rewrite Nat.min_l by lia.
      assert (E : flat_map (fun p => seq (fst p) (snd p - fst p)) (blocks k (from + b) n b) = []).
      { clear IH. assert (n <= from + b) by lia. revert H0. generalize (from + b) as f. clear.
        induction k as [|k IH]; intros f H; cbn; [reflexivity|]. rewrite Nat.min_l by lia.
        replace (n - f) with 0 by lia. cbn. apply IH. lia. }
      rewrite E, app_nil_r. reflexivity.
    + rewrite Nat.min_r by lia. rewrite IH by (cbn in H2; lia).
      replace (n - from) with ((from + b - from) + (n - (from + b))) by lia.
      rewrite seq_app. f_equal. f_equal. lia.
Qed.

Lemma blocks_bounds b (Hb : 1 <= b) k : forall from n, (k = 0 \/ from + (k - 1) * b < n) ->
  Forall (fun p => fst p < snd p <= n /\ snd p - fst p <= b) (blocks k from n b).
Proof.
  induction k as [|k IH]; intros from n H; cbn [blocks]; constructor.
  - cbn. destruct H as [H|H]; [lia|]. destruct k; cbn in H; lia.
  - apply IH. destruct k as [|k]; [auto|right]. destruct H as [H|H]; [lia|]. cbn in H |- *. lia.
Qed.

Definition toZ (p : nat * nat) : Z * Z := (Z.of_nat (fst p), Z.of_nat (snd p)).

Lemma combine_tl n b (Hb : 1 <= b) k : forall from,
  from + k * b < n -> n <= from + S k * b ->
  combine (map (fun j => Z.of_nat (from + j * b)) (seq 0 (S k)))
          (tl (map (fun j => Z.of_nat (from + j * b)) (seq 0 (S k))) ++ [Z.of_nat n])
  = map toZ (blocks (S k) from n b).
Proof.
  induction k as [|k IH]; intros from H1 H2.
  - cbn. unfold toZ. cbn. rewrite Nat.min_l by (cbn in H2; lia). repeat f_equal. lia.
  - rewrite <- cons_seq. cbn [map tl].
    assert (E : map (fun j => Z.of_nat (from + j * b)) (seq 1 (S k))
              = map (fun j => Z.of_nat ((from + b) + j * b)) (seq 0 (S k))).
    { rewrite <- seq_shift, map_map. apply map_ext. intros j. f_equal. cbn. lia. }
    rewrite E. rewrite <- cons_seq. cbn [map]. 
    change (blocks (S (S k)) from n b) with ((from, Nat.min n (from + b)) :: blocks (S k) (from + b) n b).
    cbn [map]. rewrite <- IH by (cbn in H1, H2 |- *; lia).
    rewrite <- cons_seq. cbn [map tl combine app]. f_equal. 
    unfold toZ. cbn. rewrite Nat.min_r by (cbn in H1; lia). f_equal; f_equal; lia.
Qed.

Lemma batches_blocks n b : 1 <= b ->
  batches (Z.of_nat n) (Z.of_nat b) = Ok (map toZ (blocks ((n + b - 1) / b) 0 n b)).
Proof.
  intros Hb. unfold batches, get_batch_slice, py_range0.
  destruct (Z.of_nat b =? 0)%Z eqn:E1; [lia|]. destruct (Z.of_nat b <? 0)%Z eqn:E2; [lia|]. cbn [bind].
  replace (Z.to_nat ((Z.of_nat n + Z.of_nat b - 1) / Z.of_nat b)) with ((n + b - 1) / b).
  2:{ replace (Z.of_nat n + Z.of_nat b - 1)%Z with (Z.of_nat (n + b - 1)) by lia.
      rewrite <- Nat2Z.inj_div. lia. }
  pose proof (Nat.div_mod (n + b - 1) b ltac:(lia)) as D.
  pose proof (Nat.mod_upper_bound (n + b - 1) b ltac:(lia)) as M.
  set (k := (n + b - 1) / b) in *. 
  assert (E : map (fun j => (Z.of_nat j * Z.of_nat b)%Z) (seq 0 k) = map (fun j => Z.of_nat (0 + j * b)) (seq 0 k)).
  { apply map_ext. intros; lia. }
  rewrite E. clear E. destruct k as [|k].
  - cbn. reflexivity.
  - rewrite map_length, seq_length. f_equal.
    rewrite <- (combine_tl n b Hb k 0) by (cbn; nia).
    destruct k as [|k]; reflexivity.
Qed.

Lemma batches_spec n b : 1 <= b ->
  exists bs, batches (Z.of_nat n) (Z.of_nat b) = Ok (map toZ bs) /\
    flat_map (fun p => seq (fst p) (snd p - fst p)) bs = seq 0 n /\
    Forall (fun p => fst p < snd p /\ snd p <= n /\ snd p - fst p <= b) bs.
Proof.
  intros Hb. exists (blocks ((n + b - 1) / b) 0 n b).
  pose proof (Nat.div_mod (n + b - 1) b ltac:(lia)) as D.
  pose proof (Nat.mod_upper_bound (n + b - 1) b ltac:(lia)) as M.
  set (k := (n + b - 1) / b) in *.
  split; [now apply batches_blocks|]. split.
  - rewrite blocks_cover by (try lia; nia). f_equal. lia.
  - eapply Forall_impl; [|apply blocks_bounds; [exact Hb|]].
    + cbn. intros p. lia.
    + destruct k as [|k]; [auto|right]. cbn. nia.
Qed.

(** A batch size of zero is an error, a negative one processes nothing. *)
Lemma batches_zero n : batches n 0 = Err ValueError.
Proof. reflexivity. Qed.
Lemma batches_negative n b : (0 <= n)%Z -> (b < 0)%Z -> batches n b = Ok [].
Proof.
  intros Hn Hb. unfold batches, get_batch_slice, py_range0.
  destruct (b =? 0)%Z eqn:E1; [lia|]. destruct (b <? 0)%Z eqn:E2; [|lia]. cbn [bind].
  replace (Z.to_nat ((- n + - b - 1) / - b)) with 0; [reflexivity|].
  assert ((- n + - b - 1) / - b < 1)%Z by (apply Z.div_lt_upper_bound; lia). lia.
Qed.
