From Verif Require Import Base Model.Structure Model.Index Spec.Index.
From Coq Require Import ZifyBool ZifyNat.
Local Open Scope nat_scope.

Definition flags (ds : list (nat * bool)) : list bool := flat_map (fun p => repeat (snd p) (fst p)) ds.

Fixpoint begs (cur : nat) (items : list (bool * nat)) : list Z :=
  match items with
  | [] => []
  | (f, len) :: t => if (f : bool) then Z.of_nat cur :: begs (cur + len) t else (-1)%Z :: begs cur t
  end.
Definition total (items : list (bool * nat)) : nat :=
  sum (map (fun p : bool * nat => if fst p then snd p else 0) items).

Lemma begs_app a b : forall cur, begs cur (a ++ b) = begs cur a ++ begs (cur + total a) b.
Proof.
  induction a as [|[f n] a IH]; intros cur; cbn.
  - f_equal. unfold total. cbn. lia.
  - destruct f; cbn; rewrite IH; f_equal; f_equal; f_equal; unfold total; cbn; unfold sum; lia.
Qed.
Lemma total_app a b : total (a ++ b) = total a + total b.
Proof. unfold total. now rewrite map_app, sum_app. Qed.
Lemma begs_length items : forall cur, length (begs cur items) = length items.
Proof. induction items as [|[f n] t IH]; intros cur; [reflexivity|]; cbn; destruct f; cbn; now rewrite IH. Qed.

Lemma write_at_mid {B} (pre : list B) x t v : write_at (pre ++ x :: t) (length pre) v = pre ++ v :: t.
Proof. induction pre as [|a pre IH]; cbn; [reflexivity|]. now rewrite IH. Qed.

Lemma write_at_mid' {B} (pre : list B) x t v k : length pre = k -> write_at (pre ++ x :: t) k v = pre ++ v :: t.
Proof. intros <-. apply write_at_mid. Qed.

Lemma nth_mid {B} (pre : list B) x t d k : length pre = k -> nth k (pre ++ x :: t) d = x.
Proof. intros <-. rewrite app_nth2, Nat.sub_diag by lia. reflexivity. Qed.

Lemma app_cons_assoc {B} (pre : list B) x t : pre ++ x :: t = (pre ++ [x]) ++ t.
Proof. now rewrite <- app_assoc. Qed.

Lemma stress_inner_spec n f : forall id cur pre rest bd k,
  length pre = id ->
  stress_inner n f (mk_sstate id cur (pre ++ repeat (-1)%Z n ++ rest) bd k)
  = mk_sstate (id + n) (cur + total (repeat (f, 6) n)) (pre ++ begs cur (repeat (f, 6) n) ++ rest) bd k.
Proof.
  induction n as [|n IH]; intros id cur pre rest bd k H; cbn [stress_inner repeat begs app].
  - cbn. f_equal; lia.
  - destruct f; cbn [s_id s_i s_beg s_begd s_n].
    + rewrite <- H at 2. rewrite write_at_mid. rewrite app_cons_assoc, IH by (rewrite app_length; cbn; lia).
      rewrite <- app_cons_assoc. unfold total. cbn. unfold sum. f_equal; lia.
    + rewrite app_cons_assoc, IH by (rewrite app_length; cbn; lia).
      rewrite <- app_cons_assoc. unfold total. cbn. unfold sum. f_equal; lia.
Qed.

Definition sitems (ds : list (nat * bool)) : list (bool * nat) := flat_map (fun p => repeat (snd p, 6) (fst p)) ds.
Definition ditems (ds : list (nat * bool)) : list (bool * nat) := map (fun p => (snd p, 6 * fst p)) ds.

Lemma total_repeat f k n : total (repeat (f, k) n) = if (f : bool) then k * n else 0.
Proof. unfold total. induction n as [|n IH]; cbn; [destruct f; lia|]. unfold sum in IH. rewrite IH. destruct f; lia. Qed.

Lemma stress_loop_spec ds : forall i id cur pre dpre k,
  length pre = id -> length dpre = i ->
  stress_loop i ds (mk_sstate id cur (pre ++ repeat (-1)%Z (sum (map fst ds))) (dpre ++ repeat (-1)%Z (length ds)) k)
  = mk_sstate (id + sum (map fst ds)) (cur + total (sitems ds)) (pre ++ begs cur (sitems ds))
              (dpre ++ begs cur (ditems ds)) (k + total (sitems ds)).
Proof.
  induction ds as [|[n f] ds IH]; intros i id cur pre dpre k H1 H2.
  - cbn. unfold total; cbn. f_equal; try lia.
  - cbn [stress_loop map sum fst length repeat fold_right]. fold (sum (map fst ds)).
    set (st1 := if f then _ else _).
    assert (E : st1 = mk_sstate id cur (pre ++ repeat (-1)%Z n ++ repeat (-1)%Z (sum (map fst ds)))
                        ((dpre ++ [if f then Z.of_nat cur else (-1)%Z]) ++ repeat (-1)%Z (length ds))
                        (k + if f then n * 6 else 0)).
    { subst st1. rewrite repeat_app. destruct f; cbn [s_id s_i s_beg s_begd s_n].
      - rewrite <- H2, write_at_mid, app_cons_assoc. reflexivity.
      - rewrite app_cons_assoc. f_equal. lia. }
    rewrite E. clear E st1.
    rewrite stress_inner_spec by exact H1. rewrite app_assoc.
    rewrite IH by (rewrite !app_length, ?begs_length, ?repeat_length; cbn; lia).
    cbn [sitems ditems flat_map map fst snd begs]. rewrite begs_app, total_app. fold (sitems ds) (ditems ds).
    rewrite total_repeat, <- !app_assoc.
    destruct f; cbn [app]; f_equal; try lia; repeat (f_equal; try lia).
Qed.

Section Force.
  Variable na : list nat.

  Definition fitems_from (id : nat) (fl : list bool) : list (bool * nat) :=
    map (fun p => (fst p, 3 * nth (snd p) na 0)) (combine fl (seq id (length fl))).

  Lemma fitems_app id a b : fitems_from id (a ++ b) = fitems_from id a ++ fitems_from (id + length a) b.
  Proof.
    revert id. induction a as [|x a IH]; intros id; cbn [app length]; [now rewrite Nat.add_0_r|].
    unfold fitems_from in *. cbn [length seq combine map app]. f_equal. rewrite IH. f_equal. f_equal. f_equal. f_equal. lia.
  Qed.

  Lemma fitems_cons id f fl : fitems_from id (f :: fl) = (f, 3 * nth id na 0) :: fitems_from (S id) fl.
  Proof. reflexivity. Qed.

  Lemma force_inner_spec n f : forall id cur pre rest bd k fpre frest,
    length pre = id -> length fpre = id ->
    force_inner na n f (mk_fstate id cur (pre ++ repeat (-1)%Z n ++ rest) bd k (fpre ++ repeat false n ++ frest))
    = mk_fstate (id + n) (cur + total (fitems_from id (repeat f n)))
        (pre ++ begs cur (fitems_from id (repeat f n)) ++ rest) bd
        (k + total (fitems_from id (repeat f n))) (fpre ++ repeat f n ++ frest).
  Proof.
    induction n as [|n IH]; intros id cur pre rest bd k fpre frest H1 H2.
    - cbn. unfold total. cbn. f_equal; lia.
    - cbn [force_inner repeat app]. rewrite fitems_cons. cbn [begs].
      destruct f; cbn [f_id f_i f_beg f_begd f_n f_force].
      + rewrite (write_at_mid' pre) by exact H1. rewrite (write_at_mid' fpre) by exact H2.
        rewrite (app_cons_assoc pre), (app_cons_assoc fpre), IH by (rewrite app_length; cbn; lia).
        rewrite <- !app_cons_assoc. unfold total. cbn [map fst snd sum fold_right app].
        f_equal; unfold sum; lia.
      + rewrite (app_cons_assoc pre), (app_cons_assoc fpre), IH by (rewrite app_length; cbn; lia).
        rewrite <- !app_cons_assoc. unfold total. cbn [map fst snd sum fold_right app].
        f_equal; unfold sum; lia.
  Qed.

  Fixpoint fditems (id : nat) (ds : list (nat * bool)) : list (bool * nat) :=
    match ds with
    | [] => []
    | (n, f) :: ds' => (f, 3 * sum (map (fun i => nth i na 0) (seq id n))) :: fditems (id + n) ds'
    end.

  Lemma flags_length ds : length (flags ds) = sum (map fst ds).
  Proof. induction ds as [|[n f] ds IH]; cbn; [reflexivity|]. rewrite app_length, repeat_length. unfold flags in IH. rewrite IH. reflexivity. Qed.

  Lemma total_fitems_repeat f n : forall id, total (fitems_from id (repeat f n))
    = if (f : bool) then 3 * sum (map (fun i => nth i na 0) (seq id n)) else 0.
  Proof.
    induction n as [|n IH]; intros id; [destruct f; reflexivity|]. cbn [repeat]. rewrite fitems_cons.
    unfold total. cbn [map sum fold_right fst snd]. specialize (IH (S id)). unfold total, sum in IH. rewrite IH.
    destruct f; cbn [seq map sum fold_right]; unfold sum; lia.
  Qed.

  Lemma force_loop_spec ds : forall i id cur pre dpre k fpre,
    length pre = id -> length dpre = i -> length fpre = id ->
    force_loop na i ds (mk_fstate id cur (pre ++ repeat (-1)%Z (sum (map fst ds)))
                         (dpre ++ repeat (-1)%Z (length ds)) k (fpre ++ repeat false (sum (map fst ds))))
    = mk_fstate (id + sum (map fst ds)) (cur + total (fitems_from id (flags ds)))
                (pre ++ begs cur (fitems_from id (flags ds)))
                (dpre ++ begs cur (fditems id ds)) (k + total (fitems_from id (flags ds))) (fpre ++ flags ds).
  Proof.
    induction ds as [|[n f] ds IH]; intros i id cur pre dpre k fpre H1 H2 H3.
    - cbn. unfold total; cbn. f_equal; try lia.
    - cbn [force_loop map sum fst length repeat fold_right]. fold (sum (map fst ds)).
      set (st1 := if f then _ else _).
      assert (E : st1 = mk_fstate id cur (pre ++ repeat (-1)%Z n ++ repeat (-1)%Z (sum (map fst ds)))
                          ((dpre ++ [if f then Z.of_nat cur else (-1)%Z]) ++ repeat (-1)%Z (length ds))
                          k (fpre ++ repeat false n ++ repeat false (sum (map fst ds)))).
      { subst st1. rewrite !repeat_app. destruct f; cbn [f_id f_i f_beg f_begd f_n f_force].
        - rewrite <- H2, write_at_mid, app_cons_assoc. reflexivity.
        - rewrite app_cons_assoc. reflexivity. }
      rewrite E. clear E st1.
      rewrite force_inner_spec by assumption. rewrite (app_assoc pre), (app_assoc fpre).
      rewrite IH by (rewrite !app_length, ?begs_length; unfold fitems_from; rewrite ?map_length, ?combine_length, ?seq_length, ?repeat_length; cbn; lia).
      cbn [flags flat_map map fst snd begs fditems]. rewrite fitems_app, repeat_length, begs_app, total_app.
      fold (flags ds). rewrite total_fitems_repeat, <- !app_assoc.
      destruct f; cbn [app]; f_equal; try lia; repeat (f_equal; try lia).
  Qed.
End Force.

Lemma set_index_closed na ds :
  let n := sum (map fst ds) in
  set_index na ds =
  mk_index (begs (n + total (sitems ds)) (fitems_from na 0 (flags ds))) (begs n (sitems ds)) (flags ds)
           (begs (n + total (sitems ds)) (fditems na 0 ds)) (begs n (ditems ds))
           n (total (fitems_from na 0 (flags ds))) (total (sitems ds)).
Proof.
  intros n. unfold set_index. fold n.
  pose proof (stress_loop_spec ds 0 0 n [] [] 0 eq_refl eq_refl) as E. cbn [app] in E. fold n in E.
  rewrite E. clear E. cbn [s_i].
  pose proof (force_loop_spec na ds 0 0 (n + total (sitems ds)) [] [] 0 [] eq_refl eq_refl eq_refl) as E.
  cbn [app] in E. fold n in E. rewrite E. reflexivity.
Qed.

(** Spans of consecutive items. *)
Fixpoint spans (bs : list Z) (items : list (bool * nat)) : list nat :=
  match bs, items with
  | b :: bs', (f, n) :: t => (if (f : bool) then span b n else []) ++ spans bs' t
  | _, _ => []
  end.
Lemma spans_begs items : forall cur, spans (begs cur items) items = seq cur (total items).
Proof.
  induction items as [|[f n] t IH]; intros cur; [reflexivity|]. destruct f; cbn [begs spans].
  - rewrite IH. unfold span. rewrite Nat2Z.id. unfold total. cbn [map sum fold_right fst snd].
    rewrite seq_app. reflexivity.
  - rewrite IH. reflexivity.
Qed.

Lemma flat_map_spans (bs : list Z) (items : list (bool * nat)) (g : nat -> list nat) :
  length bs = length items ->
  (forall i, i < length items -> g i = if fst (nth i items (false, 0))
                                       then span (nth i bs 0%Z) (snd (nth i items (false, 0))) else []) ->
  flat_map g (seq 0 (length items)) = spans bs items.
Proof.
  revert bs g. induction items as [|[f n] t IH]; intros [|b bs] g L H; try discriminate; [reflexivity|].
  cbn [length seq flat_map spans]. f_equal.
  - rewrite H by (cbn; lia). reflexivity.
  - rewrite <- seq_shift, flat_map_concat_map, map_map, <- flat_map_concat_map. apply IH; [now injection L|].
    intros i Hi. rewrite H by (cbn; lia). reflexivity.
Qed.

Lemma sitems_length ds : length (sitems ds) = sum (map fst ds).
Proof. induction ds as [|[n f] ds IH]; cbn; [reflexivity|]. rewrite app_length, repeat_length. unfold sitems in IH. rewrite IH. reflexivity. Qed.
Lemma sitems_flags ds : sitems ds = map (fun f => (f, 6)) (flags ds).
Proof.
  induction ds as [|[n f] ds IH]; [reflexivity|]. unfold sitems, flags in *. cbn [flat_map fst snd].
  rewrite map_app, IH. f_equal. clear. induction n; cbn; congruence.
Qed.
Lemma fitems_length na id fl : length (fitems_from na id fl) = length fl.
Proof. unfold fitems_from. rewrite map_length, combine_length, seq_length. lia. Qed.
Lemma nth_fitems na fl : forall id i, i < length fl ->
  nth i (fitems_from na id fl) (false, 0) = (nth i fl false, 3 * nth (id + i) na 0).
Proof.
  induction fl as [|f fl IH]; intros id i H; cbn in H; [lia|]. rewrite fitems_cons. destruct i as [|i]; cbn [nth].
  - now rewrite Nat.add_0_r.
  - rewrite IH by lia. f_equal. f_equal. f_equal. lia.
Qed.

Lemma stress_rows_all na ds : let ix := set_index na ds in
  flat_map (stress_rows ix) (seq 0 (n_data_e ix)) = seq (n_data_e ix) (n_data_s ix).
Proof.
  rewrite set_index_closed. cbn [n_data_e n_data_s]. rewrite <- spans_begs.
  replace (seq 0 (sum (map fst ds))) with (seq 0 (length (sitems ds))) by now rewrite sitems_length.
  apply flat_map_spans; [apply begs_length|].
  intros i Hi. unfold stress_rows. cbn [force_st xs_begin].
  rewrite sitems_length, <- flags_length in Hi.
  replace (nth i (sitems ds) (false, 0)) with (nth i (flags ds) false, 6); [reflexivity|].
  rewrite sitems_flags. rewrite (nth_indep _ (false, 0) ((fun f => (f, 6)) false)) by (rewrite map_length; exact Hi).
  now rewrite (map_nth (fun f => (f, 6)) (flags ds) false i).
Qed.

Lemma force_rows_all na ds : let ix := set_index na ds in
  flat_map (force_rows na ix) (seq 0 (n_data_e ix)) = seq (n_data_e ix + n_data_s ix) (n_data_f ix).
Proof.
  rewrite set_index_closed. cbn [n_data_e n_data_s n_data_f]. rewrite <- spans_begs.
  set (items := fitems_from na 0 (flags ds)).
  assert (L : length items = sum (map fst ds)) by (unfold items; now rewrite fitems_length, flags_length).
  rewrite <- L. apply flat_map_spans; [apply begs_length|].
  intros i Hi. unfold force_rows. cbn [force_st xf_begin]. unfold items. rewrite nth_fitems.
  - reflexivity.
  - rewrite flags_length. lia.
Qed.

Lemma set_index_counts na ds : let ix := set_index na ds in
  n_data_e ix = sum (map fst ds) /\ force_st ix = flat_map (fun p => repeat (snd p) (fst p)) ds /\
  n_data_s ix = 6 * length (filter (fun b : bool => b) (force_st ix)) /\
  n_data_f ix = 3 * sum (map (fun i => nth i na 0) (filter (fun i => nth i (force_st ix) false) (seq 0 (n_data_e ix)))).
Proof.
  rewrite set_index_closed. cbn [n_data_e n_data_s n_data_f force_st]. split; [reflexivity|]. split; [reflexivity|]. split.
  - rewrite sitems_flags. induction (flags ds) as [|f fl IH]; [reflexivity|]. unfold total in *. cbn [map sum fold_right fst snd].
    unfold sum in IH. rewrite IH. destruct f; cbn [filter length]; lia.
  - rewrite <- flags_length. generalize (flags ds) as fl. intros fl. 
    assert (G : forall fl id, total (fitems_from na id fl)
      = 3 * sum (map (fun i => nth (id + i) na 0) (filter (fun i => nth i fl false) (seq 0 (length fl))))).
    { clear. induction fl as [|f fl IH]; intros id; [reflexivity|]. rewrite fitems_cons. unfold total.
      cbn [map sum fold_right fst snd length seq filter]. change (nth 0 (f :: fl) false) with f. specialize (IH (S id)). unfold total in IH.
      fold (sum (map (fun p : bool * nat => if fst p then snd p else 0) (fitems_from na (S id) fl))).
      rewrite IH. rewrite <- seq_shift.
      assert (E : filter (fun i => nth i (f :: fl) false) (map S (seq 0 (length fl)))
                = map S (filter (fun i => nth i fl false) (seq 0 (length fl)))).
      { generalize (seq 0 (length fl)). intros l. induction l as [|x l IHl]; [reflexivity|]. cbn [map filter].
        change (nth (S x) (f :: fl) false) with (nth x fl false).
        destruct (nth x fl false); cbn [map]; now rewrite IHl. }
      assert (E2 : map (fun i => nth (id + i) na 0) (map S (filter (fun i => nth i fl false) (seq 0 (length fl))))
                 = map (fun i => nth (S id + i) na 0) (filter (fun i => nth i fl false) (seq 0 (length fl)))).
      { rewrite map_map. apply map_ext. intros i. f_equal. lia. }
      destruct f; rewrite E; cbn [map sum fold_right].
      - fold (sum (map (fun i => nth (id + i) na 0) (map S (filter (fun i => nth i fl false) (seq 0 (length fl)))))).
        rewrite E2, Nat.add_0_r. lia.
      - rewrite E2. reflexivity. }
    apply (G fl 0).
Qed.

(** Blocks of one data set. *)
Lemma flat_map_spans_mid (g : nat -> list nat) a b c cur :
  (forall i, i < length (a ++ b ++ c) ->
     g i = if fst (nth i (a ++ b ++ c) (false, 0))
           then span (nth i (begs cur (a ++ b ++ c)) 0%Z) (snd (nth i (a ++ b ++ c) (false, 0))) else []) ->
  flat_map g (seq (length a) (length b)) = seq (cur + total a) (total b).
Proof.
  intros H. rewrite <- spans_begs.
  rewrite <- (flat_map_spans (begs (cur + total a) b) b (fun i => g (length a + i))).
  - rewrite !flat_map_concat_map. f_equal.
    rewrite <- (map_map (fun i => length a + i) g). f_equal.
    rewrite <- (Nat.add_0_r (length a)) at 1. generalize 0 as z. generalize (length b) as m.
    induction m as [|m IH]; intros z; [reflexivity|]. cbn [seq map]. f_equal. rewrite <- IH. f_equal. lia.
  - apply begs_length.
  - intros i Hi. rewrite H by (rewrite !app_length; lia).
    rewrite !app_nth2_plus. rewrite (app_nth1 b c) by exact Hi.
    rewrite !begs_app. rewrite <- (begs_length a cur). rewrite app_nth2_plus.
    rewrite app_nth1 by (rewrite begs_length; exact Hi). reflexivity.
Qed.

Lemma sitems_app a b : sitems (a ++ b) = sitems a ++ sitems b.
Proof. apply flat_map_app. Qed.
Lemma flags_app a b : flags (a ++ b) = flags a ++ flags b.
Proof. apply flat_map_app. Qed.
Lemma total_ditems ds : total (ditems ds) = total (sitems ds).
Proof.
  induction ds as [|[n f] ds IH]; [reflexivity|]. cbn [sitems flat_map fst snd]. rewrite total_app, total_repeat.
  fold (sitems ds). rewrite <- IH. unfold total. cbn [ditems map sum fold_right fst snd]. reflexivity.
Qed.
Lemma ditems_app a b : ditems (a ++ b) = ditems a ++ ditems b.
Proof. apply map_app. Qed.
Lemma fditems_app na a b : forall id, fditems na id (a ++ b) = fditems na id a ++ fditems na (id + sum (map fst a)) b.
Proof.
  induction a as [|[n f] a IH]; intros id; cbn [app fditems map sum fold_right fst].
  - now rewrite Nat.add_0_r.
  - rewrite IH. unfold sum. now rewrite Nat.add_assoc.
Qed.
Lemma fditems_length na ds : forall id, length (fditems na id ds) = length ds.
Proof. induction ds as [|[n f] ds IH]; intros id; cbn; [reflexivity|]. now rewrite IH. Qed.
Lemma total_fditems na ds : forall id, total (fditems na id ds) = total (fitems_from na id (flags ds)).
Proof.
  induction ds as [|[n f] ds IH]; intros id; [reflexivity|]. cbn [flags flat_map fst snd].
  rewrite fitems_app, total_app, repeat_length, total_fitems_repeat. fold (flags ds). rewrite <- IH.
  unfold total. cbn [fditems map sum fold_right fst snd]. destruct f; reflexivity.
Qed.

Lemma set_ebegin_app a n b : forall ei, nth (length a) (set_ebegin_from ei (a ++ n :: b)) 0 = ei + sum a.
Proof.
  induction a as [|m a IH]; intros ei; cbn [app set_ebegin_from length nth sum fold_right]; [lia|].
  rewrite IH. unfold sum. lia.
Qed.

Lemma stress_rows_nth na ds i : i < length (sitems ds) ->
  stress_rows (set_index na ds) i
  = if fst (nth i (sitems ds) (false, 0))
    then span (nth i (begs (sum (map fst ds)) (sitems ds)) 0%Z) (snd (nth i (sitems ds) (false, 0))) else [].
Proof.
  intros Hi. rewrite set_index_closed. unfold stress_rows. cbn [force_st xs_begin].
  rewrite sitems_length, <- flags_length in Hi.
  replace (nth i (sitems ds) (false, 0)) with (nth i (flags ds) false, 6); [reflexivity|].
  rewrite sitems_flags. rewrite (nth_indep _ (false, 0) ((fun f => (f, 6)) false)) by (rewrite map_length; exact Hi).
  now rewrite (map_nth (fun f => (f, 6)) (flags ds) false i).
Qed.
Lemma force_rows_nth na ds i : i < length (fitems_from na 0 (flags ds)) ->
  force_rows na (set_index na ds) i
  = if fst (nth i (fitems_from na 0 (flags ds)) (false, 0))
    then span (nth i (begs (sum (map fst ds) + total (sitems ds)) (fitems_from na 0 (flags ds))) 0%Z)
              (snd (nth i (fitems_from na 0 (flags ds)) (false, 0))) else [].
Proof.
  intros Hi. rewrite set_index_closed. unfold force_rows. cbn [force_st xf_begin].
  rewrite fitems_length in Hi. now rewrite nth_fitems by exact Hi.
Qed.

Lemma dataset_blocks na d1 n f d2 :
  let ds := d1 ++ (n, f) :: d2 in
  let ix := set_index na ds in
  let k := length d1 in
  let b := nth k (set_ebegin (map fst ds)) 0 in
  let bs := nth k (xs_begin_dataset ix) 0%Z in
  let bf := nth k (xf_begin_dataset ix) 0%Z in
  if f then flat_map (stress_rows ix) (seq b n) = span bs (6 * n) /\
            flat_map (force_rows na ix) (seq b n) = span bf (3 * sum (map (fun i => nth i na 0) (seq b n)))
  else bs = (-1)%Z /\ bf = (-1)%Z /\
       flat_map (stress_rows ix) (seq b n) = [] /\ flat_map (force_rows na ix) (seq b n) = [].
Proof.
  intros ds ix k b bs bf.
  assert (Eb : b = sum (map fst d1)).
  { unfold b, k, ds, set_ebegin. rewrite map_app. cbn [map fst].
    rewrite <- (map_length (@fst nat bool) d1). now rewrite set_ebegin_app. }
  assert (Ebs : bs = if f then Z.of_nat (sum (map fst ds) + total (sitems d1)) else (-1)%Z).
  { unfold bs, ix. rewrite set_index_closed. cbn [xs_begin_dataset]. unfold ds at 2. rewrite ditems_app, begs_app.
    unfold k. replace (length d1) with (length (begs (sum (map fst ds)) (ditems d1)) + 0)
      by (rewrite begs_length; unfold ditems; rewrite map_length; lia).
    rewrite app_nth2_plus. cbn [ditems map fst snd begs]. rewrite total_ditems. destruct f; reflexivity. }
  assert (Ebf : bf = if f then Z.of_nat (sum (map fst ds) + total (sitems ds) + total (fitems_from na 0 (flags d1))) else (-1)%Z).
  { unfold bf, ix. rewrite set_index_closed. cbn [xf_begin_dataset]. unfold ds at 3. rewrite fditems_app, begs_app.
    unfold k. set (c0 := sum (map fst ds) + total (sitems ds)). replace (length d1) with (length (begs c0 (fditems na 0 d1)) + 0)
      by (rewrite begs_length, fditems_length; lia).
    rewrite app_nth2_plus. cbn [fditems begs]. rewrite total_fditems. destruct f; reflexivity. }
  assert (S : flat_map (stress_rows ix) (seq b n) = seq (sum (map fst ds) + total (sitems d1)) (total (repeat (f, 6) n))).
  { assert (E : sitems ds = sitems d1 ++ repeat (f, 6) n ++ sitems d2).
    { unfold ds. rewrite sitems_app. reflexivity. }
    rewrite <- (flat_map_spans_mid (stress_rows ix) (sitems d1) (repeat (f, 6) n) (sitems d2)).
    - now rewrite sitems_length, repeat_length, Eb.
    - intros i Hi. rewrite <- E in *. apply stress_rows_nth. exact Hi. }
  assert (F : flat_map (force_rows na ix) (seq b n)
            = seq (sum (map fst ds) + total (sitems ds) + total (fitems_from na 0 (flags d1)))
                  (total (fitems_from na (sum (map fst d1)) (repeat f n)))).
  { assert (E : fitems_from na 0 (flags ds) = fitems_from na 0 (flags d1) ++ fitems_from na (sum (map fst d1)) (repeat f n)
                  ++ fitems_from na (sum (map fst d1) + n) (flags d2)).
    { unfold ds. rewrite flags_app. cbn [flags flat_map fst snd]. fold (flags d2).
      rewrite !fitems_app, !flags_length, repeat_length. reflexivity. }
    rewrite <- (flat_map_spans_mid (force_rows na ix) (fitems_from na 0 (flags d1))
                  (fitems_from na (sum (map fst d1)) (repeat f n)) (fitems_from na (sum (map fst d1) + n) (flags d2))).
    - now rewrite !fitems_length, flags_length, repeat_length, Eb.
    - intros i Hi. rewrite <- E in *. apply force_rows_nth. exact Hi. }
  rewrite total_repeat in S. rewrite total_fitems_repeat, <- Eb in F.
  destruct f.
  - rewrite Ebs, Ebf. unfold span. rewrite !Nat2Z.id. split; assumption.
  - repeat split; assumption.
Qed.

(** Assembly. *)
Lemma write_block_mid {R} (blk : list R) : forall pre r0 m post k n, length pre = k -> n = length blk + m ->
  write_block (pre ++ repeat r0 n ++ post) k blk = pre ++ blk ++ repeat r0 m ++ post.
Proof.
  induction blk as [|r blk IH]; intros pre r0 m post k n Hk ->; cbn [length Nat.add repeat app write_block]; [reflexivity|].
  rewrite write_at_mid' by exact Hk. rewrite app_cons_assoc. rewrite (IH _ r0 m) by (rewrite ?app_length; cbn; lia).
  now rewrite <- app_assoc.
Qed.

Section Assemble.
  Context {S R : Type} (r0 : R) (fe : S -> R) (ff fs : S -> list R).
  Notation pickf g := (fun p : bool * S => if fst p then g (snd p) else []).

  Lemma assemble_loop_spec na sts : forall i fl ix E Sx Fx flp xsp xfp,
    length fl = length sts ->
    force_st ix = flp ++ fl -> length flp = i ->
    xs_begin ix = xsp ++ begs (length E + length sts + length Sx) (map (fun f => (f, 6)) fl) -> length xsp = i ->
    let rs := total (map (fun f => (f, 6)) fl) in
    let rf := total (fitems_from na i fl) in
    xf_begin ix = xfp ++ begs (length E + length sts + length Sx + rs + length Fx) (fitems_from na i fl) -> length xfp = i ->
    length E = i ->
    (forall j, j < length sts -> nth j fl false = true ->
       forall s, nth_error sts j = Some s -> length (fs s) = 6 /\ length (ff s) = 3 * nth (i + j) na 0) ->
    assemble_loop fe ff fs i sts ix (E ++ repeat r0 (length sts) ++ Sx ++ repeat r0 rs ++ Fx ++ repeat r0 rf)
    = (E ++ map fe sts) ++ (Sx ++ flat_map (pickf fs) (combine fl sts)) ++ (Fx ++ flat_map (pickf ff) (combine fl sts)).
  Proof.
    induction sts as [|s sts IH]; intros i fl ix E Sx Fx flp xsp xfp L Hf Lf Hs Ls rs rf Hx Lx LE Hlen.
    - destruct fl; [|discriminate]. cbn. rewrite !app_nil_r. reflexivity.
    - destruct fl as [|f fl]; [discriminate|]. cbn [length repeat app assemble_loop].
      rewrite write_at_mid' by exact LE. rewrite Hf, nth_mid by exact Lf.
      injection L as L. rewrite Nat.add_1_r.
      assert (Hlen' : forall j, j < length sts -> nth j fl false = true ->
         forall s', nth_error sts j = Some s' -> length (fs s') = 6 /\ length (ff s') = 3 * nth (Datatypes.S i + j) na 0).
      { intros j Hj Hn s' Hs'. replace (Datatypes.S i + j) with (i + Datatypes.S j) by lia.
        apply (Hlen (Datatypes.S j)); [cbn; lia|exact Hn|exact Hs']. }
      destruct f; cbn [map begs] in Hs.
      + destruct (Hlen 0 ltac:(cbn; lia) eq_refl s eq_refl) as [L6 L3]. rewrite Nat.add_0_r in L3.
        rewrite fitems_cons in Hx. cbn [begs] in Hx.
        rewrite Hx, Hs, !nth_mid, !Nat2Z.id by assumption.
        set (rs' := total (map (fun f => (f, 6)) fl)). set (rf' := total (fitems_from na (Datatypes.S i) fl)).
        assert (Ers : rs = 6 + rs') by reflexivity.
        assert (Erf : rf = 3 * nth i na 0 + rf') by (unfold rf; rewrite fitems_cons; reflexivity).
        rewrite Ers, Erf.
        replace (E ++ fe s :: repeat r0 (length sts) ++ Sx ++ repeat r0 (6 + rs') ++ Fx ++ repeat r0 (3 * nth i na 0 + rf'))
          with ((E ++ fe s :: repeat r0 (length sts) ++ Sx ++ repeat r0 (6 + rs') ++ Fx) ++ repeat r0 (3 * nth i na 0 + rf') ++ [])
          by (rewrite app_nil_r; repeat (rewrite <- ?app_assoc; cbn [app]); reflexivity).
        rewrite (write_block_mid (ff s) _ r0 rf') by
          (rewrite ?app_length; cbn [length]; rewrite ?app_length, ?repeat_length; cbn [length] in *; lia).
        replace ((E ++ fe s :: repeat r0 (length sts) ++ Sx ++ repeat r0 (6 + rs') ++ Fx) ++ ff s ++ repeat r0 rf' ++ [])
          with ((E ++ fe s :: repeat r0 (length sts) ++ Sx) ++ repeat r0 (6 + rs') ++ (Fx ++ ff s ++ repeat r0 rf'))
          by (rewrite app_nil_r; repeat (rewrite <- ?app_assoc; cbn [app]); reflexivity).
        rewrite (write_block_mid (fs s) _ r0 rs') by
          (rewrite ?app_length; cbn [length]; rewrite ?app_length, ?repeat_length; cbn [length] in *; lia).
        replace ((E ++ fe s :: repeat r0 (length sts) ++ Sx) ++ fs s ++ repeat r0 rs' ++ Fx ++ ff s ++ repeat r0 rf')
          with ((E ++ [fe s]) ++ repeat r0 (length sts) ++ (Sx ++ fs s) ++ repeat r0 rs' ++ (Fx ++ ff s) ++ repeat r0 rf')
          by (repeat (rewrite <- ?app_assoc; cbn [app]); reflexivity).
        unfold rs', rf'. rewrite (IH (Datatypes.S i) fl ix (E ++ [fe s]) (Sx ++ fs s) (Fx ++ ff s) (flp ++ [true])
                   (xsp ++ [Z.of_nat (length E + length (s :: sts) + length Sx)])
                   (xfp ++ [Z.of_nat (length E + length (s :: sts) + length Sx + rs + length Fx)])).
        * cbn [combine flat_map map fst snd]. repeat (rewrite <- ?app_assoc; cbn [app]). reflexivity.
        * exact L.
        * rewrite <- app_assoc. exact Hf.
        * rewrite app_length; cbn; lia.
        * rewrite Hs, <- app_assoc. cbn [app]. do 2 f_equal. f_equal. rewrite !app_length. cbn [length]. lia.
        * rewrite app_length; cbn; lia.
        * rewrite Hx, <- app_assoc. cbn [app]. do 2 f_equal. f_equal. fold rs'. rewrite !app_length. cbn [length]. lia.
        * rewrite app_length; cbn; lia.
        * rewrite app_length; cbn; lia.
        * exact Hlen'.
      + rewrite fitems_cons in Hx. cbn [begs] in Hx.
        set (rs' := total (map (fun f => (f, 6)) fl)). set (rf' := total (fitems_from na (Datatypes.S i) fl)).
        assert (Ers : rs = rs') by reflexivity.
        assert (Erf : rf = rf') by (unfold rf; rewrite fitems_cons; reflexivity).
        rewrite Ers, Erf.
        replace (E ++ fe s :: repeat r0 (length sts) ++ Sx ++ repeat r0 rs' ++ Fx ++ repeat r0 rf')
          with ((E ++ [fe s]) ++ repeat r0 (length sts) ++ Sx ++ repeat r0 rs' ++ Fx ++ repeat r0 rf')
          by (repeat (rewrite <- ?app_assoc; cbn [app]); reflexivity).
        unfold rs', rf'. rewrite (IH (Datatypes.S i) fl ix (E ++ [fe s]) Sx Fx (flp ++ [false]) (xsp ++ [(-1)%Z]) (xfp ++ [(-1)%Z])).
        * cbn [combine flat_map map fst snd]. repeat (rewrite <- ?app_assoc; cbn [app]). reflexivity.
        * exact L.
        * rewrite <- app_assoc. exact Hf.
        * rewrite app_length; cbn; lia.
        * rewrite Hs, <- app_assoc. cbn [app]. do 2 f_equal. f_equal. rewrite !app_length. cbn [length]. lia.
        * rewrite app_length; cbn; lia.
        * rewrite Hx, <- app_assoc. cbn [app]. do 2 f_equal. f_equal. fold rs'. rewrite !app_length. cbn [length]. lia.
        * rewrite app_length; cbn; lia.
        * rewrite app_length; cbn; lia.
        * exact Hlen'.
  Qed.

  Lemma assemble_spec na ds sts :
    length sts = sum (map fst ds) ->
    (forall j s, nth_error sts j = Some s -> length (fs s) = 6 /\ length (ff s) = 3 * nth j na 0) ->
    let fl := flat_map (fun p => repeat (snd p) (fst p)) ds in
    assemble r0 fe ff fs sts (set_index na ds)
    = map fe sts ++ flat_map (pickf fs) (combine fl sts) ++ flat_map (pickf ff) (combine fl sts).
  Proof.
    intros L H fl. unfold assemble.
    pose proof (assemble_loop_spec na sts 0 (flags ds) (set_index na ds) [] [] [] [] [] []) as G.
    cbn [app length Nat.add] in G. rewrite !Nat.add_0_r in G.
    rewrite set_index_closed in G |- *. cbn [force_st xs_begin xf_begin n_data_e n_data_f n_data_s] in *.
    rewrite <- sitems_flags, <- L in *.
    replace (length sts + total (fitems_from na 0 (flags ds)) + total (sitems ds))
      with (length sts + (total (sitems ds) + total (fitems_from na 0 (flags ds)))) by lia.
    rewrite repeat_app, repeat_app. apply G; try reflexivity.
    - rewrite flags_length. now rewrite L.
    - intros j _ _ s Hs. apply H. exact Hs.
  Qed.
End Assemble.

Lemma rows_partition na ds :
  let ix := set_index na ds in
  let sts := seq 0 (n_data_e ix) in
  sts ++ flat_map (stress_rows ix) sts ++ flat_map (force_rows na ix) sts
  = seq 0 (n_data_e ix + n_data_f ix + n_data_s ix).
Proof.
  intros ix sts. unfold sts, ix. rewrite stress_rows_all, force_rows_all, <- seq_app.
  replace (n_data_e (set_index na ds) + n_data_f (set_index na ds) + n_data_s (set_index na ds))
    with (n_data_e (set_index na ds) + (n_data_s (set_index na ds) + n_data_f (set_index na ds))) by lia.
  now rewrite (seq_app (n_data_e (set_index na ds))).
Qed.
