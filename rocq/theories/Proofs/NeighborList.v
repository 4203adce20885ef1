(** Compressed rows, the mirrored list, and sums over pairs. *)
From Verif Require Import Base Num Complex Spec.Poly Model.Cxx Model.Mapping Model.ModelParams Model.Features Model.Potential Model.Neighbor
  Proofs.Cxx Proofs.Mapping Proofs.Sums Proofs.FeatureVals Proofs.Potential.
From Coq Require Import Ring.

Lemma flat_map_ext_in {A B} (f g : A -> list B) l : (forall x, In x l -> f x = g x) -> flat_map f l = flat_map g l.
Proof. induction l as [|x l IH]; intros H; [reflexivity|]. cbn. rewrite H by now left. f_equal. apply IH. intros; apply H; now right. Qed.

Section Rows.
  Context {F : Type} {N : Num F}.
  Notation ent := (nat * v3 F)%type.

  Lemma offsets_flat {A} (rows : list (list A)) : offsets (map (@length _) rows) = flat_offsets rows.
  Proof. unfold offsets, flat_offsets. now rewrite fold_left_map. Qed.
  Lemma row_csr (rows : list (list ent)) i : i < length rows -> row (csr_of rows) i = nth i rows [].
  Proof.
    intros Hi. unfold row, csr_of. cbn [cs_neigh cs_d cs_off]. rewrite offsets_flat.
    destruct (flat_offsets_nth rows i) as [-> _]; [lia|]. destruct (flat_offsets_nth rows (S i)) as [-> _]; [lia|].
    rewrite firstn_S_concat by exact Hi.
    rewrite (Nat.add_comm (length (concat (firstn i rows)))), Nat.add_sub.
    replace (seq (length (concat (firstn i rows))) (length (nth i rows []))) with (map (fun j => length (concat (firstn i rows)) + j) (seq 0 (length (nth i rows []))))
      by (rewrite map_add_seq; f_equal; lia).
    rewrite map_map. apply nth_ext with (d := (0, v0)) (d' := (0, v0)); rewrite map_length, seq_length; [reflexivity|].
    intros j Hj. rewrite (nth_mapd _ _ _ 0) by (now rewrite seq_length). rewrite seq_nth by exact Hj. cbn [Nat.add].
    assert (Hc : length (concat (firstn i rows)) + j < length (concat rows)).
    { rewrite <- (firstn_skipn (S i) rows) at 2. rewrite concat_app, app_length, firstn_S_concat by exact Hi. lia. }
    rewrite (nth_mapd fst _ _ (0, v0)), (nth_mapd snd _ _ (0, v0)) by exact Hc. rewrite nth_concat_row by assumption.
    symmetry. apply surjective_pairing.
  Qed.

  (** Entries written by [get_full_list], as (atom, entry). *)
  Definition mirror (p : nat * nat * v3 F) : list (nat * ent) := let '(i, j, d) := p in [(i, (j, d)); (j, (i, vneg d))].
  Definition sel (ev : list (nat * ent)) (a : nat) : list ent := map snd (filter (fun e => fst e =? a) ev).
  Lemma sel_app ev ev' a : sel (ev ++ ev') a = sel ev a ++ sel ev' a.
  Proof. unfold sel. now rewrite filter_app, map_app. Qed.

  Definition write (st : list nat * list nat * list (v3 F)) (e : nat * ent) := write1 st (fst e) (fst (snd e)) (snd (snd e)).
  Lemma write2_fold l : forall st, fold_left write2 l st = fold_left write (flat_map mirror l) st.
  Proof. induction l as [|[[i j] d] l IH]; intros st; cbn [fold_left flat_map mirror app]; [reflexivity|]. now rewrite IH. Qed.

  Lemma upd_count_nth (l : list ent) : forall deg a, a < length deg ->
    nth a (fold_left (fun deg jd => upd (fst jd) S deg) l deg) 0 = nth a deg 0 + length (filter (fun jd => fst jd =? a) l) /\
    length (fold_left (fun deg jd => upd (fst jd) S deg) l deg) = length deg.
  Proof.
    induction l as [|[j d] l IH]; intros deg a Ha; cbn [fold_left fst filter length]; [lia|].
    destruct (IH (upd j S deg) a) as [I1 I2]; [now rewrite upd_length|]. rewrite upd_length in I2. split; [|exact I2]. rewrite I1.
    destruct (Nat.eqb_spec j a) as [->|Ne]; [rewrite upd_nth_eq by exact Ha; cbn [length]; lia|rewrite upd_nth_neq by congruence; lia].
  Qed.
  Section Fill.
    Variables (n : nat) (rows : list (list ent)).
    Hypothesis Hn : length rows = n.
    Hypothesis Hj : forall i j d, i < n -> In (j, d) (nth i rows []) -> j < n.
    Let c := csr_of rows.
    Definition events : list (nat * ent) := flat_map mirror (half_pairs n (csr_of rows)).
    Lemma half_pairs_rows : half_pairs n (csr_of rows) = flat_map (fun i => map (fun jd => (i, fst jd, snd jd)) (nth i rows [])) (seq 0 n).
    Proof. unfold half_pairs. apply flat_map_ext_in. intros i Hi. apply in_seq in Hi. rewrite row_csr by lia. reflexivity. Qed.
    Lemma half_pairs_lt i j d : In (i, j, d) (half_pairs n (csr_of rows)) -> i < n /\ j < n.
    Proof.
      rewrite half_pairs_rows. intros H. apply in_flat_map in H. destruct H as [k [Hk H]]. apply in_seq in Hk.
      apply in_map_iff in H. destruct H as [[j' d'] [E H]]. cbn in E. injection E as <- <- <-. split; [lia|]. apply (Hj k j' d'); [lia|exact H].
    Qed.
    Lemma events_lt e : In e events -> fst e < n.
    Proof.
      unfold events. intros H. apply in_flat_map in H. destruct H as [[[i j] d] [H1 H2]]. apply half_pairs_lt in H1. cbn in H2.
      destruct H2 as [<-|[<-|[]]]; cbn; tauto.
    Qed.
    Lemma sel_lt a e : In e (sel events a) -> fst e < n.
    Proof.
      unfold sel, events. intros H. apply in_map_iff in H. destruct H as [[b e'] [E H]]. cbn in E. subst e'. apply filter_In in H. destruct H as [H _].
      apply in_flat_map in H. destruct H as [[[i j] d] [H1 H2]]. apply half_pairs_lt in H1. cbn in H2.
      destruct H2 as [H2|[H2|[]]]; injection H2 as _ <-; cbn; tauto.
    Qed.
    Lemma degrees_eq : degrees n (csr_of rows) = map (fun a => length (sel events a)) (seq 0 n).
    Proof.
      assert (G : forall m, m <= n ->
        let deg := fold_left (fun deg i => fold_left (fun deg jd => upd (fst jd) S deg) (row c i)
           (upd i (fun x => x + (nth (S i) (cs_off c) 0 - nth i (cs_off c) 0)) deg)) (seq 0 m) (repeat 0 n) in
        length deg = n /\ forall a, a < n -> nth a deg 0 = length (sel (flat_map mirror (flat_map (fun i => map (fun jd => (i, fst jd, snd jd)) (nth i rows [])) (seq 0 m))) a)).
      { induction m as [|m IH]; intros Hm; cbv zeta.
        - cbn. rewrite repeat_length. split; [reflexivity|]. intros a Ha. now rewrite nth_repeat.
        - rewrite seq_S, fold_left_app. cbn [fold_left Nat.add]. destruct (IH ltac:(lia)) as [I1 I2]. cbv zeta in I1, I2.
          set (deg := fold_left _ (seq 0 m) (repeat 0 n)) in *. clearbody deg.
          set (deg' := upd m _ deg). assert (Ld : length deg' = n) by (unfold deg'; now rewrite upd_length).
          split; [destruct n as [|n']; [lia|]; destruct (upd_count_nth (row c m) deg' 0) as [_ E]; [lia|]; now rewrite E|].
          intros a Ha. destruct (upd_count_nth (row c m) deg' a) as [E _]; [lia|]. rewrite E. clear E.
          rewrite !flat_map_app, sel_app, app_length. cbn [flat_map]. rewrite app_nil_r.
          assert (Hr : row c m = nth m rows []) by (apply row_csr; lia). rewrite Hr.
          assert (Hlen : nth (S m) (cs_off c) 0 - nth m (cs_off c) 0 = length (nth m rows [])).
          { unfold c, csr_of. cbn [cs_off]. rewrite offsets_flat. destruct (flat_offsets_nth rows m) as [-> _]; [lia|]. destruct (flat_offsets_nth rows (S m)) as [-> _]; [lia|].
            rewrite firstn_S_concat by lia. lia. }
          assert (Hd : nth a deg' 0 = nth a deg 0 + if m =? a then length (nth m rows []) else 0).
          { unfold deg'. rewrite Hlen. destruct (Nat.eqb_spec m a) as [Q|Q]; [subst a; rewrite upd_nth_eq by lia; reflexivity|rewrite upd_nth_neq by congruence; lia]. }
          rewrite Hd, I2 by exact Ha. rewrite <- Nat.add_assoc. f_equal.
          generalize (nth m rows []) as l. clear. induction l as [|[j d] l IH]; [cbn; destruct (m =? a); reflexivity|].
          cbn [map flat_map mirror fst snd app length filter]. unfold sel in *. cbn [filter fst].
          destruct (m =? a), (j =? a); cbn [map length snd] in *; lia. }
      destruct (G n ltac:(lia)) as [G1 G2]. unfold degrees. fold c. cbv zeta in G1, G2.
      apply nth_ext with (d := 0) (d' := 0); [now rewrite G1, map_length, seq_length|].
      intros a Ha. rewrite G1 in Ha. rewrite G2 by exact Ha. rewrite (nth_mapd _ _ _ 0) by (now rewrite seq_length).
      rewrite seq_nth by exact Ha. unfold events. now rewrite half_pairs_rows.
    Qed.

    Definition sels : list (list ent) := map (sel events) (seq 0 n).
    Let off := flat_offsets sels.
    Lemma sels_nth a : a < n -> nth a sels [] = sel events a.
    Proof. intros Ha. unfold sels. rewrite (nth_mapd _ _ _ 0) by (now rewrite seq_length). now rewrite seq_nth. Qed.
    Lemma sels_length : length sels = n.
    Proof. unfold sels. now rewrite map_length, seq_length. Qed.
    Lemma off_eq : offsets (degrees n (csr_of rows)) = off.
    Proof. unfold off. rewrite <- offsets_flat, degrees_eq. unfold sels. now rewrite map_map. Qed.
    Lemma off_nth a : a <= n -> nth a off 0 = length (concat (firstn a sels)).
    Proof. intros H. unfold off. apply flat_offsets_nth. now rewrite sels_length. Qed.
    Lemma off_S a : a < n -> nth (S a) off 0 = nth a off 0 + length (sel events a).
    Proof. intros H. rewrite !off_nth by lia. rewrite firstn_S_concat by (now rewrite sels_length). now rewrite sels_nth. Qed.
    Lemma off_mono a b : a <= b <= n -> nth a off 0 <= nth b off 0.
    Proof.
      intros [H1 H2]. induction H1 as [|b H1 IH]; [lia|]. rewrite off_S by lia. specialize (IH ltac:(lia)). lia.
    Qed.
    Lemma off_disjoint a b k k' : a < n -> b < n -> k < length (sel events a) -> k' < length (sel events b) ->
      nth a off 0 + k = nth b off 0 + k' -> a = b /\ k = k'.
    Proof.
      intros Ha Hb Hk Hk' E. destruct (Nat.lt_trichotomy a b) as [C|[C|C]].
      - pose proof (off_mono (S a) b ltac:(lia)). rewrite off_S in H by exact Ha. lia.
      - subst b. split; [reflexivity|lia].
      - pose proof (off_mono (S b) a ltac:(lia)). rewrite off_S in H by exact Hb. lia.
    Qed.

    Lemma put_nth {A} i (x : A) l k d : i < length l -> nth k (put i x l) d = if k =? i then x else nth k l d.
    Proof.
      intros H. unfold put. destruct (Nat.eqb_spec k i) as [Q|Q]; [subst k; now rewrite upd_nth_eq|now rewrite upd_nth_neq].
    Qed.
    Let nnz := nth n off 0.
    Lemma fill done : forall rest, done ++ rest = events ->
      let '(pos, nb, ds) := fold_left write done (off, repeat 0 nnz, repeat v0 nnz) in
      length pos = length off /\ length nb = nnz /\ length ds = nnz /\
      (forall a, a < n -> nth a pos 0 = nth a off 0 + length (sel done a)) /\
      (forall a k, a < n -> k < length (sel done a) ->
         (nth (nth a off 0 + k) nb 0, nth (nth a off 0 + k) ds v0) = nth k (sel done a) (0, v0)).
    Proof.
      induction done as [|e done IH] using rev_ind; intros rest E.
      - cbn [fold_left]. rewrite !repeat_length. repeat split; [intros a Ha; cbn; lia|cbn; intros; lia].
      - rewrite <- app_assoc in E. specialize (IH _ E). rewrite fold_left_app. cbn [fold_left].
        destruct (fold_left write done _) as [[pos nb] ds]. destruct IH as [I1 [I2 [I3 [I4 I5]]]].
        destruct e as [i [j d]]. assert (Hi : i < n) by (apply (events_lt (i, (j, d))); rewrite <- E; apply in_or_app; right; now left).
        assert (Hcnt : forall a, length (sel (done ++ [(i, (j, d))]) a) <= length (sel events a)).
        { intros a. rewrite <- E. change ((i, (j, d)) :: rest) with ([(i, (j, d))] ++ rest). rewrite app_assoc, (sel_app _ rest), app_length. lia. }
        assert (Hs : forall a, sel (done ++ [(i, (j, d))]) a = sel done a ++ if i =? a then [(j, d)] else []).
        { intros a. rewrite sel_app. f_equal. unfold sel. cbn [filter fst]. destruct (i =? a); reflexivity. }
        unfold write, write1. cbn [fst snd]. set (idx := nth i pos 0).
        assert (Hidx : idx = nth i off 0 + length (sel done i)) by (apply I4; exact Hi).
        pose proof (Hcnt i) as Hc. rewrite Hs, Nat.eqb_refl, app_length in Hc. cbn [length] in Hc.
        assert (Hlt : idx < nnz).
        { unfold nnz. pose proof (off_mono (S i) n ltac:(lia)) as Hm. rewrite off_S in Hm by exact Hi. lia. }
        unfold put at 1 2. rewrite !upd_length. repeat split; try assumption.
        + intros a Ha. rewrite Hs, app_length. destruct (Nat.eqb_spec i a) as [Q|Q].
          * subst a. rewrite upd_nth_eq; [cbn [length]; fold idx; lia|]. rewrite I1. unfold off.
            destruct (flat_offsets_nth sels 0) as [_ ->]; [lia|]. rewrite sels_length. lia.
          * rewrite upd_nth_neq by congruence. cbn [length]. rewrite Nat.add_0_r. now apply I4.
        + intros a k Ha Hk. rewrite !put_nth by congruence. rewrite Hs in Hk |- *.
          destruct (Nat.eqb_spec i a) as [Q|Q].
          * subst a. rewrite app_length in Hk. cbn [length] in Hk. destruct (Nat.eqb_spec (nth i off 0 + k) idx) as [R|R].
            -- assert (k = length (sel done i)) by lia. subst k. rewrite app_nth2, Nat.sub_diag by lia. reflexivity.
            -- rewrite app_nth1 by lia. apply I5; [exact Ha|lia].
          * rewrite app_nil_r in *. destruct (Nat.eqb_spec (nth a off 0 + k) idx) as [R|R]; [|apply I5; assumption].
            exfalso. rewrite Hidx in R. destruct (off_disjoint a i k (length (sel done i)) Ha Hi) as [R' _]; [| |exact R|congruence].
            -- specialize (Hcnt a). rewrite Hs in Hcnt. destruct (Nat.eqb_spec i a); [congruence|]. rewrite app_nil_r in Hcnt. lia.
            -- lia.
    Qed.
    Theorem full_row a : a < n -> row (get_full_list n (csr_of rows)) a = sel events a.
    Proof.
      intros Ha. unfold get_full_list. rewrite off_eq, write2_fold. fold events. fold nnz.
      pose proof (fill events [] (app_nil_r _)) as H. destruct (fold_left write events _) as [[pos nb] ds].
      destruct H as [_ [_ [_ [_ H]]]]. unfold row. cbn [cs_neigh cs_d cs_off]. rewrite off_S by exact Ha.
      replace (nth a off 0 + length (sel events a) - nth a off 0) with (length (sel events a)) by lia.
      replace (seq (nth a off 0) (length (sel events a))) with (map (fun k => nth a off 0 + k) (seq 0 (length (sel events a))))
        by (rewrite map_add_seq; f_equal; lia).
      rewrite map_map. apply nth_ext with (d := (0, v0)) (d' := (0, v0)); rewrite map_length, seq_length; [reflexivity|].
      intros k Hk. rewrite (nth_mapd _ _ _ 0) by (now rewrite seq_length). rewrite seq_nth by exact Hk. cbn [Nat.add]. now apply H.
    Qed.
  End Fill.
End Rows.

(** Sums over the mirrored list. *)
Section PairSum.
  Context {F : Type} {N : Num F} {T : Type} {NT : Num T} {LT : RingLaws T}.
  Local Open Scope num_scope.
  Add Ring Tring : (ring_laws (F:=T)).
  Lemma sum_sel (n : nat) (ev : list (nat * (nat * v3 F))) (g : nat -> nat * v3 F -> T) : (forall e, In e ev -> fst e < n) ->
    nsumf (fun a => nsumf (g a) (sel ev a)) (seq 0 n) = nsumf (fun e => g (fst e) (snd e)) ev.
  Proof.
    intros H. transitivity (nsumf (fun a => nsumf (fun e => if fst e =? a then g a (snd e) else 0) ev) (seq 0 n)).
    { apply nsumf_ext'. intros a. unfold sel. rewrite nsumf_map, nsumf_filter. reflexivity. }
    rewrite nsumf_swap. apply nsumf_ext. intros e He. now rewrite (nsumf_delta n (fun a => g a (snd e))) by auto.
  Qed.
  Lemma pair_sum (rows : list (list (nat * v3 F))) (g : nat -> nat * v3 F -> T) :
    let n := length rows in
    (forall i j d, i < n -> In (j, d) (nth i rows []) -> j < n) ->
    nsumf (fun a => nsumf (g a) (row (get_full_list n (csr_of rows)) a)) (seq 0 n) =
    nsumf (fun i => nsumf (fun jd => g i jd + g (fst jd) (i, vneg (snd jd))) (nth i rows [])) (seq 0 n).
  Proof.
    intros n Hj. rewrite (nsumf_ext _ (fun a => nsumf (g a) (sel (events n rows) a))).
    2:{ intros a Ha. apply in_seq in Ha. rewrite (full_row n rows eq_refl Hj a) by lia. reflexivity. }
    rewrite sum_sel by (intros e He; exact (events_lt n rows eq_refl Hj e He)).
    unfold events. rewrite nsumf_flat_map, (half_pairs_rows n rows eq_refl Hj), nsumf_flat_map. apply nsumf_ext'. intros i.
    rewrite nsumf_map. apply nsumf_ext'. intros [j d]. cbn [mirror fst snd]. rewrite !nsumf_cons, nsumf_nil. cbn [fst snd]. ring.
  Qed.
End PairSum.
