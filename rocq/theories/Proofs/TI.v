From Verif Require Import Base Num NumR Model.Regress Model.Fit Model.TI Spec.Fit Spec.TI.
From Coq Require Import Reals Lra Psatz.
From Coq Require String.
Import String.StringSyntax.
Local Open Scope string_scope.
Local Open Scope list_scope.
Local Open Scope nat_scope.

(** ** Constants *)
Section Constants.
  Local Open Scope R_scope.
  Lemma nnat2 : nnat (F:=R) 2 = 2. Proof. rewrite nnat_INR. cbn. lra. Qed.
  Lemma pow10_R k : pow10 (F:=R) k = 10 ^ k.
  Proof. induction k as [|k IH]; [reflexivity|]. cbn [pow10 pow]. rewrite IH, nnat_INR. cbn [nmul R_num]. f_equal. cbn. lra. Qed.
  Lemma dec_R c k : dec (F:=R) c k = INR c / 10 ^ k.
  Proof. unfold dec. now rewrite pow10_R, nnat_INR. Qed.
  Lemma is_zero_true x : is_zero (F:=R) x = true <-> vanishing x.
  Proof.
    unfold is_zero, vanishing. rewrite dec_R, Bool.negb_true_iff. cbn [nltb nabs R_ord]. rewrite Rltb_false.
    replace (INR 1) with 1 by reflexivity. reflexivity.
  Qed.
  Lemma is_zero_false x : is_zero (F:=R) x = false <-> ~ vanishing x.
  Proof. rewrite <- is_zero_true. destruct (is_zero x); split; congruence. Qed.
  Lemma is_success_true e : is_success (F:=R) e = true <-> -100 <= e.
  Proof.
    unfold is_success. rewrite Bool.negb_true_iff. cbn [nltb R_ord nopp R_num]. rewrite Rltb_false, nnat_INR.
    replace (INR 100) with 100 by (rewrite INR_IZR_INZ; reflexivity). split; lra.
  Qed.
End Constants.

(** ** Lists *)
Lemma kept_map {X Y} (f : X -> Y) l bs : map fst (filter (fun q => negb (snd q)) (combine (map f l) bs)) = map f (kept l bs).
Proof.
  unfold kept. revert bs. induction l as [|x l IH]; intros [|b bs]; try reflexivity. cbn. destruct b; cbn; [apply IH|]. f_equal. apply IH.
Qed.
Lemma count_number bs : count bs = number bs.
Proof. unfold count, number. induction bs as [|[|] bs IH]; [reflexivity| |]; cbn; [now f_equal|exact IH]. Qed.
Lemma last_points_final {X} n (l : list X) : last_points n l = final n l.
Proof. unfold last_points, final. now rewrite firstn_rev, rev_involutive. Qed.
Lemma final_map {X Y} (f : X -> Y) n l : final n (map f l) = map f (final n l).
Proof. unfold final. now rewrite <- map_rev, firstn_map, map_rev. Qed.
Lemma last_item_Ok {X} (l : list X) d : l <> [] -> last_item l = Ok (last l d).
Proof.
  intros H. unfold last_item. destruct (exists_last H) as [l' [x ->]]. rewrite last_last, app_length. cbn [length].
  unfold get. rewrite nth_error_app2 by lia. replace (length l' + 1 - 1 - length l') with 0 by lia. reflexivity.
Qed.
Lemma last_map {X Y} (f : X -> Y) l d d' : l <> [] -> last (map f l) d' = f (last l d).
Proof. intros H. destruct (exists_last H) as [l' [x ->]]. rewrite map_app. cbn. now rewrite !last_last. Qed.
Lemma nth_error_combine' {X Y} (l : list X) (m : list Y) i a b :
  nth_error l i = Some a -> nth_error m i = Some b -> nth_error (combine l m) i = Some (a, b).
Proof. revert m i. induction l as [|x l IH]; intros [|y m] [|i] H1 H2; cbn in *; try discriminate; [congruence|auto]. Qed.
Lemma nth_some {X} (l : list X) i : i < length l -> exists a, nth_error l i = Some a.
Proof. intros H. apply nth_error_Some in H. destruct (nth_error l i) as [a|]; [eauto|congruence]. Qed.
Lemma nth_less {X} (l : list X) i a : nth_error l i = Some a -> i < length l.
Proof. intros H. apply nth_error_Some. congruence. Qed.

Lemma nth_error_ext {X} (l m : list X) : (forall n, nth_error l n = nth_error m n) -> l = m.
Proof.
  revert m. induction l as [|x l IH]; intros [|y m] H; [reflexivity|specialize (H 0); discriminate|specialize (H 0); discriminate|].
  f_equal; [specialize (H 0); cbn in H; congruence|]. apply IH. intros n. exact (H (S n)).
Qed.

(** ** Jumps *)
Section Jumps.
  Variable thr : R.
  Lemma jumps_length prev ds : length (jumps (F:=R) thr prev ds) = length ds.
  Proof. revert prev. induction ds as [|d ds IH]; intros prev; cbn [jumps]; [reflexivity|]. destruct (nltb _ _); cbn; now rewrite IH. Qed.
  (** The reference of a record: the latest one kept, or [prev] if all before it jump. *)
  Lemma jumps_spec ds : forall prev i d j, nth_error ds i = Some d -> nth_error (jumps (F:=R) thr prev ds) i = Some j ->
    ((forall l, l < i -> nth_error (jumps (F:=R) thr prev ds) l = Some true) /\ (j = true <-> (thr < Rabs (d - prev))%R)) \/
    exists k dk, k < i /\ nth_error ds k = Some dk /\ nth_error (jumps (F:=R) thr prev ds) k = Some false /\
      (forall l, k < l < i -> nth_error (jumps (F:=R) thr prev ds) l = Some true) /\ (j = true <-> (thr < Rabs (d - dk))%R).
  Proof.
    induction ds as [|x ds IH]; intros prev i d j Hd Hj; [destruct i; discriminate|].
    cbn [jumps] in *. destruct i as [|i].
    - left. injection Hd as ->. split; [intros; lia|]. cbn [nltb nabs R_ord nsub R_num] in Hj.
      destruct (Rltb _ _) eqn:E; cbn in Hj; injection Hj as <-.
      + apply Rltb_true in E. tauto.
      + apply Rltb_false in E. split; [congruence|lra].
    - cbn [nth_error] in Hd. destruct (nltb thr (nabs (nsub x prev))) eqn:E; cbn [nth_error] in Hj.
      + destruct (IH prev i d j Hd Hj) as [[H1 H2]|(k & dk & Hk & H1 & H2 & H3 & H4)].
        * left. split; [|exact H2]. intros [|l] Hl; [reflexivity|]. cbn [nth_error]. apply H1. lia.
        * right. exists (S k), dk. split; [lia|]. split; [exact H1|]. split; [exact H2|]. split; [|exact H4].
          intros [|l] Hl; [lia|]. cbn [nth_error]. apply H3. lia.
      + right. destruct (IH x i d j Hd Hj) as [[H1 H2]|(k & dk & Hk & H1 & H2 & H3 & H4)].
        * exists 0, x. split; [lia|]. split; [reflexivity|]. split; [reflexivity|]. split; [|exact H2].
          intros [|l] Hl; [lia|]. cbn [nth_error]. apply H1. lia.
        * exists (S k), dk. split; [lia|]. split; [exact H1|]. split; [exact H2|]. split; [|exact H4].
          intros [|l] Hl; [lia|]. cbn [nth_error]. apply H3. lia.
  Qed.
  Lemma jumping_jumps d0 ds : jumping thr (d0 :: ds) (false :: jumps (F:=R) thr d0 ds).
  Proof.
    split; [cbn; now rewrite jumps_length|]. split; [cbn; congruence|].
    intros [|i] d j Hi Hd Hj; [lia|]. cbn [nth_error] in Hd, Hj.
    destruct (jumps_spec ds d0 i d j Hd Hj) as [[H1 H2]|(k & dk & Hk & H1 & H2 & H3 & H4)].
    - exists 0, d0. split; [lia|]. split; [reflexivity|]. split; [reflexivity|]. split; [|exact H2].
      intros [|l] Hl; [lia|]. cbn. apply H1. lia.
    - exists (S k), dk. split; [lia|]. split; [exact H1|]. split; [exact H2|]. split; [|exact H4].
      intros [|l] Hl; [lia|]. cbn. apply H3. lia.
  Qed.
  Lemma jumping_unique ds js js' : jumping thr ds js -> jumping thr ds js' -> js = js'.
  Proof.
    intros (L1 & F1 & H1) (L2 & F2 & H2). apply nth_error_ext. intros n.
    induction n as [n IH] using lt_wf_ind.
    destruct (le_lt_dec (length ds) n) as [Hn|Hn].
    { rewrite (proj2 (nth_error_None js n)), (proj2 (nth_error_None js' n)) by lia. reflexivity. }
    destruct (nth_some ds n Hn) as [d Hd]. destruct (nth_some js n) as [j Hj]; [lia|]. destruct (nth_some js' n) as [j' Hj']; [lia|].
    rewrite Hj, Hj'. f_equal. destruct n as [|n].
    { rewrite (F1 _ Hj), (F2 _ Hj'). reflexivity. }
    destruct (H1 (S n) d j ltac:(lia) Hd Hj) as (k & dk & Hk & A1 & A2 & A3 & A4).
    destruct (H2 (S n) d j' ltac:(lia) Hd Hj') as (k' & dk' & Hk' & B1 & B2 & B3 & B4).
    assert (k = k').
    { destruct (lt_eq_lt_dec k k') as [[H|H]|H]; [|exact H|].
      - specialize (A3 k' (conj H Hk')). rewrite (IH k' Hk') in A3. congruence.
      - specialize (B3 k (conj H Hk)). rewrite <- (IH k Hk) in B3. congruence. }
    subst k'. assert (dk = dk') by congruence. subst dk'. destruct j, j'; try reflexivity; exfalso.
    - assert (false = true) by (apply B4, A4; reflexivity). discriminate.
    - assert (false = true) by (apply A4, B4; reflexivity). discriminate.
  Qed.
End Jumps.

(** ** Melting *)
Section Melting.
  Variable thr : R.
  Lemma check_melting_spec ds : ds <> [] -> exists bs, check_melting (F:=R) thr ds = Ok bs /\ left_out thr ds bs.
  Proof.
    destruct ds as [|d0 ds]; [congruence|]. intros _. unfold check_melting. cbn [get nth_error bind tl]. unfold get. cbn [nth_error bind].
    destruct (is_zero d0) eqn:E.
    - eexists. split; [reflexivity|]. split; [apply map_length|]. intros d Hd. injection Hd as <-. apply is_zero_true in E.
      split; [|tauto]. intros _ b Hb. apply in_map_iff in Hb. destruct Hb as [x [<- _]]. reflexivity.
    - eexists. split; [reflexivity|]. apply is_zero_false in E. split.
      + rewrite map_length, combine_length, map_length. cbn [length]. rewrite jumps_length. lia.
      + intros d Hd. injection Hd as <-. split; [tauto|]. intros _. exists (false :: jumps (F:=R) thr d0 ds).
        split; [apply jumping_jumps|]. intros i d b Hd Hb.
        assert (Hi : i < length (false :: jumps (F:=R) thr d0 ds)) by (apply nth_less in Hd; cbn in *; rewrite jumps_length; lia).
        destruct (nth_some _ _ Hi) as [j Hj].
        assert (Hm : nth_error (map (fun d => nltb (nnat 2) (ndiv d d0)) (d0 :: ds)) i = Some (nltb (nnat 2) (ndiv d d0))) by now rewrite nth_error_map, Hd.
        rewrite nth_error_map, (nth_error_combine' _ _ i _ _ Hm Hj) in Hb. cbn [option_map fst snd] in Hb.
        assert (b = (nltb (nnat 2) (ndiv d d0) || j)%bool) by congruence. subst b.
        rewrite Hj, Bool.orb_true_iff. cbn [nltb R_ord ndiv R_num]. rewrite nnat2, Rltb_true. intuition congruence.
  Qed.
  Lemma left_out_unique ds bs bs' : ds <> [] -> left_out thr ds bs -> left_out thr ds bs' -> bs = bs'.
  Proof.
    destruct ds as [|d0 ds]; [congruence|]. intros _ [L1 H1] [L2 H2].
    specialize (H1 d0 eq_refl). specialize (H2 d0 eq_refl). destruct H1 as [V1 H1], H2 as [V2 H2].
    apply nth_error_ext. intros n. destruct (le_lt_dec (length (d0 :: ds)) n) as [Hn|Hn].
    { rewrite (proj2 (nth_error_None bs n)), (proj2 (nth_error_None bs' n)) by lia. reflexivity. }
    destruct (nth_some _ _ Hn) as [d Hd]. destruct (nth_some bs n) as [b Hb]; [lia|]. destruct (nth_some bs' n) as [b' Hb']; [lia|].
    rewrite Hb, Hb'. f_equal. destruct (is_zero d0) eqn:E.
    - apply is_zero_true in E. rewrite (V1 E b), (V2 E b') by (eapply nth_error_In; eassumption). reflexivity.
    - apply is_zero_false in E. destruct (H1 E) as (js & J1 & K1). destruct (H2 E) as (js' & J2 & K2).
      rewrite (jumping_unique thr _ _ _ J1 J2) in *. specialize (K1 n d b Hd Hb). specialize (K2 n d b' Hd Hb').
      destruct b, b'; try reflexivity; exfalso; assert (false = true) by tauto; discriminate.
  Qed.
  Lemma left_out_first ds bs : (0 <= thr)%R -> left_out thr ds bs -> forall b, nth_error bs 0 = Some b -> b = false.
  Proof.
    intros Ht [L H] b Hb. destruct ds as [|d0 ds]; [destruct bs; discriminate|]. destruct (H d0 eq_refl) as [V K].
    destruct (is_zero d0) eqn:E.
    - apply is_zero_true in E. apply (V E), (nth_error_In bs 0), Hb.
    - apply is_zero_false in E. destruct (K E) as (js & (J1 & J2 & _) & K1). specialize (K1 0 d0 b eq_refl Hb).
      destruct b; [|reflexivity]. exfalso. destruct (proj1 K1 eq_refl) as [H2|H2].
      + assert (d0 <> 0)%R. { intros ->. apply E. unfold vanishing. rewrite Rabs_R0. apply Rlt_le. apply Rdiv_lt_0_compat; [lra|]. apply pow_lt. lra. }
        unfold Rdiv in H2. rewrite Rinv_r in H2 by assumption. lra.
      + apply J2 in H2. discriminate.
  Qed.
  Lemma too_many_dec bs : bs <> [] -> (existsb (fun b => b) bs && ((length bs <? 5 * count bs) || forallb (fun b => b) (last_points 3 bs)))%bool = true <-> too_many bs.
  Proof.
    intros Hne. unfold too_many. rewrite Bool.andb_true_iff, Bool.orb_true_iff, Nat.ltb_lt, count_number.
    assert (A : length bs < 5 * number bs <-> (INR (length bs) / 5 < INR (number bs))%R).
    { rewrite <- (Nat.mul_comm (number bs)). split; intros H.
      - apply lt_INR in H. rewrite mult_INR in H. replace (INR 5) with 5%R in H by (cbn; lra). lra.
      - apply INR_lt. rewrite mult_INR. replace (INR 5) with 5%R by (cbn; lra). lra. }
    assert (B : forallb (fun b => b) (last_points 3 bs) = true <->
                forall i, (length bs <= i + 3)%nat -> (i < length bs)%nat -> nth_error bs i = Some true).
    { rewrite forallb_forall. unfold last_points. split.
      - intros H i H1 H2. destruct (nth_some bs i H2) as [b Hb]. rewrite Hb. f_equal. apply H.
        rewrite <- (firstn_skipn (length bs - 3) bs) in Hb. rewrite nth_error_app2 in Hb by (rewrite firstn_length; lia).
        eapply nth_error_In, Hb.
      - intros H b Hb. apply In_nth_error in Hb. destruct Hb as [k Hk].
        assert (Hk' : nth_error bs (length bs - 3 + k) = Some b).
        { rewrite <- (firstn_skipn (length bs - 3) bs) at 1. rewrite nth_error_app2 by (rewrite firstn_length; lia).
          rewrite firstn_length. replace (length bs - 3 + k - Nat.min (length bs - 3) (length bs)) with k by lia. exact Hk. }
        rewrite (H (length bs - 3 + k)) in Hk'; [congruence|lia|apply nth_less in Hk'; exact Hk']. }
    rewrite A, B. split; [tauto|]. intros H. split; [|exact H]. apply existsb_exists. exists true. split; [|reflexivity].
    destruct H as [H|H].
    - unfold number in H. apply (count_occ_In bool_dec). destruct (count_occ bool_dec bs true); [|lia]. exfalso. cbn in H.
      pose proof (pos_INR (length bs)). lra.
    - assert (0 < length bs) by (destruct bs; [congruence|cbn; lia]). apply (nth_error_In bs (length bs - 1)), H; lia.
  Qed.
End Melting.

(** ** Extrapolation *)
Section Line.
  Local Open Scope R_scope.
  Definition s1 (p : list (R * R)) : R := INR (length p).
  Definition sx (p : list (R * R)) : R := nsumf (F:=R) (fun q => fst q) p.
  Definition sxx (p : list (R * R)) : R := nsumf (F:=R) (fun q => fst q * fst q) p.
  Definition sy (p : list (R * R)) : R := nsumf (F:=R) (fun q => snd q) p.
  Definition sxy (p : list (R * R)) : R := nsumf (F:=R) (fun q => fst q * snd q) p.
  Definition syy (p : list (R * R)) : R := nsumf (F:=R) (fun q => snd q * snd q) p.
  Definition lam : R := 1 / 10 ^ 10.
  Lemma lam_pos : 0 < lam. Proof. unfold lam. apply Rdiv_lt_0_compat; [lra|]. apply pow_lt. lra. Qed.
  Lemma cost_expand p a b : line_cost p a b =
    syy p - 2 * a * sy p - 2 * b * sxy p + a * a * s1 p + 2 * a * b * sx p + b * b * sxx p + lam * (a * a + b * b).
  Proof.
    unfold line_cost, lam.
    assert (E : nsumf (F:=R) (fun q : R * R => (snd q - (a + b * fst q)) ^ 2) p =
                syy p - 2 * a * sy p - 2 * b * sxy p + a * a * s1 p + 2 * a * b * sx p + b * b * sxx p).
    { unfold syy, sy, sxy, s1, sx, sxx. induction p as [|q p IH]; [rewrite !nsumf_nil; cbn; lra|].
      rewrite !nsumf_cons, IH. cbn [length]. rewrite S_INR. cbn [nadd R_num]. ring. }
    rewrite E. ring.
  Qed.
  Lemma squares_expand p a b : nsumf (F:=R) (fun q : R * R => (a + b * fst q) ^ 2) p = a * a * s1 p + 2 * a * b * sx p + b * b * sxx p.
  Proof.
    unfold s1, sx, sxx. induction p as [|q p IH]; [rewrite !nsumf_nil; cbn; lra|].
    rewrite !nsumf_cons, IH. cbn [length]. rewrite S_INR. cbn [nadd R_num]. ring.
  Qed.
  Lemma form_nonneg p a b : 0 <= a * a * s1 p + 2 * a * b * sx p + b * b * sxx p.
  Proof. rewrite <- squares_expand. apply nsumf_nonneg. intros q _. apply pow2_ge_0. Qed.
  Lemma lam_sq u w : 0 <= lam * (u * u + w * w).
  Proof. apply Rmult_le_pos; [apply Rlt_le, lam_pos|]. pose proof (Rle_0_sqr u). pose proof (Rle_0_sqr w). unfold Rsqr in *. lra. Qed.
  Lemma sq_zero u w : u * u + w * w <= 0 -> u = 0 /\ w = 0.
  Proof.
    intros H. pose proof (Rle_0_sqr u). pose proof (Rle_0_sqr w).
    split; apply Rsqr_0_uniq; unfold Rsqr in *; lra.
  Qed.
  Lemma normal_least p a b :
    (s1 p + lam) * a + sx p * b = sy p -> sx p * a + (sxx p + lam) * b = sxy p ->
    forall a' b', line_cost p a b <= line_cost p a' b'.
  Proof.
    intros H1 H2 a' b'. rewrite !cost_expand. pose proof (form_nonneg p (a' - a) (b' - b)). pose proof (lam_sq (a' - a) (b' - b)).
    rewrite <- H1, <- H2. lra.
  Qed.
  Lemma extrapolates_unique p v v' : extrapolates p v -> extrapolates p v' -> v = v'.
  Proof.
    intros (a & b & H & ->) (a' & b' & H' & ->).
    pose proof (H ((a + a') / 2) ((b + b') / 2)) as M. pose proof (H a' b') as M1. pose proof (H' a b) as M2.
    rewrite !cost_expand in M, M1, M2. pose proof (form_nonneg p (a - a') (b - b')) as Q. pose proof lam_pos as Hl.
    assert (Z : lam * ((a - a') * (a - a') + (b - b') * (b - b')) <= 0) by lra.
    assert (Z' : (a - a') * (a - a') + (b - b') * (b - b') <= 0) by (apply Rmult_le_reg_l with lam; [exact Hl|lra]).
    apply sq_zero in Z'. lra.
  Qed.
  Lemma extrapolates_scale k p v : extrapolates p v -> extrapolates (map (fun q => (fst q, k * snd q)) p) (k * v).
  Proof.
    intros (a & b & H & ->). exists (k * a), (k * b). split; [|ring].
    assert (N : forall a' b', line_cost p a b <= line_cost p (a + a') (b + b')) by (intros; apply H).
    assert (E : forall x y, line_cost (map (fun q => (fst q, k * snd q)) p) x y =
      k * k * syy p - 2 * k * x * sy p - 2 * k * y * sxy p + x * x * s1 p + 2 * x * y * sx p + y * y * sxx p + lam * (x * x + y * y)).
    { intros x y. rewrite cost_expand. unfold s1, sx, sxx, sy, sxy, syy. rewrite map_length, !nsumf_map. cbn [fst snd].
      assert (X : nsumf (F:=R) (fun x0 : R * R => k * snd x0) p = k * nsumf (F:=R) (fun x0 : R * R => snd x0) p) by exact (nsumf_scale_l (F:=R) k (fun x0 => snd x0) p).
      assert (Y : nsumf (F:=R) (fun x0 : R * R => fst x0 * (k * snd x0)) p = k * nsumf (F:=R) (fun x0 : R * R => fst x0 * snd x0) p).
      { transitivity (nsumf (F:=R) (fun x0 : R * R => k * (fst x0 * snd x0)) p); [apply nsumf_ext'; intros; ring|]. exact (nsumf_scale_l (F:=R) k (fun x0 => fst x0 * snd x0) p). }
      assert (Z : nsumf (F:=R) (fun x0 : R * R => k * snd x0 * (k * snd x0)) p = k * k * nsumf (F:=R) (fun x0 : R * R => snd x0 * snd x0) p).
      { transitivity (nsumf (F:=R) (fun x0 : R * R => k * k * (snd x0 * snd x0)) p); [apply nsumf_ext'; intros; ring|]. exact (nsumf_scale_l (F:=R) (k * k) (fun x0 => snd x0 * snd x0) p). }
      rewrite X, Y, Z. ring. }
    (* the derivative vanishes *)
    assert (D1 : (s1 p + lam) * a + sx p * b = sy p /\ sx p * a + (sxx p + lam) * b = sxy p).
    { assert (A : forall u w, 0 <= 2 * u * ((s1 p + lam) * a + sx p * b - sy p) + 2 * w * (sx p * a + (sxx p + lam) * b - sxy p)
                    + (u * u * s1 p + 2 * u * w * sx p + w * w * sxx p + lam * (u * u + w * w))).
      { intros u w. pose proof (N u w) as M. rewrite !cost_expand in M. lra. }
      assert (P1 : 0 <= s1 p) by apply pos_INR.
      assert (P2 : 0 <= sxx p) by (apply nsumf_nonneg; intros q _; exact (Rle_0_sqr (fst q))). pose proof lam_pos as Hl.
      assert (Q : forall g h, 0 < h -> (forall u, 0 <= 2 * u * g + u * u * h) -> g = 0).
      { intros g h Hh Hu. specialize (Hu (- g / h)). replace (2 * (- g / h) * g + - g / h * (- g / h) * h) with (- (g * g) / h) in Hu by (field; lra).
        assert (K : g * g <= 0). { apply Rmult_le_reg_r with (/ h); [now apply Rinv_0_lt_compat|]. unfold Rdiv in Hu. lra. }
        apply (sq_zero g 0). lra. }
      split.
      - cut ((s1 p + lam) * a + sx p * b - sy p = 0); [lra|]. apply (Q _ (s1 p + lam)); [lra|]. intros u. specialize (A u 0). lra.
      - cut (sx p * a + (sxx p + lam) * b - sxy p = 0); [lra|]. apply (Q _ (sxx p + lam)); [lra|]. intros w. specialize (A 0 w). lra. }
    destruct D1 as [D1 D2]. intros a' b'. rewrite !E. pose proof (form_nonneg p (a' - k * a) (b' - k * b)). pose proof (lam_sq (a' - k * a) (b' - k * b)).
    rewrite <- D1, <- D2. lra.
  Qed.

  Variables (posv : mat R -> vec R -> option (vec R)) (huge : R).
  Hypothesis posv_sound : sound_solver 2 posv.
  Lemma extrapolate_spec data : exists v, extrapolate_data posv huge data = Ok v /\ extrapolates (final 3 data) v.
  Proof.
    unfold extrapolate_data. rewrite last_points_final. generalize (final 3 data) as p. intros p.
    set (x := map (fun q => (fun j => if (j =? 1)%nat then fst q else n1) : vec R) p). set (y := map snd p).
    unfold solver_ridge. cbn [ridge_loop app]. cbn [bind]. unfold get. cbn [nth_error bind].
    set (m := add_diag (nsub (dec 1 10) n0) (xtx_of x)). set (w := xty_of x y).
    assert (El : nsub (dec (F:=R) 1 10) n0 = lam) by (rewrite dec_R; unfold lam; replace (INR 1) with 1 by reflexivity; cbn [nsub n0 R_num]; lra).
    assert (M : m 0%nat 0%nat = s1 p + lam /\ m 0%nat 1%nat = sx p /\ m 1%nat 0%nat = sx p /\ m 1%nat 1%nat = sxx p + lam).
    { unfold m, add_diag. rewrite El. cbn [Nat.eqb]. unfold xtx_of, x. rewrite !nsumf_map. cbn [Nat.eqb].
      assert (A1 : nsumf (F:=R) (fun _ : R * R => nmul n1 n1) p = s1 p).
      { unfold s1. rewrite (nsumf_const (F:=R)), nnat_INR. cbn. lra. }
      assert (A2 : nsumf (F:=R) (fun q : R * R => nmul n1 (fst q)) p = sx p) by (apply nsumf_ext'; intros; cbn; lra).
      assert (A3 : nsumf (F:=R) (fun q : R * R => nmul (fst q) n1) p = sx p) by (apply nsumf_ext'; intros; cbn; lra).
      rewrite A1, A2, A3. cbn [nadd R_num]. repeat split. }
    assert (W : w 0%nat = sy p /\ w 1%nat = sxy p).
    { unfold w, xty_of, x, y. assert (C : combine (map (fun q => (fun j => if (j =? 1)%nat then fst q else n1) : vec R) p) (map snd p) = map (fun q => ((fun j => if (j =? 1)%nat then fst q else n1) : vec R, snd q)) p).
      { clear. induction p as [|q p IH]; [reflexivity|]. cbn [map combine]. now rewrite IH. }
      rewrite C, !nsumf_map. cbn [fst snd Nat.eqb]. split; [|reflexivity]. apply nsumf_ext'. intros. cbn. lra. }
    destruct M as (M1 & M2 & M3 & M4), W as (W1 & W2).
    clearbody m w. unfold solve_linear_equation. destruct (posv m w) as [c|] eqn:E.
    - pose proof (solves _ _ posv_sound _ _ _ E) as Hs.
      assert (S0 : sumn 2 (fun j => m 0%nat j * c j) = w 0%nat) by exact (Hs 0%nat ltac:(lia)).
      assert (S1 : sumn 2 (fun j => m 1%nat j * c j) = w 1%nat) by exact (Hs 1%nat ltac:(lia)).
      rewrite !sumn_S in S0, S1. cbn [sumn seq nsumf map fold_right nsum nadd n0 R_num] in S0, S1. rewrite M1, M2, W1 in S0. rewrite M3, M4, W2 in S1.
      exists (sumn 2 c). split; [reflexivity|]. exists (c 0%nat), (c 1%nat). split.
      + apply normal_least; unfold sumn in *; cbn in S0, S1; lra.
      + unfold sumn. cbn. lra.
    - exfalso. apply (definite _ _ posv_sound m w); [|exact E]. intros d [i [Hi Hd]].
      assert (Q : sumn 2 (fun i => d i * sumn 2 (fun j => m i j * d j)) =
        (d 0%nat * d 0%nat * s1 p + 2 * d 0%nat * d 1%nat * sx p + d 1%nat * d 1%nat * sxx p) + lam * (d 0%nat * d 0%nat + d 1%nat * d 1%nat)).
      { unfold sumn. cbn. rewrite M1, M2, M3, M4. ring. }
      rewrite Q. pose proof (form_nonneg p (d 0%nat) (d 1%nat)). pose proof lam_pos as Hl.
      assert (D : 0 < d 0%nat * d 0%nat + d 1%nat * d 1%nat).
      { pose proof (Rle_0_sqr (d 0%nat)). pose proof (Rle_0_sqr (d 1%nat)). pose proof (Rsqr_pos_lt _ Hd). unfold Rsqr in *.
        assert (i = 0 \/ i = 1)%nat as [->| ->] by lia; lra. }
      pose proof (Rmult_lt_0_compat _ _ Hl D). lra.
  Qed.
End Line.

(** ** Loading *)
Section Load.
  Variables (simpson : list (R * R) -> R) (posv : mat R -> vec R -> option (vec R)) (huge : R).
  Hypothesis posv_sound : sound_solver 2 posv.
  Notation load := (load_ti simpson posv huge).

  Lemma delta_written log : mapM delta_of (map written log) = Ok (deltas log).
  Proof. unfold deltas. induction log as [|s log IH]; [reflexivity|]. cbn [map mapM]. cbn [delta_of written e_alpha e_delta key bind]. now rewrite IH. Qed.
  Lemma energy_written log : mapM energy_of (map written log) = Ok (energies log).
  Proof. unfold energies. induction log as [|s log IH]; [reflexivity|]. cbn [map mapM]. cbn [energy_of written e_alpha e_energy key bind]. now rewrite IH. Qed.
  Lemma disp_written log : mapM (fun l => key (e_disp l)) (map written log) = Ok (map s_disp log).
  Proof. induction log as [|s log IH]; [reflexivity|]. cbn [map mapM]. cbn [written e_disp key bind]. now rewrite IH. Qed.

  Lemma properties_raw n T V log : log <> [] -> n <> 0 ->
    exists f e s, get_properties simpson posv huge (map written log) T n false = Ok (f, e, s) /\
      result simpson n T V log (deltas log) (last_energy log) (mk_ti (ndiv V (nnat n)) T f e s (map written log)).
  Proof.
    intros Hl Hn. unfold get_properties, get_free_energy, get_energy. rewrite delta_written, energy_written. cbn [bind].
    unfold integrate. cbn [String.eqb Ascii.eqb Bool.eqb bind]. unfold energies.
    rewrite (last_item_Ok _ (0%R, 0%R)) by (destruct log; [congruence|discriminate]).
    destruct log as [|s0 log]; [congruence|]. unfold get. cbn [map nth_error bind]. do 3 eexists. split; [reflexivity|].
    assert (HN : (INR n <> 0)%R) by (apply not_0_INR, Hn).
    constructor; cbn [t_volume t_temp t_free t_energy t_entropy t_log]; rewrite ?nnat_INR; cbn [ndiv nsub R_num].
    - field. exact HN.
    - reflexivity.
    - field. exact HN.
    - cbn [first_energy snd]. unfold last_energy.
      change ((s_alpha s0, s_energy s0) :: map (fun s => (s_alpha s, s_energy s)) log) with (map (fun s => (s_alpha s, s_energy s)) (s0 :: log)).
      rewrite (last_map _ (s0 :: log) s0 (0%R, 0%R)), (last_map s_energy (s0 :: log) s0) by discriminate. cbn [snd]. field. exact HN.
    - split; intros HT.
      + apply is_zero_true in HT. now rewrite HT.
      + pose proof HT as HT'. apply is_zero_false in HT'. rewrite HT'. assert (T <> 0)%R; [|field; now split].
        intros ->. apply HT. unfold vanishing. rewrite Rabs_R0. apply Rlt_le. apply Rdiv_lt_0_compat; [lra|]. apply pow_lt. lra.
    - reflexivity.
  Qed.
  Lemma properties_ext n T V log : log <> [] -> n <> 0 ->
    exists f e s d1 e1, get_properties simpson posv huge (map written log) T n true = Ok (f, e, s) /\
      extrapolates (final 3 (deltas log)) d1 /\ extrapolates (final 3 (energies log)) e1 /\
      result simpson n T V log (deltas log ++ [(1%R, d1)]) e1 (mk_ti (ndiv V (nnat n)) T f e s (map written log)).
  Proof.
    intros Hl Hn. unfold get_properties, get_free_energy, get_energy. rewrite delta_written, energy_written. cbn [bind].
    destruct (extrapolate_spec posv huge posv_sound (deltas log)) as (d1 & E1 & D1).
    destruct (extrapolate_spec posv huge posv_sound (energies log)) as (e1 & E2 & D2).
    rewrite E1, E2. unfold integrate. cbn [String.eqb Ascii.eqb Bool.eqb bind].
    destruct log as [|s0 log]; [congruence|]. unfold get. cbn [energies map nth_error bind].
    do 3 eexists. exists d1, e1. split; [reflexivity|]. split; [exact D1|]. split; [exact D2|].
    assert (HN : (INR n <> 0)%R) by (apply not_0_INR, Hn).
    constructor; cbn [t_volume t_temp t_free t_energy t_entropy t_log]; rewrite ?nnat_INR; cbn [ndiv nsub R_num].
    - field. exact HN.
    - reflexivity.
    - cbn [n1 R_num]. unfold Rdiv. rewrite Rmult_assoc, Rinv_l, Rmult_1_r by exact HN. reflexivity.
    - cbn [first_energy snd]. field. exact HN.
    - split; intros HT.
      + apply is_zero_true in HT. now rewrite HT.
      + pose proof HT as HT'. apply is_zero_false in HT'. rewrite HT'. cbn [n1 R_num]. assert (T <> 0)%R; [|field; now split].
        intros ->. apply HT. unfold vanishing. rewrite Rabs_R0. apply Rlt_le. apply Rdiv_lt_0_compat; [lra|]. apply pow_lt. lra.
    - reflexivity.
  Qed.

  Lemma thr_R : dec (F:=R) 5 2 = (5 / 100)%R.
  Proof. rewrite dec_R. cbn. lra. Qed.
  Lemma kept_nonempty (log : list sample) bs : log <> [] -> left_out (5 / 100) (map s_disp log) bs -> kept log bs <> [].
  Proof.
    intros Hl HB. pose proof (left_out_first (5 / 100) _ _ ltac:(lra) HB) as H0. destruct HB as [L _]. rewrite map_length in L.
    destruct log as [|s log]; [congruence|]. destruct bs as [|b bs]; [discriminate|]. rewrite (H0 b eq_refl). unfold kept. cbn. discriminate.
  Qed.

  Lemma load_spec f n T V e log : complete f n T V e log ->
    exists bs, left_out (5 / 100) (map s_disp log) bs /\
      ((e < -100)%R \/ too_many bs -> load f = Ok None) /\
      (~ (e < -100)%R -> ~ too_many bs -> exists r rx, load f = Ok (Some (r, rx)) /\ results simpson n T V (kept log bs) r rx).
  Proof.
    intros [H1 H2 H3 H4 H5 (a & b & HP & HA & HB)].
    destruct (check_melting_spec (5 / 100) (map s_disp log)) as (bs & EB & LB); [destruct log; [congruence|discriminate]|].
    exists bs. split; [exact LB|].
    assert (Hbs : bs <> []). { intros ->. destruct LB as [L _]. rewrite map_length in L. destruct log; [congruence|discriminate]. }
    unfold load_ti. rewrite H1, H3, H4, HP. cbn [key bind fst snd]. replace (n =? 0) with false by (symmetry; now apply Nat.eqb_neq).
    assert (EL : match a, y_sampling f with
                 | Some l, _ => Ok l | None, Some l => Ok l | None, None => Err RuntimeError end = Ok (map written log)).
    { destruct HA as [-> |[-> ->]]; reflexivity. }
    rewrite EL. cbn [bind].
    assert (EE : match b with
                 | Some e => Ok e
                 | None => do l0 <- get (map written log) 0; do e_ref <- key (e_energy l0);
                           do l1 <- last_item (map written log); do e <- key (e_energy l1);
                           Ok (ndiv (nsub e e_ref) (nnat n))
                 end = Ok e).
    { destruct HB as [-> |[-> ->]]; [reflexivity|]. destruct log as [|s log]; [congruence|].
      rewrite (last_item_Ok _ (written s)) by discriminate. unfold get. cbn [map nth_error bind].
      change (written s :: map written log) with (map written (s :: log)). rewrite (last_map written (s :: log) s) by discriminate.
      cbn [written e_energy key bind]. unfold last_energy. rewrite (last_map s_energy (s :: log) s) by discriminate.
      cbn [first_energy ndiv nsub R_num]. now rewrite nnat_INR. }
    rewrite EE. cbn [bind]. split.
    - intros H. destruct (is_success e) eqn:ES; cbn [negb]; [|reflexivity]. apply is_success_true in ES.
      rewrite disp_written. cbn [bind]. rewrite thr_R, EB. cbn [bind]. destruct H as [H|H]; [lra|].
      apply too_many_dec in H; [|exact Hbs]. now rewrite H.
    - intros He Hm. assert (ES : is_success e = true) by (apply is_success_true; lra). rewrite ES. cbn [negb].
      rewrite disp_written. cbn [bind]. rewrite thr_R, EB. cbn [bind].
      rewrite <- too_many_dec in Hm by exact Hbs. apply Bool.not_true_is_false in Hm. rewrite Hm.
      rewrite kept_map. pose proof (kept_nonempty log bs H5 LB) as HK.
      destruct (properties_raw n T V (kept log bs) HK H2) as (f0 & e0 & s0 & E0 & R0).
      destruct (properties_ext n T V (kept log bs) HK H2) as (f1 & e1 & s1 & dx & ex & E1 & D1 & D2 & R1).
      rewrite E1. cbn [bind]. rewrite E0. cbn [bind]. do 2 eexists. split; [reflexivity|]. split; [exact R0|]. exists dx, ex. auto.
  Qed.


  (** ** Replicated systems *)
  Lemma kept_times k log bs : kept (map (times k) log) bs = map (times k) (kept log bs).
  Proof. apply kept_map. Qed.
  Lemma disp_times k log : map s_disp (map (times k) log) = map s_disp log.
  Proof. rewrite map_map. reflexivity. Qed.
  Notation scaled k := (map (fun q : R * R => (fst q, (k * snd q)%R))).
  Lemma deltas_times k log : deltas (map (times k) log) = scaled k (deltas log).
  Proof. unfold deltas. rewrite !map_map. reflexivity. Qed.
  Lemma energies_times k log : energies (map (times k) log) = scaled k (energies log).
  Proof. unfold energies. rewrite !map_map. reflexivity. Qed.
  Lemma last_times k log : log <> [] -> last_energy (map (times k) log) = (k * last_energy log)%R.
  Proof.
    intros H. unfold last_energy. destruct log as [|s log]; [congruence|]. rewrite map_map.
    rewrite (last_map (fun x => s_energy (times k x)) (s :: log) s), (last_map s_energy (s :: log) s) by discriminate. reflexivity.
  Qed.
  Lemma first_times k log : log <> [] -> first_energy (map (times k) log) = (k * first_energy log)%R.
  Proof. destruct log; [congruence|reflexivity]. Qed.

  Definition same_numbers (r r' : data_ti R) : Prop :=
    t_volume r' = t_volume r /\ t_temp r' = t_temp r /\ t_free r' = t_free r /\ t_energy r' = t_energy r /\ t_entropy r' = t_entropy r.
  Lemma result_times (k n : nat) T V log data data' e1 e1' r r' : k <> 0 -> n <> 0 -> log <> [] ->
    simpson data' = (INR k * simpson data)%R -> e1' = (INR k * e1)%R ->
    result simpson n T V log data e1 r -> result simpson (k * n) T (INR k * V) (map (times (INR k)) log) data' e1' r' -> same_numbers r r'.
  Proof.
    intros Hk Hn Hl HS HE [A1 A2 A3 A4 [A5 A5'] _] [B1 B2 B3 B4 [B5 B5'] _].
    rewrite mult_INR in B1, B3, B4. rewrite first_times in B4 by exact Hl.
    assert (K : (INR k * INR n <> 0)%R) by (apply Rmult_integral_contrapositive; split; apply not_0_INR; assumption).
    assert (C : forall x y : R, (x * INR n = y -> forall x', x' * (INR k * INR n) = INR k * y -> x' = x)%R).
    { intros x y Hx x' Hx'. apply Rmult_eq_reg_r with (INR k * INR n)%R; [|exact K]. rewrite Hx', <- Hx. ring. }
    assert (E1 : t_volume r' = t_volume r) by (apply (C _ _ A1), B1).
    assert (E2 : t_free r' = t_free r) by (apply (C _ _ A3); rewrite B3; exact HS).
    assert (E3 : t_energy r' = t_energy r) by (apply (C _ _ A4); rewrite B4, HE; ring).
    split; [exact E1|]. split; [congruence|]. split; [exact E2|]. split; [exact E3|].
    destruct (is_zero T) eqn:EZ.
    - apply is_zero_true in EZ. now rewrite (A5 EZ), (B5 EZ).
    - apply is_zero_false in EZ. specialize (A5' EZ). specialize (B5' EZ).
      assert (HT : (T <> 0)%R). { intros ->. apply EZ. unfold vanishing. rewrite Rabs_R0. apply Rlt_le. apply Rdiv_lt_0_compat; [lra|]. apply pow_lt. lra. }
      apply Rmult_eq_reg_l with T; [|exact HT]. rewrite E2, E3 in B5'. lra.
  Qed.
  Lemma load_times f f' (k n : nat) T V e log : k <> 0 ->
    (forall c data, simpson (scaled c data) = (c * simpson data)%R) ->
    complete f n T V e log -> complete f' (k * n) T (INR k * V) e (map (times (INR k)) log) ->
    load f = Ok None /\ load f' = Ok None \/
    exists r rx r' rx', load f = Ok (Some (r, rx)) /\ load f' = Ok (Some (r', rx')) /\ same_numbers r r' /\ same_numbers rx rx'.
  Proof.
    intros Hk HS Hc Hc'. pose proof (c_some _ _ _ _ _ _ Hc) as Hl. pose proof (c_positive _ _ _ _ _ _ Hc) as Hn.
    destruct (load_spec f n T V e log Hc) as (bs & L & N & S). destruct (load_spec f' (k * n) T (INR k * V) e _ Hc') as (bs' & L' & N' & S').
    rewrite disp_times in L'. assert (bs' = bs). { apply (left_out_unique (5 / 100) (map s_disp log)); [destruct log; [congruence|discriminate]|exact L'|exact L]. }
    subst bs'. assert (Hbs : bs <> []). { intros ->. destruct L as [L _]. rewrite map_length in L. destruct log; [congruence|discriminate]. }
    destruct (Rlt_or_le e (-100)) as [He|He]; [left; auto|].
    assert (D : too_many bs \/ ~ too_many bs).
    { rewrite <- too_many_dec by exact Hbs. destruct (_ && _)%bool; [left; reflexivity|right; discriminate]. }
    destruct D as [D|D]; [left; auto|]. right.
    destruct (S ltac:(lra) D) as (r & rx & E & R1 & d & ee & D1 & D2 & R2).
    destruct (S' ltac:(lra) D) as (r' & rx' & E' & R1' & d' & ee' & D1' & D2' & R2').
    pose proof (kept_nonempty log bs Hl L) as HK.
    rewrite kept_times in *. rewrite deltas_times, energies_times, final_map in *.
    assert (Ed : d' = (INR k * d)%R) by (eapply extrapolates_unique; [exact D1'|]; apply extrapolates_scale; exact D1).
    assert (Ee : ee' = (INR k * ee)%R) by (eapply extrapolates_unique; [exact D2'|]; apply extrapolates_scale; exact D2).
    exists r, rx, r', rx'. split; [exact E|]. split; [exact E'|]. split.
    - eapply result_times; [exact Hk|exact Hn|exact HK| | |exact R1|exact R1'].
      + apply HS. + now apply last_times.
    - eapply result_times; [exact Hk|exact Hn|exact HK| | |exact R2|exact R2'].
      + rewrite <- HS, map_app. cbn [map fst snd]. now rewrite Ed. + exact Ee.
  Qed.
End Load.

Lemma last_cons {X} (x : X) l d : last (x :: l) d = last l x.
Proof. revert x d. induction l as [|y l IH]; intros x d; [reflexivity|]. change (last (x :: y :: l) d) with (last (y :: l) d). rewrite (IH y d), (IH y x). reflexivity. Qed.
Lemma trapezoid_line a b (data : list (R * R)) : forall q0, on_line a b (q0 :: data) ->
  trapezoid (F:=R) (q0 :: data) = (a * (fst (last data q0) - fst q0) + b * (fst (last data q0) ^ 2 - fst q0 ^ 2) / 2)%R.
Proof.
  induction data as [|q data IH]; intros q0 H; [cbn; lra|].
  assert (E : trapezoid (F:=R) (q0 :: q :: data) = ((fst q - fst q0) * (snd q + snd q0) / 2 + trapezoid (F:=R) (q :: data))%R).
  { cbn [trapezoid]. now rewrite nnat2. }
  rewrite E, (IH q) by (intros x Hx; apply H; right; exact Hx).
  rewrite (H q0), (H q) by (cbn; auto).
  rewrite last_cons. field.
Qed.
