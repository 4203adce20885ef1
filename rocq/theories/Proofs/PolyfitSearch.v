(** Polynomial fits: leave-one-out scores and the search for the best kind. *)
From Verif Require Import Base Num NumR Model.Regress Model.Polyfit Spec.Polyfit Proofs.Polyfit Proofs.PolyfitModel.
From Coq Require Import Reals Lra.
Local Open Scope R_scope.

Lemma without_split {A} (l : list A) i a : nth_error l i = Some a -> l = firstn i l ++ a :: skipn (S i) l.
Proof.
  revert i; induction l as [|b l IH]; intros [|i] E; try discriminate; cbn in *; [now injection E as ->|]. f_equal. now apply IH.
Qed.
Lemma nth_error_ext {A} (l m : list A) : (forall i, nth_error l i = nth_error m i) -> l = m.
Proof.
  revert m; induction l as [|a l IH]; intros [|b m] H; [reflexivity|discriminate (H 0%nat)|discriminate (H 0%nat)|].
  pose proof (H 0%nat) as H0. injection H0 as ->. f_equal. apply IH. intros i. exact (H (S i)).
Qed.
Lemma combine_app' {A B} (a1 a2 : list A) (b1 b2 : list B) : length a1 = length b1 -> combine (a1 ++ a2) (b1 ++ b2) = combine a1 b1 ++ combine a2 b2.
Proof. revert b1; induction a1 as [|a a1 IH]; intros [|b b1] E; try discriminate; cbn; [reflexivity|]. f_equal. apply IH. now injection E. Qed.
Lemma plain_split xs ys i x y : length ys = length xs -> nth_error xs i = Some x -> nth_error ys i = Some y ->
  exists D1 D2, plain xs ys = D1 ++ mk_pt x y 1 :: D2 /\ plain (without i xs) (without i ys) = D1 ++ D2 /\
    map px (D1 ++ D2) = without i xs.
Proof.
  intros E Hx Hy. exists (plain (firstn i xs) (firstn i ys)), (plain (skipn (S i) xs) (skipn (S i) ys)).
  assert (L : length (firstn i xs) = length (firstn i ys)) by (rewrite !firstn_length, E; reflexivity).
  assert (L2 : length (skipn (S i) xs) = length (skipn (S i) ys)) by (rewrite !skipn_length, E; reflexivity).
  split; [|split].
  - unfold plain. rewrite (without_split _ _ _ Hx) at 1. rewrite (without_split _ _ _ Hy) at 1. rewrite combine_app' by exact L. now rewrite map_app.
  - unfold plain, without. rewrite combine_app' by exact L. now rewrite map_app.
  - unfold plain, without. rewrite map_app, !map_map. cbn [px]. f_equal.
    + revert L. generalize (firstn i xs), (firstn i ys). induction l as [|a l IH]; intros [|b m] Q; try discriminate; cbn; [reflexivity|]. f_equal. apply IH. now injection Q.
    + revert L2. generalize (skipn (S i) xs), (skipn (S i) ys). induction l as [|a l IH]; intros [|b m] Q; try discriminate; cbn; [reflexivity|]. f_equal. apply IH. now injection Q.
Qed.
Lemma plain_weighted xs ys : weighted (plain xs ys).
Proof. intros q Hq. apply in_map_iff in Hq. destruct Hq as [? [<- _]]. cbn. lra. Qed.
Lemma plain_px xs ys : length ys = length xs -> map px (plain xs ys) = xs.
Proof. intros E. rewrite <- (records_plain _ _ E). now apply records_px. Qed.

Section Search.
  Variables (solve : nat -> mat R -> vec R -> option (vec R)) (inv : nat -> mat R -> option (mat R)) (best0 : R).
  Hypothesis Hs : exact_solve solve.
  Hypothesis Hi : exact_inv inv.
  Notation rows k xs := (map (xrw (cols k)) xs).

  Section Score.
    Variables (k : kind) (xs ys : list R).
    Hypothesis E : length ys = length xs.
    Hypothesis Hdet : vdet k xs.
    Notation D := (plain xs ys).
    Variable c : vec R.
    Hypothesis Hc : ne k D c.

    Lemma nonsing : ~ singular (nc k) (gram k D).
    Proof. rewrite (singular_det k D (plain_weighted xs ys)), (plain_px _ _ E). tauto. Qed.

    Section B.
      Variable b : mat R.
      Hypothesis HB : forall i j, (i < nc k)%nat -> (j < nc k)%nat -> sumn (nc k) (fun l => gram k D i l * b l j) = if (i =? j)%nat then 1 else 0.
      Notation lev x := (leverage (nc k) b (xrw (cols k) x)).
      (** The deviation of a record from the fit of the others *)
      Lemma loo i x y f : nth_error xs i = Some x -> nth_error ys i = Some y -> least_squares k (plain (without i xs) (without i ys)) f ->
        (value k f x - y) * (1 - lev x) = val k c x - y.
      Proof.
        intros Hx Hy Hf. destruct (plain_split xs ys i x y E Hx Hy) as [D1 [D2 [P1 [P2 _]]]].
        rewrite (val_cv k f x (proj1 Hf)). apply least_ne in Hf. rewrite P2 in Hf. rewrite P1 in HB, Hc.
        pose proof nonsing as NS. rewrite P1 in NS.
        exact (leave_value k D1 D2 (mk_pt x y 1) b eq_refl NS HB c (cv k f) Hc Hf).
      Qed.
      Lemma lev_det i x y : nth_error xs i = Some x -> nth_error ys i = Some y -> lev x = 1 <-> ~ determined k (without i xs).
      Proof.
        intros Hx Hy. destruct (plain_split xs ys i x y E Hx Hy) as [D1 [D2 [P1 [P2 P3]]]].
        rewrite det_vdet, <- P3. pose proof nonsing as NS. rewrite P1 in NS, HB.
        apply (leave_det k D1 D2 (mk_pt x y 1) b eq_refl NS HB). rewrite <- P2. apply plain_weighted.
      Qed.
      Lemma others_fit i x y : nth_error xs i = Some x -> nth_error ys i = Some y -> determined k (without i xs) ->
        exists f, least_squares k (plain (without i xs) (without i ys)) f.
      Proof.
        intros Hx Hy Hd. destruct (plain_split xs ys i x y E Hx Hy) as [D1 [D2 [P1 [P2 P3]]]].
        destruct (det_solution k (plain (without i xs) (without i ys)) (plain_weighted _ _)) as [c' Hc'].
        - rewrite P2, P3. now apply det_vdet.
        - exists (fo k c'). apply ne_least; [apply plain_weighted|exact Hc'].
      Qed.
      Definition devs : list R := map (fun q => (val k c (fst q) - snd q) / (1 - lev (fst q))) (combine xs ys).
      Lemma nth_combine i q : nth_error (combine xs ys) i = Some q <-> nth_error xs i = Some (fst q) /\ nth_error ys i = Some (snd q).
      Proof.
        clear. revert ys i; induction xs as [|x l IH]; intros [|y m] [|i]; cbn; split; try (intros [H1 H2]); try intros H; try discriminate; auto.
        - injection H as <-. auto.
        - destruct q. cbn in *. congruence.
        - now apply IH.
        - apply IH. auto.
      Qed.
      Lemma devs_score : scorable k xs -> score k xs ys (mean_square devs).
      Proof.
        intros S. exists devs. split; [unfold devs; rewrite map_length, combine_length, E; lia|]. split; [reflexivity|].
        intros i x y e Hx Hy He. unfold devs in He. rewrite nth_error_map in He. destruct (nth_error (combine xs ys) i) as [q|] eqn:Q; [|discriminate].
        apply nth_combine in Q. destruct Q as [Q1 Q2]. injection He as <-. rewrite Q1 in Hx. rewrite Q2 in Hy. injection Hx as <-. injection Hy as <-.
        assert (Li : (i < length xs)%nat) by (apply nth_error_Some; congruence). specialize (S i Li).
        destruct (others_fit i _ _ Q1 Q2 S) as [f Hf]. exists f. split; [exact Hf|]. pose proof (loo i _ _ f Q1 Q2 Hf) as H.
        assert (NZ : 1 - lev (fst q) <> 0).
        { intros Z. apply (proj1 (lev_det i _ _ Q1 Q2)); [lra|exact S]. }
        rewrite <- H. field. exact NZ.
      Qed.
      Lemma score_unique v : scorable k xs -> score k xs ys v -> v = mean_square devs.
      Proof.
        intros S [es [L [-> H]]]. f_equal. apply nth_error_ext. intros i. unfold devs. rewrite nth_error_map.
        destruct (nth_error (combine xs ys) i) as [q|] eqn:Q.
        - apply nth_combine in Q. destruct Q as [Q1 Q2]. assert (Li : (i < length xs)%nat) by (apply nth_error_Some; congruence).
          destruct (nth_error es i) as [e|] eqn:Qe; [|exfalso; apply nth_error_None in Qe; lia]. cbn [option_map]. f_equal.
          destruct (H i _ _ e Q1 Q2 Qe) as [f [Hf ->]]. pose proof (loo i _ _ f Q1 Q2 Hf) as HL.
          assert (NZ : 1 - lev (fst q) <> 0).
          { intros Z. apply (proj1 (lev_det i _ _ Q1 Q2)); [lra|exact (S i Li)]. }
          rewrite <- HL. field. exact NZ.
        - cbn [option_map]. apply nth_error_None in Q. rewrite combine_length, E, Nat.min_id in Q. apply nth_error_None. lia.
      Qed.
    End B.

    Lemma loocv_is : exists r, loocv inv (of_coeffs (nc k) (rows k xs) ys c) ys = Ok r /\
      match r with
      | Some v => scorable k xs /\ score k xs ys v /\ forall v', score k xs ys v' -> v' = v
      | None => ~ scorable k xs
      end.
    Proof.
      unfold loocv. cbn [s_p s_rows of_coeffs s_pred]. pose proof (Hi (nc k) (xtx_of (rows k xs))) as H.
      assert (EG : forall i j, xtx_of (F:=R) (rows k xs) i j = gram k D i j) by (intros; now apply gram_1).
      destruct (inv (nc k) (xtx_of (rows k xs))) as [b|]; [|exfalso; apply nonsing; now apply (singular_ext _ _ _ EG)].
      destruct H as [_ HB0]. assert (HB : forall i j, (i < nc k)%nat -> (j < nc k)%nat -> sumn (nc k) (fun l => gram k D i l * b l j) = if (i =? j)%nat then 1 else 0).
      { intros i j H1 H2. transitivity (sumn (nc k) (fun l => nmul (xtx_of (F:=R) (rows k xs) i l) (b l j))); [apply sumn_ext; intros l _; now rewrite EG|]. now apply HB0. }
      destruct (existsb _ _) eqn:EX.
      - eexists. split; [reflexivity|]. cbn beta iota. intros S. apply existsb_exists in EX. destruct EX as [h [H1 H2]]. rewrite map_map in H1. apply in_map_iff in H1.
        destruct H1 as [x [<- Hx]]. apply In_nth_error in Hx. destruct Hx as [i Hx]. assert (Li : (i < length xs)%nat) by (apply nth_error_Some; congruence).
        destruct (nth_error ys i) as [y|] eqn:Hy; [|apply nth_error_None in Hy; lia].
        apply (proj1 (lev_det b HB i x y Hx Hy)); [|exact (S i Li)]. unfold is_zero in H2. apply andb_prop in H2. destruct H2 as [H2 H3].
        cbn [nltb R_ord n0 n1 nsub R_num] in H2, H3. apply negb_true_iff in H2, H3. apply Rltb_false in H2, H3. lra.
      - eexists. split; [reflexivity|]. cbn beta iota.
        assert (S : scorable k xs).
        { intros i Li. destruct (nth_error xs i) as [x|] eqn:Hx; [|apply nth_error_None in Hx; lia]. destruct (nth_error ys i) as [y|] eqn:Hy; [|apply nth_error_None in Hy; lia].
          apply det_vdet. destruct (plain_split xs ys i x y E Hx Hy) as [D1 [D2 [P1 [P2 P3]]]].
          destruct (singular_dec (nc k) (gram k (D1 ++ D2))) as [SG|SG].
          - exfalso. apply (singular_det k (D1 ++ D2)) in SG; [|rewrite <- P2; apply plain_weighted]. rewrite P3, <- det_vdet in SG. apply (lev_det b HB i x y Hx Hy) in SG.
            assert (T : existsb (fun v => is_zero (nsub n1 v)) (map (leverage (nc k) b) (rows k xs)) = true).
            { apply existsb_exists. exists (leverage (nc k) b (xrw (cols k) x)). split; [apply in_map, in_map; now apply nth_error_In in Hx|].
              rewrite SG. unfold is_zero. cbn [nltb R_ord n0 n1 nsub R_num]. apply andb_true_intro. split; apply negb_true_iff, Rltb_false; lra. }
            congruence.
          - intros d Z. apply (nonsingular_zero k (D1 ++ D2) d SG). intros j Hj. rewrite gram_val.
            rewrite (nsumf_ext _ (fun _ => n0 (F:=R)) (D1 ++ D2)); [exact (nsumf_zero (F:=R) (D1 ++ D2))|]. intros q Hq. rewrite (Z (px q)); [cbn; ring|]. rewrite <- P3. now apply in_map. }
        assert (ED : map (fun q : R * R * R => ndiv (nsub (fst (fst q)) (snd (fst q))) (nsub n1 (snd q))) (combine (combine (map (fun r => dot (nc k) r c) (rows k xs)) ys) (map (leverage (nc k) b) (rows k xs))) = devs b).
        { unfold devs. rewrite !map_map. clear - E. revert ys E. induction xs as [|x l IH]; intros [|y m] Q; try discriminate; [reflexivity|]. cbn [map combine]. f_equal. apply IH. now injection Q. }
        assert (EM : nsqrt (ndiv (nsumf (fun v => nmul v v) (devs b)) (nnat (length (devs b)))) = mean_square (devs b)).
        { unfold mean_square. cbn [nsqrt R_ord ndiv R_num]. rewrite nnat_INR. f_equal. f_equal. apply nsumf_ext'. intros e. cbn. ring. }
        match goal with |- context [score k xs ys ?v] => assert (EV : v = mean_square (devs b)) end.
        { etransitivity; [|exact EM]. rewrite <- ED. reflexivity. }
        rewrite EV. split; [exact S|]. split; [now apply devs_score|]. intros v' Hv. now apply score_unique.
    Qed.
  End Score.

  (** ** The search *)
  Variables (xs ys : list R) (ic fo : bool).
  Hypothesis E : length ys = length xs.
  Hypothesis NE : xs <> [].
  Notation K m := (kind_of ic fo m).
  Notation none_below := (none_below xs ys ic fo).
  Notation first_best := (first_best xs ys ic fo).
  Notation model := (bool * nat)%type.

  Lemma scorable_det k : scorable k xs -> determined k xs.
  Proof.
    intros S. assert (L : (0 < length xs)%nat) by (destruct xs; [contradiction|cbn; lia]). specialize (S 0%nat L). apply det_vdet in S. apply det_vdet.
    refine (vdet_sub k _ _ _ S). intros x H. cbn in H. destruct xs as [|a t]; [contradiction|]. now right.
  Qed.

  Lemma try_is (best : R * option model) m : (0 < nc (K m))%nat -> exists r,
    try_model solve inv xs ys ic fo false false best m = Ok (match r with Some v => if nltb v (fst best) then (v, Some m) else best | None => best end) /\
    match r with
    | Some v => scorable (K m) xs /\ score (K m) xs ys v /\ forall v', score (K m) xs ys v' -> v' = v
    | None => ~ scorable (K m) xs
    end.
  Proof.
    intros P. unfold try_model. destruct (fit_single_is solve Hs (K m) xs ys false false E P ltac:(discriminate)) as [r [F1 F2]].
    cbn [kind_of k_order k_intercept k_first k_sqrt] in F1. rewrite F1. cbn [bind]. destruct r as [s|].
    - destruct F2 as [Hd [c [Hc ->]]]. rewrite (records_plain _ _ E) in Hc. apply det_vdet in Hd.
      destruct (loocv_is (K m) xs ys E Hd c Hc) as [r [L1 L2]]. cbn [kind_of k_order k_intercept k_first k_sqrt] in L1. exists r.
      cbn [kind_of k_order k_intercept k_first k_sqrt]. rewrite L1. cbn [bind]. split; [reflexivity|exact L2].
    - exists None. split; [reflexivity|]. intros S. apply F2. now apply scorable_det.
  Qed.

  Lemma search_is (l : list model) : (forall m, In m l -> (0 < nc (K m))%nat) -> forall (best : R * option model), exists r,
    search solve inv xs ys ic fo false false best l = Ok r /\
    (r = best /\ none_below (fst best) l \/ exists m v, r = (v, Some m) /\ first_best (fst best) l m v).
  Proof.
    induction l as [|m l IH]; intros P best.
    - exists best. split; [reflexivity|]. left. split; [reflexivity|]. intros ? ? [].
    - destruct (try_is best m (P m (or_introl eq_refl))) as [r [T1 T2]]. cbn [search]. rewrite T1. cbn [bind].
      specialize (IH (fun m' H => P m' (or_intror H))). destruct r as [v|].
      + destruct T2 as [T2 [T3 T4]]. destruct (nltb v (fst best)) eqn:B; cbn [nltb R_ord] in B.
        * apply Rltb_true in B. destruct (IH (v, Some m)) as [r [S1 S2]]. exists r. split; [exact S1|]. right. cbn [fst] in S2. destruct S2 as [[-> S2]|[m' [v' [-> S2]]]].
          -- exists m, v. split; [reflexivity|]. exists [], l. split; [reflexivity|]. split; [exact T2|]. split; [exact T3|]. split; [exact B|]. split; [intros ? ? []|exact S2].
          -- exists m', v'. split; [reflexivity|]. destruct S2 as [l1 [l2 [-> [A1 [A2 [A3 [A4 A5]]]]]]]. exists (m :: l1), l2. split; [reflexivity|]. split; [exact A1|]. split; [exact A2|]. split; [lra|]. split; [|exact A5].
             intros m'' v'' [<-|H] H1 H2; [|now apply (A4 m'')]. rewrite (T4 v'' H2). exact A3.
        * apply Rltb_false in B. destruct (IH best) as [r [S1 S2]]. exists r. split; [exact S1|]. destruct S2 as [[-> S2]|[m' [v' [-> S2]]]].
          -- left. split; [reflexivity|]. intros m' v' [<-|H] H1 H2; [|now apply (S2 m')]. rewrite (T4 v' H2). exact B.
          -- right. exists m', v'. split; [reflexivity|]. destruct S2 as [l1 [l2 [-> [A1 [A2 [A3 [A4 A5]]]]]]]. exists (m :: l1), l2. split; [reflexivity|]. split; [exact A1|]. split; [exact A2|]. split; [exact A3|]. split; [|exact A5].
             intros m'' v'' [<-|H] H1 H2; [|now apply (A4 m'')]. rewrite (T4 v'' H2). lra.
      + destruct (IH best) as [r [S1 S2]]. exists r. split; [exact S1|]. destruct S2 as [[-> S2]|[m' [v' [-> S2]]]].
        * left. split; [reflexivity|]. intros m' v' [<-|H] H1 H2; [contradiction|now apply (S2 m')].
        * right. exists m', v'. split; [reflexivity|]. destruct S2 as [l1 [l2 [-> [A1 [A2 [A3 [A4 A5]]]]]]]. exists (m :: l1), l2. split; [reflexivity|]. split; [exact A1|]. split; [exact A2|]. split; [exact A3|]. split; [|exact A5].
          intros m'' v'' [<-|H] H1 H2; [contradiction|now apply (A4 m'')].
  Qed.
End Search.
