(** Polynomial fits: what the model computes. *)
From Verif Require Import Base Num NumR Model.Regress Model.Polyfit Spec.Polyfit Proofs.Polyfit.
From Coq Require Import Reals Lra.
Local Open Scope R_scope.

(** ** Weights *)
Notation wv := (weight_vals (F:=R) (N:=R_num)).
Notation putR := (put (F:=R)).
Lemma put_map (f : nat -> R) b n i v : (i < n)%nat -> putR (map f (seq b n)) i v = Ok (map (fun j => if (j =? b + i)%nat then v else f j) (seq b n)).
Proof.
  revert b i; induction n as [|n IH]; intros b i H; [lia|]. cbn [seq map put]. destruct i as [|i].
  - rewrite Nat.add_0_r, Nat.eqb_refl. f_equal. f_equal. apply map_ext_in. intros j Hj. apply in_seq in Hj.
    assert (E : (j =? b)%nat = false) by (apply Nat.eqb_neq; lia). now rewrite E.
  - rewrite (IH (S b) i) by lia. cbn [bind]. f_equal. f_equal.
    + assert (E : (b =? b + S i)%nat = false) by (apply Nat.eqb_neq; lia). now rewrite E.
    + apply map_ext. intros j. now rewrite <- Nat.add_succ_comm.
Qed.
Lemma put_short (l : list R) i v : (length l <= i)%nat -> putR l i v = Err IndexError.
Proof. revert i; induction l as [|a l IH]; intros [|i] H; cbn in *; try lia; try reflexivity. rewrite IH by lia. reflexivity. Qed.
Lemma put_length (l l' : list R) i v : putR l i v = Ok l' -> length l' = length l.
Proof.
  revert i l'; induction l as [|a l IH]; intros [|i] l' H; cbn in H; try discriminate; [now injection H as <-|].
  destruct (putR l i v) as [t|] eqn:E; [|discriminate]. injection H as <-. cbn. f_equal. now apply (IH i).
Qed.
Lemma sq_INR n : sq (F:=R) n = INR n ^ 2.
Proof. unfold sq. rewrite nnat_INR. cbn. ring. Qed.
Lemma repeat_map (c : R) n : repeat c n = map (fun _ => c) (seq 0 n).
Proof. generalize 0%nat. induction n as [|n IH]; intros b; cbn; [reflexivity|]. now rewrite <- IH. Qed.
Lemma put_end_map (f : nat -> R) n i v : (0 < i <= n)%nat -> put_end (map f (seq 0 n)) i v = Ok (map (fun j => if (j =? n - i)%nat then v else f j) (seq 0 n)).
Proof.
  intros H. unfold put_end. rewrite map_length, seq_length. assert (E : (n <? i)%nat = false) by (apply Nat.ltb_ge; lia). rewrite E.
  rewrite put_map by lia. reflexivity.
Qed.
Lemma weights_are n wb we : (4 <= n)%nat -> wv n wb we = Ok (map (weight_at n wb we) (seq 0 n)).
Proof.
  intros H. unfold weight_vals. rewrite repeat_map.
  destruct wb.
  - rewrite put_map by lia. cbn [bind]. rewrite put_map by lia. cbn [bind]. rewrite put_map by lia. cbn [bind]. rewrite put_map by lia. cbn [bind].
    destruct we.
    + rewrite put_end_map by lia. cbn [bind]. rewrite put_end_map by lia. cbn [bind]. rewrite put_end_map by lia. cbn [bind]. rewrite put_end_map by lia.
      f_equal. apply map_ext_in. intros j Hj. apply in_seq in Hj. unfold weight_at. cbn [andb]. rewrite !sq_INR. cbn [plus].
      repeat match goal with |- context [(?a =? ?b)%nat] => destruct (Nat.eqb_spec a b) end; try lia;
      repeat match goal with |- context [(?a <=? ?b)%nat] => destruct (Nat.leb_spec a b) end; try lia;
      repeat match goal with |- context [(?a <? ?b)%nat] => destruct (Nat.ltb_spec a b) end; try lia; try reflexivity;
      repeat f_equal; lia.
    + f_equal. apply map_ext_in. intros j Hj. apply in_seq in Hj. unfold weight_at. cbn [andb]. rewrite !sq_INR. cbn [plus].
      repeat match goal with |- context [(?a =? ?b)%nat] => destruct (Nat.eqb_spec a b) end; try lia;
      repeat match goal with |- context [(?a <? ?b)%nat] => destruct (Nat.ltb_spec a b) end; try lia; try reflexivity;
      repeat f_equal; lia.
  - cbn [bind]. destruct we.
    + rewrite put_end_map by lia. cbn [bind]. rewrite put_end_map by lia. cbn [bind]. rewrite put_end_map by lia. cbn [bind]. rewrite put_end_map by lia.
      f_equal. apply map_ext_in. intros j Hj. apply in_seq in Hj. unfold weight_at. cbn [andb]. rewrite !sq_INR.
      repeat match goal with |- context [(?a =? ?b)%nat] => destruct (Nat.eqb_spec a b) end; try lia;
      repeat match goal with |- context [(?a <=? ?b)%nat] => destruct (Nat.leb_spec a b) end; try lia; try reflexivity;
      repeat f_equal; lia.
    + f_equal.
Qed.
Lemma weights_short n wb we : (n < 4)%nat -> (wb || we = true)%bool -> wv n wb we = Err IndexError.
Proof.
  intros H E. destruct n as [|[|[|[|n]]]]; try lia; destruct wb, we; try discriminate; reflexivity.
Qed.
Lemma weight_pos n wb we i : (i < n)%nat -> 0 < weight_at n wb we i.
Proof.
  intros H. unfold weight_at. destruct (we && (n - i <=? 4)%nat) eqn:E1.
  - apply andb_prop in E1. destruct E1 as [_ E1]. apply Nat.leb_le in E1. apply pow_lt, lt_0_INR. lia.
  - destruct (wb && (i <? 4)%nat) eqn:E2; [|lra]. apply andb_prop in E2. destruct E2 as [_ E2]. apply Nat.ltb_lt in E2. apply pow_lt, lt_0_INR. lia.
Qed.

(** ** The records of a fit *)
Lemma records_weighted xs ys wb we : weighted (records xs ys wb we).
Proof.
  intros q Hq. apply in_map_iff in Hq. destruct Hq as [[i [x y]] [<- Hq]]. cbn. apply weight_pos.
  apply in_combine_l in Hq. apply in_seq in Hq. lia.
Qed.
Lemma combine_seq_map {A B} (f : nat -> B) (l : list A) b : combine l (map f (seq b (length l))) = map (fun q => (snd q, f (fst q))) (combine (seq b (length l)) l).
Proof. revert b; induction l as [|a l IH]; intros b; cbn; [reflexivity|]. now rewrite IH. Qed.
Lemma records_px xs ys wb we : length ys = length xs -> map px (records xs ys wb we) = xs.
Proof.
  intros E. unfold records. rewrite map_map. cbn [px]. generalize (weight_at (length xs) wb we). intros _. generalize 0%nat.
  revert ys E; induction xs as [|x xs IH]; intros [|y ys] E b; try discriminate; [reflexivity|]. cbn. f_equal. apply IH. now injection E.
Qed.
Lemma records_plain xs ys : length ys = length xs -> records xs ys false false = plain xs ys.
Proof.
  intros E. unfold records, plain, weight_at. cbn [andb]. generalize 0%nat. revert ys E; induction xs as [|x xs IH]; intros [|y ys] E b; try discriminate; [reflexivity|].
  cbn. f_equal. apply IH. now injection E.
Qed.

Section Model.
  Variables (solve : nat -> mat R -> vec R -> option (vec R)) (inv : nat -> mat R -> option (mat R)) (best0 tol : R).
  Hypothesis Hs : exact_solve solve.
  Hypothesis Hi : exact_inv inv.
  Notation fit1 k xs ys wb we := (fit_single solve xs ys (k_order k) (k_intercept k) (k_first k) (k_sqrt k) wb we).
  Notation rows k xs := (map (xrw (cols k)) xs).

  Lemma gram_w k xs ys wb we i j : length ys = length xs ->
    xtwx_of (F:=R) (rows k xs) (map (weight_at (length xs) wb we) (seq 0 (length xs))) i j = gram k (records xs ys wb we) i j.
  Proof.
    intros E. unfold xtwx_of, gram, records. generalize (weight_at (length xs) wb we). intros f. rewrite nsumf_map. cbn [px pw].
    generalize 0%nat. revert ys E; induction xs as [|x xs IH]; intros [|y ys] E b; try discriminate; [reflexivity|].
    cbn [length seq map combine]. rewrite !nsumf_cons. cbn [fst snd]. f_equal. apply IH. now injection E.
  Qed.
  Lemma rhs_w k xs ys wb we i : length ys = length xs ->
    xtwy_of (F:=R) (rows k xs) (map (weight_at (length xs) wb we) (seq 0 (length xs))) ys i = rhs k (records xs ys wb we) i.
  Proof.
    intros E. unfold xtwy_of, rhs, records. generalize (weight_at (length xs) wb we). intros f. rewrite nsumf_map. cbn [px pw py].
    generalize 0%nat. revert ys E; induction xs as [|x xs IH]; intros [|y ys] E b; try discriminate; [reflexivity|].
    cbn [length seq map combine]. rewrite !nsumf_cons. cbn [fst snd]. f_equal. apply IH. now injection E.
  Qed.
  Lemma gram_1 k xs ys i j : length ys = length xs -> xtx_of (F:=R) (rows k xs) i j = gram k (plain xs ys) i j.
  Proof.
    intros E. unfold xtx_of, gram, plain. rewrite !nsumf_map. cbn [px pw].
    revert ys E; induction xs as [|x xs IH]; intros [|y ys] E; try discriminate; [reflexivity|].
    cbn [combine]. rewrite !nsumf_cons. cbn [fst snd]. f_equal; [cbn; ring|]. apply IH. now injection E.
  Qed.
  Lemma rhs_1 k xs ys i : length ys = length xs -> xty_of (F:=R) (rows k xs) ys i = rhs k (plain xs ys) i.
  Proof.
    intros E. unfold xty_of, rhs, plain. rewrite !nsumf_map. cbn [px pw py].
    revert ys E; induction xs as [|x xs IH]; intros [|y ys] E; try discriminate; [reflexivity|].
    cbn [map combine]. rewrite !nsumf_cons. cbn [fst snd]. f_equal; [cbn; ring|]. apply IH. now injection E.
  Qed.

  Lemma singular_ext (p : nat) (m m' : mat R) : (forall i j, m i j = m' i j) -> singular p m <-> singular p m'.
  Proof.
    intros E. split; intros [d [H1 H2]]; exists d; split; auto; intros i Hi'; rewrite <- (H2 i Hi'); apply sumn_ext; intros j _; now rewrite E.
  Qed.
  Lemma solve_is k D m v : weighted D -> (forall i j, m i j = gram k D i j) -> (forall i, v i = rhs k D i) ->
    match solve (nc k) m v with
    | Some c => vdet k (map px D) /\ ne k D c
    | None => ~ vdet k (map px D)
    end.
  Proof.
    intros W Em Ev. pose proof (Hs (nc k) m v) as H. destruct (solve (nc k) m v) as [c|].
    - destruct H as [H1 H2]. split.
      + rewrite (singular_ext _ _ _ Em) in H1. rewrite (singular_det k D W) in H1.
        destruct (singular_dec (nc k) (gram k D)) as [S|S]; [exfalso; apply H1; now apply (singular_det k D W)|].
        intros d Z i Hi'. apply (nonsingular_zero k D d S); [|exact Hi']. intros j Hj. rewrite gram_val.
        rewrite (nsumf_ext _ (fun _ => n0 (F:=R)) D); [exact (nsumf_zero (F:=R) D)|]. intros q Hq. rewrite (Z (px q)) by now apply in_map. cbn. ring.
      + apply ne_solves. intros i Hi'. rewrite <- Ev, <- (H2 i Hi'). apply sumn_ext. intros j _. rewrite Em. reflexivity.
    - apply (singular_det k D W). now apply (singular_ext _ _ _ Em).
  Qed.

  Lemma fit_single_is k xs ys wb we : length ys = length xs -> (0 < nc k)%nat -> ((wb || we)%bool = true -> (4 <= length xs)%nat) ->
    exists r, fit1 k xs ys wb we = Ok r /\
      match r with
      | Some s => determined k xs /\ exists c, ne k (records xs ys wb we) c /\ s = of_coeffs (nc k) (rows k xs) ys c
      | None => ~ determined k xs
      end.
  Proof.
    intros E P W. unfold fit_single. assert (P0 : (nc k =? 0)%nat = false) by (apply Nat.eqb_neq; lia).
    rewrite E, P0, Nat.eqb_refl. cbn [orb negb].
    destruct ((wb || we)%bool) eqn:B.
    - assert (M : match nc k with 0%nat => 0%nat | S _ => length xs end = length xs) by (destruct (nc k); [lia|reflexivity]). rewrite M.
      rewrite weights_are by now apply W. cbn [bind].
      pose proof (solve_is k (records xs ys wb we) _ _ (records_weighted xs ys wb we) (fun i j => gram_w k xs ys wb we i j E) (fun i => rhs_w k xs ys wb we i E)) as S.
      rewrite (records_px _ _ _ _ E) in S.
      destruct (solve _ _ _) as [c|]; eexists; (split; [reflexivity|]); cbn beta iota; rewrite det_vdet; [|exact S]. destruct S as [S1 S2]. eauto.
    - apply orb_false_elim in B. destruct B as [-> ->]. cbn [bind].
      pose proof (solve_is k (records xs ys false false) (xtx_of (rows k xs)) (xty_of (rows k xs) ys) (records_weighted xs ys false false)) as S.
      rewrite (records_plain _ _ E) in S. specialize (S (fun i j => gram_1 k xs ys i j E) (fun i => rhs_1 k xs ys i E)).
      rewrite <- (records_plain _ _ E), (records_px _ _ _ _ E) in S.
      destruct (solve _ _ _) as [c|]; eexists; (split; [reflexivity|]); cbn beta iota; rewrite det_vdet; [|exact S]. destruct S as [S1 S2]. eauto.
  Qed.

  (** ** Evaluation *)
  Lemma of_coeffs_pred k xs ys c : s_pred (of_coeffs (nc k) (rows k xs) ys c) = map (val k c) xs.
  Proof. unfold of_coeffs. cbn [s_pred]. rewrite map_map. reflexivity. Qed.
  Lemma of_coeffs_rmse k xs ys c : length ys = length xs -> s_rmse (of_coeffs (nc k) (rows k xs) ys c) =
    mean_square (map (fun q => snd q - value k (fo k c) (fst q)) (combine xs ys)).
  Proof.
    intros E. unfold of_coeffs, mean_square. cbn [s_rmse nsqrt R_ord ndiv R_num]. rewrite nnat_INR, map_length, combine_length, E, Nat.min_id.
    f_equal. f_equal. rewrite nsumf_map, map_map. clear - E.
    revert ys E; induction xs as [|x xs IH]; intros [|y ys] E; try discriminate; [reflexivity|].
    cbn [map combine]. rewrite !nsumf_cons. cbn [fst snd]. f_equal; [|apply IH; now injection E]. rewrite val_fo. unfold val. cbn. ring.
  Qed.

  Lemma split3 a b c (l : list R) : length l = (a + b + c)%nat -> exists l1 l2 l3, l = l1 ++ l2 ++ l3 /\ length l1 = a /\ length l2 = b /\ length l3 = c.
  Proof.
    intros E. exists (firstn a l), (firstn b (skipn a l)), (skipn b (skipn a l)). rewrite !firstn_skipn.
    repeat split; rewrite ?firstn_length, ?skipn_length; lia.
  Qed.
  Lemma pv_zero_one l x b c : pv (l ++ (if b : bool then [] else [0]) ++ [c]) x = x ^ S (if b then 0 else 1) * pv l x + c.
  Proof. rewrite app_assoc, pv_app. destruct b; [rewrite app_nil_r; cbn; ring|]. rewrite pv_app. cbn. ring. Qed.
  Lemma eval_adjust k c e x : eval (F:=R) (mk_polyfit (adjust_coeffs (map c (seq 0 (nc k))) (k_intercept k) (k_first k)) e (k_order k) (k_sqrt k)) x = val k c x.
  Proof.
    unfold val. rewrite dot_list. fold (colval k (map c (seq 0 (nc k))) x).
    assert (L : length (map c (seq 0 (nc k))) = nc k) by now rewrite map_length, seq_length.
    revert L. generalize (map c (seq 0 (nc k))). intros l L. rewrite nc_eq in L.
    set (b := if k_sqrt k then 1%nat else 0%nat) in *. set (n := (k_order k - re k)%nat) in *.
    destruct (split3 b n (if k_intercept k then 1 else 0)%nat l L) as [a [m [i [-> [La [Lm Li]]]]]].
    rewrite (colval_split k a m i x La Lm Li). clear L. unfold eval, poly_part, adjust_coeffs. cbn [pf_sqrt pf_coeffs].
    assert (ADJ : (let '(poly_c, intercept_c) := if k_intercept k then (removelast (a ++ m ++ i), last (a ++ m ++ i) 0) else (a ++ m ++ i, 0) in poly_c ++ (if k_first k then [] else [0]) ++ [intercept_c])
                  = a ++ (m ++ (if k_first k then [] else [0]) ++ [if k_intercept k then nth 0 i 0 else 0])).
    { destruct (k_intercept k).
      - destruct i as [|i0 [|]]; try discriminate. rewrite !app_assoc, removelast_last, last_last. now rewrite <- !app_assoc.
      - destruct i; [|discriminate]. rewrite app_nil_r. now rewrite <- !app_assoc. }
    cbn [n0 R_num] in *. rewrite ADJ. pose proof (pv_zero_one m x (k_first k) (if k_intercept k then nth 0 i 0 else 0)) as PV. fold (re k) in PV.
    destruct (k_sqrt k); subst b.
    - destruct a as [|s [|]]; try discriminate. cbn [app tl hd nth]. rewrite PV. cbn [nadd nmul nsqrt R_num R_ord]. ring.
    - destruct a; [|discriminate]. cbn [app]. rewrite PV. ring.
  Qed.

  (** ** Derivative *)
  Notation dc := (deriv_coeffs (F:=R) (N:=R_num)).
  Lemma dc_cons a b l : dc (a :: b :: l) = a * INR (S (length l)) :: dc (b :: l).
  Proof.
    assert (E : rev (seq 0 (length (a :: b :: l))) = S (length l) :: rev (seq 0 (length (b :: l)))).
    { cbn [length]. rewrite <- (Nat.add_1_r (S (length l))), seq_app, rev_app_distr. reflexivity. }
    unfold deriv_coeffs at 1. rewrite E. set (r := rev (seq 0 (length (b :: l)))).
    change (combine (a :: b :: l) (S (length l) :: r)) with ((a, S (length l)) :: combine (b :: l) r). rewrite map_cons. cbn [fst snd]. rewrite nnat_INR.
    unfold deriv_coeffs. fold r. destruct (map _ (combine (b :: l) r)) eqn:Q; [|reflexivity].
    exfalso. apply map_eq_nil in Q. pose proof (f_equal (@length _) Q) as Q'. unfold r in Q'. rewrite combine_length, rev_length, seq_length in Q'. cbn in Q'. lia.
  Qed.
  Lemma dc_length l : length (dc l) = (length l - 1)%nat.
  Proof.
    induction l as [|a [|b l] IH]; [reflexivity..|]. rewrite dc_cons. cbn [length] in *. rewrite IH. lia.
  Qed.
  Lemma dc_one a : dc [a] = [].
  Proof. reflexivity. Qed.
  Lemma pv_derive l x : derivable_pt_lim (pv l) x (pv (dc l) x).
  Proof.
    induction l as [|a l IH].
    - apply (derivable_pt_lim_ext (fct_cte 0)); [reflexivity|]. apply derivable_pt_lim_const.
    - apply (derivable_pt_lim_ext (fun x => mult_real_fct a (fun y => y ^ length l) x + pv l x)); [intros y; rewrite pv_cons; reflexivity|].
      destruct l as [|b l].
      + replace (pv (dc [a]) x) with (a * (INR 0 * x ^ pred 0) + pv (dc []) x) by (rewrite dc_one; unfold polyval; cbn; ring).
        apply (derivable_pt_lim_plus (mult_real_fct a (fun y => y ^ 0)) (pv [])); [|exact IH]. apply derivable_pt_lim_scal, derivable_pt_lim_pow.
      + rewrite dc_cons, pv_cons, dc_length. cbn [length].
        replace (a * INR (S (length l)) * x ^ (S (length l) - 1)) with (a * (INR (S (length l)) * x ^ pred (S (length l)))) by (cbn [pred]; replace (S (length l) - 1)%nat with (length l) by lia; ring).
        apply (derivable_pt_lim_plus (mult_real_fct a (fun y => y ^ S (length l))) (pv (b :: l))); [|exact IH]. apply derivable_pt_lim_scal, derivable_pt_lim_pow.
  Qed.
End Model.
