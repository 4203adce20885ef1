(** C72: polynomial fits are least squares fits, their order has the least leave-one-out error, and their derivative is the derivative. *)
From Verif Require Import Base Num NumR Model.Polyfit Spec.Polyfit Proofs.Gauss Proofs.Polyfit Proofs.PolyfitModel Proofs.PolyfitSearch.
From Coq Require Import QArith Qcanon Reals Lra.
Local Open Scope R_scope.

Lemma few_det k xs : (length xs < nc k)%nat -> ~ determined k xs.
Proof.
  intros L H. apply det_vdet in H. set (m := fun i j : nat => match nth_error xs i with Some x => xrw (cols k) x j | None => 0 end).
  destruct (singular_dec (nc k) m) as [[d [[i [Hi Hd]] Z]]|NS].
  - apply Hd. apply H; [|exact Hi]. intros x Hx. apply In_nth_error in Hx. destruct Hx as [q Hq].
    assert (Lq : (q < length xs)%nat) by (apply nth_error_Some; congruence). specialize (Z q ltac:(lia)).
    unfold m in Z. rewrite Hq in Z. exact Z.
  - pose proof (Rinverse_exact (nc k) m) as R1. destruct (Rinverse (nc k) m) as [b|]; [|contradiction].
    destruct R1 as [_ R1]. specialize (R1 (length xs) (length xs) L L). rewrite Nat.eqb_refl in R1.
    assert (Q : nth_error xs (length xs) = None) by (apply nth_error_None; lia). unfold m in R1. rewrite Q in R1.
    rewrite sumn_zero in R1; [cbn in R1; lra|]. intros i _. cbn. ring.
Qed.

Section C72.
  Variables (solve : nat -> mat R -> vec R -> option (vec R)) (inv : nat -> mat R -> option (mat R)) (best0 tol : R).
  Notation fit := (fit solve inv best0).
  Notation evalR := (eval (F:=R) (N:=R_num) (NO:=R_ord)).
  Notation derivR := (eval_derivative (F:=R) (N:=R_num) (NO:=R_ord) tol).

  (** The fitted function: a least squares function of the kind, with its root mean square deviation. *)
  Definition fitted_by (k : kind) (xs ys : list R) (wb we : bool) (pf : polyfit (F:=R)) : Prop :=
    exists f, least_squares k (records xs ys wb we) f /\ (forall x, evalR pf x = value k f x) /\
      pf_error pf = mean_square (map (fun q => snd q - value k f (fst q)) (combine xs ys)) /\
      pf_order pf = k_order k /\ pf_sqrt pf = k_sqrt k.

  Lemma nontrivial_columns k : nontrivial k -> (0 < nc k)%nat.
  Proof. intros H. rewrite nc_eq. unfold nontrivial, re in *. destruct (k_sqrt k), (k_intercept k), (k_first k); destruct H as [H|[H|H]]; try discriminate; lia. Qed.
  Lemma orders_eq n : seq 2 (n + 1 - 2) = seq 2 (n - 1).
  Proof. f_equal. lia. Qed.

  (** The last step of a fit *)
  Lemma last_step k xs ys wb we : exact_solve solve -> length ys = length xs -> nontrivial k -> ((wb || we)%bool = true -> (4 <= length xs)%nat) ->
    let r := (do r <- fit_single solve xs ys (k_order k) (k_intercept k) (k_first k) (k_sqrt k) wb we;
              match r with
              | None => Err TypeError
              | Some f => Ok (mk_polyfit (adjust_coeffs (s_coeffs f) (k_intercept k) (k_first k)) (s_rmse f) (k_order k) (k_sqrt k))
              end) in
    (determined k xs -> exists pf, r = Ok pf /\ fitted_by k xs ys wb we pf) /\ (~ determined k xs -> r = Err TypeError).
  Proof.
    intros Hs E Hn Hw. destruct (fit_single_is solve Hs k xs ys wb we E (nontrivial_columns _ Hn) Hw) as [r [F1 F2]].
    rewrite F1. cbn [bind]. destruct r as [f|].
    - destruct F2 as [F2 [c [F3 ->]]]. split; [|contradiction]. intros _. eexists. split; [reflexivity|]. exists (fo k c). split; [|split; [|split; [|now split]]].
      + apply ne_least; [apply records_weighted|exact F3].
      + intros x. rewrite val_fo. apply eval_adjust.
      + cbn [pf_error]. now apply of_coeffs_rmse.
    - split; [contradiction|reflexivity].
  Qed.

  (** A fit of one kind. *)
  Theorem C72_fit xs ys order max_order intercept first_order add_sqrt wb we m :
    let k := kind_of intercept first_order m in
    exact_solve solve -> length ys = length xs -> choices order max_order add_sqrt = [m] -> nontrivial k ->
    ((wb || we)%bool = true -> (4 <= length xs)%nat) ->
    (determined k xs -> exists pf, fit xs ys order max_order intercept first_order add_sqrt wb we = Ok pf /\ fitted_by k xs ys wb we pf) /\
    (~ determined k xs -> fit xs ys order max_order intercept first_order add_sqrt wb we = Err TypeError).
  Proof.
    intros k Hs E Hm Hn Hw. subst k. destruct m as [s o]. pose proof (last_step _ xs ys wb we Hs E Hn Hw) as L.
    unfold kind_of in *. cbn [k_order k_intercept k_first k_sqrt fst snd] in *.
    unfold Polyfit.fit, choices in *. rewrite orders_eq. destruct add_sqrt as [s'|], order as [o'|]; cbn [list_prod map app] in Hm.
    - injection Hm as -> ->. cbn [bind]. exact L.
    - destruct (seq 2 (max_order - 1)) as [|o1 [|o2 t]]; cbn in Hm; try discriminate. injection Hm as -> ->. cbn [bind]. exact L.
    - discriminate.
    - destruct (seq 2 (max_order - 1)) as [|o1 [|o2 t]]; cbn in Hm; discriminate.
  Qed.

  (** A search over several kinds without weights: the kind with the least leave-one-out error, the first of equal ones;
      kinds that the records without one do not determine are passed over. *)
  Theorem C72_search xs ys order max_order intercept first_order add_sqrt :
    exact_solve solve -> exact_inv inv -> length ys = length xs -> xs <> [] ->
    length (choices order max_order add_sqrt) <> 1%nat ->
    (forall m, In m (choices order max_order add_sqrt) -> nontrivial (kind_of intercept first_order m)) ->
    fit xs ys order max_order intercept first_order add_sqrt false false = Err TypeError /\
      none_below xs ys intercept first_order best0 (choices order max_order add_sqrt) \/
    exists pf m v, fit xs ys order max_order intercept first_order add_sqrt false false = Ok pf /\
      first_best xs ys intercept first_order best0 (choices order max_order add_sqrt) m v /\
      fitted_by (kind_of intercept first_order m) xs ys false false pf.
  Proof.
    intros Hs Hi E NE Hl Hn.
    destruct (search_is solve inv best0 Hs Hi xs ys intercept first_order E NE (choices order max_order add_sqrt) (fun m H => nontrivial_columns _ (Hn m H)) (best0, None)) as [r [S1 S2]].
    assert (G : fit xs ys order max_order intercept first_order add_sqrt false false =
      match snd r with
      | None => Err TypeError
      | Some (s, o) => do r <- fit_single solve xs ys o intercept first_order s false false;
          match r with None => Err TypeError | Some f => Ok (mk_polyfit (adjust_coeffs (s_coeffs f) intercept first_order) (s_rmse f) o s) end
      end).
    { unfold Polyfit.fit. rewrite orders_eq. unfold choices in *. destruct add_sqrt as [s'|], order as [o'|].
      - exfalso. now apply Hl.
      - destruct (seq 2 (max_order - 1)) as [|o1 [|o2 t]]; [| |].
        + cbn [bind]. rewrite S1. reflexivity.
        + exfalso. now apply Hl.
        + rewrite S1. reflexivity.
      - rewrite S1. reflexivity.
      - destruct (seq 2 (max_order - 1)) as [|o1 [|o2 t]]; rewrite S1; reflexivity. }
    rewrite G. destruct S2 as [[-> S2]|[m [v [-> S2]]]].
    - left. split; [reflexivity|exact S2].
    - right. cbn [snd]. destruct m as [s o]. pose proof S2 as [l1 [l2 [L1 [L2 _]]]].
      assert (Hk : nontrivial (kind_of intercept first_order (s, o))) by (apply Hn; rewrite L1, in_app_iff; right; now left).
      pose proof (proj1 (last_step _ xs ys false false Hs E Hk ltac:(discriminate)) (scorable_det xs ys E NE _ L2)) as [pf [P1 P2]].
      unfold kind_of in P1. cbn [k_order k_intercept k_first k_sqrt fst snd] in P1. exists pf, (s, o), v. split; [exact P1|]. split; assumption.
  Qed.

  (** Refused data: too few records for weights; another number of values than of abscissae. *)
  Theorem C72_refused xs ys o max_order intercept first_order s wb we :
    ((length xs < 4)%nat -> (wb || we)%bool = true -> fit xs ys (Some o) max_order intercept first_order (Some s) wb we = Err IndexError) /\
    (((wb || we)%bool = true -> (4 <= length xs)%nat) -> nontrivial (mk_kind o intercept first_order s) -> length ys <> length xs ->
     fit xs ys (Some o) max_order intercept first_order (Some s) wb we = Err TypeError).
  Proof.
    split.
    - intros H W. unfold Polyfit.fit, fit_single. cbn [bind]. rewrite W.
      rewrite weights_short; [reflexivity| |exact W]. destruct (length (columns o intercept first_order s)); lia.
    - intros H Hn L. apply nontrivial_columns in Hn. cbn [k_order k_intercept k_first k_sqrt] in Hn. unfold Polyfit.fit, fit_single. cbn [bind].
      apply Nat.eqb_neq in L. rewrite L. cbn [negb]. rewrite orb_true_r. destruct ((wb || we)%bool) eqn:W; [|reflexivity].
      destruct (length (columns o intercept first_order s)) eqn:Q; [lia|]. rewrite weights_are by now apply H. reflexivity.
  Qed.

  (** Three records or fewer: a search over the orders finds nothing. *)
  Theorem C72_few xs ys max_order : exact_solve solve -> exact_inv inv -> length ys = length xs -> (1 <= length xs <= 3)%nat -> (3 <= max_order)%nat ->
    fit xs ys None max_order true true (Some false) false false = Err TypeError.
  Proof.
    intros Hs Hi E L Hm.
    assert (NE : xs <> []) by (intros ->; cbn in L; lia).
    assert (NS : forall m, In m (choices None max_order (Some false)) -> ~ scorable (kind_of true true m) xs).
    { intros [s o] H S. unfold choices in H. cbn [list_prod] in H. rewrite app_nil_r in H. apply in_map_iff in H. destruct H as [o' [H1 H2]]. injection H1 as <- <-. apply in_seq in H2.
      specialize (S 0%nat ltac:(lia)). apply few_det in S; [exact S|]. rewrite nc_eq. unfold kind_of, re, without. cbn [k_order k_intercept k_first k_sqrt fst snd].
      rewrite app_length, firstn_length, skipn_length. cbn. lia. }
    destruct (C72_search xs ys None max_order true true (Some false) Hs Hi E NE) as [[H _]|[pf [m [v [_ [[l1 [l2 [H1 [H2 _]]]] _]]]]]].
    - unfold choices. cbn [list_prod]. rewrite app_nil_r, map_length, seq_length. lia.
    - intros m _. right. left. reflexivity.
    - exact H.
    - exfalso. apply (NS m); [rewrite H1, in_app_iff; right; now left|exact H2].
  Qed.

  (** The derivative. *)
  Theorem C72_derivative (pf : polyfit (F:=R)) x : pf_sqrt pf = false \/ 0 < x /\ tol <= x ->
    derivable_pt_lim (evalR pf) x (derivR pf x).
  Proof.
    intros H. unfold eval, eval_derivative. destruct (pf_sqrt pf); [|apply pv_derive].
    destruct H as [H|[H1 H2]]; [discriminate|]. assert (Q : nltb (nabs x) tol = false).
    { cbn [nltb nabs R_ord]. apply Rltb_false. rewrite Rabs_pos_eq; lra. }
    rewrite Q. set (c0 := hd n0 (pf_coeffs pf)).
    apply (derivable_pt_lim_ext (fun y => pv (poly_part pf) y + mult_real_fct c0 sqrt y)); [reflexivity|].
    replace (nadd (pv (deriv_coeffs (poly_part pf)) x) _) with (pv (deriv_coeffs (poly_part pf)) x + c0 * / (2 * sqrt x)).
    2:{ cbn [nadd nmul ndiv nnat nsqrt n0 n1 R_num R_ord]. assert (sqrt x <> 0) by (apply Rgt_not_eq, sqrt_lt_R0; exact H1). field. assumption. }
    apply (derivable_pt_lim_plus (pv (poly_part pf)) (mult_real_fct c0 sqrt)); [apply pv_derive|].
    apply derivable_pt_lim_scal. now apply derivable_pt_lim_sqrt.
  Qed.
  (** Near zero the reported number is not the derivative, if there is a square root. *)
  Theorem C72_derivative_refuted (pf : polyfit (F:=R)) x : pf_sqrt pf = true -> hd 0 (pf_coeffs pf) <> 0 -> 0 < x < tol -> tol <= 1 ->
    ~ derivable_pt_lim (evalR pf) x (derivR pf x).
  Proof.
    intros S C H T D. assert (D' : derivable_pt_lim (evalR pf) x (pv (deriv_coeffs (poly_part pf)) x + hd 0 (pf_coeffs pf) * / (2 * sqrt x))).
    { unfold eval. rewrite S. apply (derivable_pt_lim_ext (fun y => pv (poly_part pf) y + mult_real_fct (hd 0 (pf_coeffs pf)) sqrt y)); [reflexivity|].
      apply (derivable_pt_lim_plus (pv (poly_part pf)) (mult_real_fct (hd 0 (pf_coeffs pf)) sqrt)); [apply pv_derive|].
      apply derivable_pt_lim_scal, derivable_pt_lim_sqrt. lra. }
    pose proof (uniqueness_limite _ _ _ _ D D') as U. unfold eval_derivative in U. rewrite S in U.
    assert (Q : nltb (nabs x) tol = true).
    { cbn [nltb nabs R_ord]. apply Rltb_true. rewrite Rabs_pos_eq; lra. }
    rewrite Q in U. cbn [nadd nmul ndiv nnat nsqrt n0 n1 R_num R_ord] in U. rewrite sqrt_1 in U.
    assert (P : 0 < sqrt x) by (apply sqrt_lt_R0; lra).
    assert (L : sqrt x < 1) by (rewrite <- sqrt_1; apply sqrt_lt_1; lra).
    assert (V : hd 0 (pf_coeffs pf) * (sqrt x - 1) = 0).
    { assert (U' : hd 0 (pf_coeffs pf) / 2 = hd 0 (pf_coeffs pf) / (2 * sqrt x)).
      { replace (hd 0 (pf_coeffs pf) / 2) with (1 / (1 + (1 + 0)) * hd 0 (pf_coeffs pf) * (1 / 1)) by (field; lra). unfold Rdiv in U |- *. lra. }
      apply (f_equal (fun u => u * (2 * sqrt x))) in U'. replace (hd 0 (pf_coeffs pf) / 2 * (2 * sqrt x)) with (hd 0 (pf_coeffs pf) * sqrt x) in U' by field.
      replace (hd 0 (pf_coeffs pf) / (2 * sqrt x) * (2 * sqrt x)) with (hd 0 (pf_coeffs pf)) in U' by (field; lra). lra. }
    apply Rmult_integral in V. destruct V as [V|V]; lra.
  Qed.

  (** The point where two fits cross: the root finder is given the difference of the two fitted polynomials. *)
  Lemma search_in xs ys ic f1 wb we l best r : search solve inv xs ys ic f1 wb we best l = Ok r -> snd r = snd best \/ exists m, snd r = Some m /\ In m l.
  Proof.
    revert best; induction l as [|m l IH]; intros best H; cbn [search] in H; [injection H as <-; now left|].
    destruct (try_model _ _ _ _ _ _ _ _ _ _) as [b'|] eqn:T; [|discriminate]. cbn [bind] in H.
    assert (B : snd b' = snd best \/ snd b' = Some m).
    { unfold try_model in T. destruct (fit_single _ _ _ _ _ _ _ _ _) as [[s|]|]; cbn [bind] in T; try discriminate; [|injection T as <-; now left].
      destruct (loocv _ _ _) as [[v|]|]; cbn [bind] in T; try discriminate; [|injection T as <-; now left].
      destruct (nltb v (fst best)); injection T as <-; [now right|now left]. }
    destruct (IH _ H) as [G|[m' [G1 G2]]].
    - rewrite G. destruct B as [->| ->]; [now left|]. right. exists m. split; [reflexivity|now left].
    - right. exists m'. split; [exact G1|now right].
  Qed.
  Lemma fit_no_sqrt xs ys order max_order ic f1 wb we pf : fit xs ys order max_order ic f1 (Some false) wb we = Ok pf -> pf_sqrt pf = false.
  Proof.
    intros H. unfold Polyfit.fit in H.
    assert (G : forall best, match best with None => Err TypeError | Some (s, o) => do r <- fit_single solve xs ys o ic f1 s wb we;
        match r with None => Err TypeError | Some f => Ok (mk_polyfit (adjust_coeffs (s_coeffs f) ic f1) (s_rmse f) o s) end end = Ok pf ->
        (best = None \/ exists o, best = Some (false, o)) -> pf_sqrt pf = false).
    { intros best Hb [->|[o ->]]; [discriminate|]. destruct (fit_single _ _ _ _ _ _ _ _ _) as [[f|]|]; cbn [bind] in Hb; try discriminate. injection Hb as <-. reflexivity. }
    destruct order as [o|]; [cbn [bind] in H; apply (G (Some (false, o)) H); eauto|].
    assert (SC : forall l b, search solve inv xs ys ic f1 wb we (best0, None) (list_prod [false] l) = Ok b -> snd b = None \/ exists o, snd b = Some (false, o)).
    { intros l b Hb. apply search_in in Hb. destruct Hb as [->|[m [-> Hb]]]; [now left|]. right. cbn [list_prod] in Hb. rewrite app_nil_r in Hb. apply in_map_iff in Hb. destruct Hb as [o [<- _]]. eauto. }
    destruct (seq 2 (max_order + 1 - 2)) as [|o1 [|o2 t]].
    - destruct (search _ _ _ _ _ _ _ _ _ _) as [b|] eqn:SE; [|discriminate]. cbn [bind] in H. apply (G (snd b) H). now apply (SC []).
    - cbn [bind] in H. apply (G (Some (false, o1)) H). eauto.
    - destruct (search _ _ _ _ _ _ _ _ _ _) as [b|] eqn:SE; [|discriminate]. cbn [bind] in H. apply (G (snd b) H). now apply (SC (o1 :: o2 :: t)).
  Qed.
  Lemma pad_value n l x : pv (pad n l) x = pv l x.
  Proof. unfold pad. induction n as [|n IH]; [reflexivity|]. cbn [repeat app]. rewrite pv_cons, IH. cbn. ring. Qed.
  Lemma diff_value l1 l2 x : length l1 = length l2 -> pv (map (fun q => nsub (fst q) (snd q)) (combine l1 l2)) x = pv l1 x - pv l2 x.
  Proof.
    revert l2; induction l1 as [|a l1 IH]; intros [|b l2] L; try discriminate; [unfold polyval; cbn; ring|]. injection L as L. cbn [combine map fst snd].
    rewrite !pv_cons, (IH l2 L), map_length, combine_length, <- L, Nat.min_id. cbn [nsub R_num]. ring.
  Qed.
  Theorem C72_crossing fsolve f1 f2 f0 order max_order t :
    fit_solve_poly solve inv best0 fsolve f1 f2 f0 order max_order = Ok t ->
    exists p1 p2 g, fit (map fst f1) (map snd f1) order max_order true true (Some false) false false = Ok p1 /\
      fit (map fst f2) (map snd f2) order max_order true true (Some false) false false = Ok p2 /\
      (forall x, g x = evalR p1 x - evalR p2 x) /\ t = fsolve g f0.
  Proof.
    intros H. unfold fit_solve_poly, fit_poly in H.
    destruct (fit (map fst f1) _ _ _ _ _ _ _ _) as [p1|] eqn:F1; [|discriminate]. cbn [bind] in H.
    destruct (fit (map fst f2) _ _ _ _ _ _ _ _) as [p2|] eqn:F2; [|discriminate]. cbn [bind] in H.
    exists p1, p2, (pv (map (fun q => nsub (fst q) (snd q)) (combine (pad (length (pf_coeffs p2) - length (pf_coeffs p1)) (pf_coeffs p1)) (pad (length (pf_coeffs p1) - length (pf_coeffs p2)) (pf_coeffs p2))))).
    split; [reflexivity|]. split; [reflexivity|]. split; [|congruence].
    intros x. rewrite diff_value by (unfold pad; rewrite !app_length, !repeat_length; lia). rewrite !pad_value.
    unfold eval, poly_part. now rewrite (fit_no_sqrt _ _ _ _ _ _ _ _ _ F1), (fit_no_sqrt _ _ _ _ _ _ _ _ _ F2).
  Qed.
  (** A root of the difference, if the root finder gives one, is where the fits cross. *)
  Corollary C72_crossing_root fsolve f1 f2 f0 order max_order t : (forall g, (exists x, g x = 0) -> g (fsolve g f0) = 0) ->
    fit_solve_poly solve inv best0 fsolve f1 f2 f0 order max_order = Ok t ->
    exists p1 p2, fit (map fst f1) (map snd f1) order max_order true true (Some false) false false = Ok p1 /\
      fit (map fst f2) (map snd f2) order max_order true true (Some false) false false = Ok p2 /\
      ((exists x, evalR p1 x = evalR p2 x) -> evalR p1 t = evalR p2 t).
  Proof.
    intros HF H. apply C72_crossing in H. destruct H as [p1 [p2 [g [H1 [H2 [H3 ->]]]]]]. exists p1, p2. split; [exact H1|]. split; [exact H2|].
    intros [x Hx]. assert (R0 : g (fsolve g f0) = 0) by (apply HF; exists x; rewrite H3; lra). rewrite H3 in R0. lra.
  Qed.
End C72.

Print Assumptions C72_fit.
Print Assumptions C72_search.
Print Assumptions C72_refused.
Print Assumptions C72_few.
Print Assumptions C72_derivative.
Print Assumptions C72_derivative_refuted.
Print Assumptions C72_crossing.
Print Assumptions C72_crossing_root.

(** ** Weighted searches

    With weights the scores divide by the leverages of the fit without weights.  Exact rational
    arithmetic, six records, weights 25, 16, 9, 4, 1, 1: the search takes order 3, although leaving one record out of
    the weighted fit gives a mean square deviation of 1.9 for order 2 and 3.98 for order 3.
    Scores are compared by their squares ([nsqrt] is the identity), which gives the same order. *)
Section Weights.
  Definition qz : Qc -> bool := fun x => Qc_eq_bool x 0%Qc.
  Local Instance Qc_squares : NumOrd Qc := {| nltb := nltb (NumOrd := Qc_ord); nabs := nabs (NumOrd := Qc_ord); nsqrt := fun x => x |}.
  Definition qs : list Z -> list Qc := map (fun z => Q2Qc (inject_Z z)).
  Definition wxs : list Qc := qs [0; 1; 2; 3; 4; 5]%Z.
  Definition wys : list Qc := qs [0; 1; 3; 2; 3; 0]%Z.
  Definition wws : list Qc := qs [25; 16; 9; 4; 1; 1]%Z.
  Definition ten10 : Qc := Q2Qc (inject_Z 10000000000%Z).
  (** The deviation of the record left out of a weighted fit, and the mean of their squares *)
  Definition left_out {A} (i : nat) (l : list A) : list A := firstn i l ++ skipn (S i) l.
  Definition deviation_out (order i : nat) : Qc :=
    let cols := columns order true true false in
    let x := map (x_row (F:=Qc) cols) (left_out i wxs) in
    match gauss qz (length cols) (xtwx_of x (left_out i wws)) (xtwy_of x (left_out i wws) (left_out i wys)) with
    | Some c => (dot (length cols) (x_row cols (nth i wxs 0%Qc)) c - nth i wys 0%Qc)%Qc
    | None => 0%Qc
    end.
  Definition true_score (order : nat) : Qc :=
    (nsumf (fun i => deviation_out order i * deviation_out order i) (seq 0 6) / Q2Qc (inject_Z 6%Z))%Qc.
  Theorem C72_weights_refuted :
    (exists pf, Polyfit.fit (gauss qz) (gauss_inv qz) ten10 wxs wys None 3 true true (Some false) true false = Ok pf /\ pf_order pf = 3%nat) /\
    (true_score 2 < Q2Qc (2 # 1) /\ Q2Qc (39 # 10) < true_score 3)%Qc.
  Proof.
    split; [|split; vm_compute; reflexivity].
    destruct (Polyfit.fit (gauss qz) (gauss_inv qz) ten10 wxs wys None 3 true true (Some false) true false) as [pf|] eqn:E.
    - exists pf. split; [reflexivity|]. apply (f_equal (fun r => match r with Ok p => pf_order p | Err _ => 0%nat end)) in E. cbv beta iota in E. rewrite <- E. vm_compute. reflexivity.
    - exfalso. apply (f_equal (fun r => match r with Ok p => true | Err _ => false end)) in E. cbv beta iota in E. revert E. vm_compute. discriminate.
  Qed.
End Weights.
Print Assumptions C72_weights_refuted.

(** ** Examples *)
Lemma parabola f x : c_sqrt f = 0 -> value (mk_kind 2 true true false) f x = c_pow f 0%nat + c_pow f 1%nat * x + c_pow f 2%nat * (x * x).
Proof. intros H. unfold value. cbn [k_order]. rewrite H. cbn. ring. Qed.
Lemma parabola_determined a b c : a <> b -> a <> c -> b <> c -> determined (mk_kind 2 true true false) [a; b; c].
Proof.
  intros H1 H2 H3 f [B _] Z. specialize (B eq_refl). split; [exact B|].
  pose proof (Z a ltac:(cbn; tauto)) as Za. pose proof (Z b ltac:(cbn; tauto)) as Zb. pose proof (Z c ltac:(cbn; tauto)) as Zc. rewrite parabola in Za, Zb, Zc by exact B.
  set (u := c_pow f 0%nat) in *. set (v := c_pow f 1%nat) in *. set (w := c_pow f 2%nat) in *.
  assert (E1 : (a - b) * (v + w * (a + b)) = 0) by (transitivity ((u + v * a + w * (a * a)) - (u + v * b + w * (b * b))); [ring|lra]).
  assert (E2 : (a - c) * (v + w * (a + c)) = 0) by (transitivity ((u + v * a + w * (a * a)) - (u + v * c + w * (c * c))); [ring|lra]).
  apply Rmult_integral in E1, E2. destruct E1 as [E1|E1]; [lra|]. destruct E2 as [E2|E2]; [lra|].
  assert (E3 : (b - c) * w = 0) by lra. apply Rmult_integral in E3. destruct E3 as [E3|E3]; [lra|].
  assert (Ev : v = 0) by (rewrite E3 in E1; lra). assert (Eu : u = 0) by (rewrite E3, Ev in Za; lra).
  intros [|[|[|i]]] Hi; [exact Eu|exact Ev|exact E3|cbn in Hi; lia].
Qed.
(** A fit of order 2 with weights: all the hypotheses of [C72_fit] are met. *)
Example C72_fit_example : exists pf, Polyfit.fit Rsolve Rinverse 10 [0; 1; 2; 3] [0; 1; 4; 8] (Some 2%nat) 4 true true (Some false) true false = Ok pf /\
  fitted_by (mk_kind 2 true true false) [0; 1; 2; 3] [0; 1; 4; 8] true false pf.
Proof.
  apply (C72_fit Rsolve Rinverse 10 [0; 1; 2; 3] [0; 1; 4; 8] (Some 2%nat) 4 true true (Some false) true false (false, 2%nat) Rsolve_exact eq_refl eq_refl).
  - right. left. reflexivity.
  - cbn. lia.
  - intros f Hf Z. apply (parabola_determined 0 1 2); try lra; [exact Hf|]. intros x Hx. apply Z. cbn in *. tauto.
Qed.
(** Values of x^2 at four places: order 2 is found (order 3 has no score). *)
Example C72_search_example : exists pf, Polyfit.fit Rsolve Rinverse 10 [0; 1; 2; 3] [0; 1; 4; 9] None 3 true true (Some false) false false = Ok pf /\ pf_order pf = 2%nat /\
  forall x, eval (F:=R) (N:=R_num) (NO:=R_ord) pf x = x * x.
Proof.
  assert (Sc : scorable (mk_kind 2 true true false) [0; 1; 2; 3]).
  { intros [|[|[|[|i]]]] Hi; [| | | |cbn in Hi; lia]; cbn [without firstn skipn app]; apply parabola_determined; lra. }
  set (sqf := mk_func 0 (fun i => if (i =? 2)%nat then 1 else 0)).
  assert (V : forall x, value (mk_kind 2 true true false) sqf x = x * x) by (intros x; rewrite parabola by reflexivity; cbn; ring).
  assert (SR : score (mk_kind 2 true true false) [0; 1; 2; 3] [0; 1; 4; 9] 0).
  { exists [0; 0; 0; 0]. split; [reflexivity|]. split.
    - unfold mean_square. replace (_ / _) with 0; [now rewrite sqrt_0|]. cbn [nsumf fold_right]. unfold nsumf. cbn. field.
    - intros i x y e Hx Hy He. exists sqf. split.
      + split; [split; [reflexivity|split; discriminate]|]. intros g _. 
        assert (Z : squares (mk_kind 2 true true false) (plain (without i [0; 1; 2; 3]) (without i [0; 1; 4; 9])) sqf = 0).
        { unfold squares. rewrite (nsumf_ext _ (fun _ => 0)); [exact (nsumf_zero (F:=R) _)|]. intros q Hq. unfold plain in Hq. apply in_map_iff in Hq. destruct Hq as [[u v] [<- Hq]]. cbn [pw py px fst snd].
          assert (Hq' : In (u, v) (combine [0; 1; 2; 3] [0; 1; 4; 9])).
          { destruct i as [|[|[|[|i]]]]; [| | | |destruct i; discriminate]; cbn in Hq |- *; tauto. }
          rewrite V. cbn in Hq'. destruct Hq' as [Hq'|[Hq'|[Hq'|[Hq'|[]]]]]; injection Hq' as <- <-; ring. }
        rewrite Z. unfold squares. apply nsumf_nonneg. intros q Hq. unfold plain in Hq. apply in_map_iff in Hq. destruct Hq as [[u v] [<- Hq]]. cbn [pw]. rewrite Rmult_1_l. apply pow2_ge_0.
      + rewrite V. destruct i as [|[|[|[|i]]]]; cbn in Hx, Hy, He; try (destruct i; discriminate); injection Hx as <-; injection Hy as <-; injection He as <-; ring. }
  assert (N3 : ~ scorable (mk_kind 3 true true false) [0; 1; 2; 3]).
  { intros S. specialize (S 0%nat ltac:(cbn; lia)). revert S; apply few_det. cbn. lia. }
  destruct (C72_search Rsolve Rinverse 10 [0; 1; 2; 3] [0; 1; 4; 9] None 3 true true (Some false) Rsolve_exact Rinverse_exact eq_refl ltac:(discriminate) ltac:(cbn; lia)) as [[_ H]|[pf [m [v [H1 [H2 H3]]]]]].
  - intros m _. right. left. reflexivity.
  - exfalso. specialize (H (false, 2%nat) 0 ltac:(cbn; tauto) Sc SR). lra.
  - exists pf. split; [exact H1|]. assert (M : m = (false, 2%nat)).
    { destruct H2 as [l1 [l2 [L1 [L2 _]]]]. assert (In m (choices None 3 (Some false))) by (rewrite L1, in_app_iff; right; now left). cbn in H. destruct H as [<-|[<-|[]]]; [reflexivity|]. exfalso. now apply N3. }
    subst m. destruct H3 as [f [F1 [F2 [_ [F4 _]]]]]. split; [exact F4|]. intros x. rewrite F2.
    assert (F0 : squares (mk_kind 2 true true false) (records [0; 1; 2; 3] [0; 1; 4; 9] false false) f <= 0).
    { destruct F1 as [_ F1]. specialize (F1 sqf). unfold kind_of in F1. cbn [fst snd] in F1. eapply Rle_trans; [apply F1; split; [reflexivity|split; discriminate]|].
      unfold squares, records. cbn [combine seq length map nsumf fold_right]. unfold nsumf. cbn [map fold_right fst snd px py pw]. rewrite !V. cbn. lra. }
    change (kind_of true true (false, 2%nat)) with (mk_kind 2 true true false) in *. destruct F1 as [[B _] _]. specialize (B eq_refl). rewrite parabola by exact B.
    unfold squares, records, nsumf in F0. cbn [combine seq length map fold_right fst snd px py pw] in F0. rewrite !parabola in F0 by exact B. cbn [weight_at andb nadd n0 R_num] in F0. unfold nsum in F0. cbn in F0.
    set (a := c_pow f 0%nat) in *. set (b := c_pow f 1%nat) in *. set (c := c_pow f 2%nat) in *.
    assert (Q : forall p q r s : R, 1 * (p * (p * 1)) + (1 * (q * (q * 1)) + (1 * (r * (r * 1)) + (1 * (s * (s * 1)) + 0))) <= 0 -> p = 0 /\ q = 0 /\ r = 0).
    { intros p q r s Hq. pose proof (Rle_0_sqr p) as Q1. pose proof (Rle_0_sqr q) as Q2. pose proof (Rle_0_sqr r) as Q3. pose proof (Rle_0_sqr s) as Q4. unfold Rsqr in *.
      repeat split; apply Rsqr_0_uniq; unfold Rsqr; lra. }
    apply Q in F0. destruct F0 as [E1 [E2 E3]].
    replace (a + b * x + c * (x * x)) with (x * x - (0 - (a + b * 0 + c * (0 * 0))) - x * (2 * (1 - (a + b * 1 + c * (1 * 1))) - (4 - (a + b * 2 + c * (2 * 2))) / 2 - 3 / 2 * (0 - (a + b * 0 + c * (0 * 0)))) - x * x * ((4 - (a + b * 2 + c * (2 * 2))) / 2 - (1 - (a + b * 1 + c * (1 * 1))) + (0 - (a + b * 0 + c * (0 * 0))) / 2)) by field.
    rewrite E1, E2, E3. field.
Qed.
