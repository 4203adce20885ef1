(** C86: energies at a sequence of volumes. *)
From Coq Require Import Reals Lra Sorted.
From Verif Require Import Base Num NumR Model.Structure Model.Readers Proofs.Readers Model.Transition Model.EOS.
Local Open Scope R_scope.

(** The ceiling, independently: the smallest natural number that is not below *)
Definition is_ceil (ceil : R -> nat) : Prop := forall x, x <= INR (ceil x) /\ forall k, x <= INR k -> (ceil x <= k)%nat.
Definition Rceil (x : R) : nat := Z.to_nat (- Int_part (- x)).
Lemma Rceil_is : is_ceil Rceil.
Proof.
  intros x. unfold Rceil. destruct (base_Int_part (- x)) as [B1 B2]. set (z := Int_part (- x)) in *. clearbody z. split.
  - rewrite INR_IZR_INZ. destruct (Z.le_gt_cases 0 (- z)).
    + rewrite Z2Nat.id by assumption. rewrite opp_IZR. lra.
    + apply Rle_trans with 0; [|apply IZR_le; lia]. apply IZR_lt in H. rewrite opp_IZR in H. lra.
  - intros k Hk. rewrite INR_IZR_INZ in Hk. assert (IZR (- z) < IZR (Z.of_nat k) + 1) by (rewrite opp_IZR; lra). rewrite <- plus_IZR in H. apply lt_IZR in H. lia.
Qed.

(** A grid between two numbers: ascending, inside, and every point of the interval follows a point of the grid closely *)
Definition inside (lo hi : R) (l : list R) : Prop := Forall (fun x => lo <= x < hi) l.
Definition covers (lo hi step : R) (l : list R) : Prop := forall y, lo <= y < hi -> exists x, In x l /\ x <= y < x + step.

Section Arange.
  Variable ceil : R -> nat.
  Hypothesis HC : is_ceil ceil.
  Lemma arange_In lo hi step x : 0 < step -> (In x (arange (F:=R) ceil lo hi step) <-> exists k, x = lo + INR k * step /\ x < hi).
  Proof using HC.
    intros Hp. unfold arange. rewrite in_map_iff. cbn [nadd nsub nmul ndiv R_num].
    assert (K : forall k, (k < ceil ((hi - lo) / step))%nat <-> INR k < (hi - lo) / step).
    { intros k. destruct (HC ((hi - lo) / step)) as [C1 C2]. split.
      - intros H. apply Rnot_le_lt. intros Q. specialize (C2 k Q). lia.
      - intros H. apply INR_lt. lra. }
    assert (D : forall k, INR k < (hi - lo) / step <-> lo + INR k * step < hi).
    { intros k. split; intros H.
      - apply (Rmult_lt_compat_r step) in H; [|exact Hp]. unfold Rdiv in H. rewrite Rmult_assoc, Rinv_l in H by lra. lra.
      - apply (Rmult_lt_reg_r step); [exact Hp|]. unfold Rdiv. rewrite Rmult_assoc, Rinv_l by lra. lra. }
    split.
    - intros [k [<- Hk]]. apply in_seq in Hk. exists k. rewrite nnat_INR. split; [reflexivity|]. apply D, K. lia.
    - intros [k [-> Hk]]. exists k. rewrite nnat_INR. split; [reflexivity|]. apply in_seq. apply D, K in Hk. lia.
  Qed.
  Lemma arange_sorted lo hi step : 0 < step -> StronglySorted Rlt (arange (F:=R) ceil lo hi step).
  Proof using.
    clear. intros Hp. unfold arange. generalize (ceil (ndiv (nsub hi lo) step)). intros n. generalize 0%nat. induction n as [|n IH]; intros a; cbn [seq map]; [constructor|]. constructor; [apply IH|].
    apply Forall_forall. intros y Hy. apply in_map_iff in Hy. destruct Hy as [k [<- Hk]]. apply in_seq in Hk. cbn [nadd nmul R_num]. rewrite !nnat_INR.
    assert (INR a < INR k) by (apply lt_INR; lia). assert (INR a * step < INR k * step) by (apply Rmult_lt_compat_r; lra). lra.
  Qed.
  Lemma arange_inside lo hi step : 0 < step -> inside lo hi (arange (F:=R) ceil lo hi step).
  Proof using HC.
    intros Hp. apply Forall_forall. intros x Hx. apply arange_In in Hx; [|exact Hp]. destruct Hx as [k [-> H]]. pose proof (pos_INR k). pose proof (Rmult_le_pos _ _ H0 (Rlt_le _ _ Hp)). lra.
  Qed.
  Lemma arange_covers lo hi step : 0 < step -> covers lo hi step (arange (F:=R) ceil lo hi step).
  Proof using HC.
    intros Hp y [H1 H2]. set (z := Int_part ((y - lo) / step)). destruct (base_Int_part ((y - lo) / step)) as [B1 B2]. fold z in B1, B2.
    assert (Q : 0 <= (y - lo) / step) by (apply Rmult_le_pos; [lra|left; now apply Rinv_0_lt_compat]).
    assert (Z0 : (0 <= z)%Z). { assert (-1 < z)%Z; [|lia]. apply lt_IZR. lra. }
    assert (E : INR (Z.to_nat z) = IZR z) by (rewrite INR_IZR_INZ, Z2Nat.id by exact Z0; reflexivity).
    assert (D : (y - lo) / step * step = y - lo) by (field; lra).
    assert (M1 : IZR z * step <= (y - lo) / step * step) by (apply Rmult_le_compat_r; lra).
    assert (M2 : (y - lo) / step * step < (IZR z + 1) * step) by (apply Rmult_lt_compat_r; lra).
    exists (lo + INR (Z.to_nat z) * step). rewrite E. split; [|lra]. apply arange_In; [exact Hp|]. exists (Z.to_nat z). rewrite E. split; [reflexivity|lra].
  Qed.
  Lemma sorted_app a b m : StronglySorted Rlt a -> StronglySorted Rlt b -> Forall (fun x => x < m) a -> Forall (fun x => m <= x) b -> StronglySorted Rlt (a ++ b).
  Proof using.
    clear. intros Ha Hb Fa Fb. induction Ha as [|x a Ha IH Hx]; [exact Hb|]. inversion Fa as [|? ? F1 F2]; subst. cbn [app]. constructor; [now apply IH|].
    apply Forall_app. split; [exact Hx|]. eapply Forall_impl; [|exact Fb]. cbn. intros y Hy. lra.
  Qed.
  Lemma inside_weak lo hi lo' hi' l : lo' <= lo -> hi <= hi' -> inside lo hi l -> inside lo' hi' l.
  Proof using. clear. intros H1 H2. apply Forall_impl. intros x Hx. lra. Qed.

  (** *** The volumes *)
  Definition fine_grid lo hi step : list R := set_eps (F:=R) ceil lo hi step true.
  Lemma frac_R a b : frac (F:=R) a b = INR a / INR b.
  Proof using. clear. unfold frac. now rewrite !nnat_INR. Qed.
  Lemma set_eps_R lo hi step : fine_grid lo hi step =
    if Rltb lo (9 / 10) && Rltb (11 / 10) hi then arange ceil lo (9 / 10) step ++ arange ceil (9 / 10) (11 / 10) (step / 3) ++ arange ceil (11 / 10) hi step
    else if Rltb lo (9 / 10) && Rltb hi (11 / 10) then arange ceil lo (9 / 10) step ++ arange ceil (9 / 10) hi (step / 3)
    else if Rltb (9 / 10) lo && Rltb (11 / 10) hi then arange ceil lo (11 / 10) (step / 3) ++ arange ceil (11 / 10) hi step
    else arange ceil lo hi (step / 3).
  Proof using.
    clear. unfold fine_grid, set_eps. cbn [negb]. rewrite !frac_R, nnat_INR. cbn [ndiv nltb R_num R_ord].
    replace (INR 9 / INR 10) with (9 / 10) by (cbn; lra). replace (INR 11 / INR 10) with (11 / 10) by (cbn; lra). replace (INR 3) with 3 by (cbn; lra). reflexivity.
  Qed.
  (** If the range meets [0.9, 1.1], the grid is ascending, inside the range, no gap is wider than the step, and inside [0.9, 1.1)
      none wider than a third of it. *)
  Theorem C86_grid lo hi step : 0 < step -> lo < hi -> lo <= 11 / 10 -> 9 / 10 <= hi ->
    let l := fine_grid lo hi step in
    StronglySorted Rlt l /\ inside lo hi l /\ covers lo hi step l /\ covers (Rmax lo (9 / 10)) (Rmin hi (11 / 10)) (step / 3) l.
  Proof using HC.
    intros Hs Hlh Hlo Hhi l. assert (H3 : 0 < step / 3) by lra.
    assert (CW : forall a b s s' l0, s <= s' -> covers a b s l0 -> covers a b s' l0) by (intros a b s s' l0 Hss HH y Hy; destruct (HH y Hy) as (x & X1 & X2); exists x; split; [exact X1|lra]).
    assert (CL : forall a b s l0 l1, covers a b s l0 -> covers a b s (l0 ++ l1)) by (intros a b s l0 l1 HH y Hy; destruct (HH y Hy) as (x & X1 & X2); exists x; split; [apply in_app_iff; now left|exact X2]).
    assert (CR : forall a b s l0 l1, covers a b s l1 -> covers a b s (l0 ++ l1)) by (intros a b s l0 l1 HH y Hy; destruct (HH y Hy) as (x & X1 & X2); exists x; split; [apply in_app_iff; now right|exact X2]).
    assert (CS : forall a b c s l0, covers a b s l0 -> covers b c s l0 -> covers a c s l0) by (intros a b c s l0 A B y Hy; destruct (Rlt_le_dec y b); [apply A|apply B]; lra).
    assert (CI : forall a b a' b' s l0, a <= a' -> b' <= b -> covers a b s l0 -> covers a' b' s l0) by (intros a b a' b' s l0 A B HH y Hy; apply HH; lra).
    assert (CE : forall a b s l0, b <= a -> covers a b s l0) by (intros a b s l0 Hab y Hy; lra).
    assert (FL : forall a b l0, inside a b l0 -> Forall (fun x => x < b) l0) by (intros a b l0; apply Forall_impl; intros x Hx; lra).
    assert (FG : forall a b l0, inside a b l0 -> Forall (fun x => a <= x) l0) by (intros a b l0; apply Forall_impl; intros x Hx; lra).
    unfold l. rewrite set_eps_R.
    pose proof (Rmax_l lo (9/10)). pose proof (Rmax_r lo (9/10)). pose proof (Rmin_l hi (11/10)). pose proof (Rmin_r hi (11/10)).
    destruct (Rltb lo (9 / 10)) eqn:E1; [apply Rltb_true in E1|apply Rltb_false in E1]; (destruct (Rltb (11 / 10) hi) eqn:E2; [apply Rltb_true in E2|apply Rltb_false in E2]); cbn [andb].
    - set (A := arange ceil lo (9 / 10) step). set (B := arange ceil (9 / 10) (11 / 10) (step / 3)). set (C := arange ceil (11 / 10) hi step).
      pose proof (arange_inside lo (9/10) step Hs : inside _ _ A) as IA. pose proof (arange_inside (9/10) (11/10) (step/3) H3 : inside _ _ B) as IB. pose proof (arange_inside (11/10) hi step Hs : inside _ _ C) as IC.
      split; [|split; [|split]].
      + apply sorted_app with (9/10); [now apply arange_sorted| |exact (FL _ _ _ IA)|].
        * apply sorted_app with (11/10); [now apply arange_sorted|now apply arange_sorted|exact (FL _ _ _ IB)|exact (FG _ _ _ IC)].
        * apply Forall_app. split; [exact (FG _ _ _ IB)|]. eapply Forall_impl; [|exact (FG _ _ _ IC)]. cbn. intros; lra.
      + apply Forall_app. split; [apply (inside_weak lo (9/10)); [lra|lra|exact IA]|]. apply Forall_app. split; [apply (inside_weak (9/10) (11/10)); [lra|lra|exact IB]|apply (inside_weak (11/10) hi); [lra|lra|exact IC]].
      + apply CS with (9/10); [apply CL; now apply arange_covers|]. apply CR. apply CS with (11/10); [apply CL; apply CW with (step/3); [lra|now apply arange_covers]|apply CR; now apply arange_covers].
      + apply CR, CL. apply (CI (9/10) (11/10)); [lra|lra|now apply arange_covers].
    - destruct (Rltb hi (11 / 10)) eqn:E3; [apply Rltb_true in E3|apply Rltb_false in E3].
      + set (A := arange ceil lo (9 / 10) step). set (B := arange ceil (9 / 10) hi (step / 3)).
        pose proof (arange_inside lo (9/10) step Hs : inside _ _ A) as IA. pose proof (arange_inside (9/10) hi (step/3) H3 : inside _ _ B) as IB.
        split; [|split; [|split]].
        * apply sorted_app with (9/10); [now apply arange_sorted|now apply arange_sorted|exact (FL _ _ _ IA)|exact (FG _ _ _ IB)].
        * apply Forall_app. split; [apply (inside_weak lo (9/10)); [lra|lra|exact IA]|apply (inside_weak (9/10) hi); [lra|lra|exact IB]].
        * apply CS with (9/10); [apply CL; now apply arange_covers|]. apply CR. apply CW with (step/3); [lra|now apply arange_covers].
        * apply CR. apply (CI (9/10) hi); [lra|lra|now apply arange_covers].
      + replace (Rltb (9/10) lo) with false by (symmetry; apply Rltb_false; lra). cbn [andb]. split; [now apply arange_sorted|]. split; [now apply arange_inside|]. split; [apply CW with (step/3); [lra|now apply arange_covers]|].
        apply (CI lo hi); [lra|lra|now apply arange_covers].
    - destruct (Rltb (9 / 10) lo) eqn:E3; [apply Rltb_true in E3|apply Rltb_false in E3]; cbn [andb].
      + set (A := arange ceil lo (11 / 10) (step/3)). set (B := arange ceil (11 / 10) hi step).
        pose proof (arange_inside lo (11/10) (step/3) H3 : inside _ _ A) as IA. pose proof (arange_inside (11/10) hi step Hs : inside _ _ B) as IB.
        split; [|split; [|split]].
        * apply sorted_app with (11/10); [now apply arange_sorted|now apply arange_sorted|exact (FL _ _ _ IA)|exact (FG _ _ _ IB)].
        * apply Forall_app. split; [apply (inside_weak lo (11/10)); [lra|lra|exact IA]|apply (inside_weak (11/10) hi); [lra|lra|exact IB]].
        * apply CS with (11/10); [apply CL; apply CW with (step/3); [lra|now apply arange_covers]|]. apply CR. now apply arange_covers.
        * apply CL. apply (CI lo (11/10)); [lra|lra|now apply arange_covers].
      + split; [now apply arange_sorted|]. split; [now apply arange_inside|]. split; [apply CW with (step/3); [lra|now apply arange_covers]|].
        apply (CI lo hi); [lra|lra|now apply arange_covers].
    - replace (Rltb (9 / 10) lo && false)%bool with false by (destruct (Rltb (9/10) lo); reflexivity).
      split; [now apply arange_sorted|]. split; [now apply arange_inside|]. split; [apply CW with (step/3); [lra|now apply arange_covers]|].
      apply (CI lo hi); [lra|lra|now apply arange_covers].
  Qed.
  (** Ranges above 1.1 or below 0.9 are not kept. *)
  Theorem C86_above_refuted lo hi step : 0 < step -> 11 / 10 < lo -> lo < hi -> In (11 / 10) (fine_grid lo hi step).
  Proof using HC.
    intros Hs H1 H2. rewrite set_eps_R. replace (Rltb lo (9/10)) with false by (symmetry; apply Rltb_false; lra). cbn [andb].
    replace (Rltb (9/10) lo) with true by (symmetry; apply Rltb_true; lra). replace (Rltb (11/10) hi) with true by (symmetry; apply Rltb_true; lra). cbn [andb].
    apply in_app_iff. right. apply arange_In; [exact Hs|]. exists 0%nat. cbn. split; lra.
  Qed.
  Theorem C86_below_refuted lo hi step : 0 < step -> lo < hi -> hi + step <= 9 / 10 -> exists x, In x (fine_grid lo hi step) /\ hi <= x.
  Proof using HC.
    intros Hs H1 H2. rewrite set_eps_R. replace (Rltb lo (9/10)) with true by (symmetry; apply Rltb_true; lra). replace (Rltb (11/10) hi) with false by (symmetry; apply Rltb_false; lra). cbn [andb].
    replace (Rltb hi (11/10)) with true by (symmetry; apply Rltb_true; lra).
    destruct (arange_covers lo (9/10) step Hs (hi + step - step * (1/2))) as (x & X1 & X2); [lra|].
    destruct (Rle_lt_dec hi x) as [G|G]; [exists x; split; [apply in_app_iff; now left|exact G]|].
    exists (x + step). split; [|lra]. apply in_app_iff. left. apply arange_In in X1; [|exact Hs]. destruct X1 as [k [-> X1]]. apply arange_In; [exact Hs|]. exists (S k). rewrite S_INR. split; [ring|lra].
  Qed.
  (** The coarse grid goes up to 0.01 beyond its end. *)
  Theorem C86_coarse lo hi step : 0 < step -> let l := set_eps (F:=R) ceil lo hi step false in
    StronglySorted Rlt l /\ inside lo (hi + 1 / 100) l /\ covers lo (hi + 1 / 100) step l.
  Proof using HC.
    intros Hs l. unfold l, set_eps. cbn [negb]. rewrite frac_R. cbn [nadd R_num]. replace (INR 1 / INR 100) with (1 / 100) by (rewrite !INR_IZR_INZ; reflexivity).
    split; [now apply arange_sorted|]. split; [now apply arange_inside|now apply arange_covers].
  Qed.
End Arange.

(** *** One change of the volume *)
Definition third : R := 3333333333333 / 10000000000000.
Definition root (eps : R) : R := Rpower eps third.
Definition det (a : nat -> nat -> R) : R :=
  a 0%nat 0%nat * (a 1%nat 1%nat * a 2%nat 2%nat - a 1%nat 2%nat * a 2%nat 1%nat) - a 0%nat 1%nat * (a 1%nat 0%nat * a 2%nat 2%nat - a 1%nat 2%nat * a 2%nat 0%nat)
  + a 0%nat 2%nat * (a 1%nat 0%nat * a 2%nat 1%nat - a 1%nat 1%nat * a 2%nat 0%nat).
Lemma det_root (T : Type) (c c' : cell (F:=R) T) eps : 0 < eps -> isotropic (F:=R) T root c eps = Ok c' -> det (c_axis T c') = det (c_axis T c) * Rpower eps (3 * third).
Proof.
  intros He H. unfold isotropic in H. destruct (c_volume T c); [|discriminate]. match type of H with Ok ?x = _ => assert (x = c') as <- by congruence end. cbn [c_axis].
  replace (3 * third) with (third + third + third) by ring. rewrite !Rpower_plus. fold (root eps). unfold det. cbn [nmul R_num]. ring.
Qed.
(** The volume that is recorded is multiplied by eps exactly; the cell is scaled isotropically and its own volume agrees up to
    2e-13 for eps between 1/e and e. *)
Theorem C86_volume (T : Type) (c c' : cell (F:=R) T) eps v : exp (-1) <= eps <= exp 1 -> c_volume T c = Some v -> v = det (c_axis T c) -> 0 <= v ->
  isotropic (F:=R) T root c eps = Ok c' ->
  c_volume T c' = Some (v * eps) /\ (exists k, 0 < k /\ forall i j, c_axis T c' i j = c_axis T c i j * k) /\ Rabs (det (c_axis T c') - v * eps) <= 2 / 10000000000000 * (v * eps).
Proof.
  intros [H1 H2] HV HD H0 HI. assert (He : 0 < eps) by (pose proof (exp_pos (-1)); lra). pose proof (det_root T c c' eps He HI) as DR.
  unfold isotropic in HI. rewrite HV in HI. match type of HI with Ok ?x = _ => assert (x = c') as <- by congruence end. split; [reflexivity|].
  split; [exists (root eps); split; [apply exp_pos|reflexivity]|]. rewrite DR, <- HD.
  assert (L1 : -1 <= ln eps). { rewrite <- (ln_exp (-1)). destruct H1 as [H1|H1]; [left; apply ln_increasing; [apply exp_pos|exact H1]|right; now rewrite H1]. }
  assert (L2 : ln eps <= 1). { rewrite <- (ln_exp 1). destruct H2 as [H2|H2]; [left; now apply ln_increasing|right; now rewrite H2]. }
  replace (3 * third) with (1 + (- (1 / 10000000000000))) by (unfold third; field). rewrite Rpower_plus, Rpower_1 by exact He.
  set (d := 1 / 10000000000000). assert (Hd : 0 < d < 1 / 2) by (unfold d; lra).
  replace (v * (eps * Rpower eps (- d)) - v * eps) with (v * eps * (Rpower eps (- d) - 1)) by ring.
  rewrite Rabs_mult. assert (VE : 0 <= v * eps) by (apply Rmult_le_pos; lra). rewrite (Rabs_pos_eq (v * eps) VE). rewrite (Rmult_comm (2 / _)). apply Rmult_le_compat_l; [exact VE|].
  unfold Rpower. set (x := - d * ln eps). assert (X : - d <= x <= d) by (unfold x; nra).
  pose proof (exp_ineq1_le x) as E1. pose proof (exp_ineq1_le (- x)) as E2. pose proof (exp_pos x) as E3. rewrite exp_Ropp in E2.
  assert (E4 : exp x * (1 - x) <= 1). { apply (Rmult_le_compat_l (exp x)) in E2; [|lra]. rewrite Rinv_r in E2 by lra. lra. }
  replace (2 / 10000000000000) with (2 * d) by (unfold d; field). apply Rabs_le. split; [lra|].
  assert (exp x <= 2). { destruct (Rle_lt_dec (exp x) 2) as [G|G]; [exact G|]. assert (2 * (1/2) < exp x * (1 - x)) by (apply Rmult_gt_0_lt_compat; lra). lra. }
  assert (exp x - 1 <= exp x * x) by lra. assert (exp x * x <= 2 * d); [|lra].
  destruct (Rle_lt_dec x 0) as [G|G]; [assert (exp x * x <= 0); [|lra]; nra|apply Rmult_le_compat; lra].
Qed.
(** It never agrees exactly. *)
Theorem C86_volume_refuted (T : Type) (c c' : cell (F:=R) T) eps v : 0 < eps -> eps <> 1 -> c_volume T c = Some v -> v = det (c_axis T c) -> 0 < v ->
  isotropic (F:=R) T root c eps = Ok c' -> c_volume T c' <> Some (det (c_axis T c')).
Proof.
  intros He H1 HV HD H0 HI HE. pose proof (det_root T c c' eps He HI) as DR. unfold isotropic in HI. rewrite HV in HI. match type of HI with Ok ?x = _ => assert (x = c') as <- by congruence end.
  cbn [c_volume] in HE. assert (E : v * eps = v * Rpower eps (3 * third)) by (rewrite HD at 2; rewrite <- DR; match type of HE with Some ?a = Some ?b => assert (a = b) as HE' by congruence end; exact HE').
  apply Rmult_eq_reg_l in E; [|lra]. rewrite <- (Rpower_1 eps He) in E at 1. unfold Rpower in E. apply exp_inv in E.
  assert (ln eps = 0) by (unfold third in E; lra). apply H1. rewrite <- (exp_ln eps He), H. apply exp_0.
Qed.

(** *** A run *)
Section Run.
  Variables (T : Type) (ceil : R -> nat) (root : R -> R).
  Hypothesis HC : is_ceil ceil.
  Variable eval_multiple : list (cell (F:=R) T) -> res (list R).
  Variable fit : list R -> list R -> res (R * R * R * (list R -> res (list R))).
  Notation run := (run (F:=R) T ceil root eval_multiple fit).
  Notation call := (call (F:=R) T ceil root eval_multiple fit).
  Notation history := (history (F:=R) T ceil root eval_multiple fit).
  Notation eos := (eos (F:=R) T).
  Definition scaled (c : cell (F:=R) T) (v eps : R) : cell (F:=R) T := mk_cell T (fun i j => c_axis T c i j * root eps) (Some (v * eps)) (c_rest T c).
  Lemma isotropic_all c v l : c_volume T c = Some v -> mapM (isotropic (F:=R) T root c) l = Ok (map (scaled c v) l).
  Proof using. clear. intros HV. induction l as [|x l IH]; [reflexivity|]. cbn [mapM map]. unfold isotropic at 1. rewrite HV. cbn [bind]. now rewrite IH. Qed.
  Lemma volumes_all c v l : mapM (fun c => some TypeError (c_volume T c)) (map (scaled c v) l) = Ok (map (fun eps => v * eps) l).
  Proof using. clear. induction l as [|x l IH]; [reflexivity|]. cbn [mapM map]. rewrite IH. reflexivity. Qed.
  Lemma columns_map {A} (f g : A -> R) l : columns (F:=R) (map f l) (map g l) = Ok (map (fun x => (f x, g x)) l).
  Proof using. clear. unfold columns. rewrite !map_length, Nat.eqb_refl. f_equal. induction l as [|x l IH]; [reflexivity|]. cbn [map combine]. now rewrite IH. Qed.
  Variable E : cell (F:=R) T -> R.
  (** The data are the volumes of the grid with the energies of the scaled cells; a fit changes nothing of this, and its failure is
      no failure of the run. *)
  Theorem C86_run (s : eos) v lo hi step fine with_fit : c_volume T (e_cell T s) = Some v -> (forall l, eval_multiple l = Ok (map E l)) ->
    let l := set_eps (F:=R) ceil lo hi step fine in
    let '(s', r) := run lo hi step fine with_fit s in
    r = Ok tt /\ e_cell T s' = e_cell T s /\ e_data T s' = Some (map (fun eps => (v * eps, E (scaled (e_cell T s) v eps))) l) /\
    (with_fit = false -> e_eq T s' = e_eq T s /\ e_curve T s' = e_curve T s) /\
    (with_fit = true -> e_eq T s' = match fit (map (fun eps => v * eps) l) (map (fun eps => E (scaled (e_cell T s) v eps)) l) with Ok q => Some (fst q) | Err _ => e_eq T s end).
  Proof.
    intros HV HE l. unfold EOS.run. fold l. rewrite (isotropic_all _ v _ HV). cbn [bind]. rewrite HE. cbn [bind]. rewrite volumes_all. cbn [bind]. rewrite (map_map (scaled (e_cell T s) v) E), columns_map. cbn [bind].
    destruct with_fit; [|repeat split; discriminate].
    unfold run_fit. destruct (fit (map (fun eps => v * eps) l) (map (fun x => E (scaled (e_cell T s) v x)) l)) as [[eq ev]|e].
    - match goal with |- context [bind (min_of ?x) ?k] => destruct (bind (min_of x) k) end; cbn; repeat split; discriminate || (intros; reflexivity).
    - cbn. repeat split; discriminate || (intros; reflexivity).
  Qed.
  Theorem C86_no_volume (s : eos) lo hi step fine with_fit : c_volume T (e_cell T s) = None -> set_eps (F:=R) ceil lo hi step fine <> [] -> run lo hi step fine with_fit s = (s, Err TypeError).
  Proof. intros HV HN. unfold EOS.run. destruct (set_eps ceil lo hi step fine) as [|x l]; [contradiction|]. cbn [mapM]. unfold isotropic at 1. now rewrite HV. Qed.

  (** A potential that returns another number of energies stops the run; nothing is changed. *)
  Theorem C86_number (s : eos) v lo hi step fine with_fit en : c_volume T (e_cell T s) = Some v -> let l := set_eps (F:=R) ceil lo hi step fine in
    eval_multiple (map (scaled (e_cell T s) v) l) = Ok en -> length en <> length l -> run lo hi step fine with_fit s = (s, Err ValueError).
  Proof.
    intros HV l HE HL. unfold EOS.run. fold l. rewrite (isotropic_all _ v _ HV). cbn [bind]. rewrite HE. cbn [bind]. rewrite volumes_all. cbn [bind]. unfold columns. rewrite map_length.
    destruct (Nat.eqb_spec (length l) (length en)) as [Q|Q]; [congruence|reflexivity].
  Qed.

  (** The fitted curve: the fit evaluated every 0.01 from below the smallest volume to above the largest, by a tenth of the range *)
  Definition least (m : R) (l : list R) : Prop := In m l /\ forall x, In x l -> m <= x.
  Definition greatest (m : R) (l : list R) : Prop := In m l /\ forall x, In x l -> x <= m.
  Lemma min_of_spec l m : min_of (F:=R) l = Ok m -> least m l.
  Proof using.
    clear. destruct l as [|x t]; [discriminate|]. cbn [min_of]. intros H. match type of H with Ok ?a = _ => assert (a = m) as <- by congruence end. clear H. revert x.
    induction t as [|y t IH]; intros x; cbn [fold_left]; [split; [now left|intros z [<-|[]]; lra]|].
    change (nltb y x) with (Rltb y x). destruct (Rltb y x) eqn:Q; [apply Rltb_true in Q|apply Rltb_false in Q].
    - destruct (IH y) as [I1 I2]. split; [right; exact I1|]. intros z [<-|Hz]; [specialize (I2 y (or_introl eq_refl)); lra|exact (I2 z Hz)].
    - destruct (IH x) as [I1 I2]. split; [destruct I1 as [I1|I1]; [left; exact I1|right; now right]|]. intros z [<-|[<-|Hz]]; [apply I2; now left|specialize (I2 x (or_introl eq_refl)); lra|apply I2; now right].
  Qed.
  Lemma max_of_spec l m : max_of (F:=R) l = Ok m -> greatest m l.
  Proof using.
    clear. destruct l as [|x t]; [discriminate|]. cbn [max_of]. intros H. match type of H with Ok ?a = _ => assert (a = m) as <- by congruence end. clear H. revert x.
    induction t as [|y t IH]; intros x; cbn [fold_left]; [split; [now left|intros z [<-|[]]; lra]|].
    change (nltb x y) with (Rltb x y). destruct (Rltb x y) eqn:Q; [apply Rltb_true in Q|apply Rltb_false in Q].
    - destruct (IH y) as [I1 I2]. split; [right; exact I1|]. intros z [<-|Hz]; [specialize (I2 y (or_introl eq_refl)); lra|exact (I2 z Hz)].
    - destruct (IH x) as [I1 I2]. split; [destruct I1 as [I1|I1]; [left; exact I1|right; now right]|]. intros z [<-|[<-|Hz]]; [apply I2; now left|specialize (I2 x (or_introl eq_refl)); lra|apply I2; now right].
  Qed.
  Theorem C86_curve (s : eos) v lo hi step fine eq ev g : c_volume T (e_cell T s) = Some v -> (forall l, eval_multiple l = Ok (map E l)) ->
    let vols := map (fun eps => v * eps) (set_eps (F:=R) ceil lo hi step fine) in
    vols <> [] -> fit vols (map (fun eps => E (scaled (e_cell T s) v eps)) (set_eps (F:=R) ceil lo hi step fine)) = Ok (eq, ev) -> (forall l, ev l = Ok (map g l)) ->
    exists m M c, least m vols /\ greatest M vols /\ e_curve T (fst (run lo hi step fine true s)) = Some c /\
      map snd c = map g (map fst c) /\ StronglySorted Rlt (map fst c) /\ inside (m - (M - m) / 10) (M + (M - m) / 10) (map fst c) /\ covers (m - (M - m) / 10) (M + (M - m) / 10) (1 / 100) (map fst c).
  Proof.
    intros HV HE vols HN HF HG. unfold EOS.run. rewrite (isotropic_all _ v _ HV). cbn [bind]. rewrite HE. cbn [bind]. rewrite volumes_all. cbn [bind]. rewrite (map_map (scaled (e_cell T s) v) E), columns_map. cbn [bind].
    fold vols. unfold run_fit. rewrite HF.
    assert (Hm : exists m, min_of (F:=R) vols = Ok m) by (destruct vols; [contradiction|cbn [min_of]; now eexists]). assert (HM : exists m, max_of (F:=R) vols = Ok m) by (destruct vols; [contradiction|cbn [max_of]; now eexists]).
    destruct Hm as [m Hm]. destruct HM as [M HM]. rewrite Hm, HM. cbn [bind]. rewrite HG. cbn [bind].
    match goal with |- context [arange ceil ?a ?b ?c] => set (vs := arange ceil a b c) end. pose proof (columns_map (fun x => x) g vs) as CM. rewrite map_id in CM. rewrite CM. clear CM. exists m, M. eexists. split; [now apply min_of_spec|]. split; [now apply max_of_spec|]. split; [reflexivity|].
    rewrite !map_map. cbn [fst snd]. rewrite map_id. split; [reflexivity|].
    assert (EV : vs = arange ceil (m - (M - m) / 10) (M + (M - m) / 10) (1 / 100)).
    { unfold vs. rewrite !frac_R. cbn [nadd nsub nmul R_num]. replace (INR 1 / INR 100) with (1 / 100) by (rewrite !INR_IZR_INZ; reflexivity). replace (INR 1 / INR 10) with (1 / 10) by (rewrite !INR_IZR_INZ; reflexivity).
      replace ((M - m) * (1 / 10)) with ((M - m) / 10) by field. reflexivity. }
    rewrite EV. split; [apply arange_sorted; lra|]. split; [apply arange_inside; [exact HC|lra]|apply arange_covers; [exact HC|lra]].
  Qed.

  (** Over all histories the data are those of the last run that succeeded. *)
  Lemma call_indep (s : eos) q : e_cell T (fst (call s q)) = e_cell T s /\ (forall s', e_cell T s' = e_cell T s -> snd (call s' q) = snd (call s q) /\ (snd (call s q) = Ok tt -> e_data T (fst (call s' q)) = e_data T (fst (call s q)))) /\
    (snd (call s q) <> Ok tt -> fst (call s q) = s).
  Proof using.
    clear E. unfold EOS.call, EOS.run. destruct (mapM (isotropic T root (e_cell T s)) (set_eps ceil (q_lo q) (q_hi q) (q_step q) (q_fine q))) as [cells|e] eqn:E1; cbn [bind].
    2: { split; [reflexivity|]. split; [intros s' ->; rewrite E1; cbn [bind]; split; [reflexivity|discriminate]|reflexivity]. }
    destruct (eval_multiple cells) as [en|e] eqn:E2; cbn [bind].
    2: { split; [reflexivity|]. split; [intros s' ->; rewrite E1; cbn [bind]; rewrite E2; split; [reflexivity|discriminate]|reflexivity]. }
    destruct (mapM (fun c => some TypeError (c_volume T c)) cells) as [vs|e] eqn:E3; cbn [bind].
    2: { split; [reflexivity|]. split; [intros s' ->; rewrite E1; cbn [bind]; rewrite E2; cbn [bind]; rewrite E3; split; [reflexivity|discriminate]|reflexivity]. }
    destruct (columns vs en) as [d|e] eqn:E4; cbn [bind].
    2: { split; [reflexivity|]. split; [intros s' ->; rewrite E1; cbn [bind]; rewrite E2; cbn [bind]; rewrite E3; cbn [bind]; rewrite E4; split; [reflexivity|discriminate]|reflexivity]. }
    split; [|split].
    - destruct (q_fit q); [|reflexivity]. unfold run_fit. destruct (fit vs en) as [[eq ev]|e]; [|reflexivity]. match goal with |- context [bind (min_of ?x) ?k] => destruct (bind (min_of x) k) end; reflexivity.
    - intros s' ->. rewrite E1. cbn [bind]. rewrite E2. cbn [bind]. rewrite E3. cbn [bind]. rewrite E4. cbn [bind].
      destruct (q_fit q); [|split; reflexivity]. unfold run_fit. destruct (fit vs en) as [[eq ev]|e]; [|split; reflexivity].
      match goal with |- context [bind (min_of ?x) ?k] => destruct (bind (min_of x) k) end; split; reflexivity.
    - intros H. exfalso. apply H. destruct (q_fit q); [|reflexivity]. unfold run_fit. destruct (fit vs en) as [[eq ev]|e]; [|reflexivity]. match goal with |- context [bind (min_of ?x) ?k] => destruct (bind (min_of x) k) end; reflexivity.
  Qed.
  Theorem C86_history (c : cell (F:=R) T) qs : let s := history (new_eos T c) qs in let fresh := new_eos T c in
    e_cell T s = c /\
    ((e_data T s = None /\ Forall (fun q => snd (call fresh q) <> Ok tt) qs) \/
     exists before q after, qs = before ++ q :: after /\ snd (call fresh q) = Ok tt /\ Forall (fun p => snd (call fresh p) <> Ok tt) after /\ e_data T s = e_data T (fst (call fresh q))).
  Proof.
    intros s fresh. unfold s, fresh. induction qs as [|q qs IH] using rev_ind; [split; [reflexivity|left; split; [reflexivity|constructor]]|].
    assert (HS : history (new_eos T c) (qs ++ [q]) = fst (call (history (new_eos T c) qs) q)) by (unfold EOS.history; now rewrite fold_left_app).
    rewrite HS. destruct IH as [IC ID]. destruct (call_indep (history (new_eos T c) qs) q) as (K1 & K2 & K3). destruct (K2 (new_eos T c) ltac:(now rewrite IC)) as [K4 K5].
    split; [rewrite K1; exact IC|].
    assert (DEC : snd (call (new_eos T c) q) = Ok tt \/ snd (call (new_eos T c) q) <> Ok tt) by (destruct (snd (call (new_eos T c) q)) as [[]|]; [now left|right; discriminate]).
    destruct DEC as [D|D].
    - right. exists qs, q, []. split; [reflexivity|]. split; [exact D|]. split; [constructor|]. symmetry. apply K5. now rewrite <- K4.
    - rewrite K3 by (rewrite <- K4; exact D). destruct ID as [[I1 I2]|(b & p & a & I1 & I2 & I3 & I4)].
      + left. split; [exact I1|]. apply Forall_app. split; [exact I2|now constructor].
      + right. exists b, p, (a ++ [q]). subst qs. split; [now rewrite <- app_assoc|]. split; [exact I2|]. split; [apply Forall_app; split; [exact I3|now constructor]|exact I4].
  Qed.
  (** Not so the equilibrium and the curve: a run without a fit leaves those of earlier data, and they are written together. *)
  Theorem C86_stale_refuted (s : eos) q eq curve : q_fit q = false -> snd (call s q) = Ok tt -> e_eq T s = Some eq -> e_curve T s = Some curve ->
    exists d, e_data T (fst (call s q)) = Some d /\ write T true (fst (call s q)) = ([Equilibrium eq; Data d; Curve curve], Ok tt).
  Proof.
    unfold EOS.call, EOS.run. intros -> HO HQ HK. destruct (bind _ _) as [[[vs en] d]|e]; [|discriminate]. exists d. split; [reflexivity|]. unfold write. cbn [fst e_eq e_data e_curve]. now rewrite HQ, HK.
  Qed.
  (** Written before a run, the file ends after its head. *)
  Theorem C86_write_early c with_curve : write T with_curve (new_eos (F:=R) T c) = ([], Err TypeError).
  Proof. reflexivity. Qed.

  (** *** Quasi-harmonic calculations *)
  Variable phonon : cell (F:=R) T -> res (thermal (F:=R)).
  Notation qha_run := (qha_run (F:=R) T ceil root eval_multiple phonon).
  Lemma transpose_rows (rows : list (list R)) n : rows <> [] -> Forall (fun r => length r = n) rows -> exists t, EOS.transpose (F:=R) rows = Ok t /\ length t = n /\
    forall i k, (i < n)%nat -> (k < length rows)%nat -> nth k (nth i t []) 0 = nth i (nth k rows []) 0.
  Proof using.
    clear. intros HN HF. destruct rows as [|r rows]; [contradiction|]. assert (L0 : length r = n) by (now inversion HF). set (l := r :: rows) in *. unfold transpose. unfold l at 1. cbn [EOS.transpose].
    assert (AL : forallb (fun q => (length q =? length r)%nat) l = true) by (apply forallb_forall; intros q Hq; apply Nat.eqb_eq; rewrite L0; rewrite Forall_forall in HF; now apply HF).
    fold l. rewrite AL. eexists. split; [reflexivity|]. split; [now rewrite map_length, seq_length|]. intros i k Hi Hk.
    rewrite (nth_indep _ [] (map (fun q => nth 0 q 0) l)) by (rewrite map_length, seq_length, L0; exact Hi).
    rewrite (map_nth (fun t => map (fun q => nth t q 0) l)). rewrite seq_nth by (now rewrite L0). cbn [Nat.add].
    rewrite (nth_indep _ 0 (nth i [] 0)) by (now rewrite map_length). now rewrite (map_nth (fun q => nth i q 0)).
  Qed.
  (** Volumes, energies and, for each temperature, the free energies, entropies and heat capacities of the cells, in the order of the volumes *)
  Theorem C86_qha c v lo hi step n (th : R -> thermal (F:=R)) temps : 0 < step -> lo < hi + 1 / 1000 -> c_volume T c = Some v -> (forall l, eval_multiple l = Ok (map E l)) ->
    (forall eps, phonon (scaled c v eps) = Ok (th eps) /\ h_temps (th eps) = temps /\ length (h_free (th eps)) = n /\ length (h_entropy (th eps)) = n /\ length (h_cv (th eps)) = n) ->
    exists l t, StronglySorted Rlt l /\ inside lo (hi + 1 / 1000) l /\ covers lo (hi + 1 / 1000) step l /\
      qha_run c lo hi step = Ok t /\ t_volumes t = map (fun eps => v * eps) l /\ t_energies t = map (fun eps => E (scaled c v eps)) l /\ t_temps t = temps /\
      forall i k, (i < n)%nat -> (k < length l)%nat ->
        nth k (nth i (t_free t) []) 0 = nth i (h_free (th (nth k l 0))) 0 /\ nth k (nth i (t_entropy t) []) 0 = nth i (h_entropy (th (nth k l 0))) 0 /\ nth k (nth i (t_cv t) []) 0 = nth i (h_cv (th (nth k l 0))) 0.
  Proof.
    intros Hs Hlh HV HE HP. set (l := arange (F:=R) ceil lo (hi + 1 / 1000) step).
    assert (HL : arange ceil lo (hi + frac 1 1000)%F step = l) by (unfold l; rewrite frac_R; cbn [nadd R_num]; replace (INR 1 / INR 1000) with (1 / 1000) by (rewrite !INR_IZR_INZ; reflexivity); reflexivity).
    assert (LN : l <> []). { assert (I : In lo l) by (apply arange_In; [exact HC|exact Hs|exists 0%nat; cbn; split; lra]). intros Q. rewrite Q in I. destruct I. }
    assert (MP : mapM phonon (map (scaled c v) l) = Ok (map th l)). { clear LN HL. clearbody l. induction l as [|x l IH]; [reflexivity|]. cbn [map mapM]. rewrite (proj1 (HP x)). cbn [bind]. now rewrite IH. }
    assert (RW : forall f : thermal (F:=R) -> list R, (forall eps, length (f (th eps)) = n) -> exists t, EOS.transpose (F:=R) (map f (map th l)) = Ok t /\
      forall i k, (i < n)%nat -> (k < length l)%nat -> nth k (nth i t []) 0 = nth i (f (th (nth k l 0))) 0).
    { intros f Hf. destruct (transpose_rows (map f (map th l)) n) as (t & T1 & _ & T2).
      - intros Q. apply map_eq_nil, map_eq_nil in Q. contradiction.
      - rewrite map_map. apply Forall_forall. intros r Hr. apply in_map_iff in Hr. destruct Hr as (x & <- & _). apply Hf.
      - exists t. split; [exact T1|]. intros i k Hi Hk. rewrite T2 by (try exact Hi; now rewrite !map_length). rewrite map_map. rewrite (nth_indep _ [] (f (th 0))) by (now rewrite map_length). now rewrite (map_nth (fun x => f (th x))). }
    destruct (RW h_free) as (t1 & A1 & A2); [intros; apply HP|]. destruct (RW h_entropy) as (t2 & B1 & B2); [intros; apply HP|]. destruct (RW h_cv) as (t3 & C1 & C2); [intros; apply HP|].
    exists l, (mk_table (map (fun eps => v * eps) l) (map (fun eps => E (scaled c v eps)) l) temps t1 t2 t3).
    split; [now apply arange_sorted|]. split; [now apply arange_inside|]. split; [now apply arange_covers|]. split.
    - unfold EOS.qha_run. rewrite HL, (isotropic_all _ v _ HV). cbn [bind]. rewrite HE. cbn [bind]. rewrite volumes_all. cbn [bind]. rewrite MP. cbn [bind]. rewrite A1, B1, C1. cbn [bind].
      rewrite (map_map (scaled c v) E). destruct (rev (map th l)) as [|x r] eqn:Q.
      + exfalso. apply (f_equal (@rev _)) in Q. rewrite rev_involutive in Q. apply map_eq_nil in Q. contradiction.
      + assert (I : In x (map th l)) by (apply in_rev; rewrite Q; now left). apply in_map_iff in I. destruct I as (y & <- & _). now rewrite (proj1 (proj2 (HP y))).
    - split; [reflexivity|]. split; [reflexivity|]. split; [reflexivity|]. intros i k Hi Hk. cbn [t_free t_entropy t_cv]. auto.
  Qed.
  (** Cells with different numbers of free energies are refused. *)
  Theorem C86_qha_ragged c v lo hi step (th : R -> thermal (F:=R)) : let l := arange (F:=R) ceil lo (hi + 1 / 1000) step in c_volume T c = Some v -> (forall l, eval_multiple l = Ok (map E l)) ->
    (forall eps, phonon (scaled c v eps) = Ok (th eps)) -> (exists x y, In x l /\ In y l /\ length (h_free (th x)) <> length (h_free (th y))) -> qha_run c lo hi step = Err ValueError.
  Proof.
    intros l HV HE HP (x & y & Hx & Hy & HN).
    assert (HL : arange ceil lo (hi + frac 1 1000)%F step = l) by (unfold l; rewrite frac_R; cbn [nadd R_num]; replace (INR 1 / INR 1000) with (1 / 1000) by (rewrite !INR_IZR_INZ; reflexivity); reflexivity).
    assert (MP : mapM phonon (map (scaled c v) l) = Ok (map th l)). { clear Hx Hy HL. clearbody l. induction l as [|z l IH]; [reflexivity|]. cbn [map mapM]. rewrite HP. cbn [bind]. now rewrite IH. }
    unfold EOS.qha_run. rewrite HL, (isotropic_all _ v _ HV). cbn [bind]. rewrite HE. cbn [bind]. rewrite volumes_all. cbn [bind]. rewrite MP. cbn [bind]. clear HL MP. clearbody l.
    assert (HT : EOS.transpose (F:=R) (map h_free (map th l)) = Err ValueError); [|now rewrite HT].
    rewrite map_map. destruct l as [|z l]; [destruct Hx|]. unfold EOS.transpose. cbn [map].
    match goal with |- (if ?b then _ else _) = _ => destruct b eqn:Q; [|reflexivity] end. exfalso. apply HN. rewrite forallb_forall in Q.
    assert (K : forall u, In u (z :: l) -> length (h_free (th u)) = length (h_free (th z))). { intros u Hu. apply Nat.eqb_eq. apply (Q (h_free (th u))). apply (in_map (fun t => h_free (th t)) (z :: l) u Hu). }
    now rewrite (K x Hx), (K y Hy).
  Qed.
  Theorem C86_qha_none c lo hi step : 0 < step -> hi + 1 / 1000 <= lo -> eval_multiple [] = Ok [] -> qha_run c lo hi step = Err UnboundLocalError.
  Proof.
    intros Hs Hlh HE. assert (HL : arange ceil lo (hi + frac 1 1000)%F step = []).
    { destruct (arange ceil lo (hi + frac 1 1000)%F step) as [|x l] eqn:Q; [reflexivity|]. exfalso. assert (I : In x (x :: l)) by now left. rewrite <- Q in I. apply arange_In in I; [|exact HC|exact Hs]. destruct I as (k & -> & I).
      rewrite frac_R in I. cbn [nadd R_num] in I. replace (INR 1 / INR 1000) with (1 / 1000) in I by (rewrite !INR_IZR_INZ; reflexivity). pose proof (Rmult_le_pos _ _ (pos_INR k) (Rlt_le _ _ Hs)). lra. }
    unfold EOS.qha_run. rewrite HL. cbn [mapM bind]. rewrite HE. reflexivity.
  Qed.
End Run.

(** *** Examples over the rational numbers: a cell of volume 8, energies (volume - 8)^2, a fit that returns the last numbers *)
From Coq Require Import QArith Qcanon.
Definition qz (z : Z) (d : positive) : Qc := Q2Qc (Qmake z d).
Definition ceilq (x : Qc) : nat := Z.to_nat (- ((- Qnum x) / Zpos (Qden x))).
Definition cell0 : cell (F:=Qc) unit := mk_cell unit (fun i j => if (i =? j)%nat then qz 2 1 else qz 0 1) (Some (qz 8 1)) tt.
Definition eval0 (l : list (cell (F:=Qc) unit)) : res (list Qc) := mapM (fun c => match c_volume unit c with Some v => Ok ((v - qz 8 1) * (v - qz 8 1))%Qc | None => Err TypeError end) l.
Definition fit0 (v e : list Qc) : res (Qc * Qc * Qc * (list Qc -> res (list Qc))) :=
  match v, e with a :: _, b :: _ => Ok (qz 1 1, b, a, fun l => Ok (map (fun _ => b) l)) | _, _ => Err ValueError end.
Notation hist0 := (history (N:=Qc_num) (NO:=Qc_ord) unit ceilq (fun _ => qz 1 1) eval0 fit0).
Definition show (s : eos (F:=Qc) unit) : option (list (Q * Q)) * option (Q * Q * Q) * option nat :=
  (option_map (map (fun q => (Qcanon.this (fst q), Qcanon.this (snd q)))) (e_data unit s), option_map (fun q => (Qcanon.this (fst (fst q)), Qcanon.this (snd (fst q)), Qcanon.this (snd q))) (e_eq unit s), option_map (@length _) (e_curve unit s)).
(** 8/10, then steps of 1/10 between 9/10 and 11/10 and of 3/10 outside *)
Example ex_grid : map Qcanon.this (set_eps (N:=Qc_num) (NO:=Qc_ord) ceilq (qz 4 5) (qz 3 2) (qz 3 10) true) = [4 # 5; 9 # 10; 1 # 1; 11 # 10; 7 # 5]%Q.
Proof. vm_compute. reflexivity. Qed.
(** a range above 1.1 starts at 1.1 *)
Example ex_above : map Qcanon.this (set_eps (N:=Qc_num) (NO:=Qc_ord) ceilq (qz 6 5) (qz 3 2) (qz 1 5) true) = [11 # 10; 13 # 10]%Q.
Proof. vm_compute. reflexivity. Qed.
(** The second run has other volumes; the equilibrium and the curve are those of the first. *)
Example ex_stale : show (hist0 (new_eos unit cell0) [mk_settings (qz 1 1) (qz 21 20) (qz 3 40) true true; mk_settings (qz 2 1) (qz 5 2) (qz 1 2) false false]) =
  (Some [(16, 64); (20, 144)]%Q, Some (1, 0, 8)%Q, Some 24%nat).
Proof. vm_compute. reflexivity. Qed.

Print Assumptions C86_grid.
Print Assumptions C86_above_refuted.
Print Assumptions C86_below_refuted.
Print Assumptions C86_coarse.
Print Assumptions C86_volume.
Print Assumptions C86_volume_refuted.
Print Assumptions C86_run.
Print Assumptions C86_no_volume.
Print Assumptions C86_number.
Print Assumptions C86_curve.
Print Assumptions C86_history.
Print Assumptions C86_stale_refuted.
Print Assumptions C86_write_early.
Print Assumptions C86_qha.
Print Assumptions C86_qha_ragged.
Print Assumptions C86_qha_none.
