(** The arrays of associated Legendre functions and the loops over (l, m). *)
From Verif Require Import Base Num NumR Complex Model.Neighbor Model.Compute Model.Harmonics Spec.Harmonics Proofs.Legendre.
From Coq Require Import Reals Lra Factorial.
Local Open Scope R_scope.

(** Indices *)
Lemma tri_S l : (S l * (S l + 1) / 2 = l * (l + 1) / 2 + l + 1)%nat.
Proof. replace (S l * (S l + 1))%nat with (l * (l + 1) + (l + 1) * 2)%nat by lia. rewrite Nat.div_add by lia. lia. Qed.
Lemma tri_mono l l' : (l < l')%nat -> (l * (l + 1) / 2 + l < l' * (l' + 1) / 2)%nat.
Proof. induction 1 as [|l' H IH]; rewrite tri_S; lia. Qed.
Lemma lm2i_inj l m l' m' : (m <= l)%nat -> (m' <= l')%nat -> lm2i l m = lm2i l' m' -> l = l' /\ m = m'.
Proof.
  unfold lm2i. intros H H' E. destruct (Nat.lt_trichotomy l l') as [L|[->|L]]; [|split; [reflexivity|lia]|];
    pose proof (tri_mono _ _ L); lia.
Qed.
Lemma negm_lm2i l k : (k <= l)%nat -> lm2i_negm l k = lm2i l (l - k).
Proof. unfold lm2i_negm, lm2i. lia. Qed.
Lemma negm_inj l k l' k' : (k <= l)%nat -> (k' <= l')%nat -> lm2i_negm l k = lm2i_negm l' k' -> l = l' /\ k = k'.
Proof. intros H H' E. rewrite !negm_lm2i in E by assumption. apply lm2i_inj in E; lia. Qed.
Lemma vset_eq {T} (v : nat -> T) i x : vset v i x i = x.
Proof. unfold vset. now rewrite Nat.eqb_refl. Qed.
Lemma vset_neq {T} (v : nat -> T) i x k : k <> i -> vset v i x k = v k.
Proof. unfold vset. intros H. now rewrite (proj2 (Nat.eqb_neq k i) H). Qed.

(** Normalisation factors *)
Lemma fact_pos n : 0 < INR (fact n).
Proof. apply lt_0_INR, lt_O_fact. Qed.
Lemma ynorm_pos l m : 0 < ynorm l m.
Proof.
  unfold ynorm. apply sqrt_lt_R0. pose proof (pos_INR l). pose proof PI_RGT_0. apply Rmult_lt_0_compat; apply Rdiv_lt_0_compat; try apply fact_pos; lra.
Qed.
Lemma ynorm_sq l m : ynorm l m * ynorm l m = (2 * INR l + 1) / (4 * PI) * (INR (fact (l - m)) / INR (fact (l + m))).
Proof.
  unfold ynorm. apply sqrt_sqrt, Rlt_le. pose proof (pos_INR l). pose proof PI_RGT_0. apply Rmult_lt_0_compat; apply Rdiv_lt_0_compat; try apply fact_pos; lra.
Qed.
Lemma sq_eq a b : 0 <= a -> 0 <= b -> a * a = b * b -> a = b.
Proof. intros Ha Hb E. apply Rsqr_inj; assumption. Qed.
Lemma ratio l m l' m' c A : 0 <= c -> 0 <= A ->
  ynorm l m * ynorm l m * (c * c) = A * (ynorm l' m' * ynorm l' m') -> ynorm l m * c = sqrt A * ynorm l' m'.
Proof.
  intros Hc HA E. apply sq_eq.
  - apply Rmult_le_pos; [apply Rlt_le, ynorm_pos|exact Hc].
  - apply Rmult_le_pos; [apply sqrt_pos|apply Rlt_le, ynorm_pos].
  - transitivity (ynorm l m * ynorm l m * (c * c)); [ring|]. rewrite E. rewrite <- (sqrt_sqrt A HA) at 1. ring.
Qed.
Ltac nz := repeat split; try apply Rgt_not_eq; try apply fact_pos; try apply PI_RGT_0; try lra.
Lemma ynorm_diag l : ynorm (S l) (S l) * (2 * INR l + 1) = sqrt (1 + (1 / 2) / INR (S l)) * ynorm l l.
Proof.
  pose proof (pos_INR l) as Hl. rewrite S_INR. apply ratio; [lra| |].
  - apply Rplus_le_le_0_compat; [lra|]. apply Rlt_le, Rdiv_lt_0_compat; lra.
  - rewrite !ynorm_sq, !Nat.sub_diag. replace (S l + S l)%nat with (S (S (l + l))) by lia. rewrite !(fact_simpl (S _)), (fact_simpl (l + l)), !mult_INR, !S_INR, plus_INR.
    change (INR (fact 0)) with 1. field. nz.
Qed.
Lemma ynorm_sub l : ynorm (S l) l * (2 * INR l + 1) = sqrt (2 * (INR (S l) - 1) + 3) * ynorm l l.
Proof.
  pose proof (pos_INR l) as Hl. rewrite S_INR. apply ratio; [lra|lra|].
  rewrite !ynorm_sq, !Nat.sub_diag. replace (S l - l)%nat with 1%nat by lia. replace (S l + l)%nat with (S (l + l)) by lia. rewrite (fact_simpl (l + l)), mult_INR, !S_INR, plus_INR.
  change (INR (fact 0)) with 1. change (INR (fact 1)) with 1. field. nz.
Qed.
Lemma ynorm_up l m : (m < l)%nat -> ynorm l m = sqrt (INR ((l - m) * (l + m + 1))) * ynorm l (S m).
Proof.
  intros H. rewrite <- (Rmult_1_r (ynorm l m)). apply ratio; [lra|apply pos_INR|].
  rewrite !ynorm_sq. replace (l - m)%nat with (S (l - S m)) by lia. replace (l + S m)%nat with (S (l + m)) by lia. rewrite !fact_simpl, !mult_INR.
  replace (l + m + 1)%nat with (S (l + m)) by lia. pose proof (pos_INR l). rewrite !S_INR. pose proof (pos_INR (l - S m)). pose proof (pos_INR (l + m)). field. nz.
Qed.
Lemma ynorm_rec l m : (m <= l)%nat ->
  let ls := INR (S (S l) * S (S l)) in let lm1s := INR (S l * S l) in let ms := INR (m * m) in
  let alm := sqrt ((4 * ls - 1) / (ls - ms)) in
  ynorm (S (S l)) m * (2 * INR l + 3) = (INR l + 2 - INR m) * alm * ynorm (S l) m /\
  ynorm (S (S l)) m * (INR l + 1 + INR m) = (INR l + 2 - INR m) * (alm * sqrt ((lm1s - ms) / (4 * lm1s - 1))) * ynorm l m.
Proof.
  intros H ls lm1s ms alm. pose proof (le_INR _ _ H) as HR. pose proof (pos_INR m) as Hm.
  assert (E1 : ls - ms = (INR l + 2 - INR m) * (INR l + 2 + INR m)) by (unfold ls, ms; rewrite !mult_INR, !S_INR; ring).
  assert (E2 : 4 * ls - 1 = (2 * INR l + 3) * (2 * INR l + 5)) by (unfold ls; rewrite !mult_INR, !S_INR; ring).
  assert (E3 : lm1s - ms = (INR l + 1 - INR m) * (INR l + 1 + INR m)) by (unfold lm1s, ms; rewrite !mult_INR, !S_INR; ring).
  assert (E4 : 4 * lm1s - 1 = (2 * INR l + 1) * (2 * INR l + 3)) by (unfold lm1s; rewrite !mult_INR, !S_INR; ring).
  assert (P1 : 0 < ls - ms) by (rewrite E1; apply Rmult_lt_0_compat; lra).
  assert (P2 : 0 < 4 * ls - 1) by (rewrite E2; apply Rmult_lt_0_compat; lra).
  assert (P3 : 0 < lm1s - ms) by (rewrite E3; apply Rmult_lt_0_compat; lra).
  assert (P4 : 0 < 4 * lm1s - 1) by (rewrite E4; apply Rmult_lt_0_compat; lra).
  pose proof (Rdiv_lt_0_compat _ _ P2 P1) as Q1. pose proof (Rdiv_lt_0_compat _ _ P3 P4) as Q2.
  assert (F : ynorm (S (S l)) m * ((2 * INR l + 3) / (INR l + 2 - INR m)) = alm * ynorm (S l) m).
  { apply ratio; [apply Rlt_le, Rdiv_lt_0_compat; lra|lra|]. rewrite E1, E2, !ynorm_sq. replace (S (S l) - m)%nat with (S (S l - m)) by lia.
    change (S (S l) + m)%nat with (S (S l + m)). rewrite !fact_simpl, !mult_INR, !S_INR, !minus_INR, !plus_INR, !S_INR by lia. field. nz. }
  assert (G : ynorm (S (S l)) m * ((INR l + 1 + INR m) / (INR l + 2 - INR m)) = sqrt ((4 * ls - 1) / (ls - ms) * ((lm1s - ms) / (4 * lm1s - 1))) * ynorm l m).
  { apply ratio; [apply Rlt_le, Rdiv_lt_0_compat; lra|apply Rlt_le, Rmult_lt_0_compat; assumption|]. rewrite E1, E2, E3, E4, !ynorm_sq. replace (S (S l) - m)%nat with (S (S (l - m))) by lia.
    change (S (S l) + m)%nat with (S (S (l + m))). rewrite !(fact_simpl (S _)), !(fact_simpl (l - m)), !(fact_simpl (l + m)), !mult_INR, !S_INR, !minus_INR, !plus_INR by lia. field. nz. }
  rewrite sqrt_mult in G by lra. fold alm in G. split.
  - transitivity ((INR l + 2 - INR m) * (ynorm (S (S l)) m * ((2 * INR l + 3) / (INR l + 2 - INR m)))); [field; lra|]. rewrite F. ring.
  - transitivity ((INR l + 2 - INR m) * (ynorm (S (S l)) m * ((INR l + 1 + INR m) / (INR l + 2 - INR m)))); [field; lra|]. rewrite G. ring.
Qed.

(** The array *)
Section Array.
  Variables (lmax : nat) (ct : R) (g : nat -> R).
  Let st := sqrt (1 - ct * ct).
  Hypothesis Hg : forall m, (1 <= m)%nat -> g (S m) = - st * g m.
  Definition V (l m : nat) : R := g m * ynorm l m * U l m ct.
  Definition ok (a : nat -> R) (l m : nat) : Prop := a (lm2i l m) = V l m.

  Lemma V_diag l : (1 <= l)%nat -> (- sqrt (1 + (1 / 2) / INR (S l)) * st) * V l l = V (S l) (S l).
  Proof.
    intros H. unfold V. rewrite U_diag, Hg by exact H. transitivity (- st * g l * (sqrt (1 + (1 / 2) / INR (S l)) * ynorm l l) * U l l ct); [ring|].
    rewrite <- ynorm_diag. ring.
  Qed.
  Lemma V_sub l : (sqrt (2 * (INR (S l) - 1) + 3) * ct) * V l l = V (S l) l.
  Proof.
    unfold V. rewrite U_sub. transitivity (g l * ct * (sqrt (2 * (INR (S l) - 1) + 3) * ynorm l l) * U l l ct); [ring|]. rewrite <- ynorm_sub. ring.
  Qed.
  Lemma V_rec l m : (m <= l)%nat ->
    let ls := INR (S (S l) * S (S l)) in let lm1s := INR (S l * S l) in let ms := INR (m * m) in
    sqrt ((4 * ls - 1) / (ls - ms)) * (ct * V (S l) m + - sqrt ((lm1s - ms) / (4 * lm1s - 1)) * V l m) = V (S (S l)) m.
  Proof.
    intros H ls lm1s ms. pose proof (le_INR _ _ H) as HR. destruct (ynorm_rec l m H) as [F G]. fold ls lm1s ms in F, G.
    set (alm := sqrt ((4 * ls - 1) / (ls - ms))) in *. set (b := sqrt ((lm1s - ms) / (4 * lm1s - 1))) in *.
    apply Rmult_eq_reg_l with (INR l + 2 - INR m); [|lra]. unfold V.
    transitivity (g m * (ct * ((INR l + 2 - INR m) * alm * ynorm (S l) m) * U (S l) m ct - ((INR l + 2 - INR m) * (alm * b) * ynorm l m) * U l m ct)); [ring|].
    rewrite <- F, <- G. transitivity (g m * ynorm (S (S l)) m * ((2 * INR l + 3) * ct * U (S l) m ct - (INR l + 1 + INR m) * U l m ct)); [ring|].
    rewrite <- U_rec. ring.
  Qed.

  Lemma diag_loop k a : ok a 0 0 -> ok a 1 0 -> ok a 1 1 ->
    let a' := fold_left (diag_step ct st) (seq 2 k) a in
    forall l, (l <= k + 1)%nat -> ok a' l l /\ ((1 <= l)%nat -> ok a' l (l - 1)).
  Proof.
    intros H0 H1 H2. induction k as [|k IH]; intros a' l Hl.
    - unfold a'. cbn [seq fold_left]. assert (E : (l = 0 \/ l = 1)%nat) by lia. destruct E as [-> | ->]; split; intros; [exact H0|lia|exact H2|exact H1].
    - unfold a'. clear a'. rewrite seq_S, fold_left_app. cbn [fold_left]. set (a' := fold_left (diag_step ct st) (seq 2 k) a) in *. cbv zeta in IH.
      change (2 + k)%nat with (S (S k)). unfold diag_step. replace (S (S k) - 1)%nat with (S k) by lia.
      assert (NE : lm2i (S (S k)) (S k) <> lm2i (S (S k)) (S (S k))) by (intros E; apply lm2i_inj in E; lia).
      assert (NE2 : lm2i (S k) (S k) <> lm2i (S (S k)) (S (S k))) by (intros E; apply lm2i_inj in E; lia).
      destruct (Nat.eq_dec l (S (S k))) as [->|N].
      + unfold ok. replace (S (S k) - 1)%nat with (S k) by lia. split; [|intros _].
        * rewrite (vset_neq _ _ _ _ (not_eq_sym NE)), vset_eq. rewrite (proj1 (IH (S k) ltac:(lia))). apply V_diag. lia.
        * rewrite vset_eq, (vset_neq _ _ _ _ NE2), (proj1 (IH (S k) ltac:(lia))). apply V_sub.
      + destruct (IH l ltac:(lia)) as [A B]. unfold ok. split; [|intros Hp]; rewrite !vset_neq; auto; try (apply B; exact Hp); intros E; apply lm2i_inj in E; lia.
  Qed.

  Definition J (a : nat -> R) (k j : nat) : Prop :=
    (forall l m, (m <= l)%nat -> (l <= k + 1)%nat -> (l <= lmax)%nat -> ok a l m) /\
    (forall l, (l <= lmax)%nat -> ok a l l /\ ((1 <= l)%nat -> ok a l (l - 1))) /\
    (forall m, (m < j)%nat -> ok a (S (S k)) m).
  Lemma low_inner k : (S (S k) <= lmax)%nat -> forall j a, (j <= S k)%nat -> J a k 0 -> J (fold_left (low_step ct) (map (pair (S (S k))) (seq 0 j)) a) k j.
  Proof.
    intros Hk j. induction j as [|j IH]; intros a Hj HJ; [exact HJ|].
    rewrite seq_S, map_app, fold_left_app. cbn [map fold_left Nat.add]. destruct (IH a ltac:(lia) HJ) as [A [B C]].
    set (a' := fold_left (low_step ct) (map (pair (S (S k))) (seq 0 j)) a) in *. clearbody a'. unfold low_step.
    replace (S (S k) - 1)%nat with (S k) by lia. replace (S (S k) - 2)%nat with k by lia.
    assert (X : a' (lm2i (S k) j) = V (S k) j) by (apply A; lia).
    assert (Y : a' (lm2i k j) = V k j) by (apply A; lia). rewrite X, Y, V_rec by lia.
    repeat split; unfold ok; intros.
    - rewrite vset_neq by (intros E; apply lm2i_inj in E; lia). now apply A.
    - rewrite vset_neq by (intros E; apply lm2i_inj in E; lia). now apply B.
    - rewrite vset_neq by (intros E; apply lm2i_inj in E; lia). now apply B.
    - destruct (Nat.eq_dec m j) as [->|N]; [now rewrite vset_eq|]. rewrite vset_neq by (intros E; apply lm2i_inj in E; lia). apply C. lia.
  Qed.
  Lemma low_outer a : J a 0 0 -> forall k, (k + 1 <= lmax)%nat -> J (fold_left (low_step ct) (flat_map (fun l => map (pair l) (seq 0 (l - 1))) (seq 2 k)) a) k 0.
  Proof.
    intros HJ k. induction k as [|k IH]; intros Hk; [exact HJ|].
    rewrite seq_S, flat_map_app, fold_left_app. cbn [flat_map]. rewrite app_nil_r. change (2 + k)%nat with (S (S k)). replace (S (S k) - 1)%nat with (S k) by lia.
    destruct (low_inner k ltac:(lia) (S k) _ (le_n _) (IH ltac:(lia))) as [A [B C]].
    set (a' := fold_left (low_step ct) (map (pair (S (S k))) (seq 0 (S k))) (fold_left (low_step ct) (flat_map (fun l => map (pair l) (seq 0 (l - 1))) (seq 2 k)) a)) in *. clearbody a'.
    split; [|split; [exact B|intros; lia]]. intros l m Hm Hl Hx. destruct (Nat.eq_dec l (S (S k))) as [->|N]; [|apply A; lia].
    destruct (Nat.eq_dec m (S (S k))) as [->|N1]; [now apply B|]. destruct (Nat.eq_dec m (S k)) as [->|N2]; [|apply C; lia].
    replace (S k) with (S (S k) - 1)%nat at 2 by lia. apply B; lia.
  Qed.
  Lemma array_ok a00 a10 a11 : a00 = V 0 0 -> a10 = V 1 0 -> a11 = V 1 1 ->
    forall l m, (m <= l)%nat -> (l <= lmax)%nat -> legendre_array lmax ct a00 a10 a11 (lm2i l m) = V l m.
  Proof.
    intros -> -> -> l m Hm Hl. unfold legendre_array. destruct (Nat.eqb_spec lmax 0) as [Z|Z].
    - assert (l = 0 /\ m = 0)%nat as [-> ->] by lia. apply vset_eq.
    - fold st. set (a := vset (vset (vset (fun _ : nat => 0) (lm2i 0 0) (V 0 0)) (lm2i 1 0) (V 1 0)) (lm2i 1 1) (V 1 1)).
      assert (A0 : ok a 0 0) by (unfold ok, a; rewrite 2 vset_neq by (intros E; apply lm2i_inj in E; lia); apply vset_eq).
      assert (A1 : ok a 1 0) by (unfold ok, a; rewrite vset_neq by (intros E; apply lm2i_inj in E; lia); apply vset_eq).
      assert (A2 : ok a 1 1) by (unfold ok, a; apply vset_eq).
      pose proof (diag_loop (lmax - 1) a A0 A1 A2) as D. cbv zeta in D.
      set (a' := fold_left (diag_step ct st) (seq 2 (lmax - 1)) a) in *. clearbody a'.
      assert (HJ : J a' 0 0).
      { split; [|split; [intros l' H'; apply D; lia|intros; lia]]. intros l' m' H1 H2 H3.
        assert (E : (l' = 0 /\ m' = 0 \/ l' = 1 /\ m' = 0 \/ l' = 1 /\ m' = 1)%nat) by lia.
        destruct E as [[-> ->]|[[-> ->]|[-> ->]]]; [exact (proj1 (D 0%nat ltac:(lia)))|exact (proj2 (D 1%nat ltac:(lia)) (le_n _))|exact (proj1 (D 1%nat ltac:(lia)))]. }
      apply (low_outer a' HJ (lmax - 1)); lia.
  Qed.
End Array.

(** The loops over (l, m) *)
Lemma cpow_S z m : cpow z (S m) = nmul z (cpow z m).
Proof. reflexivity. Qed.
Lemma fold_vset {T} (f : nat -> nat) (v : nat -> T) ls : forall a key,
  (forall l, In l ls -> f l <> key) -> fold_left (fun a l => vset a (f l) (v l)) ls a key = a key.
Proof.
  induction ls as [|l ls IH]; intros a key H; [reflexivity|]. cbn [fold_left]. rewrite IH by (intros; apply H; now right).
  apply vset_neq. intros E. apply (H l); [now left|congruence].
Qed.
Lemma fold_vset_in {T} (f : nat -> nat) (v : nat -> T) ls : forall a l, (forall x y, In x ls -> In y ls -> f x = f y -> x = y) -> In l ls ->
  fold_left (fun a l => vset a (f l) (v l)) ls a (f l) = v l.
Proof.
  induction ls as [|x ls IH]; intros a l HI [].
  - subst x. cbn [fold_left]. destruct (in_dec Nat.eq_dec l ls) as [H|H].
    + apply IH; [|exact H]. intros; apply HI; [now right|now right|assumption].
    + rewrite fold_vset; [apply vset_eq|]. intros y Hy E. apply H. replace l with y; [exact Hy|]. apply HI; [now right|now left|exact E].
  - cbn [fold_left]. apply IH; [|assumption]. intros; apply HI; [now right|now right|assumption].
Qed.
Section Fill.
  Variables (lmax : nat) (ca sa : R) (val0 : nat -> Cx R) (val : nat -> nat -> R -> R -> R -> Cx R).
  Hypothesis unit : ca * ca + sa * sa = 1.
  Let z : Cx R := (ca, sa).
  Definition sgn_m (m : nat) : R := (-1) ^ m.
  Definition entry (l m : nat) : Cx R :=
    match m with 0%nat => val0 l | _ => val l m (re (cpow z m)) (im (cpow z m)) (sgn_m m) end.
  Lemma m_loop k a :
    let '(c1, c2, s1, s2, sign, a') := fold_left (m_step lmax ca val) (seq 1 k) (1, ca, 0, - sa, -1, a) in
    (c1, s1) = cpow z k /\ (c2, s2) = nmul (cpow z k) (conj z) /\ sign = sgn_m (S k) /\
    (forall l m, (1 <= m <= k)%nat -> (m <= l <= lmax)%nat -> a' (lm2i_negm l m) = entry l m) /\
    (forall key, (forall l m, (1 <= m <= k)%nat -> (m <= l <= lmax)%nat -> lm2i_negm l m <> key) -> a' key = a key).
  Proof.
    induction k as [|k IH].
    - cbn [seq fold_left]. repeat split; auto; try (intros; lia).
      + apply cx_eq; cbn; ring.
      + unfold sgn_m. ring.
    - rewrite seq_S, fold_left_app. cbn [fold_left]. destruct (fold_left (m_step lmax ca val) (seq 1 k) (1, ca, 0, - sa, -1, a)) as [[[[[c1 c2] s1] s2] sign] a'].
      destruct IH as [E1 [E2 [E3 [E4 E5]]]]. unfold m_step. change (1 + k)%nat with (S k).
      assert (EC : (2 * ca * c1 - c2, 2 * ca * s1 - s2) = cpow z (S k)).
      { rewrite cpow_S, <- E1. rewrite <- E1 in E2. injection E2 as -> ->. apply cx_eq; cbn; ring. }
      assert (Ec : 2 * ca * c1 - c2 = re (cpow z (S k))) by (now rewrite <- EC). assert (Es : 2 * ca * s1 - s2 = im (cpow z (S k))) by (now rewrite <- EC).
      split; [exact EC|]. split.
      { rewrite E1, cpow_S. destruct (cpow z k) as [u w]. apply cx_eq; cbn.
        - transitivity (u * (ca * ca + sa * sa)); [rewrite unit; ring|ring].
        - transitivity (w * (ca * ca + sa * sa)); [rewrite unit; ring|ring]. }
      split; [rewrite E3; unfold sgn_m; cbn [pow]; ring|]. split.
      + intros l m Hm Hl. destruct (Nat.eq_dec m (S k)) as [->|N].
        * pose proof (fold_vset_in (fun l => lm2i_negm l (S k)) (fun l => val l (S k) (2 * ca * c1 - c2) (2 * ca * s1 - s2) sign) (seq (S k) (S lmax - S k)) a' l) as F. cbv beta in F.
          rewrite F; [unfold entry; now rewrite Ec, Es, E3| |apply in_seq; lia]. intros x y Hx Hy E. apply in_seq in Hx, Hy. apply negm_inj in E; lia.
        * pose proof (fold_vset (fun l => lm2i_negm l (S k)) (fun l => val l (S k) (2 * ca * c1 - c2) (2 * ca * s1 - s2) sign) (seq (S k) (S lmax - S k)) a' (lm2i_negm l m)) as F. cbv beta in F.
          rewrite F; [apply E4; lia|]. intros x Hx E. apply in_seq in Hx. apply negm_inj in E; lia.
      + intros key H. pose proof (fold_vset (fun l => lm2i_negm l (S k)) (fun l => val l (S k) (2 * ca * c1 - c2) (2 * ca * s1 - s2) sign) (seq (S k) (S lmax - S k)) a' key) as F. cbv beta in F.
        rewrite F; [apply E5; intros; apply H; lia|]. intros x Hx. apply in_seq in Hx. apply H; lia.
  Qed.
  Lemma fill_in l m : (m <= l <= lmax)%nat -> fill lmax ca sa val0 val (lm2i_negm l m) = entry l m.
  Proof.
    intros H. unfold fill. set (a := fold_left _ (seq 0 (S lmax)) _). pose proof (m_loop lmax a) as ML.
    destruct (fold_left (m_step lmax ca val) (seq 1 lmax) (1, ca, 0, - sa, -1, a)) as [[[[[c1 c2] s1] s2] sign] a']. destruct ML as [_ [_ [_ [A B]]]]. cbn [snd].
    destruct m as [|m]; [|apply A; lia]. rewrite B by (intros l' m' H1 H2 E; apply negm_inj in E; lia). unfold a.
    apply (fold_vset_in (fun l => lm2i_negm l 0) val0); [|apply in_seq; lia]. intros x y _ _ E. apply negm_inj in E; lia.
  Qed.
  Lemma fill_out key : (forall l m, (m <= l <= lmax)%nat -> lm2i_negm l m <> key) -> fill lmax ca sa val0 val key = (0, 0).
  Proof.
    intros H. unfold fill. set (a := fold_left _ (seq 0 (S lmax)) _). pose proof (m_loop lmax a) as ML.
    destruct (fold_left (m_step lmax ca val) (seq 1 lmax) (1, ca, 0, - sa, -1, a)) as [[[[[c1 c2] s1] s2] sign] a']. destruct ML as [_ [_ [_ [A B]]]]. cbn [snd].
    rewrite B by (intros; apply H; lia). unfold a. apply (fold_vset (fun l => lm2i_negm l 0) val0). intros l Hl. apply in_seq in Hl. apply H. lia.
  Qed.
End Fill.
