(** C89: self-consistent harmonic calculations: temperatures, samples, and histories of the object that starts them. *)
From Coq Require Import Reals Lra Sorted Ascii String List.
From Verif Require Import Base Num NumR Model.Structure Model.Readers Proofs.Readers Model.Transition Model.EOS Model.PotentialFile.
From Verif Require Props.C86.
From Verif Require Import Model.SSCHARuns.
Local Open Scope R_scope.

(** *** Specification of the numerical functions *)
Definition nearest (rnd : R -> Z) : Prop := forall x, Rabs (IZR (rnd x) - x) <= 1 / 2.
Definition is_nodes (nodes : nat -> list R) : Prop :=
  forall n, (2 <= n)%nat -> nodes n = map (fun k => cos (PI - PI * INR k / INR (n - 1))) (seq 0 n).
(** The tolerance within which a temperature is taken for an integer *)
Definition near (x : R) (z : Z) : Prop := Rabs (x - IZR z) <= / 100000000 + / 100000 * Rabs (IZR z).

Lemma Rabs_le_inv x a : Rabs x <= a -> - a <= x <= a.
Proof. unfold Rabs. destruct (Rcase_abs x); lra. Qed.
Lemma nz_R z : nz (F:=R) z = IZR z.
Proof.
  unfold nz. destruct (Z.ltb_spec z 0) as [H|H]; rewrite nnat_INR, INR_IZR_INZ, Z2Nat.id by lia; [|reflexivity]. cbn [nopp R_num]. now rewrite opp_IZR, Ropp_involutive.
Qed.
Lemma tol_R : atol (F:=R) = / 100000000 /\ rtol (F:=R) = / 100000.
Proof. unfold atol, rtol. rewrite !C86.frac_R. cbn [nmul R_num]. rewrite !INR_IZR_INZ. split; cbn [Z.of_nat Pos.of_succ_nat Pos.succ]; lra. Qed.
Lemma isclose_R a b : isclose (F:=R) a b = true <-> Rabs (a - b) <= / 100000000 + / 100000 * Rabs b.
Proof.
  unfold isclose. destruct tol_R as [-> ->]. cbn [nadd nmul nsub nabs nltb R_num R_ord]. rewrite negb_true_iff, Rltb_false. reflexivity.
Qed.
Lemma is_zero_R a : is_zero (F:=R) a = true <-> a = 0.
Proof. unfold is_zero. cbn [nltb n0 R_num R_ord]. rewrite andb_true_iff, !negb_true_iff, !Rltb_false. lra. Qed.

Section Round.
  Variable rnd : R -> Z.
  Hypothesis HR : nearest rnd.
  Notation round_t := (round_t (F:=R) rnd).
  Lemma rnd_int z : rnd (IZR z) = z.
  Proof.
    pose proof (HR (IZR z)) as H. rewrite <- minus_IZR in H. apply Rabs_le_inv in H. assert (-1 < rnd (IZR z) - z < 1)%Z; [|lia]. split; apply lt_IZR; lra.
  Qed.
  Lemma rnd_mono x y : x <= y -> (rnd x <= rnd y)%Z.
  Proof.
    intros [H|H]; [|subst; lia]. pose proof (HR x) as A. pose proof (HR y) as B. apply Rabs_le_inv in A. apply Rabs_le_inv in B.
    assert (rnd x - rnd y < 1)%Z; [|lia]. apply lt_IZR. rewrite minus_IZR. lra.
  Qed.
  Lemma round_int z : round_t (IZR z) = IZR z.
  Proof. unfold SSCHARuns.round_t. rewrite nz_R, rnd_int. now destruct (isclose _ _). Qed.
  (** A temperature is kept, or becomes an integer that is near. *)
  Lemma round_spec x : (exists z, round_t x = IZR z /\ near x z) \/ round_t x = x.
  Proof.
    unfold SSCHARuns.round_t. rewrite nz_R. destruct (isclose x (IZR (rnd x))) eqn:Q; [|now right]. left. exists (rnd x). split; [reflexivity|]. now apply isclose_R.
  Qed.
End Round.

Section Temperatures.
  Variables (ceil : R -> nat) (rnd : R -> Z) (nodes : nat -> list R).
  Hypothesis HC : C86.is_ceil ceil.
  Hypothesis HR : nearest rnd.
  Notation round_t := (round_t (F:=R) rnd).
  Notation temperatures := (temperatures (F:=R) ceil rnd nodes).
  Theorem C89_single q t : t_temp q = Some t -> exists x, temperatures q = Ok [x] /\ (x = t \/ exists z, x = IZR z /\ near t z).
  Proof.
    intros H. unfold SSCHARuns.temperatures. rewrite H. exists (round_t t). split; [reflexivity|]. destruct (round_spec rnd t) as [(z & E & H1)|E]; [right; eauto|now left].
  Qed.

  (** *** A progression *)
  Theorem C89_progression q : t_temp q = None -> t_n q = None -> 0 < round_t (t_step q) ->
    exists l, temperatures q = Ok (if t_asc q then l else rev l) /\ StronglySorted Rlt l /\
      forall x, In x l <-> exists k, x = round_t (t_min q) + INR k * round_t (t_step q) /\ x < round_t (t_max q) + 1.
  Proof.
    intros H1 H2 H3. unfold SSCHARuns.temperatures. rewrite H1, H2. destruct (is_zero _) eqn:Z; [apply is_zero_R in Z; lra|]. eexists. split; [reflexivity|]. split.
    - now apply C86.arange_sorted.
    - intros x. cbn [nadd n1 R_num]. now apply C86.arange_In.
  Qed.
  (** Integers: all steps from the lowest that are not above the highest *)
  Theorem C89_integers q a b s : t_temp q = None -> t_n q = None -> t_min q = IZR a -> t_max q = IZR b -> t_step q = IZR s -> (0 < s)%Z ->
    exists l, temperatures q = Ok (if t_asc q then map IZR l else rev (map IZR l)) /\ StronglySorted Z.lt l /\
      forall z, In z l <-> exists k, (0 <= k)%Z /\ z = (a + k * s)%Z /\ (z <= b)%Z.
  Proof.
    intros H1 H2 Ha Hb Hs Ps. destruct (C89_progression q H1 H2) as (l & L1 & L2 & L3); [rewrite Hs, (round_int rnd HR); now apply IZR_lt|].
    rewrite Ha, Hb, Hs, !(round_int rnd HR) in L3.
    assert (HI : forall x, In x l -> exists z, x = IZR z) by (intros x Hx; apply L3 in Hx; destruct Hx as (k & -> & _); exists (a + Z.of_nat k * s)%Z; now rewrite plus_IZR, mult_IZR, INR_IZR_INZ).
    assert (HM : exists zs, l = map IZR zs). { clear L1 L2 L3. induction l as [|x l IH]; [now exists []|]. destruct IH as [zs ->]; [intros y Hy; apply HI; now right|]. destruct (HI x ltac:(now left)) as [z ->]. now exists (z :: zs). }
    destruct HM as [zs ->]. exists zs. split; [exact L1|]. split.
    - clear L1 L3 HI. induction zs as [|z zs IH]; [constructor|]. cbn [map] in L2. inversion L2 as [|? ? K1 K2]; subst. constructor; [now apply IH|]. rewrite Forall_forall in K2. apply Forall_forall. intros y Hy. apply lt_IZR, K2. now apply in_map.
    - intros z. assert (E : In z zs <-> In (IZR z) (map IZR zs)). { split; [apply in_map|]. intros H. apply in_map_iff in H. destruct H as (y & E & Hy). apply eq_IZR in E. now subst. }
      rewrite E, L3. split.
      + intros (k & K1 & K2). exists (Z.of_nat k). split; [lia|]. rewrite INR_IZR_INZ, <- mult_IZR, <- plus_IZR in K1. apply eq_IZR in K1. split; [exact K1|]. rewrite <- plus_IZR in K2. apply lt_IZR in K2. lia.
      + intros (k & K0 & K1 & K2). exists (Z.to_nat k). rewrite INR_IZR_INZ, Z2Nat.id, <- mult_IZR, <- plus_IZR by exact K0. split; [now f_equal|]. rewrite <- plus_IZR. apply IZR_lt. lia.
  Qed.
  (** "No temperature is above temp_max": 0, 3/4 and 3/2 for temperatures from 0 to 1 *)
  Theorem C89_above_refuted : exists q l, t_temp q = None /\ t_n q = None /\ t_max q = 1 /\ temperatures q = Ok l /\ In (3 / 2) l.
  Proof.
    exists (mk_tset None 0 1 (3 / 4) None true).
    assert (R34 : round_t (3 / 4) = 3 / 4). { destruct (round_spec rnd (3 / 4)) as [(z & E & H)|E]; [|exact E]. exfalso. unfold near in H.
      destruct (Z.le_gt_cases z 0) as [L|L].
      - assert (L' := IZR_le _ _ L). rewrite (Rabs_left1 (IZR z)), Rabs_right in H by lra. lra.
      - assert (L' : (1 <= z)%Z) by lia. apply IZR_le in L'. rewrite (Rabs_right (IZR z)), Rabs_left1 in H by lra. lra. }
    destruct (C89_progression (mk_tset None 0 1 (3 / 4) None true) eq_refl eq_refl) as (l & L1 & _ & L3); [cbn [t_step]; rewrite R34; lra|].
    exists l. cbn [t_asc t_min t_max t_step] in *. repeat split; [exact L1|]. apply L3. exists 2%nat. rewrite R34, (round_int rnd HR 0), (round_int rnd HR 1). cbn. lra.
  Qed.
  (** A step close to zero is refused. *)
  Theorem C89_step_zero q : t_temp q = None -> t_n q = None -> Rabs (t_step q) <= / 100000000 -> temperatures q = Err ZeroDivisionError.
  Proof.
    intros H1 H2 H3. unfold SSCHARuns.temperatures. rewrite H1, H2. assert (E : rnd (t_step q) = 0%Z).
    { pose proof (HR (t_step q)) as A. apply Rabs_le_inv in A. apply Rabs_le_inv in H3. assert (-1 < rnd (t_step q) < 1)%Z; [|lia]. split; apply lt_IZR; lra. }
    assert (Z : is_zero (round_t (t_step q)) = true); [|now rewrite Z]. apply is_zero_R. unfold SSCHARuns.round_t. rewrite E, nz_R.
    assert (isclose (t_step q) (IZR 0) = true) as ->; [|reflexivity]. apply isclose_R. rewrite Rminus_0_r, Rabs_R0. lra.
  Qed.

  (** *** Chebyshev nodes: integers from the lowest to the highest temperature, never descending *)
  Hypothesis HN : is_nodes nodes.
  Definition chebyshev (lo hi : R) (n k : nat) : R := (hi - lo) * (cos (PI - PI * INR k / INR (n - 1)) + 1) / 2 + lo.
  Lemma chebyshev_mono lo hi n j k : lo < hi -> (2 <= n)%nat -> (j <= k < n)%nat -> chebyshev lo hi n j <= chebyshev lo hi n k.
  Proof using.
    clear. intros H Hn Hk. unfold chebyshev. assert (D : 0 < INR (n - 1)) by (apply (lt_INR 0); lia). pose proof PI_RGT_0 as P.
    assert (B : forall i, (i < n)%nat -> 0 <= PI - PI * INR i / INR (n - 1) <= PI).
    { intros i Hi. assert (I : 0 <= INR i / INR (n - 1) <= 1). { split; [apply Rmult_le_pos; [apply pos_INR|left; now apply Rinv_0_lt_compat]|]. apply (Rmult_le_reg_r (INR (n - 1))); [exact D|]. unfold Rdiv. rewrite Rmult_assoc, Rinv_l, Rmult_1_r, Rmult_1_l by lra. apply le_INR. lia. }
      replace (PI * INR i / INR (n - 1)) with (PI * (INR i / INR (n - 1))) by (unfold Rdiv; ring). assert (PI * (INR i / INR (n - 1)) <= PI * 1) by (apply Rmult_le_compat_l; lra). assert (0 <= PI * (INR i / INR (n - 1))) by (apply Rmult_le_pos; lra). lra. }
    assert (C : cos (PI - PI * INR j / INR (n - 1)) <= cos (PI - PI * INR k / INR (n - 1))).
    { apply cos_decr_1; try (apply B; lia). assert (PI * INR j / INR (n - 1) <= PI * INR k / INR (n - 1)); [|lra]. unfold Rdiv. apply Rmult_le_compat_r; [left; now apply Rinv_0_lt_compat|]. apply Rmult_le_compat_l; [lra|]. apply le_INR. lia. }
    assert ((hi - lo) * (cos (PI - PI * INR j / INR (n - 1)) + 1) <= (hi - lo) * (cos (PI - PI * INR k / INR (n - 1)) + 1)) by (apply Rmult_le_compat_l; lra). lra.
  Qed.
  Lemma chebyshev_ends lo hi n : (2 <= n)%nat -> chebyshev lo hi n 0 = lo /\ chebyshev lo hi n (n - 1) = hi.
  Proof using.
    clear. intros Hn. unfold chebyshev. assert (D : 0 < INR (n - 1)) by (apply (lt_INR 0); lia). split.
    - replace (PI - PI * INR 0 / INR (n - 1)) with PI by (cbn; field; lra). rewrite cos_PI. field.
    - replace (PI - PI * INR (n - 1) / INR (n - 1)) with 0 by (field; lra). rewrite cos_0. field.
  Qed.
  Theorem C89_nodes q n : t_temp q = None -> t_n q = Some n -> (2 <= n)%nat -> t_min q < t_max q -> ~ Rabs (t_max q - t_min q) <= / 100000000 + / 100000 * Rabs (t_min q) ->
    exists l, temperatures q = Ok (map IZR l) /\ length l = n /\ StronglySorted Z.le l /\ hd_error l = Some (rnd (t_min q)) /\ hd_error (rev l) = Some (rnd (t_max q)) /\
      forall k, (k < n)%nat -> exists z, nth_error l k = Some z /\ Rabs (IZR z - chebyshev (t_min q) (t_max q) n k) <= 1 / 2.
  Proof.
    intros H1 H2 Hn Hlt Hc. set (l := map (fun k => rnd (chebyshev (t_min q) (t_max q) n k)) (seq 0 n)). exists l.
    assert (E : temperatures q = Ok (map IZR l)).
    { unfold SSCHARuns.temperatures. rewrite H1, H2. destruct (isclose (t_max q) (t_min q)) eqn:Q; [apply isclose_R in Q; contradiction|]. f_equal. rewrite (HN n Hn). unfold l. rewrite !map_map. apply map_ext. intros k.
      rewrite nz_R, (round_int rnd HR). f_equal. f_equal. unfold chebyshev. cbn [nadd nmul nsub ndiv n1 R_num nnat]. replace (1 + (1 + n0)) with 2 by (cbn; lra). reflexivity. }
    split; [exact E|]. split; [unfold l; now rewrite map_length, seq_length|]. split; [|split; [|split]].
    - unfold l. assert (G : forall m a, (a + m <= n)%nat -> StronglySorted Z.le (map (fun k => rnd (chebyshev (t_min q) (t_max q) n k)) (seq a m))).
      { induction m as [|m IH]; intros a Ha; cbn [seq map]; constructor; [apply IH; lia|]. apply Forall_forall. intros y Hy. apply in_map_iff in Hy. destruct Hy as (k & <- & Hk). apply in_seq in Hk. apply (rnd_mono rnd HR), chebyshev_mono; [exact Hlt|exact Hn|lia]. }
      apply G. lia.
    - destruct (chebyshev_ends (t_min q) (t_max q) n Hn) as [E0 _]. unfold l. destruct n as [|n']; [lia|]. cbn [seq map hd_error]. now rewrite E0.
    - destruct (chebyshev_ends (t_min q) (t_max q) n Hn) as [_ E1]. unfold l. assert (SQ : seq 0 n = seq 0 (n - 1) ++ [(n - 1)%nat]) by (replace n with (S (n - 1)) at 1 by lia; apply seq_S). rewrite SQ, map_app, rev_app_distr. cbn [map rev app hd_error Nat.add]. now rewrite E1.
    - intros k Hk. exists (rnd (chebyshev (t_min q) (t_max q) n k)). split; [|apply HR]. unfold l. rewrite nth_error_map, (nth_error_nth' _ 0%nat) by (now rewrite seq_length). now rewrite seq_nth.
  Qed.
  (** "The temperatures descend unless ascending_temp is set": the flag is not looked at. *)
  Theorem C89_nodes_order_refuted t lo hi st n a : temperatures (mk_tset t lo hi st (Some n) a) = temperatures (mk_tset t lo hi st (Some n) (negb a)).
  Proof. reflexivity. Qed.
  (** "The temperatures differ": not if there are more of them than integers. *)
  Theorem C89_nodes_repeat_refuted q n l : t_temp q = None -> t_n q = Some n -> (2 <= n)%nat -> t_min q < t_max q -> ~ Rabs (t_max q - t_min q) <= / 100000000 + / 100000 * Rabs (t_min q) ->
    (rnd (t_max q) - rnd (t_min q) + 1 < Z.of_nat n)%Z -> temperatures q = Ok l -> ~ NoDup l.
  Proof.
    intros H1 H2 Hn Hlt Hc Hm E ND. destruct (C89_nodes q n H1 H2 Hn Hlt Hc) as (zs & Z1 & Z2 & Z3 & Z4 & Z5 & _). assert (l = map IZR zs) by congruence. subst l. clear E.
    apply NoDup_map_inv in ND. set (a := rnd (t_min q)) in *. set (b := rnd (t_max q)) in *.
    assert (IN : incl zs (map (fun k => (a + Z.of_nat k)%Z) (seq 0 (Z.to_nat (b - a + 1))))).
    { intros z Hz. assert (a <= z <= b)%Z.
      { split.
        - destruct zs as [|y zs]; [destruct Hz|]. cbn in Z4. assert (y = a) by congruence. subst y. inversion Z3 as [|? ? K1 K2]; subst. destruct Hz as [<-|Hz]; [lia|]. rewrite Forall_forall in K2. now apply K2.
        - clear - Z3 Z5 Hz. destruct zs as [|x xs _] using rev_ind; [destruct Hz|]. rewrite rev_app_distr in Z5. cbn in Z5. assert (x = b) by congruence. subst x. apply in_app_iff in Hz. destruct Hz as [Hz|[<-|[]]]; [|lia].
          clear Z5. induction xs as [|y ys IH]; [destruct Hz|]. cbn [app] in Z3. inversion Z3 as [|? ? K1 K2]; subst. destruct Hz as [<-|Hz]; [|now apply IH]. rewrite Forall_forall in K2. apply K2. apply in_app_iff. right. now left. }
      apply in_map_iff. exists (Z.to_nat (z - a)). split; [lia|]. apply in_seq. lia. }
    pose proof (NoDup_incl_length ND IN) as LE. rewrite Z2, map_length, seq_length in LE. lia.
  Qed.
End Temperatures.

(** *** Numbers of cells and samples *)
Section Samples.
  Variables (ceil : R -> nat) (rnd : R -> Z) (nodes : nat -> list R) (pow25 : R -> R).
  Hypothesis HR : nearest rnd.
  Variables (St FC P W : Type) (atoms : St -> nat).
  (** The determinant of an integer matrix *)
  Definition zdet (m : nat -> nat -> Z) : Z :=
    (m 0%nat 0%nat * m 1%nat 1%nat * m 2%nat 2%nat + m 0%nat 1%nat * m 1%nat 2%nat * m 2%nat 0%nat + m 0%nat 2%nat * m 1%nat 0%nat * m 2%nat 1%nat - m 0%nat 2%nat * m 1%nat 1%nat * m 2%nat 0%nat - m 0%nat 1%nat * m 1%nat 0%nat * m 2%nat 2%nat - m 0%nat 0%nat * m 1%nat 2%nat * m 2%nat 1%nat)%Z.
  Theorem C89_cells cell m z fc q p : (forall i j, matrix_of (F:=R) m i j = IZR (z i j)) -> new_params (F:=R) ceil rnd nodes St FC atoms cell m fc q = Ok p ->
    p_units St FC p = zdet z /\ p_natom St FC p = (Z.of_nat (atoms cell) * zdet z)%Z /\ p_matrix St FC p = matrix_of m /\ p_cell St FC p = cell /\ p_fc2 St FC p = fc.
  Proof.
    intros Hm H. unfold new_params in H. destruct (temperatures _ _ _ _) as [ts|]; [|discriminate]. cbn [bind] in H. assert (U : units_of rnd m = zdet z).
    { unfold units_of, det3. rewrite !Hm. cbn [nadd nmul nsub R_num]. rewrite <- !mult_IZR, <- !minus_IZR, <- !mult_IZR, <- !minus_IZR, <- plus_IZR. rewrite (rnd_int rnd HR). unfold zdet. ring. }
    match type of H with Ok ?x = _ => assert (x = p) as <- by congruence end. cbn. rewrite U. auto.
  Qed.
  Theorem C89_diagonal a b c : forall i j, (i < 3)%nat -> (j < 3)%nat -> matrix_of (F:=R) (Three a b c) i j = if (i =? j)%nat then nth i [a; b; c] 0 else 0.
  Proof. intros i j Hi Hj. destruct i as [|[|[|]]]; try lia; destruct j as [|[|[|]]]; try lia; reflexivity. Qed.
  (** "The number of atoms is not negative": two rows exchanged *)
  Theorem C89_cells_refuted : exists m, units_of (F:=R) rnd (Full m) = (-1)%Z.
  Proof.
    exists (fun i j => match i, j with 0%nat, 1%nat => 1 | 1%nat, 0%nat => 1 | 2%nat, 2%nat => 1 | _, _ => 0 end). unfold units_of, det3. cbn [matrix_of nadd nmul nsub R_num].
    match goal with |- rnd ?x = _ => replace x with (IZR (-1)) by lra end. now apply (rnd_int rnd HR).
  Qed.

  Variable basis : St -> (nat -> nat -> R) -> option R -> res nat.
  Notation new_core := (new_core (F:=R) rnd pow25 St FC basis).
  Notation params := (params (F:=R) St FC).
  (** Everything but the numbers of samples *)
  Definition rest_same (p p' : params) : Prop := p' = with_samples St FC p (p_init St FC p') (p_final St FC p').
  (** Both numbers come from the size of the basis if the first is not given, and none does if it is. *)
  Theorem C89_samples p p' nb : basis (p_cell St FC p) (p_matrix St FC p) (p_cutoff St FC p) = Ok nb -> new_core p = (p', Ok tt) ->
    rest_same p p' /\
    match p_init St FC p with
    | Some i => p' = p
    | None => p_natom St FC p <> 0%Z /\ exists i, p_init St FC p' = Some i /\ p_final St FC p' = Some (3 * i)%Z /\
                Rabs (IZR i - 450 * pow25 (1 / 100 / p_tol St FC p) * INR nb / IZR (p_natom St FC p)) <= 1 / 2
    end.
  Proof.
    intros HB H. unfold SSCHARuns.new_core in H. rewrite HB in H. destruct p as [c m u na ts init final tol alg fc cut]. cbn [p_init p_natom p_tol p_cell p_matrix p_cutoff] in *.
    destruct init as [i|]; [assert (p' = mk_params St FC c m u na ts (Some i) final tol alg fc cut) by congruence; subst; now split|].
    unfold samples_from_basis in H. destruct (Z.eqb_spec na 0) as [->|Hna]; [discriminate|]. destruct (is_zero tol); [discriminate|].
    match type of H with context [with_samples _ _ _ (Some ?x) _] => set (i := x) in * end. assert (E : p' = with_samples St FC (mk_params St FC c m u na ts None final tol alg fc cut) (Some i) (Some (3 * i)%Z)) by congruence. subst p'. split; [reflexivity|]. split; [exact Hna|].
    exists i. split; [reflexivity|]. split; [reflexivity|]. unfold i. rewrite C86.frac_R, nz_R, !nnat_INR. cbn [nmul ndiv R_num].
    replace (INR 450) with 450 by (rewrite INR_IZR_INZ; reflexivity). replace (INR 1 / INR 100) with (1 / 100) by (rewrite !INR_IZR_INZ; reflexivity). apply HR.
  Qed.
  (** "A number of samples for the last step that is given is used": not without the other number *)
  Theorem C89_final_refuted p p' f nb : basis (p_cell St FC p) (p_matrix St FC p) (p_cutoff St FC p) = Ok nb -> p_init St FC p = None -> p_final St FC p = Some f -> new_core p = (p', Ok tt) ->
    exists i, p_init St FC p' = Some i /\ p_final St FC p' = Some (3 * i)%Z.
  Proof. intros HB H1 H2 H. destruct (C89_samples p p' nb HB H) as [_ S]. rewrite H1 in S. destruct S as (_ & i & A & B & _). eauto. Qed.
  Theorem C89_samples_errors p : (forall e, basis (p_cell St FC p) (p_matrix St FC p) (p_cutoff St FC p) = Err e -> new_core p = (p, Err e)) /\
    (forall nb, basis (p_cell St FC p) (p_matrix St FC p) (p_cutoff St FC p) = Ok nb -> p_init St FC p = None ->
      (p_natom St FC p = 0%Z -> new_core p = (p, Err RuntimeError)) /\ (p_natom St FC p <> 0%Z -> p_tol St FC p = 0 -> new_core p = (p, Err ZeroDivisionError))).
  Proof.
    unfold SSCHARuns.new_core. split; [now intros e ->|]. intros nb -> ->. unfold samples_from_basis. split; [now intros ->|]. intros H HT. destruct (Z.eqb_spec (p_natom St FC p) 0); [contradiction|].
    rewrite (proj2 (is_zero_R _) HT). reflexivity.
  Qed.
  (** The other way to set the numbers fails if only the first is given. *)
  Theorem C89_unbound_refuted n i : n <> 0%Z -> set_n_samples (F:=R) rnd (Some n) (Some i) None = Err UnboundLocalError.
  Proof. intros H. unfold set_n_samples. destruct (Z.eqb_spec n 0); [contradiction|reflexivity]. Qed.
  Theorem C89_set_samples n init final : n <> 0%Z -> (init = None \/ final <> None) -> exists u, Rabs (IZR u - 6400 / IZR n) <= 1 / 2 /\
    set_n_samples (F:=R) rnd (Some n) init final = Ok (match init with Some i => i | None => 20 * u end, match final with Some f => f | None => 60 * u end)%Z.
  Proof.
    intros H HI. exists (rnd (6400 / IZR n)). split; [apply HR|]. unfold set_n_samples. destruct (Z.eqb_spec n 0); [contradiction|]. rewrite nz_R, !nnat_INR. cbn [nmul ndiv R_num].
    replace (INR 64 * INR 100) with 6400 by (rewrite !INR_IZR_INZ, <- mult_IZR; reflexivity). destruct init, final; try reflexivity. destruct HI; congruence.
  Qed.
  Theorem C89_set_samples_errors init final : set_n_samples (F:=R) rnd None init final = Err RuntimeError /\ set_n_samples (F:=R) rnd (Some 0%Z) init final = Err RuntimeError.
  Proof. split; reflexivity. Qed.
End Samples.

(** *** Runs *)
Section Runs.
  Variables (ceil : R -> nat) (rnd : R -> Z) (nodes : nat -> list R) (pow25 : R -> R).
  Variables (St FC P W : Type) (atoms : St -> nat).
  Variable basis : St -> (nat -> nat -> R) -> option R -> res nat.
  Notation params := (params (F:=R) St FC).
  Variable core_run : P -> params -> R -> W -> FC -> W * res (FC * R).
  Variable core_pre : P -> params -> R -> Z -> W -> FC -> W * res (FC * R).
  Notation p_temps := (p_temps (F:=R) St FC). Notation p_init := (p_init (F:=R) St FC). Notation p_tol := (p_tol (F:=R) St FC). Notation p_fc2 := (p_fc2 (F:=R) St FC).
  Notation p_cutoff := (p_cutoff (F:=R) St FC). Notation p_cell := (p_cell (F:=R) St FC). Notation p_alg := (p_alg (F:=R) St FC). Notation p_matrix := (p_matrix (F:=R) St FC).
  Notation new_core := (new_core (F:=R) rnd pow25 St FC basis).
  Notation core := (core (F:=R) St FC).

  (** Passes of the preconditioning, each with more samples, as long as the score is above five tolerances *)
  Inductive passes (pot : P) (p : params) (t : R) (n : Z) : Z -> R -> W -> FC -> nat -> R -> W -> FC -> Prop :=
    | pass_none k d w fc : passes pot p t n k d w fc 0 d w fc
    | pass_more k d w fc w1 fc1 d1 m d2 w2 fc2 : 5 * p_tol p < d -> core_pre pot p t (n * k)%Z w fc = (w1, Ok (fc1, d1)) ->
        passes pot p t n (k + 1)%Z d1 w1 fc1 m d2 w2 fc2 -> passes pot p t n k d w fc (S m) d2 w2 fc2.
  Theorem C89_precondition pot p w fc w' fc' i : p_init p = Some i -> precondition (F:=R) St FC P W core_pre pot p w fc = (w', Ok fc') ->
    exists n t m d, (n = i / 50 /\ 5 <= n <= 100 \/ n = 5 /\ i / 50 < 5 \/ n = 100 /\ 100 < i / 50)%Z /\ (m <= 19)%nat /\ (m = 0%nat \/ hd_error (p_temps p) = Some t) /\
      passes pot p t n 1 1 w fc m d w' fc' /\ (m = 19%nat \/ d <= 5 * p_tol p).
  Proof.
    intros HI H. unfold precondition in H. rewrite HI in H. set (n := first_samples i) in *.
    assert (NB : (n = i / 50 /\ 5 <= n <= 100 \/ n = 5 /\ i / 50 < 5 \/ n = 100 /\ 100 < i / 50)%Z) by (unfold n, first_samples; lia).
    enough (G : forall fuel k d w fc, pre_loop (F:=R) St FC P W core_pre fuel pot p n k d w fc = (w', Ok fc') ->
      exists t m d', (m <= fuel)%nat /\ (m = 0%nat \/ hd_error (p_temps p) = Some t) /\ passes pot p t n k d w fc m d' w' fc' /\ (m = fuel \/ d' <= 5 * p_tol p)).
    { destruct (G _ _ _ _ _ H) as (t & m & d & A & B & C & D). exists n, t, m, d. auto. }
    clear H w fc. induction fuel as [|fuel IH]; intros k d w fc H; cbn [pre_loop] in H.
    - assert (w' = w /\ fc' = fc) as [-> ->] by (split; congruence). exists 0, 0%nat, d. split; [lia|]. split; [now left|]. split; [constructor|now left].
    - cbn [nltb nmul R_ord R_num] in H. rewrite nnat_INR in H. replace (INR 5) with 5 in H by (cbn; lra). destruct (Rltb (p_tol p * 5) d) eqn:Q.
      + apply Rltb_true in Q. destruct (p_temps p) as [|t ts] eqn:ET; [discriminate|]. destruct (core_pre pot p t (n * k)%Z w fc) as [w1 [[fc1 d1]|e]] eqn:EC; [|discriminate].
        destruct (IH _ _ _ _ H) as (t' & m & d' & A & B & C & D). destruct B as [B|B].
        * subst m. exists t, 1%nat, d'. split; [lia|]. split; [now right|]. split; [|destruct D as [D|D]; [left; lia|now right]]. inversion C; subst. econstructor; [lra|exact EC|constructor].
        * cbn in B. assert (t' = t) by congruence. subst t'. exists t, (S m), d'. split; [lia|]. split; [now right|]. split; [econstructor; [lra|exact EC|exact C]|destruct D as [D|D]; [left; lia|now right]].
      + apply Rltb_false in Q. assert (w' = w /\ fc' = fc) as [-> ->] by (split; congruence). exists 0, 0%nat, d. split; [lia|]. split; [now left|]. split; [constructor|right; lra].
  Qed.

  (** Temperatures in order, each run starting from the force constants of the one before *)
  Inductive chain (pot : P) (p : params) : W -> FC -> list (R * FC) -> W -> FC -> Prop :=
    | chain_nil w fc : chain pot p w fc [] w fc
    | chain_cons t w fc w1 fc1 d l w2 fc2 : core_run pot p t w fc = (w1, Ok (fc1, d)) -> chain pot p w1 fc1 l w2 fc2 -> chain pot p w fc ((t, fc1) :: l) w2 fc2.
  Theorem C89_target pot p w fc w' saved r : finish (F:=R) St FC P W core_run pot p w fc None = (w', saved, r) ->
    exists w1 fc1, chain pot p w fc saved w1 fc1 /\
      match r with
      | Ok c => map fst saved = p_temps p /\ w' = w1 /\ c_fc St FC c = fc1 /\ c_params St FC c = p /\ c_temp St FC c = hd_error (rev (p_temps p))
      | Err e => exists t rest, p_temps p = map fst saved ++ t :: rest /\ core_run pot p t w1 fc1 = (w', Err e)
      end.
  Proof.
    unfold finish. destruct (run_target _ _ _ _ _ _ _ _ _ _ _) as [[w0 s0] r0] eqn:E. intros H. assert (w' = w0 /\ saved = s0) as [-> ->] by (split; congruence).
    assert (HR' : r = (do (fc, last) <- r0; Ok (mk_core St FC p fc last))) by congruence. clear H.
    enough (G : forall temps w fc last w0 s0 r0, run_target (F:=R) St FC P W core_run pot p temps w fc last = (w0, s0, r0) ->
      exists w1 fc1, chain pot p w fc s0 w1 fc1 /\ match r0 with
        | Ok (fc', l') => map fst s0 = temps /\ w0 = w1 /\ fc' = fc1 /\ l' = match rev temps with t :: _ => Some t | [] => last end
        | Err e => exists t rest, temps = map fst s0 ++ t :: rest /\ core_run pot p t w1 fc1 = (w0, Err e) end).
    { destruct (G _ _ _ _ _ _ _ E) as (w1 & fc1 & C & D). exists w1, fc1. split; [exact C|]. destruct r0 as [[fc' l']|e]; subst r; cbn [bind].
      - cbn. destruct D as (D1 & D2 & D3 & D4). split; [exact D1|]. split; [exact D2|]. split; [exact D3|]. split; [reflexivity|]. rewrite D4. now destruct (rev (p_temps p)).
      - exact D. }
    clear. induction temps as [|t temps IH]; intros w fc last w0 s0 r0 E; cbn [run_target] in E.
    - assert (s0 = [] /\ w0 = w /\ r0 = Ok (fc, last)) as (-> & -> & ->) by (repeat split; congruence). exists w, fc. split; [constructor|]. auto.
    - destruct (core_run pot p t w fc) as [w1 [[fc1 d]|e]] eqn:EC.
      + destruct (run_target _ _ _ _ _ _ _ _ _ _ _) as [[w2 s2] r2] eqn:ER. assert (s0 = (t, fc1) :: s2 /\ w0 = w2 /\ r0 = r2) as (-> & -> & ->) by (repeat split; congruence).
        destruct (IH _ _ _ _ _ _ ER) as (w3 & fc3 & C & D). exists w3, fc3. split; [econstructor; [exact EC|exact C]|]. destruct r2 as [[fc' l']|e].
        * destruct D as (D1 & D2 & D3 & D4). cbn [map fst]. rewrite D1. split; [reflexivity|]. split; [exact D2|]. split; [exact D3|]. rewrite D4. cbn [rev]. destruct (rev temps); reflexivity.
        * destruct D as (t' & rest & D1 & D2). exists t', rest. cbn [map fst app]. rewrite <- D1. split; [reflexivity|exact D2].
      + assert (s0 = [] /\ w0 = w1 /\ r0 = Err e) as (-> & -> & ->) by (repeat split; congruence). exists w, fc. split; [constructor|]. exists t, temps. split; [reflexivity|exact EC].
  Qed.

  (** *** The start of a run *)
  Notation run_sscha i := (run_sscha (F:=R) rnd pow25 St FC P W basis i core_run core_pre).
  (** "init_fc_algorithm decides how a run starts": not if force constants are held; they are used, whatever the algorithm. *)
  Theorem C89_start_refuted initial initial' pot pre large p w fc : p_fc2 p = Some fc -> run_sscha initial pot pre large p w = run_sscha initial' pot pre large p w.
  Proof.
    intros H. assert (NC : forall q, p_fc2 (fst (new_core q)) = p_fc2 q).
    { intros q. unfold SSCHARuns.new_core. destruct (basis _ _ _); [|reflexivity]. destruct (SSCHARuns.p_init _ _ q); [reflexivity|]. destruct (samples_from_basis _ _ _ _ _) as [[]|]; reflexivity. }
    unfold SSCHARuns.run_sscha. destruct large.
    - unfold run_large. set (q := if (match p_cutoff p with None => true | Some c => nltb seven c end) then _ else p). assert (Q : p_fc2 q = Some fc) by (unfold q; now destruct (match p_cutoff p with None => true | Some c => nltb seven c end)).
      pose proof (NC q) as E. destruct (new_core q) as [q' [u|e]]; [|reflexivity]. cbn [fst] in E. unfold initial_fc. rewrite E, Q. reflexivity.
    - unfold run_standard. pose proof (NC p) as E. destruct (new_core p) as [q' [u|e]]; [|reflexivity]. cbn [fst] in E. unfold initial_fc. rewrite E, H. reflexivity.
  Qed.
  Theorem C89_standard initial pot pre p w p' : new_core p = (p', Ok tt) ->
    run_sscha initial pot pre false p w =
    (p', match (match p_fc2 p with Some fc => (w, Ok fc) | None => match p_alg p with Other => (w, Err RuntimeError) | _ => initial pot p' w end end) with
         | (w, Err e) => (w, [], Err e)
         | (w, Ok fc) => match (if pre then precondition St FC P W core_pre pot p' w fc else (w, Ok fc)) with
                         | (w, Err e) => (w, [], Err e)
                         | (w, Ok fc) => finish St FC P W core_run pot p' w fc None
                         end
         end).
  Proof.
    intros H. unfold SSCHARuns.run_sscha, run_standard. rewrite H. unfold initial_fc, pre_if.
    assert (E : p_fc2 p' = p_fc2 p /\ p_alg p' = p_alg p).
    { unfold SSCHARuns.new_core in H. destruct (basis _ _ _); [|discriminate]. destruct (SSCHARuns.p_init _ _ p); [assert (p' = p) by congruence; now subst|].
      destruct (samples_from_basis _ _ _ _ _) as [[i f]|]; [|discriminate]. assert (p' = with_samples St FC p (Some i) (Some f)) by congruence. now subst. }
    destruct E as [-> ->]. reflexivity.
  Qed.
  (** A temporary cutoff: the parameters get their cutoff back if the run ends well; the result has it and its own numbers of samples. *)
  Theorem C89_large initial pot pre p w p' w' saved c : run_sscha initial pot pre true p w = (p', (w', saved, Ok c)) ->
    p_cutoff p' = p_cutoff p /\ p_cutoff (c_params St FC c) = p_cutoff p /\ map fst saved = p_temps p /\
    ((p_cutoff p = None \/ exists x, p_cutoff p = Some x /\ 7 < x) -> new_core p = (c_params St FC c, Ok tt) /\ exists p6, new_core (with_cutoff St FC p (Some 6)) = (p6, Ok tt) /\ p' = with_cutoff St FC p6 (p_cutoff p)) /\
    ((exists x, p_cutoff p = Some x /\ x <= 7) -> p' = c_params St FC c).
  Proof.
    assert (NC : forall q, p_cutoff (fst (new_core q)) = p_cutoff q /\ p_temps (fst (new_core q)) = p_temps q).
    { intros q. unfold SSCHARuns.new_core. destruct (basis _ _ _); [|split; reflexivity]. destruct (SSCHARuns.p_init _ _ q); [split; reflexivity|]. destruct (samples_from_basis _ _ _ _ _) as [[]|]; split; reflexivity. }
    unfold SSCHARuns.run_sscha, run_large. cbn [nltb R_ord]. replace (seven (F:=R)) with 7 by (unfold seven; rewrite nnat_INR; cbn; lra). replace (nnat (F:=R) 6) with 6 by (rewrite nnat_INR; cbn; lra).
    set (b := match p_cutoff p with None => true | Some c => Rltb 7 c end). assert (HB : b = true \/ b = false) by (destruct b; auto). destruct HB as [HB|HB]; rewrite HB.
    - pose proof (NC (with_cutoff St FC p (Some 6))) as [N1 N2]. destruct (new_core (with_cutoff St FC p (Some 6))) as [p6 [u|e]] eqn:E6; [|discriminate]. cbn [fst] in N1, N2.
      destruct (initial_fc _ _ _ _ _ _ _ _ _) as [w1 [fc|e]]; [|discriminate]. destruct (pre_if _ _ _ _ _ _ _ _ _ _) as [w2 [fc2|e]]; [|discriminate].
      destruct (p_temps p6) as [|t ts] eqn:ET; [discriminate|]. destruct (core_run pot p6 t w2 fc2) as [w3 [[fc3 d]|e]]; [|discriminate].
      pose proof (NC p) as [M1 M2]. destruct (new_core p) as [pt [u'|e]] eqn:EP; [|discriminate]. cbn [fst] in M1, M2. intros H.
      assert (p' = with_cutoff St FC p6 (p_cutoff p)) by congruence. subst p'. assert (HF : finish (F:=R) St FC P W core_run pot pt w3 fc3 None = (w', saved, Ok c)) by congruence.
      destruct (C89_target _ _ _ _ _ _ _ HF) as (w4 & fc4 & _ & T1 & _ & _ & T2 & _). rewrite T2. split; [reflexivity|]. split; [exact M1|]. split; [rewrite T1; exact M2|]. split.
      + intros _. destruct u, u'. split; [reflexivity|]. exists p6. split; [reflexivity|reflexivity].
      + intros (x & X1 & X2). exfalso. unfold b in HB. rewrite X1 in HB. apply Rltb_true in HB. lra.
    - pose proof (NC p) as [N1 N2]. destruct (new_core p) as [p6 [u|e]] eqn:E6; [|discriminate]. cbn [fst] in N1, N2.
      destruct (initial_fc _ _ _ _ _ _ _ _ _) as [w1 [fc|e]]; [|discriminate]. destruct (pre_if _ _ _ _ _ _ _ _ _ _) as [w2 [fc2|e]]; [|discriminate]. intros H.
      assert (p' = p6) by congruence. subst p'. assert (HF : finish (F:=R) St FC P W core_run pot p6 w2 fc2 None = (w', saved, Ok c)) by congruence.
      destruct (C89_target _ _ _ _ _ _ _ HF) as (w4 & fc4 & _ & T1 & _ & _ & T2 & _). rewrite T2. split; [exact N1|]. split; [exact N1|]. split; [rewrite T1; exact N2|]. split; [|reflexivity].
      intros [X|(x & X1 & X2)]; exfalso; unfold b in HB; [rewrite X in HB; discriminate|rewrite X1 in HB; apply Rltb_false in HB; lra].
  Qed.
  (** It starts with a run at the first temperature and the cutoff of 6. *)
  Theorem C89_large_run initial pot pre p w p' w' saved c : run_sscha initial pot pre true p w = (p', (w', saved, Ok c)) -> (p_cutoff p = None \/ exists x, p_cutoff p = Some x /\ 7 < x) ->
    exists p6 w1 fc1 w2 fc2 t w3 fc3 d, new_core (with_cutoff St FC p (Some 6)) = (p6, Ok tt) /\
      match p_fc2 p with Some fc => w1 = w /\ fc1 = fc | None => p_alg p <> Other /\ initial pot p6 w = (w1, Ok fc1) end /\
      (if pre then precondition (F:=R) St FC P W core_pre pot p6 w1 fc1 = (w2, Ok fc2) else w2 = w1 /\ fc2 = fc1) /\
      hd_error (p_temps p) = Some t /\ core_run pot p6 t w2 fc2 = (w3, Ok (fc3, d)) /\ chain pot (c_params St FC c) w3 fc3 saved w' (c_fc St FC c).
  Proof.
    assert (NC : forall q q', new_core q = (q', Ok tt) -> p_temps q' = p_temps q /\ p_fc2 q' = p_fc2 q /\ p_alg q' = p_alg q).
    { intros q q'. unfold SSCHARuns.new_core. destruct (basis _ _ _); [|discriminate]. destruct (SSCHARuns.p_init _ _ q); [|destruct (samples_from_basis _ _ _ _ _) as [[]|]; [|discriminate]]; intros H; apply (f_equal fst) in H; cbn in H; rewrite <- H; repeat split; reflexivity. }
    intros H HC. unfold SSCHARuns.run_sscha, run_large in H. cbn [nltb R_ord] in H. replace (seven (F:=R)) with 7 in H by (unfold seven; rewrite nnat_INR; cbn; lra). replace (nnat (F:=R) 6) with 6 in H by (rewrite nnat_INR; cbn; lra).
    assert (HB : match p_cutoff p with None => true | Some c => Rltb 7 c end = true) by (destruct HC as [->|(x & -> & X)]; [reflexivity|now apply Rltb_true]). rewrite HB in H.
    destruct (new_core (with_cutoff St FC p (Some 6))) as [p6 [[]|e]] eqn:E6; [|discriminate]. destruct (NC _ _ E6) as (N1 & N2 & N3). change (SSCHARuns.p_temps St FC (with_cutoff St FC p (Some 6))) with (p_temps p) in N1.
    change (SSCHARuns.p_fc2 St FC (with_cutoff St FC p (Some 6))) with (p_fc2 p) in N2. change (SSCHARuns.p_alg St FC (with_cutoff St FC p (Some 6))) with (p_alg p) in N3.
    destruct (initial_fc _ _ _ _ _ _ _ _ _) as [w1 [fc1|e]] eqn:EI; [|discriminate]. destruct (pre_if _ _ _ _ _ _ _ _ _ _) as [w2 [fc2|e]] eqn:EP; [|discriminate].
    rewrite N1 in H. destruct (p_temps p) as [|t ts] eqn:ET; [discriminate|]. destruct (core_run pot p6 t w2 fc2) as [w3 [[fc3 d]|e]] eqn:ER; [|discriminate].
    destruct (new_core p) as [pt [u'|e]]; [|discriminate]. assert (HF : finish (F:=R) St FC P W core_run pot pt w3 fc3 None = (w', saved, Ok c)) by congruence.
    exists p6, w1, fc1, w2, fc2, t, w3, fc3, d. split; [reflexivity|]. split.
    { unfold initial_fc in EI. rewrite N2, N3 in EI. destruct (p_fc2 p); [split; congruence|]. destruct (p_alg p); try discriminate; (split; [discriminate|exact EI]). }
    split; [unfold pre_if in EP; destruct pre; [exact EP|split; congruence]|]. split; [reflexivity|]. split; [exact ER|].
    destruct (C89_target _ _ _ _ _ _ _ HF) as (w4 & fc4 & C & T1 & T2 & T3 & T4 & _). rewrite T4, T2, T3. exact C.
  Qed.
  (** "The parameters are the same after a run": a run that fails leaves the temporary cutoff. *)
  Theorem C89_cutoff_refuted initial pot pre p w e nb : p_cutoff p = None -> p_init p <> None -> p_fc2 p = None -> p_alg p <> Other -> (forall w', snd (initial pot (with_cutoff St FC p (Some 6)) w') = Err e) ->
    basis (p_cell p) (p_matrix p) (Some 6) = Ok nb -> p_cutoff (fst (run_sscha initial pot pre true p w)) = Some 6.
  Proof.
    intros H1 H2 H3 H4 H5 H6. unfold SSCHARuns.run_sscha, run_large. rewrite H1. replace (nnat (F:=R) 6) with 6 by (rewrite nnat_INR; cbn; lra).
    destruct p as [cell m u na ts init final tol alg fc cut]. cbn in *. unfold SSCHARuns.new_core. cbn. rewrite H6. destruct init as [i|]; [|contradiction]. unfold initial_fc. cbn. rewrite H3.
    specialize (H5 w). unfold with_cutoff in H5. cbn in H5. rewrite H1, H3 in H5 || rewrite H3 in H5 || idtac. destruct alg; try contradiction; destruct (initial _ _ w) as [w1 [f|e']]; cbn in *; try discriminate; reflexivity.
  Qed.

  (** *** Evaluations by a driver *)
  Variable initial : P -> params -> W -> W * res FC.
  Notation eval_props := (eval_props (F:=R) rnd pow25 St FC P W basis initial core_run core_pre).
  Notation props := (props (F:=R) St FC).
  Notation r_params := (r_params (F:=R) St FC).
  (** The object after evaluations of structures, one after another *)
  Inductive after (pot : P) : props -> list St -> props -> Prop :=
    | after_none r : after pot r [] r
    | after_one r st w r1 w1 saved x sts r2 : eval_props pot st r w = (r1, w1, saved, x) -> after pot r1 sts r2 -> after pot r (st :: sts) r2.
  Lemma standard_params pot pre p w : fst (run_sscha initial pot pre false p w) = fst (new_core p).
  Proof using. unfold SSCHARuns.run_sscha, run_standard. now destruct (new_core p) as [q [u|e]]. Qed.
  Lemma eval_params pot st r w r1 w1 saved x : eval_props pot st r w = (r1, w1, saved, x) -> r_params r1 = fst (new_core (with_cell St FC (r_params r) st)).
  Proof using.
    unfold SSCHARuns.eval_props. pose proof (standard_params pot true (with_cell St FC (r_params r) st) w) as E.
    destruct (run_sscha initial pot true false (with_cell St FC (r_params r) st) w) as [p [[w2 s2] [c|e]]]; cbn [fst] in E; intros H; apply (f_equal (fun z => fst (fst (fst z)))) in H; cbn in H; rewrite <- H; exact E.
  Qed.
  Lemma eval_same pot st r r' w : with_cell St FC (r_params r) st = with_cell St FC (r_params r') st ->
    let '(_, w1, s1, x1) := eval_props pot st r w in let '(_, w2, s2, x2) := eval_props pot st r' w in w1 = w2 /\ s1 = s2 /\ x1 = x2.
  Proof using.
    intros E. unfold SSCHARuns.eval_props. rewrite E. destruct (SSCHARuns.run_sscha _ _ _ _ _ _ _ _ _ _ _ _ _ _ _) as [p [[w2 s2] [c|e]]]; auto.
  Qed.
  (** With a given number of samples an evaluation does not depend on those before it. *)
  Theorem C89_eval pot r sts r' st w i : p_init (r_params r) = Some i -> after pot r sts r' ->
    let '(_, w1, s1, x1) := eval_props pot st r w in let '(_, w2, s2, x2) := eval_props pot st r' w in w1 = w2 /\ s1 = s2 /\ x1 = x2.
  Proof.
    intros HI HA. apply eval_same. revert HI. induction HA as [r|r st0 w0 r1 w1 saved x sts r2 HE HA IH]; intros HI; [reflexivity|].
    apply eval_params in HE. assert (E : r_params r1 = with_cell St FC (r_params r) st0).
    { rewrite HE. unfold SSCHARuns.new_core. destruct (basis _ _ _); [|reflexivity]. change (SSCHARuns.p_init St FC (with_cell St FC (r_params r) st0)) with (p_init (r_params r)). now rewrite HI. }
    rewrite <- IH by (rewrite E; exact HI). rewrite E. destruct (r_params r). reflexivity.
  Qed.
  (** "The number of samples follows the basis of the structure": without a given number, the first structure decides for all. *)
  Theorem C89_eval_refuted pot r st0 sts r' p1 : p_init (r_params r) = None -> new_core (with_cell St FC (r_params r) st0) = (p1, Ok tt) -> after pot r (st0 :: sts) r' ->
    p_init (r_params r') = p_init p1 /\ SSCHARuns.p_final St FC (r_params r') = SSCHARuns.p_final St FC p1 /\ p_init p1 <> None.
  Proof.
    intros HI HN HA. inversion HA as [|? ? ? r1 ? ? ? ? ? HE HA']; subst. apply eval_params in HE. rewrite HN in HE. cbn [fst] in HE.
    assert (NZ : p_init p1 <> None).
    { unfold SSCHARuns.new_core in HN. destruct (basis _ _ _); [|discriminate]. change (SSCHARuns.p_init St FC (with_cell St FC (r_params r) st0)) with (p_init (r_params r)) in HN. rewrite HI in HN.
      destruct (samples_from_basis _ _ _ _ _) as [[i f]|]; [|discriminate]. assert (PE : p1 = with_samples St FC (with_cell St FC (r_params r) st0) (Some i) (Some f)) by congruence. rewrite PE. cbn. discriminate. }
    enough (G : p_init (r_params r') = p_init (r_params r1) /\ SSCHARuns.p_final St FC (r_params r') = SSCHARuns.p_final St FC (r_params r1)) by (rewrite HE in G; tauto).
    rewrite <- HE in NZ. clear - HA' NZ. induction HA' as [r|r st0 w0 r1 w1 saved x sts r2 HE HA IH]; [now split|].
    apply eval_params in HE. assert (E : r_params r1 = with_cell St FC (r_params r) st0).
    { rewrite HE. unfold SSCHARuns.new_core. destruct (basis _ _ _); [|reflexivity]. change (SSCHARuns.p_init St FC (with_cell St FC (r_params r) st0)) with (p_init (r_params r)). destruct (p_init (r_params r)); [reflexivity|contradiction]. }
    destruct IH as [A B]; [rewrite E; exact NZ|]. rewrite A, B, E. now split.
  Qed.

  (** *** Histories of PypolymlpSSCHA *)
  Notation step := (step (F:=R) ceil rnd nodes pow25 St FC P W atoms basis initial core_run core_pre).
  Notation api := (api (F:=R) St FC P).
  Notation op := (op (F:=R) St FC P).
  Notation o_fc2 := (o_fc2 (F:=R) St FC P). Notation o_core := (o_core (F:=R) St FC P). Notation o_cell := (o_cell (F:=R) St FC P). Notation o_matrix := (o_matrix (F:=R) St FC P). Notation o_prop := (o_prop (F:=R) St FC P).
  Notation prepared := (prepared (F:=R) ceil rnd nodes St FC P atoms).
  Notation drive := (drive (F:=R) rnd pow25 St FC P W basis initial core_run core_pre).
  (** What a call may change: a run keeps its inputs; results are replaced only if it ends well. *)
  Theorem C89_step (s : api) w (o : op) : let '(s', w', saved, r) := step s w o in
    (match o with Run _ _ _ _ _ _ | Geometry _ _ _ _ _ | Elastic _ _ _ _ _ => o_cell s' = o_cell s /\ o_matrix s' = o_matrix s /\ o_prop s' = o_prop s | _ => saved = [] /\ w' = w end) /\
    (o_fc2 s' <> o_fc2 s -> r = Ok tt /\ match o with Run _ _ _ _ _ _ | Geometry _ _ _ _ _ | LoadRestart _ _ _ _ _ => True | _ => False end) /\
    (o_core s' <> o_core s -> exists q pre large, o = Run St FC P q pre large /\ r = Ok tt) /\
    (forall q pre large, o = Run St FC P q pre large -> r = Ok tt -> exists c, o_core s' = Some c /\ o_fc2 s' = Some (c_fc St FC c)).
  Proof.
    destruct o as [[st|e] m|[pot|e]|[[[st m] fc]|e] [[pot|e0]|]|st|m|q pre large|q d|q d]; cbn [SSCHARuns.step].
    all: try (split; [split; reflexivity|]; split; [intros H; first [exfalso; now apply H|split; [reflexivity|exact I]]|]; split; [intros H; exfalso; now apply H|intros; discriminate]).
    - destruct (prepared s q) as [[pot p]|e].
      2: { split; [auto|]. split; [intros H; now elim H|]. split; [intros H; now elim H|intros; discriminate]. }
      destruct (run_sscha initial _ _ _ p w) as [p' [[w1 s1] [c|e]]]; cbn.
      + split; [auto|]. split; [auto|]. split; [intros _; eauto|]. intros; eauto.
      + split; [auto|]. split; [intros H; now elim H|]. split; [intros H; now elim H|intros; discriminate].
    - destruct (prepared s q) as [[pot p]|e].
      2: { split; [auto|]. split; [intros H; now elim H|]. split; [intros H; now elim H|intros; discriminate]. }
      destruct (SSCHARuns.p_temps St FC p). { split; [cbn; auto|]. split; [intros H; now elim H|]. split; [intros H; now elim H|intros; discriminate]. }
      destruct (drive _ _ _ w) as [[[r1 w1] s1] [u|e]]; cbn; (split; [auto|]); (split; [auto; intros H; now elim H|]); (split; [intros H; now elim H|intros; discriminate]).
    - destruct (prepared s q) as [[pot p]|e].
      2: { split; [auto|]. split; [intros H; now elim H|]. split; [intros H; now elim H|intros; discriminate]. }
      destruct (SSCHARuns.p_temps St FC p). { split; [cbn; auto|]. split; [intros H; now elim H|]. split; [intros H; now elim H|intros; discriminate]. }
      destruct (drive _ _ _ w) as [[[r1 w1] s1] x]; cbn. split; [auto|]. split; [intros H; now elim H|]. split; [intros H; now elim H|intros; discriminate].
  Qed.

  (** A run is refused without the potential, the cell or the matrix, and nothing changes; with them it gets exactly these. *)
  Theorem C89_prepared (s : api) q pot p : prepared s q = Ok (pot, p) <->
    exists c m ts, o_prop s = Some pot /\ o_cell s = Some c /\ o_matrix s = Some m /\ temperatures (F:=R) ceil rnd nodes (q_temps q) = Ok ts /\
      p = mk_params St FC c (matrix_of m) (units_of rnd m) (Z.of_nat (atoms c) * units_of rnd m) ts (q_init q) (q_final q) (q_tol q) (q_alg q) (o_fc2 s) (q_cutoff q).
  Proof.
    unfold SSCHARuns.prepared, new_params. destruct (SSCHARuns.o_prop _ _ _ s) as [pot'|]; [|split; [discriminate|intros (? & ? & ? & ? & _); discriminate]].
    destruct (SSCHARuns.o_cell _ _ _ s) as [c|]; [|split; [discriminate|intros (? & ? & ? & _ & ? & _); discriminate]].
    destruct (SSCHARuns.o_matrix _ _ _ s) as [m|]; [|split; [discriminate|intros (? & ? & ? & _ & _ & ? & _); discriminate]].
    destruct (temperatures _ _ _ _) as [ts|e]; cbn [bind].
    - split; [intros H; exists c, m, ts; repeat split; congruence|]. intros (c' & m' & ts' & A & B & C & D & ->). assert (c' = c /\ m' = m /\ ts' = ts /\ pot' = pot) as (-> & -> & -> & ->) by (repeat split; congruence). reflexivity.
    - split; [discriminate|]. intros (? & ? & ? & _ & _ & _ & ? & _). discriminate.
  Qed.
  Theorem C89_refused (s : api) w q e o : (exists pre large, o = Run St FC P q pre large) \/ (exists d, o = Geometry St FC P q d \/ o = Elastic St FC P q d) ->
    prepared s q = Err e -> step s w o = (s, w, [], Err e) /\ (e <> ZeroDivisionError -> e = RuntimeError /\ (o_prop s = None \/ o_cell s = None \/ o_matrix s = None)).
  Proof.
    intros HO H. split; [destruct HO as [(pre & large & ->)|(d & [->| ->])]; cbn [SSCHARuns.step]; now rewrite H|]. revert H. unfold SSCHARuns.prepared, new_params.
    destruct (SSCHARuns.o_prop _ _ _ s) as [pot'|]; [|intros H _; split; [congruence|auto]]. destruct (SSCHARuns.o_cell _ _ _ s) as [c|]; [|intros H _; split; [congruence|auto]].
    destruct (SSCHARuns.o_matrix _ _ _ s) as [m|]; [|intros H _; split; [congruence|auto]]. unfold SSCHARuns.temperatures. destruct (t_temp _); [discriminate|]. destruct (t_n _).
    - destruct (isclose _ _); discriminate.
    - destruct (is_zero _); cbn [bind]; [|discriminate]. intros H N. exfalso. apply N. congruence.
  Qed.
  (** The geometry optimisation ends with the force constants of its last evaluation, but keeps the cell and the results of an earlier run. *)
  Theorem C89_geometry_refuted (s : api) w q st pot p p' w' saved c : prepared s q = Ok (pot, p) -> p_temps p <> [] -> run_sscha initial pot true false (with_cell St FC p st) w = (p', (w', saved, Ok c)) ->
    exists s', step s w (Geometry St FC P q (Eval St FC st (fun _ => Done St FC))) = (s', w', saved, Ok tt) /\
      o_fc2 s' = Some (c_fc St FC c) /\ o_core s' = o_core s /\ o_cell s' = o_cell s.
  Proof.
    intros HP HT H. cbn [SSCHARuns.step]. rewrite HP. destruct (SSCHARuns.p_temps St FC p) eqn:ET; [contradiction|]. cbn [SSCHARuns.drive]. unfold SSCHARuns.eval_props. cbn [SSCHARuns.r_params].
    rewrite H. cbn. rewrite app_nil_r. eexists. split; [reflexivity|]. repeat split; reflexivity.
  Qed.
  (** Without temperatures (the lowest above the highest by one or more) an optimisation or elastic constants stop with an exception, but the parameters are there. *)
  Theorem C89_no_temperature (s : api) w q d pot p o : o = Geometry St FC P q d \/ o = Elastic St FC P q d -> prepared s q = Ok (pot, p) -> p_temps p = [] ->
    step s w o = (mk_api St FC P (o_cell s) (o_matrix s) (o_prop s) (o_fc2 s) (Some p) (o_core s), w, [], Err IndexError).
  Proof using. intros [->| ->] H T; cbn [SSCHARuns.step]; rewrite H, T; reflexivity. Qed.
End Runs.

(** Calls that replace the inputs only *)
Section Reuse.
  Variables (ceil : R -> nat) (rnd : R -> Z) (nodes : nat -> list R) (pow25 : R -> R).
  Variables (St FC P W : Type) (atoms : St -> nat).
  Variable basis : St -> (nat -> nat -> R) -> option R -> res nat.
  Notation params := (params (F:=R) St FC).
  Variable core_run : P -> params -> R -> W -> FC -> W * res (FC * R).
  Variable core_pre : P -> params -> R -> Z -> W -> FC -> W * res (FC * R).
  Notation step i := (step (F:=R) ceil rnd nodes pow25 St FC P W atoms basis i core_run core_pre).
  Notation history i := (history (F:=R) ceil rnd nodes pow25 St FC P W atoms basis i core_run core_pre).
  Notation o_fc2 := (o_fc2 (F:=R) St FC P).
  Definition input_call (o : op (F:=R) St FC P) : Prop := match o with LoadPoscar _ _ _ _ _ | SetPolymlp _ _ _ _ | SetCell _ _ _ _ | SetMatrix _ _ _ _ => True | _ => False end.
  (** "A run on another cell starts from its own force constants": it starts from those of the run before, and the chosen algorithm is not used. *)
  Theorem C89_reuse_refuted initial initial' s w q pre large s1 w1 saved ops q2 pre2 large2 : step initial s w (Run St FC P q pre large) = (s1, w1, saved, Ok tt) -> Forall input_call ops ->
    let '(s2, w2) := history initial s1 w1 ops in
    (exists c, o_core St FC P s1 = Some c /\ o_fc2 s2 = Some (c_fc St FC c)) /\ w2 = w1 /\
    step initial s2 w2 (Run St FC P q2 pre2 large2) = step initial' s2 w2 (Run St FC P q2 pre2 large2).
  Proof.
    intros H HO. assert (E1 : exists c, o_core St FC P s1 = Some c /\ o_fc2 s1 = Some (c_fc St FC c)).
    { pose proof (C89_step ceil rnd nodes pow25 St FC P W atoms basis core_run core_pre initial s w (Run St FC P q pre large)) as G. rewrite H in G. destruct G as (_ & _ & _ & G). now apply (G q pre large). }
    clear H. destruct E1 as (c & Ec & Ef). enough (G : forall ops s, Forall input_call ops -> o_fc2 (fst (history initial s w1 ops)) = o_fc2 s /\ snd (history initial s w1 ops) = w1).
    { destruct (G ops s1 HO) as [G1 G2]. destruct (history initial s1 w1 ops) as [s2 w2]. cbn [fst snd] in G1, G2. split; [exists c; split; [exact Ec|now rewrite G1]|]. split; [exact G2|].
      cbn [SSCHARuns.step]. destruct (prepared _ _ _ _ _ _ _ s2 q2) as [[pot p]|e] eqn:EP; [|reflexivity]. apply C89_prepared in EP. destruct EP as (c2 & m2 & ts & _ & _ & _ & _ & ->).
      rewrite (C89_start_refuted rnd pow25 St FC P W basis core_run core_pre initial initial' pot pre2 large2 _ w2 (c_fc St FC c)); [reflexivity|]. cbn. now rewrite G1. }
    clear. induction ops as [|o ops IH]; intros s H; [now split|]. inversion H as [|? ? HI HR]; subst. unfold SSCHARuns.history. cbn [fold_left fst snd].
    assert (E : exists s', (let '(s', w', _, _) := step initial s w1 o in (s', w')) = (s', w1) /\ o_fc2 s' = o_fc2 s) by (destruct o as [[]| [] | | | | | |]; try contradiction; cbn; eauto).
    destruct E as (s' & E1 & E2). rewrite E1. destruct (IH s' HR) as [A B]. unfold SSCHARuns.history in A, B. now rewrite A, B.
  Qed.
End Reuse.

(** *** The file of force constants beside the one of a restart *)
Lemma join_split t : join_slash (split_slash t) = t.
Proof.
  induction t as [|c t IH]; [reflexivity|]. cbn [split_slash]. destruct (Ascii.eqb_spec c slash) as [->|H].
  - assert (N : split_slash t <> []) by (destruct t as [|a t]; cbn; [discriminate|]; destruct (Ascii.eqb a slash); [discriminate|]; now destruct (split_slash t)). destruct (split_slash t) as [|a l]; [contradiction|]. cbn in *. now rewrite IH.
  - destruct (split_slash t) as [|a l]; [cbn in IH; now subst t|]. destruct l; cbn in *; now rewrite IH.
Qed.
Lemma split_name n : ~ In slash n -> split_slash n = [n].
Proof. induction n as [|c n IH]; intros H; [reflexivity|]. cbn [split_slash]. destruct (Ascii.eqb_spec c slash) as [->|E]; [elim H; now left|]. rewrite IH; [reflexivity|]. intros X. apply H. now right. Qed.
Lemma split_app d n : ~ In slash n -> split_slash (d ++ slash :: n) = split_slash d ++ [n].
Proof.
  intros H. induction d as [|c d IH].
  - cbn [app split_slash]. rewrite Ascii.eqb_refl, split_name by exact H. reflexivity.
  - cbn [app split_slash]. rewrite IH. destruct (Ascii.eqb c slash); [reflexivity|]. destruct (split_slash d) as [|a l] eqn:E; [exfalso; clear - E; destruct d as [|a d]; cbn in E; [discriminate|]; destruct (Ascii.eqb a slash); [discriminate|]; now destruct (split_slash d)|reflexivity].
Qed.
Theorem C89_path dir name : ~ In slash name -> fc2_path (dir ++ slash :: name) = dir ++ lit "/fc2.hdf5"%string.
Proof. intros H. unfold fc2_path. rewrite split_app by exact H. rewrite removelast_last. now rewrite join_split. Qed.
(** "The force constants beside the file": for a file of the current directory they are looked for in the root directory. *)
Theorem C89_path_refuted name : ~ In slash name -> fc2_path name = lit "/fc2.hdf5"%string.
Proof. intros H. unfold fc2_path. now rewrite split_name. Qed.

Lemma filter_nil_none (A : Type) (f : A -> bool) l : (forall x, In x l -> f x = false) -> filter f l = [].
Proof. induction l as [|a l IH]; intros H; [reflexivity|]. cbn. rewrite (H a (or_introl eq_refl)). apply IH. intros x Hx. apply H. now right. Qed.
(** *** Symmetric properties *)
Definition voigt (i j : nat) : nat := if (i =? j)%nat then i else (i + j + match i + j with 1 => 2 | 3 => 1 | _ => 3 end)%nat.
Theorem C89_stress (F : Type) (s : nat -> F) (proj : (nat -> F) -> nat -> F) : (forall i j, (i < 3)%nat -> (j < 3)%nat -> to_nine s (3 * i + j) = s (voigt i j) /\ voigt i j = voigt j i) /\
  (forall i j, (i < 3)%nat -> (j < 3)%nat -> (j = i \/ j = (i + 1) mod 3)%nat -> symmetrize_stress proj s (voigt i j) = proj (to_nine s) (3 * i + j)%nat).
Proof.
  split; intros i j Hi Hj; destruct i as [|[|[|i]]]; try lia; destruct j as [|[|[|j]]]; try lia; cbn; try (split; reflexivity); intros [H|H]; try discriminate; reflexivity.
Qed.
Theorem C89_representatives n u k : (0 < u)%nat -> representatives (k * u) u = map (fun i => i * u)%nat (seq 0 k) /\ (In n (representatives (k * u) u) <-> (n < k * u)%nat /\ Nat.divide u n).
Proof.
  intros HU. split.
  - unfold representatives. induction k as [|k IH]; [reflexivity|]. replace (S k * u)%nat with (k * u + u)%nat by lia. rewrite seq_app, filter_app, IH, seq_S, map_app. cbn [map plus]. f_equal.
    destruct u as [|u]; [lia|]. cbn [seq filter]. rewrite Nat.mod_mul by lia. cbn [Nat.eqb]. f_equal. apply filter_nil_none. intros x Hx. apply in_seq in Hx. apply Nat.eqb_neq. intros X. apply Nat.mod_divides in X; [|lia]. destruct X as [c X].
    assert (k < c < S k)%nat; [|lia]. split; nia.
  - unfold representatives. rewrite filter_In, in_seq, Nat.eqb_eq. rewrite Nat.mod_divide by lia. cbn. intuition lia.
Qed.

(** *** Examples *)
Example C89_ex_nearest : exists rnd, nearest rnd.
Proof. exists (fun x => up (x - 1 / 2)). intros x. destruct (archimed (x - 1 / 2)) as [A B]. apply Rabs_le. lra. Qed.
Example C89_ex_nodes : exists nodes, is_nodes nodes.
Proof. exists (fun n => map (fun k => cos (PI - PI * INR k / INR (n - 1))) (seq 0 n)). now intros n _. Qed.

From Coq Require Import QArith Qcanon.
Local Open Scope Qc_scope.
Definition Qround (x : Qc) : Z := Qround.Qfloor (Qcanon.this x + (1 # 2))%Q.
Definition Qceil (x : Qc) : nat := Z.to_nat (Qround.Qceiling (Qcanon.this x)).
Definition q_of (n : nat) : Qc := nnat (F:=Qc) n.
Definition toy_nodes (n : nat) : list Qc := map (fun k => (q_of (2 * k) - q_of (n - 1)) / q_of (n - 1)) (seq 0 n).
Definition show_q (r : res (list Qc)) : res (list Q) := do l <- r; Ok (map Qcanon.this l).
Definition temps0 := mk_tset (F:=Qc) None (q_of 100) (q_of 250) (q_of 50) None false.
Example C89_ex_temperatures :
  show_q (temperatures (F:=Qc) Qceil Qround toy_nodes temps0) = Ok [250 # 1; 200 # 1; 150 # 1; 100 # 1]%Q /\
  show_q (temperatures (F:=Qc) Qceil Qround toy_nodes (mk_tset None (q_of 100) (q_of 200) (q_of 50) (Some 4%nat) true)) = Ok [100 # 1; 133 # 1; 167 # 1; 200 # 1]%Q.
Proof. split; vm_compute; reflexivity. Qed.
(** Force constants are the trace of what was done to them: 0 the initial ones of a cell of so many atoms, then 1 a pass or 2 a run. *)
Definition toy_params := params (F:=Qc) nat (list nat).
Definition toy_initial (pot : unit) (p : toy_params) (w : nat) : nat * res (list nat) := (S w, Ok [p_cell nat (list nat) p]).
Definition toy_run (pot : unit) (p : toy_params) (t : Qc) (w : nat) (fc : list nat) : nat * res (list nat * Qc) :=
  if (w =? 30)%nat then (S w, Err RuntimeError) else (S w, Ok (2%nat :: fc, q_of 0)).
Definition toy_pre (pot : unit) (p : toy_params) (t : Qc) (n : Z) (w : nat) (fc : list nat) : nat * res (list nat * Qc) :=
  (S w, Ok (1%nat :: fc, if (n <=? 10)%Z then q_of 1 else q_of 0)).
Definition toy_basis (st : nat) (m : nat -> nat -> Qc) (c : option Qc) : res nat := Ok (3 * st)%nat.
Definition toy_step := step (F:=Qc) Qceil Qround toy_nodes (fun _ => q_of 1) nat (list nat) unit nat (fun n => n) toy_basis toy_initial toy_run toy_pre.
Definition toy_settings (init : option Z) := mk_settings (F:=Qc) temps0 init None (q_of 1 / q_of 100) Harmonic None.
Definition toy_ready (fc : option (list nat)) : api (F:=Qc) nat (list nat) unit := mk_api _ _ _ (Some 4%nat) (Some (Three (q_of 2) (q_of 2) (q_of 2))) (Some tt) fc None None.
Definition toy_show (x : api (F:=Qc) nat (list nat) unit * nat * list (Qc * list nat) * res unit) :=
  let '(s, w, saved, r) := x in
  (o_fc2 _ _ _ s, match o_params _ _ _ s with Some p => (p_init _ _ p, p_final _ _ p, p_natom _ _ p) | None => (None, None, 0%Z) end, w, map (fun y => Qcanon.this (fst y)) saved, r).
(** Four atoms in eight cells: 450 * 12 / 32 = 168.75 samples, then three times as many; three passes; four temperatures *)
Example C89_ex_run : toy_show (toy_step (toy_ready None) 0%nat (Run _ _ _ (toy_settings None) true false)) =
  (Some [2; 2; 2; 2; 1; 1; 1; 4]%nat, (Some 169, Some 507, 32)%Z, 8%nat, [250 # 1; 200 # 1; 150 # 1; 100 # 1]%Q, Ok tt).
Proof. vm_compute. reflexivity. Qed.
(** The fourth run fails: three temperatures were saved, the object has no force constants *)
Example C89_ex_fail : toy_show (toy_step (toy_ready None) 23%nat (Run _ _ _ (toy_settings None) true false)) = (None, (Some 169, Some 507, 32)%Z, 31%nat, [250 # 1; 200 # 1; 150 # 1]%Q, Err RuntimeError).
Proof. vm_compute. reflexivity. Qed.
(** A run for a cell of nine atoms starts from the force constants of the cell of four *)
Example C89_ex_reuse : let '(s, w, _, _) := toy_step (toy_ready None) 0%nat (Run _ _ _ (toy_settings None) true false) in
  let '(s, w, _, _) := toy_step s w (SetCell _ _ _ (Some 9%nat)) in
  toy_show (toy_step s w (Run _ _ _ (toy_settings (Some 1)%Z) false false)) = (Some [2; 2; 2; 2; 2; 2; 2; 2; 1; 1; 1; 4]%nat, (Some 1, None, 72)%Z, 12%nat, [250 # 1; 200 # 1; 150 # 1; 100 # 1]%Q, Ok tt).
Proof. vm_compute. reflexivity. Qed.
(** A large system: a run at the first temperature more *)
Example C89_ex_large : toy_show (toy_step (toy_ready None) 0%nat (Run _ _ _ (toy_settings None) true true)) =
  (Some [2; 2; 2; 2; 2; 1; 1; 1; 4]%nat, (Some 169, Some 507, 32)%Z, 9%nat, [250 # 1; 200 # 1; 150 # 1; 100 # 1]%Q, Ok tt).
Proof. vm_compute. reflexivity. Qed.
(** Two structures evaluated by a driver; the number of samples is that of the first *)
Example C89_ex_drive : toy_show (toy_step (toy_ready None) 0%nat (Geometry _ _ _ (toy_settings None) (SetTemp _ _ (q_of 300) (Eval _ _ 4%nat (fun _ => Eval _ _ 8%nat (fun _ => Done _ _)))))) =
  (Some [2; 1; 1; 1; 8]%nat, (Some 169, Some 507, 32)%Z, 10%nat, [300 # 1; 300 # 1]%Q, Ok tt).
Proof. vm_compute. reflexivity. Qed.
Example C89_ex_path : fc2_path (lit "old/300/sscha_results.yaml"%string) = lit "old/300/fc2.hdf5"%string /\ fc2_path (lit "sscha_results.yaml"%string) = lit "/fc2.hdf5"%string.
Proof. split; vm_compute; reflexivity. Qed.
Example C89_ex_forces : representatives 12 4 = [0; 4; 8]%nat /\ map (to_nine (fun k => k)) (seq 0 9) = [0; 3; 5; 3; 1; 4; 5; 4; 2]%nat.
Proof. split; reflexivity. Qed.

Print Assumptions C89_single.
Print Assumptions C89_progression.
Print Assumptions C89_integers.
Print Assumptions C89_above_refuted.
Print Assumptions C89_step_zero.
Print Assumptions C89_nodes.
Print Assumptions C89_nodes_order_refuted.
Print Assumptions C89_nodes_repeat_refuted.
Print Assumptions C89_cells.
Print Assumptions C89_diagonal.
Print Assumptions C89_cells_refuted.
Print Assumptions C89_samples.
Print Assumptions C89_final_refuted.
Print Assumptions C89_samples_errors.
Print Assumptions C89_unbound_refuted.
Print Assumptions C89_set_samples.
Print Assumptions C89_set_samples_errors.
Print Assumptions C89_precondition.
Print Assumptions C89_target.
Print Assumptions C89_start_refuted.
Print Assumptions C89_standard.
Print Assumptions C89_large.
Print Assumptions C89_large_run.
Print Assumptions C89_cutoff_refuted.
Print Assumptions C89_eval.
Print Assumptions C89_eval_refuted.
Print Assumptions C89_step.
Print Assumptions C89_prepared.
Print Assumptions C89_refused.
Print Assumptions C89_geometry_refuted.
Print Assumptions C89_reuse_refuted.
Print Assumptions C89_path.
Print Assumptions C89_path_refuted.
Print Assumptions C89_stress.
Print Assumptions C89_representatives.
Print Assumptions C89_no_temperature.
