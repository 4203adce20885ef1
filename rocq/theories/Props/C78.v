(** C78: phase transitions and phase boundaries. *)
From Verif Require Import Base Num NumR Model.Structure Model.Readers Model.Polyfit Model.Equilibrium Model.Transition Spec.Polyfit Spec.Equilibrium Spec.Transition
  Proofs.Readers Proofs.Gauss Proofs.Polyfit Proofs.PolyfitModel Proofs.PolyfitSearch Proofs.Equilibrium Proofs.Transition Props.C72.
From Coq Require Import Reals Lra Psatz.
From Coquelicot Require Import Coquelicot.
Local Open Scope R_scope.

(** *** Polygons *)
Lemma increasing_from_spec (l : list (R * R)) : forall x, increasing_from (F:=R) x l = true <-> ((forall q, In q l -> x < fst q) /\ ascending l).
Proof.
  induction l as [|p l IH]; intros x; cbn [increasing_from].
  - split; [intros _; split; [intros q []|intros i j a b _ H; destruct i; discriminate]|reflexivity].
  - rewrite andb_true_iff, IH. cbn [nltb R_ord]. rewrite Rltb_true. split.
    + intros [H1 [H2 H3]]. split; [intros q [<-|Hq]; [exact H1|]; specialize (H2 q Hq); lra|].
      intros i j a b Hij Ha Hb. destruct j as [|j]; [lia|]. cbn in Hb. destruct i as [|i]; cbn in Ha; [assert (p = a) by congruence; subst; apply H2; eapply nth_error_In; exact Hb|].
      eapply H3; [|exact Ha|exact Hb]. lia.
    + intros [H1 H2]. split; [apply H1; now left|]. split.
      * intros q Hq. apply In_nth_error in Hq. destruct Hq as [k Hk]. apply (H2 0%nat (S k) p q); [lia|reflexivity|exact Hk].
      * intros i j a b Hij Ha Hb. apply (H2 (S i) (S j) a b); [lia|exact Ha|exact Hb].
Qed.
Lemma ascending_tail p l : ascending (p :: l) -> ascending l.
Proof. intros H i j a b Hij Ha Hb. apply (H (S i) (S j) a b); [lia|exact Ha|exact Hb]. Qed.
Lemma line_end (a b : R * R) : fst a < fst b -> line (F:=R) a b (fst b) = snd b.
Proof. intros H. unfold line. cbn [nadd nsub nmul ndiv R_num]. field. lra. Qed.
Lemma line_start (a b : R * R) : fst a < fst b -> line (F:=R) a b (fst a) = snd a.
Proof. intros H. unfold line. cbn [nadd nsub nmul ndiv R_num]. field. lra. Qed.
(** A polygon begins where its first side begins. *)
Lemma polygon_start a b l : ascending (a :: b :: l) -> polygon (F:=R) a b l (fst a) = snd a.
Proof.
  intros H. assert (L : fst a < fst b) by (apply (H 0%nat 1%nat a b); [lia|reflexivity|reflexivity]). destruct l as [|c l]; cbn [polygon]; [now apply line_start|].
  cbn [nltb R_ord]. rewrite (proj2 (Rltb_true _ _) L). now apply line_start.
Qed.
Lemma polygon_polyline l : forall a b, ascending (a :: b :: l) -> polyline (a :: b :: l) (polygon (F:=R) a b l).
Proof.
  induction l as [|c l IH]; intros a b HA i p q x Hp Hq Hl Hr.
  - destruct i as [|i]; [|destruct i; discriminate]. cbn in Hp, Hq. assert (p = a) by congruence. assert (q = b) by congruence. subst. reflexivity.
  - assert (AB : fst a < fst b) by (apply (HA 0%nat 1%nat a b); [lia|reflexivity|reflexivity]).
    destruct i as [|i].
    + cbn in Hp, Hq. assert (p = a) by congruence. assert (q = b) by congruence. subst. destruct Hr as [Hr|Hr]; [cbn in Hr; lia|].
      cbn [polygon nltb R_ord]. destruct (Rltb x (fst b)) eqn:E; [reflexivity|]. apply Rltb_false in E. assert (x = fst b) by lra. subst x.
      rewrite polygon_start by (apply ascending_tail in HA; exact HA). change (snd b = line (F:=R) a b (fst b)). now rewrite line_end.
    + destruct Hl as [Hl|Hl]; [discriminate|]. cbn [polygon nltb R_ord].
      assert (PB : fst b <= fst p). { destruct i as [|i]; cbn in Hp; [assert (p = b) by congruence; subst; lra|]. left. apply (HA 1%nat (S (S i)) b p); [lia|reflexivity|exact Hp]. }
      rewrite (proj2 (Rltb_false _ _) (Rle_trans _ _ _ PB Hl)). apply (IH b c (ascending_tail _ _ HA) i p q x Hp Hq); [now right|].
      destruct Hr as [Hr|Hr]; [left; cbn in *; lia|now right].
Qed.
Theorem C78_polygon l f : spline1 (F:=R) l = Ok f -> ascending l /\ (2 <= length l)%nat /\ polyline l f.
Proof.
  destruct l as [|a [|b l]]; try discriminate. cbn [spline1]. destruct (increasing_from (fst a) (b :: l)) eqn:E; [|discriminate]. intros H.
  assert (polygon a b l = f) by congruence. subst f. apply increasing_from_spec in E. destruct E as [E1 E2].
  assert (A : ascending (a :: b :: l)). { intros i j p q Hij Hp Hq. destruct j as [|j]; [lia|]. cbn in Hq. destruct i as [|i]; cbn in Hp; [assert (a = p) by congruence; subst; apply E1; eapply nth_error_In; exact Hq|]. apply (E2 i j p q); [lia|exact Hp|exact Hq]. }
  split; [exact A|]. split; [cbn; lia|]. now apply polygon_polyline.
Qed.
Theorem C78_polygon_given l : ascending l -> (2 <= length l)%nat -> exists f, spline1 (F:=R) l = Ok f.
Proof.
  intros A L. destruct l as [|a [|b l]]; cbn in L; try lia. cbn [spline1].
  assert (E : increasing_from (F:=R) (fst a) (b :: l) = true).
  { apply increasing_from_spec. split; [|now apply ascending_tail in A]. intros q Hq. apply In_nth_error in Hq. destruct Hq as [k Hk]. apply (A 0%nat (S k) a q); [lia|reflexivity|exact Hk]. }
  rewrite E. eexists. reflexivity.
Qed.
Theorem C78_polygon_refused l : ~ (ascending l /\ (2 <= length l)%nat) -> spline1 (F:=R) l = Err ValueError.
Proof.
  intros H. destruct l as [|a [|b l]]; try reflexivity. cbn [spline1]. destruct (increasing_from (fst a) (b :: l)) eqn:E; [|reflexivity]. exfalso. apply H.
  destruct (C78_polygon (a :: b :: l) (polygon a b l)) as [A [L _]]; [cbn [spline1]; now rewrite E|]. now split.
Qed.
(** The polygon of a straight line *)
Lemma polygon_line u v l : forall a b, ascending (a :: b :: l) -> on_line u v (a :: b :: l) -> forall x, polygon (F:=R) a b l x = u + v * x.
Proof.
  assert (LL : forall a b x, fst a < fst b -> snd a = u + v * fst a -> snd b = u + v * fst b -> line (F:=R) a b x = u + v * x).
  { intros a b x H Ha Hb. unfold line. cbn [nadd nsub nmul ndiv R_num]. rewrite Ha, Hb. field. lra. }
  induction l as [|c l IH]; intros a b A O x; assert (AB : fst a < fst b) by (apply (A 0%nat 1%nat a b); [lia|reflexivity|reflexivity]);
    assert (Oa : snd a = u + v * fst a) by (apply O; now left); assert (Ob : snd b = u + v * fst b) by (apply O; right; now left); cbn [polygon].
  - now apply LL.
  - destruct (nltb x (fst b)); [now apply LL|]. apply IH; [now apply ascending_tail in A|]. intros q Hq. apply O. now right.
Qed.

Section C78.
  Variables (solve : nat -> mat R -> vec R -> option (vec R)) (inv : nat -> mat R -> option (mat R)) (best0 : R).
  Variable fsolve : (R -> R) -> R -> R.
  Hypotheses (Hs : exact_solve solve) (Hi : exact_inv inv) (Hb : 0 < best0).
  Notation find_transition := (find_transition solve inv best0 fsolve).
  Notation evalR := (eval (F:=R) (N:=R_num) (NO:=R_ord)).
  Notation fitp := (fit solve inv best0).

  (** A fit reproduces a polynomial whose degree it may have, if there are two records more than coefficients. *)
  Theorem C78_reproduction f M l : polynomial M f -> (3 <= M)%nat -> samples f (M + 2) l ->
    exists pf, fitp (map fst l) (map snd l) None M true true (Some false) false false = Ok pf /\ forall x, evalR pf x = f x.
  Proof.
    intros P HM [D [L S]]. apply (reproduction solve inv best0 Hs Hi Hb f M); [exact P|exact HM|exact D|now rewrite map_length|now rewrite !map_length|].
    intros i x y Hx Hy. rewrite nth_error_map in Hx, Hy. destruct (nth_error l i) as [q|] eqn:E; [|discriminate]. cbn in Hx, Hy. assert (fst q = x) by congruence. assert (snd q = y) by congruence. subst. apply S. eapply nth_error_In. exact E.
  Qed.

  (** The transition: a number found for the difference of the polygons through the data. *)
  Theorem C78_transition f1 f2 t : find_transition f1 f2 = Ok t ->
    exists g1 g2 x0, polyline f1 g1 /\ polyline f2 g2 /\ t = fsolve (fun x => g1 x - g2 x) x0 /\
      (g1 (fsolve (fun x => g1 x - g2 x) x0) - g2 (fsolve (fun x => g1 x - g2 x) x0) = 0 -> g1 t = g2 t).
  Proof.
    intros H. unfold Transition.find_transition in H. apply bind_Ok in H. destruct H as [x0 [_ H]]. unfold fit_solve in H. apply bind_Ok in H. destruct H as [g1 [H1 H]].
    apply bind_Ok in H. destruct H as [g2 [H2 H]]. apply C78_polygon in H1. apply C78_polygon in H2. exists g1, g2, x0. split; [apply H1|]. split; [apply H2|].
    cbn [nsub R_num] in H. assert (E : t = fsolve (fun x => g1 x - g2 x) x0) by congruence. split; [exact E|]. rewrite E. intros Z. lra.
  Qed.
  (** The search starts where a first search, which starts at zero, has ended. *)
  Theorem C78_start f1 f2 t : find_transition f1 f2 = Ok t ->
    exists h g1 g2, polyline f1 g1 /\ polyline f2 g2 /\ t = fsolve (fun x => g1 x - g2 x) (fsolve h 0).
  Proof.
    intros H. unfold Transition.find_transition in H. apply bind_Ok in H. destruct H as [x0 [H0 H]]. unfold fit_solve in H. apply bind_Ok in H. destruct H as [g1 [H1 H]].
    apply bind_Ok in H. destruct H as [g2 [H2 H]]. apply C78_polygon in H1. apply C78_polygon in H2.
    unfold fit_solve_poly in H0. apply bind_Ok in H0. destruct H0 as [[z1 z2] [_ H3]]. eexists. exists g1, g2.
    split; [apply H1|]. split; [apply H2|]. assert (E : x0 = fsolve (polyval (map (fun q => fst q - snd q) (combine z1 z2))) 0) by (cbn [nsub n0 R_num] in H3; congruence).
    rewrite <- E. cbn [nsub R_num] in H. congruence.
  Qed.
  (** A transition is reported for all data in order, whether there is one or not. *)
  Theorem C78_always f1 f2 : ascending f1 -> ascending f2 -> (2 <= length f1)%nat -> (2 <= length f2)%nat -> exists t, find_transition f1 f2 = Ok t.
  Proof.
    intros A1 A2 L1 L2.
    assert (FIT : forall l, ascending l -> (2 <= length l)%nat -> exists pf, fitp (map fst l) (map snd l) (Some 1%nat) 6 true true (Some false) false false = Ok pf).
    { intros l A L. destruct (C72_fit solve inv best0 (map fst l) (map snd l) (Some 1%nat) 6 true true (Some false) false false (false, 1%nat) Hs) as [G _]; [now rewrite !map_length|reflexivity|right; left; reflexivity|discriminate|].
      destruct G as [pf [G _]]; [|now exists pf]. apply (distinct_determined 1); [|rewrite map_length; lia].
      apply NoDup_nth_error. intros i j Hi' E. rewrite map_length in Hi'. rewrite !nth_error_map in E. destruct (nth_error l i) as [p|] eqn:P; [|apply nth_error_None in P; lia].
      destruct (nth_error l j) as [q|] eqn:Q; [|discriminate]. cbn in E. assert (EQ : fst p = fst q) by congruence. destruct (Nat.lt_trichotomy i j) as [X|[X|X]]; [|exact X|].
      - specialize (A i j p q X P Q). lra.
      - specialize (A j i q p X Q P). lra. }
    destruct (FIT f1 A1 L1) as [p1 P1]. destruct (FIT f2 A2 L2) as [p2 P2]. destruct (C78_polygon_given f1 A1 L1) as [g1 G1]. destruct (C78_polygon_given f2 A2 L2) as [g2 G2].
    unfold Transition.find_transition, fit_solve_poly, fit_poly, fit_solve. rewrite P1. cbn [bind]. rewrite P2. cbn [bind]. rewrite G1, G2. cbn [bind]. eexists. reflexivity.
  Qed.
  Theorem C78_exactly f1 f2 : (exists t, find_transition f1 f2 = Ok t) <-> (ascending f1 /\ (2 <= length f1)%nat) /\ (ascending f2 /\ (2 <= length f2)%nat).
  Proof.
    split; [|intros [[A1 L1] [A2 L2]]; now apply C78_always].
    intros [t H]. unfold Transition.find_transition in H. apply bind_Ok in H. destruct H as [x0 [_ H]]. unfold fit_solve in H. apply bind_Ok in H. destruct H as [g1 [H1 H]].
    apply bind_Ok in H. destruct H as [g2 [H2 H]]. apply C78_polygon in H1. apply C78_polygon in H2. tauto.
  Qed.
  Lemma two_different l : ascending l -> (2 <= length l)%nat -> exists i j x y, nth_error (map fst l) i = Some x /\ nth_error (map fst l) j = Some y /\ x <> y.
  Proof.
    intros A L. destruct l as [|a [|b l]]; cbn in L; try lia. exists 0%nat, 1%nat, (fst a), (fst b). split; [reflexivity|]. split; [reflexivity|].
    assert (fst a < fst b) by (apply (A 0%nat 1%nat a b); [lia|reflexivity|reflexivity]). lra.
  Qed.
  (** Free energies that fall linearly: the temperature where they are equal, inside the data or not. *)
  Theorem C78_lines f1 f2 a1 b1 a2 b2 : solves_lines fsolve -> ascending f1 -> ascending f2 -> (2 <= length f1)%nat -> (2 <= length f2)%nat ->
    on_line a1 b1 f1 -> on_line a2 b2 f2 -> b1 <> b2 -> find_transition f1 f2 = Ok ((a2 - a1) / (b1 - b2)).
  Proof.
    intros HF A1 A2 L1 L2 O1 O2 NB. destruct (C78_always f1 f2 A1 A2 L1 L2) as [t T]. rewrite T. f_equal.
    unfold Transition.find_transition in T. apply bind_Ok in T. destruct T as [x0 [_ T]]. unfold fit_solve in T. apply bind_Ok in T. destruct T as [g1 [H1 T]].
    apply bind_Ok in T. destruct T as [g2 [H2 T]]. cbn [nsub R_num] in T. assert (E : t = fsolve (fun x => g1 x - g2 x) x0) by congruence.
    assert (G : forall u v l g, spline1 l = Ok g -> ascending l -> on_line u v l -> forall x, g x = u + v * x).
    { intros u v [|a [|b l]] g S A O x; try discriminate. cbn [spline1] in S. destruct (increasing_from (fst a) (b :: l)); [|discriminate]. assert (polygon a b l = g) by congruence. subst g. now apply polygon_line. }
    pose proof (G a1 b1 f1 g1 H1 A1 O1) as G1. pose proof (G a2 b2 f2 g2 H2 A2 O2) as G2.
    pose proof (HF (fun x => g1 x - g2 x) (a1 - a2) (b1 - b2) x0) as Z. cbv beta in Z. rewrite <- E in Z. rewrite G1, G2 in Z.
    assert (Z' : a1 + b1 * t - (a2 + b2 * t) = 0) by (apply Z; [intros x; rewrite G1, G2; ring|lra]).
    apply (Rmult_eq_reg_r (b1 - b2)); [|lra]. unfold Rdiv. rewrite Rmult_assoc, Rinv_l by lra. lra.
  Qed.

  (** *** Phase boundaries *)
  Variable ceil : R -> nat.
  Variables (share lowest above : R).
  Notation fit_pressure_gibbs := (fit_pressure_gibbs solve inv best0).
  Notation compute_phase_boundary := (compute_phase_boundary solve inv best0 fsolve ceil share lowest above).
  (** Data of a phase: at every temperature at least two pressures more than coefficients, all different. *)
  Definition tabulated (ph : phase) (M : nat) (temps : list R) (gibbs : list (list (R * R))) : Prop :=
    length gibbs = length temps /\ forall i t g, nth_error temps i = Some t -> nth_error gibbs i = Some g -> samples (fun p => gibbs_of ph p t) (M + 2) g.
  Lemma fitted_gibbs ph M temps gibbs pressures : polynomial M (ph_h ph) -> polynomial M (ph_s ph) -> (3 <= M)%nat -> tabulated ph M temps gibbs ->
    fit_pressure_gibbs gibbs temps pressures M = Ok (map (fun p => map (fun t => (t, gibbs_of ph p t)) temps) pressures).
  Proof.
    intros P1 P2 HM [L T]. unfold Transition.fit_pressure_gibbs.
    assert (PT : forall t, polynomial M (fun p => gibbs_of ph p t)).
    { intros t. destruct P1 as [c1 P1], P2 as [c2 P2]. exists (fun i => c1 i - c2 i * t). intros x. unfold gibbs_of. rewrite P1, P2.
      rewrite (Rmult_comm _ t), scal_sum, <- minus_sum. apply sum_eq. intros i _. ring. }
    assert (EX : exists fits, mapM (fun q => do p <- fitp (map fst (snd q)) (map snd (snd q)) None M true true (Some false) false false; Ok (fst q, p)) (combine temps gibbs) = Ok fits /\
        forall p, map (fun q => (fst q, evalR (snd q) p)) fits = map (fun t => (t, gibbs_of ph p t)) temps).
    { clear -PT HM L T Hs Hi Hb. revert gibbs L T. induction temps as [|t temps IH]; intros [|g gibbs] L T; try discriminate; [exists []; now split|].
      cbn [combine mapM fst snd]. destruct (C78_reproduction (fun p => gibbs_of ph p t) M g (PT t) HM) as [pf [F1 F2]]; [now apply (T 0%nat)|]. rewrite F1. cbn [bind].
      destruct (IH gibbs) as [fits [I1 I2]]; [cbn in L; lia|intros i; apply (T (S i))|]. rewrite I1. cbn [bind]. eexists. split; [reflexivity|]. intros p. cbn [map fst snd]. now rewrite F2, I2. }
    destruct EX as [fits [E1 E2]]. rewrite E1. cbn [bind]. f_equal. apply map_ext. intros p. apply E2.
  Qed.
  (** The pressures *)
  Lemma p_limit_is gibbs (r : R) : p_limit (F:=R) share gibbs = Ok r <-> exists ms m, mapM (fun g => py_max (map fst g)) gibbs = Ok ms /\ is_max ms m /\ r = m * share.
  Proof.
    unfold p_limit. rewrite bind_Ok. split.
    - intros [ms [H1 H2]]. apply bind_Ok in H2. destruct H2 as [m [H2 H3]]. apply py_max_Ok in H2. exists ms, m. split; [exact H1|]. split; [exact H2|]. cbn in H3. congruence.
    - intros [ms [m [H1 [H2 ->]]]]. exists ms. split; [exact H1|]. apply bind_Ok. exists m. split; [now apply py_max_Ok|reflexivity].
  Qed.
  Lemma limit_any gibbs ms m : mapM (fun g : list (R * R) => py_max (map fst g)) gibbs = Ok ms -> is_max ms m ->
    (exists g q, In g gibbs /\ In q g /\ fst q = m) /\ forall g q, In g gibbs -> In q g -> fst q <= m.
  Proof.
    intros H [M1 M2]. apply mapM_Ok_iff in H. split.
    - clear M2. induction H as [|g a gibbs ms H1 H2 IH]; [destruct M1|]. destruct M1 as [<-|M1].
      + apply py_max_Ok in H1. destruct H1 as [H1 _]. apply in_map_iff in H1. destruct H1 as [q [<- H1]]. exists g, q. split; [now left|]. now split.
      + destruct (IH M1) as [g' [q [I1 I2]]]. exists g', q. split; [now right|exact I2].
    - clear M1. induction H as [|g a gibbs ms H1 H2 IH]; intros g' q Hg Hq; [destruct Hg|]. destruct Hg as [<-|Hg].
      + apply py_max_Ok in H1. destruct H1 as [_ H1]. specialize (M2 a (or_introl eq_refl)). specialize (H1 (fst q) (in_map fst _ _ Hq)). lra.
      + apply (IH ltac:(intros; apply M2; now right) g' q Hg Hq).
  Qed.
  Lemma limit_given gibbs : gibbs <> [] -> (forall g, In g gibbs -> g <> []) -> exists r, p_limit (F:=R) share gibbs = Ok r.
  Proof.
    intros NE NG. unfold p_limit.
    assert (EX : exists ms, mapM (fun g : list (R * R) => py_max (map fst g)) gibbs = Ok ms).
    { clear NE. induction gibbs as [|g gibbs IH]; [now exists []|]. cbn [mapM]. assert (NG0 := NG g (or_introl eq_refl)). destruct g as [|q g]; [congruence|]. cbn [map py_max bind].
      destruct IH as [ms IH]; [intros; apply NG; now right|]. rewrite IH. cbn [bind]. eexists. reflexivity. }
    destruct EX as [ms EX]. rewrite EX. cbn [bind]. destruct ms as [|a ms]; [|cbn [py_max bind]; eexists; reflexivity].
    apply mapM_Ok_iff in EX. inversion EX. subst. congruence.
  Qed.
  (** Members of the grid of pressures *)
  Lemma arange_In stop step x : is_ceil ceil -> 0 < step ->
    (In x (arange (F:=R) ceil lowest stop step) <-> exists k, x = lowest + INR k * step /\ x < stop).
  Proof.
    clear fsolve share above Hs Hi Hb solve inv best0. intros HC Hp. unfold arange. rewrite in_map_iff. cbn [nadd nsub nmul ndiv R_num].
    assert (K : forall k, (k < ceil ((stop - lowest) / step))%nat <-> INR k < (stop - lowest) / step).
    { intros k. destruct (HC ((stop - lowest) / step)) as [C1 C2]. split.
      - intros H. apply Rnot_le_lt. intros Q. specialize (C2 k Q). lia.
      - intros H. apply INR_lt. lra. }
    assert (D : forall k, INR k < (stop - lowest) / step <-> lowest + INR k * step < stop).
    { intros k. split; intros H.
      - apply (Rmult_lt_compat_r step) in H; [|exact Hp]. unfold Rdiv in H. rewrite Rmult_assoc, Rinv_l in H by lra. lra.
      - apply (Rmult_lt_reg_r step); [exact Hp|]. unfold Rdiv. rewrite Rmult_assoc, Rinv_l by lra. lra. }
    split.
    - intros [k [<- Hk]]. apply in_seq in Hk. exists k. rewrite nnat_INR. split; [reflexivity|]. apply D, K. lia.
    - intros [k [-> Hk]]. exists k. rewrite nnat_INR. split; [reflexivity|]. apply in_seq. apply D, K in Hk. lia.
  Qed.
  Lemma arange_ascending stop step : 0 < step -> StronglySorted Rlt (arange (F:=R) ceil lowest stop step).
  Proof.
    clear fsolve share above Hs Hi Hb solve inv best0. intros Hp. unfold arange. generalize (ceil (ndiv (nsub stop lowest) step)). intros n. generalize 0%nat. induction n as [|n IH]; intros a; cbn [seq map]; [constructor|]. constructor; [apply IH|].
    apply Forall_forall. intros y Hy. apply in_map_iff in Hy. destruct Hy as [k [<- Hk]]. apply in_seq in Hk. cbn [nadd nmul R_num]. rewrite !nnat_INR.
    assert (INR a < INR k) by (apply lt_INR; lia). assert (INR a * step < INR k * step) by (apply Rmult_lt_compat_r; lra). lra.
  Qed.

  (** For two phases with enthalpies and entropies that are polynomials of the pressure, the boundary consists of the
      exact transitions at the pressures of the grid where the temperature is positive. *)
  Definition tc (ph1 ph2 : phase) (p : R) : R := (ph_h ph1 p - ph_h ph2 p) / (ph_s ph1 p - ph_s ph2 p).
  Theorem C78_boundary ph1 ph2 M temps1 gibbs1 temps2 gibbs2 interval : solves_lines fsolve -> is_ceil ceil -> (3 <= M)%nat -> 0 < interval ->
    polynomial M (ph_h ph1) -> polynomial M (ph_s ph1) -> polynomial M (ph_h ph2) -> polynomial M (ph_s ph2) ->
    tabulated ph1 M temps1 gibbs1 -> tabulated ph2 M temps2 gibbs2 -> ordered temps1 -> ordered temps2 -> (2 <= length temps1)%nat -> (2 <= length temps2)%nat ->
    (forall p, above < p -> ph_s ph1 p <> ph_s ph2 p) ->
    exists b p1 p2, compute_phase_boundary gibbs1 temps1 gibbs2 temps2 interval M = Ok b /\ p_limit share gibbs1 = Ok p1 /\ p_limit share gibbs2 = Ok p2 /\
      b = map (fun p => (p, tc ph1 ph2 p)) (filter (fun p => if Rlt_dec above p then if Rlt_dec 0 (tc ph1 ph2 p) then true else false else false) (arange (F:=R) ceil lowest (Rmin p1 p2) interval)).
  Proof.
    intros HF HC HM Hp P1 P2 P3 P4 T1 T2 O1 O2 L1 L2 NS.
    assert (LIM : forall ph temps gibbs, tabulated ph M temps gibbs -> (2 <= length temps)%nat -> exists r, p_limit (F:=R) share gibbs = Ok r).
    { intros ph temps gibbs [L T] L2'. apply limit_given; [intros ->; cbn in L; lia|]. intros g Hg. apply In_nth_error in Hg. destruct Hg as [i Hi'].
      destruct (nth_error temps i) as [t|] eqn:E; [|apply nth_error_None in E; assert ((i < length gibbs)%nat) by (apply nth_error_Some; congruence); lia].
      destruct (T i t g E Hi') as [_ [Q _]]. intros ->. cbn in Q. lia. }
    destruct (LIM _ _ _ T1 L1) as [p1 Q1]. destruct (LIM _ _ _ T2 L2) as [p2 Q2]. unfold Transition.compute_phase_boundary. rewrite Q1, Q2. cbn [bind].
    assert (PM : (if nltb p2 p1 then p2 else p1) = Rmin p1 p2). { cbn [nltb R_ord]. unfold Rmin. destruct (Rltb p2 p1) eqn:E; [apply Rltb_true in E|apply Rltb_false in E]; destruct (Rle_dec p1 p2); lra. }
    rewrite PM. set (ps := arange ceil lowest (Rmin p1 p2) interval). rewrite (fitted_gibbs ph1 M temps1 gibbs1 ps P1 P2 HM T1). cbn [bind]. rewrite (fitted_gibbs ph2 M temps2 gibbs2 ps P3 P4 HM T2). cbn [bind].
    assert (ASC : forall ph p temps, ordered temps -> ascending (map (fun t => (t, gibbs_of ph p t)) temps)).
    { intros ph p temps O i j a b Hij Ha Hb'. rewrite nth_error_map in Ha, Hb'. destruct (nth_error temps i) as [x|] eqn:X; [|discriminate]. destruct (nth_error temps j) as [y|] eqn:Y; [|discriminate].
      cbn in Ha, Hb'. assert (a = (x, gibbs_of ph p x)) by congruence. assert (b = (y, gibbs_of ph p y)) by congruence. subst. cbn. now apply (O i j). }
    assert (PT : forall p, boundary_point solve inv best0 fsolve above (map (fun t => (t, gibbs_of ph1 p t)) temps1, map (fun t => (t, gibbs_of ph2 p t)) temps2, p) =
        Ok (if Rlt_dec above p then if Rlt_dec 0 (tc ph1 ph2 p) then (p, tc ph1 ph2 p) :: nil else nil else nil)).
    { intros p. unfold boundary_point. cbn [nltb R_ord]. destruct (Rlt_dec above p) as [A|A].
      - rewrite (proj2 (Rltb_true _ _) A). rewrite (C78_lines _ _ (ph_h ph1 p) (- ph_s ph1 p) (ph_h ph2 p) (- ph_s ph2 p)); [|exact HF|now apply ASC|now apply ASC|now rewrite map_length|now rewrite map_length| | |specialize (NS p A); lra].
        + cbn [bind]. assert (E : (ph_h ph2 p - ph_h ph1 p) / (- ph_s ph1 p - - ph_s ph2 p) = tc ph1 ph2 p) by (unfold tc; specialize (NS p A); field; split; lra). rewrite E.
          cbn [n0 R_num]. destruct (Rlt_dec 0 (tc ph1 ph2 p)) as [B|B]; [now rewrite (proj2 (Rltb_true _ _) B)|].
          rewrite (proj2 (Rltb_false 0 (tc ph1 ph2 p))) by lra. reflexivity.
        + intros q Hq. apply in_map_iff in Hq. destruct Hq as [t [<- _]]. cbn. unfold gibbs_of. ring.
        + intros q Hq. apply in_map_iff in Hq. destruct Hq as [t [<- _]]. cbn. unfold gibbs_of. ring.
      - assert (Z : Rltb above p = false) by (apply Rltb_false; lra). now rewrite Z. }
    assert (MM : mapM (boundary_point solve inv best0 fsolve above) (combine (combine (map (fun p => map (fun t => (t, gibbs_of ph1 p t)) temps1) ps) (map (fun p => map (fun t => (t, gibbs_of ph2 p t)) temps2) ps)) ps) =
       Ok (map (fun p => if Rlt_dec above p then if Rlt_dec 0 (tc ph1 ph2 p) then (p, tc ph1 ph2 p) :: nil else nil else nil) ps)).
    { clearbody ps. clear -PT. induction ps as [|p ps IH]; [reflexivity|]. cbn [map combine mapM]. rewrite PT. cbn [bind]. rewrite IH. reflexivity. }
    rewrite MM. cbn [bind]. eexists. exists p1, p2. split; [reflexivity|]. split; [reflexivity|]. split; [reflexivity|].
    fold ps. clearbody ps. clear. induction ps as [|p ps IH]; [reflexivity|]. cbn [map concat filter]. rewrite IH. destruct (Rlt_dec above p); [|reflexivity]. destruct (Rlt_dec 0 (tc ph1 ph2 p)); reflexivity.
  Qed.
  (** The same without the functions of the model: the points of the boundary, in order of the pressure. [m1] and [m2] are the
      largest pressures of the data. *)
  Theorem C78_points ph1 ph2 M temps1 gibbs1 temps2 gibbs2 interval m1 m2 : solves_lines fsolve -> is_ceil ceil -> (3 <= M)%nat -> 0 < interval ->
    polynomial M (ph_h ph1) -> polynomial M (ph_s ph1) -> polynomial M (ph_h ph2) -> polynomial M (ph_s ph2) ->
    tabulated ph1 M temps1 gibbs1 -> tabulated ph2 M temps2 gibbs2 -> ordered temps1 -> ordered temps2 -> (2 <= length temps1)%nat -> (2 <= length temps2)%nat ->
    (forall p, above < p -> ph_s ph1 p <> ph_s ph2 p) -> is_max (map fst (concat gibbs1)) m1 -> is_max (map fst (concat gibbs2)) m2 ->
    exists b, compute_phase_boundary gibbs1 temps1 gibbs2 temps2 interval M = Ok b /\ StronglySorted Rlt (map fst b) /\
      forall p t, In (p, t) b <-> (exists k, p = lowest + INR k * interval) /\ above < p /\ p < m1 * share /\ p < m2 * share /\ 0 < t /\ gibbs_of ph1 p t = gibbs_of ph2 p t.
  Proof.
    intros HF HC HM Hp P1 P2 P3 P4 T1 T2 O1 O2 L1 L2 NS M1 M2.
    destruct (C78_boundary ph1 ph2 M temps1 gibbs1 temps2 gibbs2 interval HF HC HM Hp P1 P2 P3 P4 T1 T2 O1 O2 L1 L2 NS) as [b [p1 [p2 [B [Q1 [Q2 E]]]]]]. exists b. split; [exact B|].
    assert (LM : forall gibbs m r, is_max (map fst (concat gibbs)) m -> p_limit (F:=R) share gibbs = Ok r -> r = m * share).
    { clear. intros gibbs m r X H. apply p_limit_is in H. destruct H as [ms [m' [H1 [H2 ->]]]]. destruct (limit_any gibbs ms m' H1 H2) as [[g [q [G1 [G2 G3]]]] G4]. f_equal. destruct X as [X1 X2].
      apply Rle_antisym; [apply X2, in_map_iff; exists q; split; [exact G3|]; apply in_concat; now exists g|]. apply in_map_iff in X1. destruct X1 as [q' [<- X1]]. apply in_concat in X1. destruct X1 as [g' [X1 X3]]. now apply (G4 g' q'). }
    rewrite (LM _ _ _ M1 Q1), (LM _ _ _ M2 Q2) in E. split.
    - rewrite E, map_map. cbn [fst]. rewrite map_id. pose proof (arange_ascending (Rmin (m1 * share) (m2 * share)) interval Hp) as S. revert S. generalize (arange ceil lowest (Rmin (m1 * share) (m2 * share)) interval).
      clear. intros l S. induction S as [|x l S IH H]; [constructor|]. cbn [filter]. match goal with |- context [if ?c then x :: _ else _] => destruct c end; [|exact IH]. constructor; [exact IH|].
      apply Forall_forall. intros y Hy. apply filter_In in Hy. now apply (proj1 (Forall_forall _ _) H).
    - assert (TC : forall p t, above < p -> (t = tc ph1 ph2 p <-> gibbs_of ph1 p t = gibbs_of ph2 p t)).
      { intros p t A. specialize (NS p A). unfold gibbs_of, tc. split.
        - intros ->. field. lra.
        - intros H. apply (Rmult_eq_reg_r (ph_s ph1 p - ph_s ph2 p)); [|lra]. unfold Rdiv. rewrite Rmult_assoc, Rinv_l by lra. lra. }
      assert (RM : forall p, p < Rmin (m1 * share) (m2 * share) <-> p < m1 * share /\ p < m2 * share).
      { intros p. split; [intros H; split; [eapply Rlt_le_trans; [exact H|apply Rmin_l]|eapply Rlt_le_trans; [exact H|apply Rmin_r]]|intros [H1 H2]; now apply Rmin_glb_lt]. }
      intros p t. rewrite E, in_map_iff. split.
      + intros [x [H1 H2]]. assert (x = p) by congruence. assert (tc ph1 ph2 x = t) by congruence. subst. apply filter_In in H2. destruct H2 as [H2 H3]. apply arange_In in H2; [|exact HC|exact Hp].
        destruct H2 as [k [H2 H4]]. apply RM in H4. destruct (Rlt_dec above p) as [A|A]; [|discriminate]. destruct (Rlt_dec 0 (tc ph1 ph2 p)) as [Z|Z]; [|discriminate].
        split; [now exists k|]. split; [exact A|]. split; [apply H4|]. split; [apply H4|]. split; [exact Z|]. now apply TC.
      + intros [[k H1] [A [H2 [H3 [Z G]]]]]. apply (TC p t A) in G. exists p. split; [now rewrite <- G|]. apply filter_In. split.
        * apply arange_In; [exact HC|exact Hp|]. exists k. split; [exact H1|]. apply RM. now split.
        * destruct (Rlt_dec above p) as [_|X]; [|contradiction]. rewrite <- G. destruct (Rlt_dec 0 t) as [_|X]; [reflexivity|contradiction].
  Qed.
End C78.
(** Its slope is that of Clausius and Clapeyron: the difference of the volumes by the difference of the entropies. *)
Theorem C78_clapeyron ph1 ph2 p v1 v2 h1' h2' s1' s2' : ph_s ph1 p <> ph_s ph2 p ->
  is_derive (ph_h ph1) p h1' -> is_derive (ph_h ph2) p h2' -> is_derive (ph_s ph1) p s1' -> is_derive (ph_s ph2) p s2' ->
  is_derive (fun x => gibbs_of ph1 x (tc ph1 ph2 p)) p v1 -> is_derive (fun x => gibbs_of ph2 x (tc ph1 ph2 p)) p v2 ->
  is_derive (tc ph1 ph2) p ((v1 - v2) / (ph_s ph1 p - ph_s ph2 p)).
Proof.
  intros NS D1 D2 D3 D4 D5 D6. set (t := tc ph1 ph2 p) in *.
  assert (V1 : v1 = h1' - s1' * t). { apply is_derive_unique in D5. rewrite <- D5. apply is_derive_unique. unfold gibbs_of.
    apply (is_derive_minus (V:=R_NormedModule) (ph_h ph1) (fun x => ph_s ph1 x * t) p h1' (s1' * t)); [exact D1|].
    apply (is_derive_ext (fun x => t * ph_s ph1 x)); [intros z; match goal with |- ?a = ?b => change (@eq R a b) end; ring|]. replace (s1' * t) with (t * s1') by ring. now apply (is_derive_scal (ph_s ph1) p t). }
  assert (V2 : v2 = h2' - s2' * t). { apply is_derive_unique in D6. rewrite <- D6. apply is_derive_unique. unfold gibbs_of.
    apply (is_derive_minus (V:=R_NormedModule) (ph_h ph2) (fun x => ph_s ph2 x * t) p h2' (s2' * t)); [exact D2|].
    apply (is_derive_ext (fun x => t * ph_s ph2 x)); [intros z; match goal with |- ?a = ?b => change (@eq R a b) end; ring|]. replace (s2' * t) with (t * s2') by ring. now apply (is_derive_scal (ph_s ph2) p t). }
  assert (NZ : ph_s ph1 p - ph_s ph2 p <> 0) by lra.
  replace ((v1 - v2) / (ph_s ph1 p - ph_s ph2 p)) with (((h1' - h2') * (ph_s ph1 p - ph_s ph2 p) - (ph_h ph1 p - ph_h ph2 p) * (s1' - s2')) / (ph_s ph1 p - ph_s ph2 p) ^ 2).
  - unfold tc. apply (is_derive_div (fun p => ph_h ph1 p - ph_h ph2 p) (fun p => ph_s ph1 p - ph_s ph2 p) p (h1' - h2') (s1' - s2')).
    + now apply (is_derive_minus (V:=R_NormedModule) (ph_h ph1) (ph_h ph2)).
    + now apply (is_derive_minus (V:=R_NormedModule) (ph_s ph1) (ph_s ph2)).
    + exact NZ.
  - rewrite V1, V2. unfold t, tc. field. exact NZ.
Qed.

(** *** What is not checked *)
(** A root finder for straight lines: through the values at 0 and 1. *)
Definition secant (g : R -> R) (_ : R) : R := - g 0 / (g 1 - g 0).
Lemma secant_solves : solves_lines secant.
Proof. intros g a b x0 H NB. unfold secant. rewrite (H 0), (H 1), H. field. lra. Qed.
Definition Rceil (x : R) : nat := Z.to_nat (- Int_part (- x)).
Lemma Rceil_is : is_ceil Rceil.
Proof.
  intros x. unfold Rceil. destruct (base_Int_part (- x)) as [B1 B2]. set (z := Int_part (- x)) in *. clearbody z. split.
  - destruct (Z.le_gt_cases 0 (- z)) as [H|H].
    + rewrite INR_IZR_INZ, Z2Nat.id by exact H. rewrite opp_IZR. lra.
    + assert (Z.to_nat (- z) = 0%nat) as -> by lia. cbn. assert (IZR 1 <= IZR z) by (apply IZR_le; lia). lra.
  - intros n Hn. apply Nat2Z.inj_le. destruct (Z.le_gt_cases 0 (- z)) as [H|H]; [|lia]. rewrite Z2Nat.id by exact H.
    rewrite INR_IZR_INZ in Hn. assert (IZR (- Z.of_nat n - 1) < IZR z). { rewrite minus_IZR, opp_IZR. lra. } apply lt_IZR in H0. lia.
Qed.
Lemma ascending2 a b : fst a < fst b -> ascending (a :: b :: nil).
Proof. intros H i j p q Hij Hp Hq. destruct j as [|[|j]]; [lia| |destruct j; discriminate]. destruct i as [|i]; [|lia]. cbn in Hp, Hq. assert (p = a) by congruence. assert (q = b) by congruence. now subst. Qed.
(** "The transition is at a temperature of the data" *)
Theorem C78_inside_refuted : exists f1 f2 t, find_transition Rsolve Rinverse 10 secant f1 f2 = Ok t /\ (forall q, In q f1 \/ In q f2 -> 0 <= fst q <= 1) /\ t = 10.
Proof.
  exists ((0, 0) :: (1, -1) :: nil), ((0, 10) :: (1, 8) :: nil), 10. split; [|split; [|reflexivity]].
  - rewrite (C78_lines Rsolve Rinverse 10 secant Rsolve_exact _ _ 0 (-1) 10 (-2)).
    + f_equal. field.
    + exact secant_solves.
    + apply ascending2. cbn. lra.
    + apply ascending2. cbn. lra.
    + cbn. lia.
    + cbn. lia.
    + intros q [<-|[<-|[]]]; cbn; ring.
    + intros q [<-|[<-|[]]]; cbn; ring.
    + lra.
  - intros q [[<-|[<-|[]]]|[<-|[<-|[]]]]; cbn; lra.
Qed.
(** "A transition is only reported if there is one": one phase is stable everywhere, and whatever the root finder gives
    back is reported. *)
Theorem C78_none_refuted fsolve : exists f1 f2 t, find_transition Rsolve Rinverse 10 fsolve f1 f2 = Ok t /\
  forall g1 g2, polyline f1 g1 -> polyline f2 g2 -> forall x, g1 x < g2 x.
Proof.
  exists ((0, 0) :: (1, -1) :: nil), ((0, 1) :: (1, 0) :: nil).
  destruct (C78_always Rsolve Rinverse 10 fsolve Rsolve_exact ((0, 0) :: (1, -1) :: nil) ((0, 1) :: (1, 0) :: nil)) as [t T]; [apply ascending2; cbn; lra|apply ascending2; cbn; lra|cbn; lia|cbn; lia|].
  exists t. split; [exact T|]. intros g1 g2 P1 P2 x. rewrite (P1 0%nat (0, 0) (1, -1) x eq_refl eq_refl (or_introl eq_refl) (or_introl eq_refl)), (P2 0%nat (0, 1) (1, 0) x eq_refl eq_refl (or_introl eq_refl) (or_introl eq_refl)).
  cbn. lra.
Qed.
(** "The pressures of a boundary are within the pressures of the data at every temperature": the limit is taken from the
    largest of the largest pressures of the temperatures. *)
Definition hot : phase := mk_phase (fun p => p + 100) (fun _ => 2).
Definition cold : phase := mk_phase (fun _ => 0) (fun _ => 1).
Definition table (ph : phase) (t : R) (ps : list R) : list (R * R) := map (fun p => (p, gibbs_of ph p t)) ps.
Lemma poly_affine M a b : (1 <= M)%nat -> polynomial M (fun p => a + b * p).
Proof.
  intros H. exists (fun i => match i with 0%nat => a | 1%nat => b | _ => 0 end). intros x. destruct M as [|M]; [lia|]. clear H. induction M as [|M IH]; [cbn; ring|].
  cbn [sum_f_R0] in *. rewrite <- IH. ring.
Qed.
Lemma polynomial_ext M f g : (forall x, f x = g x) -> polynomial M f -> polynomial M g.
Proof. intros E [c H]. exists c. intros x. rewrite <- E. apply H. Qed.
Lemma table_samples ph t n ps : NoDup ps -> (n <= length ps)%nat -> samples (fun p => gibbs_of ph p t) n (table ph t ps).
Proof.
  intros H1 H2. unfold table. split; [|split].
  - rewrite map_map. cbn. now rewrite map_id.
  - now rewrite map_length.
  - intros q Hq. apply in_map_iff in Hq. destruct Hq as [p [<- _]]. reflexivity.
Qed.
Definition near : list R := 0 :: 1 :: 2 :: 3 :: 4 :: nil.
Definition far : list R := 0 :: 10 :: 20 :: 30 :: 40 :: nil.
Lemma near_NoDup : NoDup near.
Proof. unfold near. repeat constructor; cbn; intros H; repeat (destruct H as [H|H]; [lra|]); exact H. Qed.
Lemma far_NoDup : NoDup far.
Proof. unfold far. repeat constructor; cbn; intros H; repeat (destruct H as [H|H]; [lra|]); exact H. Qed.
Lemma two_tables ph : tabulated ph 3 (0 :: 1000 :: nil) (table ph 0 near :: table ph 1000 far :: nil).
Proof.
  split; [reflexivity|]. intros [|[|i]] t g Ht Hg; cbn in Ht, Hg.
  - assert (t = 0) by congruence. assert (g = table ph 0 near) by (unfold table, near; cbn; congruence). subst. apply table_samples; [exact near_NoDup|cbn; lia].
  - assert (t = 1000) by congruence. assert (g = table ph 1000 far) by (unfold table, far; cbn; congruence). subst. apply table_samples; [exact far_NoDup|cbn; lia].
  - destruct i; discriminate.
Qed.
Lemma ordered2 a b : a < b -> ordered (a :: b :: nil).
Proof. intros H i j p q Hij Hp Hq. destruct j as [|[|j]]; [lia| |destruct j; discriminate]. destruct i as [|i]; [|lia]. cbn in Hp, Hq. assert (p = a) by congruence. assert (q = b) by congruence. now subst. Qed.
Lemma limit32 ph : p_limit (F:=R) (4 / 5) (table ph 0 near :: table ph 1000 far :: nil) = Ok 32.
Proof.
  apply p_limit_is. exists (4 :: 40 :: nil), 40. split; [|split; [|field]].
  - cbn [mapM]. unfold table at 1. rewrite map_map. cbn [fst]. rewrite map_id. rewrite (proj2 (py_max_Ok near 4)).
    + cbn [bind]. unfold table. rewrite map_map. cbn [fst]. rewrite map_id. rewrite (proj2 (py_max_Ok far 40)); [reflexivity|]. split; [cbn; tauto|]. intros y H. cbn in H. repeat (destruct H as [<-|H]; [lra|]). destruct H.
    + split; [cbn; tauto|]. intros y H. cbn in H. repeat (destruct H as [<-|H]; [lra|]). destruct H.
  - split; [cbn; tauto|]. intros y [<-|[<-|[]]]; lra.
Qed.
Theorem C78_range_refuted : exists gibbs1 gibbs2 g b pt,
  compute_phase_boundary Rsolve Rinverse 10 secant Rceil (4 / 5) (-3) (- / 100000) gibbs1 (0 :: 1000 :: nil) gibbs2 (0 :: 1000 :: nil) 1 3 = Ok b /\
  In g gibbs1 /\ In pt b /\ forall q, In q g -> fst q < fst pt.
Proof.
  exists (table hot 0 near :: table hot 1000 far :: nil), (table cold 0 near :: table cold 1000 far :: nil), (table hot 0 near).
  destruct (C78_boundary Rsolve Rinverse 10 secant Rsolve_exact Rinverse_exact ltac:(lra) Rceil (4 / 5) (-3) (- / 100000) hot cold 3
    (0 :: 1000 :: nil) (table hot 0 near :: table hot 1000 far :: nil) (0 :: 1000 :: nil) (table cold 0 near :: table cold 1000 far :: nil) 1) as [b [p1 [p2 [B [Q1 [Q2 E]]]]]].
  - exact secant_solves.
  - exact Rceil_is.
  - lia.
  - lra.
  - apply (polynomial_ext 3 (fun p => 100 + 1 * p)); [intros; cbn; ring|]. apply poly_affine. lia.
  - apply (polynomial_ext 3 (fun p => 2 + 0 * p)); [intros; cbn; ring|]. apply poly_affine. lia.
  - apply (polynomial_ext 3 (fun p => 0 + 0 * p)); [intros; cbn; ring|]. apply poly_affine. lia.
  - apply (polynomial_ext 3 (fun p => 1 + 0 * p)); [intros; cbn; ring|]. apply poly_affine. lia.
  - apply two_tables.
  - apply two_tables.
  - apply ordered2. lra.
  - apply ordered2. lra.
  - cbn. lia.
  - cbn. lia.
  - intros p _. cbn. lra.
  - rewrite limit32 in Q1, Q2. assert (p1 = 32) by congruence. assert (p2 = 32) by congruence. subst p1 p2. exists b, (20, 120). split; [exact B|]. split; [now left|]. split.
    + rewrite E. apply in_map_iff. exists 20. split; [unfold tc; cbn; f_equal; field|]. apply filter_In. split.
      * apply arange_In; [exact Rceil_is|lra|]. exists 23%nat. rewrite Rmin_left by lra. cbn. lra.
      * destruct (Rlt_dec (- / 100000) 20) as [_|H]; [|exfalso; lra]. destruct (Rlt_dec 0 (tc hot cold 20)) as [_|H]; [reflexivity|]. exfalso. apply H. unfold tc. cbn. lra.
    + intros q Hq. unfold table in Hq. apply in_map_iff in Hq. destruct Hq as [p [<- Hp]]. cbn in Hp |- *. repeat (destruct Hp as [<-|Hp]; [lra|]). destruct Hp.
Qed.
Print Assumptions C78_polygon.
Print Assumptions C78_polygon_given.
Print Assumptions C78_polygon_refused.
Print Assumptions C78_reproduction.
Print Assumptions C78_transition.
Print Assumptions C78_always.
Print Assumptions C78_exactly.
Print Assumptions C78_lines.
Print Assumptions C78_boundary.
Print Assumptions C78_points.
Print Assumptions C78_clapeyron.
Print Assumptions C78_inside_refuted.
Print Assumptions C78_none_refuted.
Print Assumptions C78_range_refuted.

(** *** Examples *)
(** Clausius and Clapeyron for the two phases above: volumes 1 and 0, entropies 2 and 1. *)
Example C78_clapeyron_example : is_derive (tc hot cold) 5 1.
Proof.
  replace 1 with ((1 - 0) / (ph_s hot 5 - ph_s cold 5)) by (cbn; field).
  apply (C78_clapeyron hot cold 5 1 0 1 0 0 0); cbn; [lra|auto_derive; [trivial|ring]|auto_derive; [trivial|ring]|auto_derive; [trivial|ring]|auto_derive; [trivial|ring]| |]; unfold gibbs_of; cbn; auto_derive; trivial; ring.
Qed.
From Coq Require Import QArith Qcanon.
Module Ex.
  Definition q (z : Z) : Qc := Q2Qc (inject_Z z).
  Definition qsecant (g : Qc -> Qc) (_ : Qc) : Qc := (- g (q 0) / (g (q 1) - g (q 0)))%Qc.
  Definition qceil (x : Qc) : nat := Z.to_nat (- ((- Qnum x) / Zpos (Qden x)))%Z.
  Definition tab (h s t : Z) (v : Z) (ps : list Z) : list (Qc * Qc) := map (fun p => (q p, q (h + v * p - s * t))) ps.
  Definition ps := [0; 1; 2; 3; 5]%Z.
  Definition run := compute_phase_boundary (F:=Qc) (N:=Qc_num) (NO:=Qc_ord) (gauss qz) (gauss_inv qz) ten10 qsecant qceil (Q2Qc (4 # 5)) (q (-3)) (Q2Qc (-1 # 100000))
    [tab 100 2 0 1 ps; tab 100 2 1000 1 ps] [q 0; q 1000] [tab 0 1 0 0 ps; tab 0 1 1000 0 ps] [q 0; q 1000] (q 1) 3.
  Definition two := find_transition (F:=Qc) (N:=Qc_num) (NO:=Qc_ord) (gauss qz) (gauss_inv qz) ten10 qsecant [(q 0, q 0); (q 100, q (-100)); (q 200, q (-200))] [(q 0, q 50); (q 100, q (-100)); (q 200, q (-250))].
End Ex.
(** Below 0.8 * 5 = 4: pressures 0 to 3, temperatures 100 to 103. *)
Example C78_boundary_example : Ex.run = Ok [(Ex.q 0, Ex.q 100); (Ex.q 1, Ex.q 101); (Ex.q 2, Ex.q 102); (Ex.q 3, Ex.q 103)].
Proof. vm_compute. reflexivity. Qed.
Example C78_transition_example : Ex.two = Ok (Ex.q 100).
Proof. vm_compute. reflexivity. Qed.
Example C78_polygon_example : exists f : Qc -> Qc, spline1 (F:=Qc) [(Ex.q 0, Ex.q 0); (Ex.q 2, Ex.q 4); (Ex.q 3, Ex.q 3)] = Ok f /\ f (Ex.q 1) = Ex.q 2 /\ f (Ex.q 5) = Ex.q 1 /\ f (Ex.q (-1)) = Ex.q (-2) /\
  spline1 (F:=Qc) [(Ex.q 0, Ex.q 0); (Ex.q 3, Ex.q 4); (Ex.q 2, Ex.q 3)] = Err ValueError.
Proof. eexists. split; [vm_compute; reflexivity|]. repeat split; vm_compute; reflexivity. Qed.
