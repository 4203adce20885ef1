(** C77: properties at equilibrium volumes, Gibbs free energies, and the file of thermodynamic properties. *)
From Verif Require Import Base Num NumR Model.Structure Model.Readers Model.Equilibrium Spec.Equilibrium Proofs.Readers Proofs.Equilibrium.
From Coq Require Import Reals Lra Psatz.
From Coquelicot Require Import Coquelicot.
Local Open Scope R_scope.

Section C77.
  Variables (gpa jmol factor bm_thr eps atol : R).
  Hypothesis gpa_pos : 0 < gpa.
  Hypothesis eps_pos : 0 < eps.
  Notation usable := (usable gpa bm_thr).
  Notation eval_eq_free_energy := (eval_eq_free_energy gpa bm_thr).
  Notation eval_eq := (eval_eq gpa bm_thr).
  Notation eval_eq_entropy := (eval_eq_entropy gpa bm_thr).
  Notation eval_eq_cv := (eval_eq_cv gpa bm_thr).
  Notation eval_eq_cp := (eval_eq_cp gpa jmol bm_thr).
  Notation cp_add := (cp_add gpa jmol bm_thr).
  Notation b0 := (b0 gpa).

  (** The models after construction and fits *)
  Definition fitted (volumes temps : list R) fv sv cv (m : models) : Prop :=
    exists m0, new_models factor volumes temps = Ok m0 /\ m = mk_models (m_temps m0) (m_thr m0) fv sv cv.
  Lemma fitted_is volumes temps fv sv cv m : fitted volumes temps fv sv cv m ->
    m_temps m = temps /\ m_fv m = fv /\ m_sv m = sv /\ m_cv m = cv /\ (exists x, is_max volumes x /\ m_thr m = x * factor).
  Proof.
    intros [m0 [H1 H2]]. unfold new_models in H1. apply bind_Ok in H1. destruct H1 as [x [H1 H3]]. apply py_max_Ok in H1.
    assert (E : m0 = mk_models temps (x * factor) None None None) by (cbn [nmul R_num] in H3; congruence). subst. repeat split. exists x. now split.
  Qed.
  Theorem C77_construction volumes temps : volumes <> [] <-> exists m, new_models factor volumes temps = Ok m.
  Proof.
    unfold new_models. destruct volumes as [|v l].
    - split; [congruence|]. intros [m H]. discriminate.
    - split; [|discriminate]. intros _. cbn [py_max bind]. eexists. reflexivity.
  Qed.

  Lemma b0_back (e : eos) : b0 e / gpa = e_bm e.
  Proof. unfold Equilibrium.b0. cbn [nmul R_num]. field. lra. Qed.

  (** *** Equations of state that may be used *)
  Theorem C77_usable volumes temps fv sv cv m i e : fitted volumes temps (Some fv) sv cv m -> nth_error fv i = Some (Some e) ->
    (usable m i = Ok (Some e) <-> acceptable factor bm_thr volumes (e_v0 e) (e_bm e)) /\
    (usable m i = Ok None <-> ~ acceptable factor bm_thr volumes (e_v0 e) (e_bm e)).
  Proof.
    intros H1 H2. apply fitted_is in H1. destruct H1 as (_ & H3 & _ & _ & x & H4 & H5).
    unfold Equilibrium.usable. rewrite H3. unfold item. rewrite H2. cbn [some bind]. cbn [ndiv R_num nltb R_ord]. rewrite b0_back, H5.
    assert (A : acceptable factor bm_thr volumes (e_v0 e) (e_bm e) <-> (e_v0 e <= x * factor /\ bm_thr <= e_bm e)).
    { unfold acceptable. split; intros [A1 A2]; (split; [|exact A2]).
      - destruct A1 as [y [A1 A3]]. now rewrite (is_max_unique volumes x y H4 A1).
      - exists x. now split. }
    rewrite A. destruct (Rltb (x * factor) (e_v0 e)) eqn:E1.
    - apply Rltb_true in E1. split; (split; [try discriminate|]); intros; try lra. reflexivity.
    - apply Rltb_false in E1. destruct (Rltb (e_bm e) bm_thr) eqn:E2.
      + apply Rltb_true in E2. split; (split; [try discriminate|]); intros; try lra. reflexivity.
      + apply Rltb_false in E2. split; (split; [try discriminate|]); intros; try lra; try reflexivity.
  Qed.
  Lemma usable_cases volumes temps fv sv cv m i : fitted volumes temps fv sv cv m ->
    match fv with
    | None => usable m i = Err RuntimeError
    | Some l => match nth_error l i with
                | None => usable m i = Err IndexError
                | Some None => usable m i = Ok None
                | Some (Some e) => (acceptable factor bm_thr volumes (e_v0 e) (e_bm e) /\ usable m i = Ok (Some e)) \/
                                   (~ acceptable factor bm_thr volumes (e_v0 e) (e_bm e) /\ usable m i = Ok None)
                end
    end.
  Proof.
    intros H. destruct fv as [l|].
    - destruct (nth_error l i) as [[e|]|] eqn:E.
      + destruct (C77_usable _ _ _ _ _ _ _ _ H E) as [U1 U2]. destruct (usable m i) as [[e'|]|] eqn:U.
        * left. unfold Equilibrium.usable in U. apply fitted_is in H. destruct H as (_ & H & _). rewrite H in U. unfold item in U. rewrite E in U. cbn [some bind] in U.
          destruct (nltb (m_thr m) (e_v0 e)); [discriminate|]. destruct (nltb (ndiv (b0 e) gpa) bm_thr); [discriminate|]. assert (e = e') by congruence. subst. split; [now apply U1|reflexivity].
        * right. split; [now apply U2|reflexivity].
        * exfalso. unfold Equilibrium.usable in U. apply fitted_is in H. destruct H as (_ & H & _). rewrite H in U. unfold item in U. rewrite E in U. cbn [some bind] in U.
          destruct (nltb (m_thr m) (e_v0 e)); [discriminate|]. destruct (nltb (ndiv (b0 e) gpa) bm_thr); discriminate.
      + apply fitted_is in H. destruct H as (_ & H & _). unfold Equilibrium.usable. rewrite H. unfold item. now rewrite E.
      + apply fitted_is in H. destruct H as (_ & H & _). unfold Equilibrium.usable. rewrite H. unfold item. now rewrite E.
    - apply fitted_is in H. destruct H as (_ & H & _). unfold Equilibrium.usable. now rewrite H.
  Qed.

  (** *** Free energies, entropies and heat capacities at equilibrium *)
  Theorem C77_free_energy volumes temps fv sv cv m i : fitted volumes temps fv sv cv m ->
    (forall f, eval_eq_free_energy m i = Ok (Some f) <->
       exists l e, fv = Some l /\ nth_error l i = Some (Some e) /\ acceptable factor bm_thr volumes (e_v0 e) (e_bm e) /\ f = e_e0 e) /\
    (eval_eq_free_energy m i = Ok None <->
       exists l, fv = Some l /\ (nth_error l i = Some None \/ exists e, nth_error l i = Some (Some e) /\ ~ acceptable factor bm_thr volumes (e_v0 e) (e_bm e))) /\
    (eval_eq_free_energy m i = Err RuntimeError <-> fv = None).
  Proof.
    intros H. pose proof (usable_cases _ _ _ _ _ _ i H) as U. unfold Equilibrium.eval_eq_free_energy. destruct fv as [l|].
    - destruct (nth_error l i) as [[e|]|] eqn:E.
      + destruct U as [[A U]|[A U]]; rewrite U; cbn [bind option_map].
        * repeat split.
          -- intros Q. exists l, e. split; [reflexivity|]. split; [exact E|]. split; [exact A|congruence].
          -- intros (l' & e' & E1 & E2 & _ & ->). congruence.
          -- discriminate.
          -- intros (l' & E1 & [E2|(e' & E2 & E3)]); [congruence|]. assert (e' = e) by congruence. subst. contradiction.
          -- discriminate.
          -- discriminate.
        * repeat split.
          -- discriminate.
          -- intros (l' & e' & E1 & E2 & E3 & _). assert (e' = e) by congruence. subst. contradiction.
          -- intros _. exists l. split; [reflexivity|]. right. exists e. now split.
          -- discriminate.
          -- discriminate.
      + rewrite U. cbn [bind option_map]. repeat split; try discriminate.
        * intros (l' & e' & E1 & E2 & _). congruence.
        * intros _. exists l. split; [reflexivity|now left].
      + rewrite U. cbn [bind]. repeat split; try discriminate.
        * intros (l' & e' & E1 & E2 & _). congruence.
        * intros (l' & E1 & [E2|(e' & E2 & _)]); congruence.
    - rewrite U. cbn [bind]. repeat split; try discriminate.
      + intros (l' & e' & E1 & _). discriminate.
      + intros (l' & E1 & _). discriminate.
  Qed.
  (** The same for a property fitted as a function of the volume *)
  Lemma eval_eq_cases volumes temps fv sv cv m i fits : fitted volumes temps fv sv cv m ->
    (forall x, eval_eq m fits i = Ok (Some x) <->
       exists l e fl f, fv = Some l /\ nth_error l i = Some (Some e) /\ acceptable factor bm_thr volumes (e_v0 e) (e_bm e) /\
         fits = Some fl /\ nth_error fl i = Some (Some f) /\ x = f_eval f (e_v0 e)) /\
    (forall l e, fv = Some l -> nth_error l i = Some (Some e) -> acceptable factor bm_thr volumes (e_v0 e) (e_bm e) -> fits = None -> eval_eq m fits i = Err RuntimeError) /\
    (forall l, fv = Some l -> (nth_error l i = Some None \/ exists e, nth_error l i = Some (Some e) /\ ~ acceptable factor bm_thr volumes (e_v0 e) (e_bm e)) -> eval_eq m fits i = Ok None).
  Proof.
    intros H. pose proof (usable_cases _ _ _ _ _ _ i H) as U. unfold Equilibrium.eval_eq. split; [|split].
    - intros x. split.
      + intros Q. apply bind_Ok in Q. destruct Q as [[e|] [Q1 Q2]]; [|discriminate].
        destruct fv as [l|]; [|congruence]. destruct (nth_error l i) as [[e'|]|] eqn:E; [|congruence|congruence].
        destruct U as [[A U]|[A U]]; [|congruence]. assert (e' = e) by congruence. subst e'.
        destruct fits as [fl|]; [|discriminate]. apply bind_Ok in Q2. destruct Q2 as [[f|] [Q2 Q3]]; [|discriminate]. apply item_Ok in Q2. cbn [option_map] in Q3.
        exists l, e, fl, f. do 5 (split; [assumption || reflexivity|]). congruence.
      + intros (l & e & fl & f & -> & E1 & A & -> & E2 & ->). rewrite E1 in U. destruct U as [[_ U]|[A' U]]; [|contradiction]. rewrite U. cbn [bind].
        unfold item. rewrite E2. reflexivity.
    - intros l e -> E1 A ->. rewrite E1 in U. destruct U as [[_ U]|[A' U]]; [|contradiction]. now rewrite U.
    - intros l -> [E1|[e [E1 A]]]; rewrite E1 in U; [now rewrite U|]. destruct U as [[A' U]|[_ U]]; [contradiction|]. now rewrite U.
  Qed.
  Theorem C77_entropy volumes temps fv sv cv m i : fitted volumes temps fv sv cv m ->
    (forall x, eval_eq_entropy m i = Ok (Some x) <->
       exists l e fl f, fv = Some l /\ nth_error l i = Some (Some e) /\ acceptable factor bm_thr volumes (e_v0 e) (e_bm e) /\
         sv = Some fl /\ nth_error fl i = Some (Some f) /\ x = f_eval f (e_v0 e)) /\
    (forall l e, fv = Some l -> nth_error l i = Some (Some e) -> acceptable factor bm_thr volumes (e_v0 e) (e_bm e) -> sv = None -> eval_eq_entropy m i = Err RuntimeError) /\
    (forall l, fv = Some l -> (nth_error l i = Some None \/ exists e, nth_error l i = Some (Some e) /\ ~ acceptable factor bm_thr volumes (e_v0 e) (e_bm e)) -> eval_eq_entropy m i = Ok None).
  Proof.
    intros H. pose proof (fitted_is _ _ _ _ _ _ H) as (_ & _ & E & _). unfold Equilibrium.eval_eq_entropy. rewrite E. eapply eval_eq_cases. exact H.
  Qed.
  (** The heat capacity at constant pressure *)
  Theorem C77_cp volumes temps fv sv cv m i : fitted volumes temps fv sv cv m -> 0 < bm_thr ->
    forall x, eval_eq_cp m i = Ok (Some x) <->
      exists l e cl c sl s t, fv = Some l /\ nth_error l i = Some (Some e) /\ acceptable factor bm_thr volumes (e_v0 e) (e_bm e) /\
        cv = Some cl /\ nth_error cl i = Some (Some c) /\ sv = Some sl /\ nth_error sl i = Some (Some s) /\ nth_error temps i = Some t /\
        x = f_eval c (e_v0 e) + jmol * (t * e_v0 e * (f_deriv s (e_v0 e) ^ 2) / e_bm e).
  Proof.
    intros H Hthr x. pose proof (usable_cases _ _ _ _ _ _ i H) as U. pose proof (fitted_is _ _ _ _ _ _ H) as (E1 & E2 & E3 & E4 & y & E5 & E6).
    destruct (eval_eq_cases _ _ _ _ _ _ i cv H) as [C1 _]. unfold Equilibrium.eval_eq_cp, Equilibrium.eval_eq_cv. rewrite E4. split.
    - intros Q. apply bind_Ok in Q. destruct Q as [[c0|] [Q1 Q2]]; [|discriminate]. apply C1 in Q1. destruct Q1 as (l & e & cl & c & -> & N1 & A & -> & N2 & ->).
      rewrite N1 in U. destruct U as [[_ U]|[A' U]]; [|contradiction].
      destruct (cp_add m i) as [[add|]|ex] eqn:Q; [|discriminate|discriminate]. unfold Equilibrium.cp_add in Q. apply bind_Ok in Q. destruct Q as [[[fv' sv'] cv'] [Q3 Q]].
      unfold extract, extract_one in Q3. rewrite E2, E3, E4 in Q3. unfold item in Q3. rewrite N1, N2 in Q3. cbn [some bind] in Q3.
      apply bind_Ok in Q3. destruct Q3 as [o [Q3 Q4]]. assert (X : fv' = Some e /\ sv' = o) by (split; congruence). destruct X as [-> ->].
      cbn [some bind] in Q. apply bind_Ok in Q. destruct Q as [s [Q5 Q]]. apply some_Ok in Q5. subst o. apply bind_Ok in Q. destruct Q as [t [Q6 Q]]. apply item_Ok in Q6. rewrite E1 in Q6.
      destruct sv as [sl|]; [|discriminate]. apply some_Ok in Q3. cbn [ndiv R_num] in Q. rewrite b0_back in Q.
      destruct (nltb (e_bm e) bm_thr); [discriminate|]. destruct (nltb (m_thr m) (e_v0 e)); [discriminate|].
      exists l, e, cl, c, sl, s, t. do 8 (split; [assumption || reflexivity|]). cbn [nadd nmul R_num] in *.
      assert (X : forall a b : R, Ok (Some a) = Ok (Some b) -> b = a) by (intros; congruence). apply X in Q. apply X in Q2. rewrite Q2, Q. destruct A as [_ A]. field. lra.
    - intros (l & e & cl & c & sl & s & t & -> & N1 & A & -> & N2 & -> & N3 & N4 & ->).
      assert (X : eval_eq m (Some cl) i = Ok (Some (f_eval c (e_v0 e)))) by (apply C1; exists l, e, cl, c; auto 10). rewrite X. cbn [bind].
      unfold Equilibrium.cp_add, extract, extract_one. rewrite E1, E2, E3, E4. unfold item. rewrite N1, N2, N3, N4. cbn [some bind]. cbn [ndiv R_num]. rewrite b0_back, E6.
      destruct A as [[y' [A1 A2]] A3]. rewrite (is_max_unique _ y' y A1 E5) in A2. cbn [nltb R_ord].
      destruct (Rltb (e_bm e) bm_thr) eqn:R1; [apply Rltb_true in R1; lra|]. destruct (Rltb (y * factor) (e_v0 e)) eqn:R2; [apply Rltb_true in R2; lra|].
      f_equal. f_equal. cbn [nadd nmul R_num]. field. lra.
  Qed.
  (** Without entropies the answer is None, while the entropy itself is refused. *)
  Theorem C77_cp_silent volumes temps fv cl c e cv m i : fitted volumes temps (Some fv) None cv m -> nth_error fv i = Some (Some e) ->
    acceptable factor bm_thr volumes (e_v0 e) (e_bm e) -> cv = Some cl -> nth_error cl i = Some (Some c) ->
    eval_eq_cp m i = Ok None /\ eval_eq_entropy m i = Err RuntimeError.
  Proof.
    intros H N1 A -> N2. destruct (C77_entropy _ _ _ _ _ _ i H) as (_ & S2 & _). split; [|now apply (S2 fv e)].
    pose proof (fitted_is _ _ _ _ _ _ H) as (E1 & E2 & E3 & E4 & _). destruct (eval_eq_cases _ _ _ _ _ _ i (Some cl) H) as [C1 _].
    unfold Equilibrium.eval_eq_cp, Equilibrium.eval_eq_cv. rewrite E4. assert (X : eval_eq m (Some cl) i = Ok (Some (f_eval c (e_v0 e)))) by (apply C1; exists fv, e, cl, c; auto 10).
    rewrite X. cbn [bind]. unfold Equilibrium.cp_add, extract, extract_one. rewrite E2, E3, E4. unfold item. rewrite N1, N2. reflexivity.
  Qed.
  (** The formula is the heat capacity along equilibrium volumes: if the fits are exact, [T dS/dT] at constant
      (zero) pressure is the result. *)
  Theorem C77_cp_exact volumes temps fv sv cv m i x s pr w t sT pv pt w' l e cl c sl sf : fitted volumes temps fv sv cv m -> 0 < bm_thr ->
    eval_eq_cp m i = Ok (Some x) ->
    fv = Some l -> nth_error l i = Some (Some e) -> cv = Some cl -> nth_error cl i = Some (Some c) -> sv = Some sl -> nth_error sl i = Some (Some sf) -> nth_error temps i = Some t ->
    w t = e_v0 e -> e_v0 e <> 0 -> state_functions s pr (w t) t (f_deriv sf (e_v0 e)) sT pv pt -> equilibrium pr w t -> is_derive w t w' ->
    e_bm e = e_v0 e * pv ->                                  (* the bulk modulus *)
    f_eval c (e_v0 e) = jmol * (t * sT) ->                    (* the heat capacity at constant volume *)
    is_derive (fun u => jmol * (t * s (w u) u)) t x.
  Proof.
    intros H Hthr Hx -> N1 -> N2 -> N3 N4 W1 W2 SF EQ WD B C. apply (C77_cp _ _ _ _ _ _ _ H Hthr) in Hx.
    destruct Hx as (l' & e' & cl' & c' & sl' & s' & t' & X1 & X2 & A & X3 & X4 & X5 & X6 & X7 & ->).
    assert (l' = l) by congruence. assert (cl' = cl) by congruence. assert (sl' = sl) by congruence. subst.
    assert (e' = e) by congruence. assert (c' = c) by congruence. assert (s' = sf) by congruence. assert (t' = t) by congruence. subst. clear X2 X4 X6 X7.
    assert (P : pv <> 0). { intros ->. destruct A as [_ A]. rewrite B in A. lra. }
    destruct (along_equilibrium _ _ _ _ _ _ _ _ _ SF EQ WD P) as [_ D].
    replace (f_eval c (e_v0 e) + jmol * (t * e_v0 e * f_deriv sf (e_v0 e) ^ 2 / e_bm e)) with (jmol * t * (sT + f_deriv sf (e_v0 e) * f_deriv sf (e_v0 e) / pv)).
    - apply (is_derive_ext (fun u => jmol * t * s (w u) u)); [intros u; match goal with |- ?a = ?b => change (@eq R a b) end; ring|]. apply (is_derive_scal (fun u => s (w u) u) t (jmol * t)). exact D.
    - rewrite C, B. field. split; assumption.
  Qed.

  (** *** Heat capacities by differences *)
  Notation cp_num := (eval_cp_numerical (F:=R) jmol atol).
  Lemma cp_inner_Ok temps (s : list (cell (F:=R))) i x : cp_inner jmol temps s i = Ok (CNum x) <->
    exists s1 s0 t1 t0 t, nth_error s (i + 1) = Some (CNum s1) /\ nth_error s (i - 1) = Some (CNum s0) /\
      nth_error temps (i + 1) = Some t1 /\ nth_error temps (i - 1) = Some t0 /\ nth_error temps i = Some t /\
      x = (s1 - s0) / (t1 - t0) * t * jmol.
  Proof.
    unfold cp_inner. split.
    - intros H. apply bind_Ok in H. destruct H as [c1 [H1 H]]. apply bind_Ok in H. destruct H as [c0 [H2 H]]. apply bind_Ok in H. destruct H as [d [H3 H]].
      apply bind_Ok in H. destruct H as [t1 [H4 H]]. apply bind_Ok in H. destruct H as [t0 [H5 H]]. apply bind_Ok in H. destruct H as [t [H6 H]].
      apply item_Ok in H1, H2, H4, H5, H6. destruct d as [d|]; [|discriminate]. destruct c1 as [s1| |], c0 as [s0| |]; try discriminate. cbn [cell_sub] in H3.
      exists s1, s0, t1, t0, t. do 5 (split; [assumption|]). cbn [nsub nmul ndiv R_num] in *. assert (d = s1 - s0) by congruence. subst d. congruence.
    - intros (s1 & s0 & t1 & t0 & t & H1 & H2 & H3 & H4 & H5 & ->). unfold item. rewrite H1, H2, H3, H4, H5. reflexivity.
  Qed.
  (** All entropies present: every inner temperature has the slope of its neighbours, the ends have none (zero at
      zero temperature). *)
  Theorem C77_cp_numerical temps ss : (2 <= length temps)%nat -> length ss = length temps ->
    exists cs, cp_num temps (Some (map CNum ss)) = Ok cs /\ length cs = length temps /\
      (forall i t t0 t1 s0 s1, nth_error temps i = Some t0 -> nth_error temps (i + 1) = Some t -> nth_error temps (i + 2) = Some t1 ->
         nth_error ss i = Some s0 -> nth_error ss (i + 2) = Some s1 ->
         nth_error cs (i + 1) = Some (CNum (jmol * (t * ((s1 - s0) / (t1 - t0)))))) /\
      nth_error cs (length temps - 1) = Some CNan /\
      (forall t, nth_error temps 0 = Some t -> nth_error cs 0 = Some (if Rle_dec (Rabs t) atol then CNum 0 else CNan)).
  Proof.
    intros L2 L. destruct temps as [|ta [|tb temps]]; [cbn in L2; lia|cbn in L2; lia|]. set (ts := ta :: tb :: temps) in *.
    assert (Hi : forall i, (i < length ts - 2)%nat -> exists y, cp_inner jmol ts (map CNum ss) (1 + i)%nat = Ok (CNum y)).
    { intros i Hi. destruct (nth_error ts i) as [t0|] eqn:E0; [|apply nth_error_None in E0; lia].
      destruct (nth_error ts (1 + i)) as [t|] eqn:E1; [|apply nth_error_None in E1; lia].
      destruct (nth_error ts (1 + i + 1)) as [t1|] eqn:E2; [|apply nth_error_None in E2; lia].
      destruct (nth_error ss i) as [s0|] eqn:E3; [|apply nth_error_None in E3; lia].
      destruct (nth_error ss (1 + i + 1)) as [s1|] eqn:E4; [|apply nth_error_None in E4; lia].
      eexists. apply cp_inner_Ok. exists s1, s0, t1, t0, t. rewrite !nth_error_map. replace (1 + i - 1)%nat with i by lia. rewrite E0, E1, E2, E3, E4. cbn. auto 10. }
    assert (HM : exists inner, mapM (cp_inner jmol ts (map CNum ss)) (seq 1 (length ts - 2)) = Ok inner).
    { clear -Hi. assert (G : forall n a, (forall i, (i < n)%nat -> exists y, cp_inner jmol ts (map CNum ss) (a + i)%nat = Ok (CNum y)) ->
        exists inner, mapM (cp_inner jmol ts (map CNum ss)) (seq a n) = Ok inner).
      { induction n as [|n IH]; intros a Ha; [now exists []|]. cbn [seq mapM]. destruct (Ha 0%nat ltac:(lia)) as [y Hy]. rewrite Nat.add_0_r in Hy. rewrite Hy. cbn [bind].
        destruct (IH (S a)) as [r Hr]; [intros i Hi'; destruct (Ha (S i) ltac:(lia)) as [z Hz]; exists z; rewrite <- Hz; f_equal; lia|]. rewrite Hr. cbn [bind]. eexists. reflexivity. }
      apply (G (length ts - 2)%nat 1%nat). exact Hi. }
    destruct HM as [inner HM]. pose proof (proj1 (mapM_seq _ _ _ _) HM) as [LI HI].
    exists ((if near_zero atol ta then CNum 0 else CNan) :: inner ++ CNan :: nil). split; [|split; [|split; [|split]]].
    - unfold eval_cp_numerical. rewrite HM. cbn [bind]. reflexivity.
    - cbn [length]. rewrite app_length, LI. cbn [length]. unfold ts. cbn [length]. lia.
    - intros i t t0 t1 s0 s1 E0 E1 E2 E3 E4. assert (Li : (i < length ts - 2)%nat) by (pose proof (proj1 (nth_error_Some ts (i + 2)) ltac:(congruence)); lia).
      replace (i + 1)%nat with (S i) by lia. cbn [nth_error]. destruct (HI i Li) as [y [Y1 Y2]]. rewrite nth_error_app1 by lia. rewrite Y1. f_equal.
      destruct (Hi i Li) as [z Hz]. assert (Y3 : y = CNum z) by congruence. subst y. f_equal.
      apply cp_inner_Ok in Hz. destruct Hz as (s1' & s0' & t1' & t0' & t' & Z1 & Z2 & Z3 & Z4 & Z5 & ->). rewrite nth_error_map in Z1, Z2.
      replace (1 + i + 1)%nat with (i + 2)%nat in * by lia. replace (1 + i - 1)%nat with i in * by lia. replace (1 + i)%nat with (i + 1)%nat in * by lia.
      rewrite E4 in Z1. rewrite E3 in Z2. cbn in Z1, Z2. assert (s1' = s1) by congruence. assert (s0' = s0) by congruence. assert (t1' = t1) by congruence. assert (t0' = t0) by congruence. assert (t' = t) by congruence. subst. ring.
    - replace (length ts - 1)%nat with (S (length inner)) by (rewrite LI; unfold ts; cbn [length]; lia). cbn [nth_error]. rewrite nth_error_app2 by lia. now rewrite Nat.sub_diag.
    - intros t Ht. cbn in Ht. assert (ta = t) by congruence. subst t. cbn [nth_error]. unfold near_zero. cbn [nltb nabs R_ord]. f_equal.
      destruct (Rle_dec (Rabs ta) atol) as [Q|Q]; destruct (Rltb atol (Rabs ta)) eqn:E; try reflexivity; exfalso; [apply Rltb_true in E|apply Rltb_false in E]; lra.
  Qed.
  (** If the entropies are those of a smooth function, the value is its slope at a temperature between the neighbours, and
      exactly at the temperature if the function is quadratic and the temperatures are equidistant. *)
  Theorem C77_cp_slope s s' t0 t t1 : t0 < t -> t < t1 -> has_derivative s s' t0 t1 ->
    exists c, t0 < c < t1 /\ jmol * (t * ((s t1 - s t0) / (t1 - t0))) = jmol * (t * s' c).
  Proof.
    intros H1 H2 H3. destruct (slope s s' t0 t1 t0 t1) as [c [C1 C2]]; [lra|lra|lra|exact H3|]. exists c. split; [exact C1|]. now rewrite C2.
  Qed.
  Theorem C77_cp_quadratic a b d t h : h <> 0 ->
    let s := fun u => a + b * u + d * u ^ 2 in
    is_derive s t ((s (t + h) - s (t - h)) / ((t + h) - (t - h))).
  Proof.
    intros H s. replace ((s (t + h) - s (t - h)) / (t + h - (t - h))) with (b + d * (2 * t)) by (unfold s; field; lra).
    unfold s. auto_derive; [trivial|ring].
  Qed.
  Theorem C77_cp_before temps : cp_num temps None = Err RuntimeError.
  Proof. reflexivity. Qed.

  (** *** One temperature without entropy makes the whole evaluation fail. *)
  Lemma mapM_Err {X Y} (f : X -> res Y) l x ex : In x l -> f x = Err ex -> (forall y ey, In y l -> f y = Err ey -> ey = ex) -> mapM f l = Err ex.
  Proof.
    induction l as [|y l IH]; intros Hx Hf Hall; [destruct Hx|]. cbn [mapM]. destruct (f y) as [v|ey] eqn:E.
    - cbn [bind]. rewrite IH; [reflexivity| |exact Hf|intros; eapply Hall; [right|]; eassumption]. destruct Hx as [->|Hx]; [congruence|exact Hx].
    - cbn [bind]. f_equal. eapply Hall; [now left|exact E].
  Qed.
  Theorem C77_cp_missing temps (s : list (cell (F:=R))) k : (4 <= length temps)%nat -> length s = length temps -> nth_error s k = Some CNone ->
    cp_num temps (Some s) = Err TypeError.
  Proof.
    intros L4 L Hk. assert (Lk : (k < length s)%nat) by (apply nth_error_Some; congruence). unfold eval_cp_numerical.
    assert (TE : forall i, (1 <= i)%nat -> (i < length temps - 1)%nat -> forall ey, cp_inner jmol temps s i = Err ey -> ey = TypeError).
    { intros i H1 H2 ey. unfold cp_inner, item.
      destruct (nth_error s (i + 1)) as [c1|] eqn:E1; [|apply nth_error_None in E1; lia]. destruct (nth_error s (i - 1)) as [c0|] eqn:E2; [|apply nth_error_None in E2; lia].
      destruct (nth_error temps (i + 1)) as [t1|] eqn:E3; [|apply nth_error_None in E3; lia]. destruct (nth_error temps (i - 1)) as [t0|] eqn:E4; [|apply nth_error_None in E4; lia].
      destruct (nth_error temps i) as [t|] eqn:E5; [|apply nth_error_None in E5; lia]. cbn [some bind].
      destruct c1, c0; cbn [cell_sub bind]; congruence. }
    assert (EX : exists i, (1 <= i)%nat /\ (i < length temps - 1)%nat /\ cp_inner jmol temps s i = Err TypeError).
    { destruct (le_lt_dec 2 k) as [Q|Q].
      - exists (k - 1)%nat. split; [lia|]. split; [lia|]. unfold cp_inner, item. replace (k - 1 + 1)%nat with k by lia. rewrite Hk.
        destruct (nth_error s (k - 1 - 1)) as [c0|] eqn:E2; [|apply nth_error_None in E2; lia]. reflexivity.
      - exists (k + 1)%nat. split; [lia|]. split; [lia|]. unfold cp_inner, item. replace (k + 1 - 1)%nat with k by lia. rewrite Hk.
        destruct (nth_error s (k + 1 + 1)) as [c0|] eqn:E2; [|apply nth_error_None in E2; lia]. cbn [some bind]. destruct c0; reflexivity. }
    destruct EX as (i & I1 & I2 & I3). rewrite (mapM_Err _ _ i TypeError); [reflexivity|apply in_seq; lia|exact I3|].
    intros y ey Hy. apply in_seq in Hy. apply TE; lia.
  Qed.
  Notation run_standard := (run_standard (F:=R) gpa jmol bm_thr atol).
  (** The standard procedure succeeds exactly if every temperature has an acceptable minimum. *)
  Theorem C77_run volumes temps fv sv cv m : fitted volumes temps (Some fv) (Some sv) cv m -> (4 <= length temps)%nat ->
    length fv = length temps -> length sv = length temps -> (forall s, In s sv -> s <> None) ->
    ((exists r, run_standard m = Ok r) <->
       forall o, In o fv -> exists e, o = Some e /\ acceptable factor bm_thr volumes (e_v0 e) (e_bm e)) /\
    (forall ex, run_standard m = Err ex -> ex = TypeError).
  Proof.
    intros H L4 L1 L2 HS. pose proof (fitted_is _ _ _ _ _ _ H) as (E1 & E2 & E3 & E4 & _).
    (* the entropies *)
    assert (EN : exists s, eval_entropy_equilibrium gpa bm_thr m = Ok s /\ length s = length temps /\
              forall i, (i < length temps)%nat -> exists x, eval_eq_entropy m i = Ok x /\ nth_error s i = Some (of_option x)).
    { assert (A : forall i, (i < length temps)%nat -> exists x, eval_eq_entropy m i = Ok x).
      { intros i Hi. pose proof (usable_cases _ _ _ _ _ _ i H) as U. cbn in U. destruct (nth_error fv i) as [o|] eqn:F1; [|apply nth_error_None in F1; lia].
        destruct (nth_error sv i) as [so|] eqn:F2; [|apply nth_error_None in F2; lia].
        unfold Equilibrium.eval_eq_entropy, Equilibrium.eval_eq. rewrite E3. destruct o as [e|].
        - destruct U as [[_ U]|[_ U]]; rewrite U; cbn [bind]; [unfold item; rewrite F2; cbn [some bind]; eexists; reflexivity|eexists; reflexivity].
        - rewrite U. cbn [bind]. eexists. reflexivity. }
      unfold eval_entropy_equilibrium. rewrite E1.
      assert (G : forall n a, (forall i, (i < n)%nat -> exists x, eval_eq_entropy m (a + i)%nat = Ok x) ->
         exists s, mapM (fun i => do s <- eval_eq_entropy m i; Ok (of_option s)) (seq a n) = Ok s).
      { induction n as [|n IH]; intros a Ha; [now exists []|]. cbn [seq mapM]. destruct (Ha 0%nat ltac:(lia)) as [y Hy]. rewrite Nat.add_0_r in Hy. rewrite Hy. cbn [bind].
        destruct (IH (S a)) as [r Hr]; [intros i Hi'; destruct (Ha (S i) ltac:(lia)) as [z Hz]; exists z; rewrite <- Hz; f_equal; lia|]. rewrite Hr. cbn [bind]. eexists. reflexivity. }
      destruct (G (length temps) 0%nat A) as [s Hs]. exists s. split; [exact Hs|]. apply mapM_seq in Hs. destruct Hs as [Hs1 Hs2]. split; [exact Hs1|].
      intros i Hi. destruct (Hs2 i Hi) as [y [Y1 Y2]]. cbn [Nat.add] in Y2. apply bind_Ok in Y2. destruct Y2 as [x [Y2 Y3]]. exists x. split; [exact Y2|]. rewrite Y1. congruence. }
    destruct EN as (s & EN & LS & HN). unfold Equilibrium.run_standard. rewrite EN. cbn [bind]. rewrite E1.
    assert (D : (exists k, nth_error s k = Some CNone) \/ exists xs, s = map CNum xs).
    { assert (NN : forall c, In c s -> c <> CNan). { intros c Hc. apply In_nth_error in Hc. destruct Hc as [i Hi]. assert (Li : (i < length s)%nat) by (apply nth_error_Some; congruence).
        destruct (HN i ltac:(lia)) as [x [_ X]]. assert (X' : of_option x = c) by congruence. rewrite <- X'. destruct x; discriminate. }
      clear -NN. induction s as [|c s IH]; [right; now exists []|]. destruct IH as [[k Hk]|[xs ->]]; [intros; apply NN; now right|left; now exists (S k)|].
      destruct c as [x| |]; [right; now exists (x :: xs)|exfalso; apply (NN CNan); [now left|reflexivity]|left; now exists 0%nat]. }
    destruct D as [[k Hk]|[xs Hxs]].
    - rewrite (C77_cp_missing temps s k L4 LS Hk). cbn [bind]. split; [split; [intros [r Q]; discriminate|]|congruence].
      intros A. exfalso. assert (Lk : (k < length s)%nat) by (apply nth_error_Some; congruence). destruct (HN k ltac:(lia)) as [x [X1 X2]].
      assert (X3 : x = None). { destruct x as [x|]; [|reflexivity]. cbn in X2. congruence. } subst x.
      destruct (nth_error fv k) as [o|] eqn:F1; [|apply nth_error_None in F1; lia]. destruct (A o (nth_error_In _ _ F1)) as [e [-> A']].
      destruct (nth_error sv k) as [so|] eqn:F2; [|apply nth_error_None in F2; lia]. destruct so as [sf|]; [|exfalso; apply (HS None (nth_error_In _ _ F2)); reflexivity].
      destruct (C77_entropy _ _ _ _ _ _ k H) as [Q _]. destruct (Q (f_eval sf (e_v0 e))) as [_ Q2]. rewrite Q2 in X1; [discriminate|]. exists fv, e, sv, sf. auto 10.
    - subst s. destruct (C77_cp_numerical temps xs ltac:(lia) ltac:(rewrite map_length in LS; exact LS)) as [cs [C _]]. rewrite C. cbn [bind]. split; [|discriminate].
      split; [|intros _; eexists; reflexivity]. intros _ o Ho. apply In_nth_error in Ho. destruct Ho as [i Hi]. assert (Li : (i < length fv)%nat) by (apply nth_error_Some; congruence).
      destruct (HN i ltac:(lia)) as [x [X1 X2]]. rewrite nth_error_map in X2. destruct (nth_error xs i) as [x0|]; [|discriminate]. cbn in X2.
      assert (X3 : x = Some x0) by (destruct x; cbn in X2; congruence). subst x. destruct (C77_entropy _ _ _ _ _ _ i H) as [Q _]. apply Q in X1.
      destruct X1 as (l & e & fl & f & Y1 & Y2 & Y3 & _). assert (l = fv) by congruence. subst l. exists e. split; [congruence|exact Y3].
  Qed.

  (** *** Gibbs free energies *)
  Theorem C77_gibbs e f' a b M vol : has_derivative (e_eval e) f' a b -> stiff f' a b M -> a <= vol - eps -> vol + eps <= b ->
    exists c g, vol - eps < c < vol + eps /\ gibbs_value (e_eval e) a b (- f' c) c g /\
      fst (gibbs_at gpa eps e vol) = - f' c * gpa /\ g <= snd (gibbs_at gpa eps e vol) <= g + M * eps ^ 2.
  Proof.
    intros H1 H2 H3 H4. destruct (central (e_eval e) f' a b vol eps eps_pos H3 H4 H1) as [c [C1 C2]].
    exists c, (e_eval e c - f' c * c). unfold gibbs_at. cbn [fst snd]. rewrite nnat_INR. cbn [INR nadd nsub nmul ndiv nopp R_num]. replace (1 + 1) with 2 by ring. rewrite C2.
    split; [exact C1|]. split; [|split; [ring|]].
    - split; [lra|]. split; [ring|]. intros v Hv. pose proof (tangent _ _ _ _ _ c v H1 H2 ltac:(lra) Hv). lra.
    - pose proof (tangent _ _ _ _ _ c vol H1 H2 ltac:(lra) ltac:(lra)) as [T1 T2]. split; [lra|].
      assert (MP : 0 <= M). { destruct (H2 (vol - eps) (vol + eps) ltac:(lra) ltac:(lra) ltac:(lra)) as [A1 A2]. apply Rnot_lt_le. intros N.
        assert (M * (vol + eps - (vol - eps)) < 0) by (apply Ropp_lt_cancel; rewrite Ropp_0, <- Ropp_mult_distr_l_reverse; apply Rmult_lt_0_compat; lra). lra. }
      assert (SQ : (vol - c) * (vol - c) <= eps ^ 2) by (replace (eps ^ 2) with (Rabs eps * Rabs eps) by (rewrite Rabs_pos_eq by lra; ring); rewrite <- (Rabs_pos_eq ((vol - c) * (vol - c))) by (apply Rle_0_sqr); rewrite Rabs_mult; assert (Rabs (vol - c) <= Rabs eps) by (rewrite (Rabs_pos_eq eps) by lra; apply Rabs_le; lra); apply Rmult_le_compat; try apply Rabs_pos; assumption).
      assert (M * ((vol - c) * (vol - c)) <= M * eps ^ 2) by (apply Rmult_le_compat_l; assumption). lra.
  Qed.
  Theorem C77_gibbs_all e vols : length (eval_gibbs_pressure gpa eps e vols) = length vols /\
    forall i v, nth_error vols i = Some v -> nth_error (eval_gibbs_pressure gpa eps e vols) i = Some (gibbs_at gpa eps e v).
  Proof. unfold eval_gibbs_pressure. split; [apply map_length|]. intros i v H. now rewrite nth_error_map, H. Qed.
  Theorem C77_legendre e vol : snd (gibbs_at gpa eps e vol) = e_eval e vol + fst (gibbs_at gpa eps e vol) / gpa * vol.
  Proof. unfold gibbs_at. cbn [fst snd nadd nsub nmul ndiv nopp R_num]. field. rewrite nnat_INR. cbn [INR]. split; lra. Qed.
  (** A parabola: exact. *)
  Theorem C77_gibbs_parabola e a b d vol : (forall v, e_eval e v = a + b * v + d * v ^ 2) ->
    gibbs_at gpa eps e vol = (- (b + 2 * d * vol) * gpa, a - d * vol ^ 2).
  Proof.
    intros H. unfold gibbs_at. rewrite !H, nnat_INR. cbn [INR nadd nsub nmul ndiv nopp R_num]. f_equal; field; lra.
  Qed.

  (** Without fits of the free energy there is no Gibbs free energy; with them there is a row for every temperature. *)
  Theorem C77_gibbs_rows volumes temps fv sv cv m vols : fitted volumes temps fv sv cv m ->
    (fv = None -> eval_gibbs gpa eps m vols = Err RuntimeError) /\
    (forall l, fv = Some (map Some l) -> eval_gibbs gpa eps m vols = Ok (map (fun e => map (gibbs_at gpa eps e) vols) l)) /\
    (forall l, fv = Some l -> In None l -> eval_gibbs gpa eps m vols = Err AttributeError).
  Proof.
    intros H. pose proof (fitted_is _ _ _ _ _ _ H) as (_ & E2 & _). unfold eval_gibbs. rewrite E2. split; [|split].
    - intros ->. reflexivity.
    - intros l ->. clear. induction l as [|e l IH]; [reflexivity|]. cbn [map mapM some bind]. rewrite IH. reflexivity.
    - intros l -> Hn. clear -Hn. induction l as [|[e|] l IH]; [destruct Hn| |reflexivity]. destruct Hn as [Hn|Hn]; [discriminate|]. cbn [mapM some bind]. now rewrite IH.
  Qed.
  (** A heat capacity for every temperature *)
  Theorem C77_cp_every volumes temps fv sv cv m cs : fitted volumes temps fv sv cv m -> eval_cp_equilibrium gpa jmol bm_thr m = Ok cs ->
    length cs = length temps /\ forall i, (i < length temps)%nat -> exists o, eval_eq_cp m i = Ok o /\ nth_error cs i = Some (match o with Some x => CNum x | None => CNone end).
  Proof.
    intros H HC. pose proof (fitted_is _ _ _ _ _ _ H) as (E1 & _). unfold eval_cp_equilibrium in HC. rewrite E1 in HC. apply mapM_nth in HC. destruct HC as [HC1 HC2]. rewrite seq_length in HC1.
    split; [exact HC1|]. intros i Hi. destruct (HC2 i i) as [c [C1 C2]]; [rewrite (nth_error_nth' _ 0%nat) by (now rewrite seq_length); now rewrite seq_nth|].
    apply bind_Ok in C2. destruct C2 as [o [C2 C3]]. exists o. split; [exact C2|]. rewrite C1. unfold of_option in C3. destruct o; congruence.
  Qed.
  Theorem C77_no_volumes temps : new_models factor [] temps = Err ValueError.
  Proof. reflexivity. Qed.

  (** *** The file *)
  Variable tofit : list R -> list R.
  Notation save := (save (F:=R) gpa jmol eps tofit).
  Definition column_data (volumes : list R) (col : list (option R)) : list (R * R) :=
    flat_map (fun q => match snd q with Some f => (fst q, f) :: nil | None => nil end) (combine volumes col).
  Definition fits_ok {X} (temps : list R) (l : option (list X)) : Prop := match l with None => True | Some l' => length l' = length temps end.
  Definition in_jmol (x : cell (F:=R)) : cell := match x with CNum x => CNum (x * jmol) | y => y end.
  Lemma save_records volumes temps fv sv cv m s c : fitted volumes temps (Some fv) sv cv m -> length fv = length temps -> fits_ok temps sv -> fits_ok temps cv ->
    fits_ok temps s -> fits_ok temps c ->
    exists recs, mapM (save_record gpa jmol m s c) (enumerate temps) = Ok recs /\ length recs = length temps /\
      forall i t e, nth_error temps i = Some t -> nth_error fv i = Some e -> exists r, nth_error recs i = Some r /\ r_temp r = t /\
        r_eos r = option_map (fun e => (e_v0 e, b0 e, e_e0 e)) e /\
        (match s with None => r_entropy r = CNone | Some s' => option_map in_jmol (nth_error s' i) = Some (r_entropy r) end) /\
        (match c with None => r_cp r = CNone | Some c' => nth_error c' i = Some (r_cp r) end).
  Proof.
    intros H L1 L2 L3 L4 L5. pose proof (fitted_is _ _ _ _ _ _ H) as (E1 & E2 & E3 & E4 & _).
    assert (A : forall i t, nth_error temps i = Some t -> exists r, save_record gpa jmol m s c (i, t) = Ok r).
    { intros i t Ht. assert (Li : (i < length temps)%nat) by (apply nth_error_Some; congruence). unfold save_record, extract, extract_one, cell_at. rewrite E2, E3, E4. unfold item.
      destruct (nth_error fv i) as [o|] eqn:F1; [|apply nth_error_None in F1; lia]. cbn [some bind].
      destruct sv as [sl|]; [destruct (nth_error sl i) as [so|] eqn:F2; [|apply nth_error_None in F2; cbn in L2; lia]|]; cbn [some bind];
      (destruct cv as [cl|]; [destruct (nth_error cl i) as [co|] eqn:F3; [|apply nth_error_None in F3; cbn in L3; lia]|]; cbn [some bind]);
      (destruct s as [s'|]; [destruct (nth_error s' i) as [so'|] eqn:F4; [|apply nth_error_None in F4; cbn in L4; lia]|]; cbn [some bind]);
      (destruct c as [c'|]; [destruct (nth_error c' i) as [co'|] eqn:F5; [|apply nth_error_None in F5; cbn in L5; lia]|]; cbn [some bind]); eexists; reflexivity. }
    assert (G : forall l, (forall q, In q l -> exists r, save_record gpa jmol m s c q = Ok r) -> exists recs, mapM (save_record gpa jmol m s c) l = Ok recs).
    { induction l as [|q l IH]; intros Hq; [now exists []|]. cbn [mapM]. destruct (Hq q (or_introl eq_refl)) as [r Hr]. rewrite Hr. cbn [bind].
      destruct IH as [recs Hr']; [intros; apply Hq; now right|]. rewrite Hr'. eexists. reflexivity. }
    destruct (G (enumerate temps)) as [recs HR].
    { intros [i t] Hq. apply In_nth_error in Hq. destruct Hq as [j Hj]. rewrite enumerate_nth in Hj. destruct (nth_error temps j) as [t'|] eqn:E; [|discriminate]. cbn in Hj.
      assert (i = j /\ t' = t) as [-> ->] by (split; congruence). now apply A. }
    exists recs. split; [exact HR|]. apply mapM_nth in HR. destruct HR as [HR1 HR2]. rewrite enumerate_length in HR1. split; [exact HR1|].
    intros i t e Ht He. destruct (HR2 i (i, t)) as [r [R1 R2]]; [now rewrite enumerate_nth, Ht|]. exists r. split; [exact R1|]. unfold save_record in R2.
    apply bind_Ok in R2. destruct R2 as [[[fv' sv'] cv'] [R2 R3]]. unfold extract in R2. apply bind_Ok in R2. destruct R2 as [x1 [R2 R4]]. apply bind_Ok in R4. destruct R4 as [x2 [R4 R5]].
    apply bind_Ok in R5. destruct R5 as [x3 [R5 R6]]. assert (fv' = x1) by congruence. subst x1. unfold extract_one in R2. rewrite E2 in R2. apply item_Ok in R2.
    assert (fv' = e) by congruence. subst fv'. apply bind_Ok in R3. destruct R3 as [s1 [R3 R7]]. apply bind_Ok in R7. destruct R7 as [c1 [R7 R8]].
    assert (RR : r = mk_record t (option_map (fun e => (e_v0 e, b0 e, e_e0 e)) e) (scale s1 jmol) c1) by (cbn [fst] in R8; congruence). subst r. cbn [r_temp r_eos r_entropy r_cp].
    split; [reflexivity|]. split; [reflexivity|]. unfold cell_at in R3, R7. split.
    - destruct s as [s'|]; [apply item_Ok in R3; rewrite R3; cbn [option_map]; destruct s1; reflexivity|]. assert (s1 = CNone) by congruence. now subst.
    - destruct c as [c'|]; [now apply item_Ok in R7|]. congruence.
  Qed.
  Lemma recs_map {X} (g : record_ (F:=R) -> X) recs (temps : list R) (h : list X) : length recs = length temps -> length h = length temps ->
    (forall i r x, nth_error recs i = Some r -> nth_error h i = Some x -> g r = x) -> map g recs = h.
  Proof.
    revert temps h. induction recs as [|r recs IH]; intros [|t temps] [|x h] L1 L2 H; try discriminate; [reflexivity|]. cbn [map]. f_equal.
    - now apply (H 0%nat).
    - cbn in L1, L2. apply (IH temps); [lia|lia|]. intros i. apply (H (S i)).
  Qed.
  (** What is saved is read back. *)
  Theorem C77_round_trip volumes temps es sv cv m ss cs free : fitted volumes temps (Some (map Some es)) sv cv m -> temps <> [] ->
    length es = length temps -> fits_ok temps sv -> fits_ok temps cv -> length ss = length temps -> length cs = length temps -> length free = length temps ->
    ~ In CNone ss -> ~ In CNone cs ->
    exists y p, save volumes temps m (Some ss) (Some cs) free = Ok y /\ load y = Ok p /\
      t_temps p = temps /\ t_volumes p = map e_v0 es /\ t_bm p = map (fun e => e_bm e * gpa) es /\ t_helmholtz p = map e_e0 es /\
      t_entropy p = map in_jmol ss /\ t_cp p = cs /\ t_data p = map (column_data volumes) free /\
      t_fit p = map (fun e => map (fun v => (v, e_eval e v)) (tofit volumes)) es /\
      t_gibbs p = map (fun e => eval_gibbs_pressure gpa eps e (tofit volumes)) es /\
      get_T_F p = combine temps (map e_e0 es).
  Proof.
    intros H T0 L1 L2 L3 L4 L5 L6 NS NC. pose proof (fitted_is _ _ _ _ _ _ H) as (E1 & E2 & E3 & E4 & x & E5 & _).
    destruct (save_records _ _ _ _ _ _ (Some ss) (Some cs) H ltac:(now rewrite map_length) L2 L3 L4 L5) as (recs & R1 & R2 & R3).
    assert (R4 : forall i r, nth_error recs i = Some r -> exists t e, nth_error temps i = Some t /\ nth_error es i = Some e /\ r_temp r = t /\ r_eos r = Some (e_v0 e, b0 e, e_e0 e) /\
              option_map in_jmol (nth_error ss i) = Some (r_entropy r) /\ nth_error cs i = Some (r_cp r)).
    { intros i r Hr. assert (Li : (i < length recs)%nat) by (apply nth_error_Some; congruence). destruct (nth_error temps i) as [t|] eqn:T; [|apply nth_error_None in T; lia].
      destruct (nth_error es i) as [e|] eqn:E; [|apply nth_error_None in E; lia]. destruct (R3 i t (Some e) T ltac:(now rewrite nth_error_map, E)) as (r' & R5 & R6 & R7 & R8 & R9).
      assert (r' = r) by congruence. subst r'. exists t, e. auto 10. }
    eexists. eexists. split; [|split].
    - unfold Equilibrium.save. rewrite R1. cbn [bind]. rewrite (labelled (fun l => l)) by exact L6. cbn [bind].
      rewrite (proj2 (py_max_Ok volumes x) E5). cbn [bind]. unfold eval_helmholtz, eval_rows. rewrite E2. rewrite (mapM_some (fun e => map (e_eval e) (tofit volumes))). cbn [bind].
      rewrite (labelled (fun l => l)) by (now rewrite map_length). cbn [bind]. unfold eval_gibbs. rewrite E2. rewrite (mapM_some (fun e => eval_gibbs_pressure gpa eps e (tofit volumes))). cbn [bind].
      rewrite (labelled (fun l => (map fst l, map snd l))) by (now rewrite map_length). cbn [bind]. reflexivity.
    - unfold load. cbn [y_records y_volumes y_data y_fit_volumes y_fit y_gibbs]. destruct recs as [|r0 recs0] eqn:RE; [destruct temps; [congruence|discriminate]|]. rewrite <- RE in *. clear r0 recs0 RE.
      cbn [bind].
      assert (M1 : mapM (fun r => some KeyError (r_eos r)) recs = Ok (map (fun e => (e_v0 e, b0 e, e_e0 e)) es)).
      { apply mapM_nth. split; [rewrite map_length; lia|]. intros i r Hr. destruct (R4 i r Hr) as (t & e & _ & Q1 & _ & Q2 & _). eexists. split; [rewrite nth_error_map, Q1; reflexivity|]. now rewrite Q2. }
      assert (M2 : mapM (fun r => as_float (r_entropy r)) recs = Ok (map in_jmol ss)).
      { apply mapM_nth. split; [rewrite map_length; lia|]. intros i r Hr. destruct (R4 i r Hr) as (t & e & _ & _ & _ & _ & Q & _). exists (r_entropy r). split; [now rewrite nth_error_map|].
        destruct (nth_error ss i) as [s0|] eqn:S0; [|discriminate]. cbn in Q. assert (Q' : r_entropy r = in_jmol s0) by congruence. rewrite Q'. destruct s0; [reflexivity|reflexivity|]. exfalso. apply NS. eapply nth_error_In. exact S0. }
      assert (M3 : mapM (fun r => as_float (r_cp r)) recs = Ok cs).
      { apply mapM_nth. split; [lia|]. intros i r Hr. destruct (R4 i r Hr) as (t & e & _ & _ & _ & _ & _ & Q). exists (r_cp r). split; [exact Q|].
        destruct (r_cp r) eqn:C0; [reflexivity|reflexivity|]. exfalso. apply NC. eapply nth_error_In. exact Q. }
      rewrite M1. cbn [bind]. rewrite M2. cbn [bind]. rewrite M3. cbn [bind]. reflexivity.
    - cbn [t_temps t_volumes t_bm t_helmholtz t_entropy t_cp t_data t_fit t_gibbs]. rewrite !map_map. cbn [fst snd].
      assert (TT : map r_temp recs = temps). { apply (recs_map r_temp recs temps); [exact R2|reflexivity|]. intros i r t Hr Ht. destruct (R4 i r Hr) as (t' & e & Q1 & _ & Q2 & _). congruence. }
      split; [exact TT|]. split; [reflexivity|]. split; [reflexivity|]. split; [reflexivity|]. split; [reflexivity|]. split; [reflexivity|].
      split; [|split; [|split]].
      + rewrite map_id. transitivity (map (column_data volumes) (map snd (combine temps free))); [rewrite map_map; reflexivity|]. now rewrite map_snd_combine by exact L6.
      + rewrite <- (map_map snd (fun l => combine (tofit volumes) l)). rewrite map_snd_combine by (now rewrite map_length). rewrite map_map. apply map_ext. intros e. apply combine_map_self.
      + rewrite <- (map_map snd (fun l => combine (fst l) (snd l))). rewrite map_snd_combine by (now rewrite map_length). rewrite map_map. apply map_ext. intros e. cbn [fst snd]. apply combine_split_self.
      + unfold get_T_F. cbn [t_temps t_helmholtz]. rewrite TT. reflexivity.
  Qed.
  (** One temperature without a fit: nothing can be saved, although records without a fit are provided for. *)
  Theorem C77_save_fails volumes temps fv sv cv m s c free : fitted volumes temps (Some fv) sv cv m -> length fv = length temps -> fits_ok temps sv -> fits_ok temps cv ->
    fits_ok temps s -> fits_ok temps c -> length free = length temps -> In None fv -> save volumes temps m s c free = Err AttributeError.
  Proof.
    intros H L1 L2 L3 L4 L5 L6 HN. pose proof (fitted_is _ _ _ _ _ _ H) as (E1 & E2 & E3 & E4 & x & E5 & _).
    destruct (save_records _ _ _ _ _ _ s c H L1 L2 L3 L4 L5) as (recs & R1 & _). unfold Equilibrium.save. rewrite R1. cbn [bind]. rewrite (labelled (fun l => l)) by exact L6. cbn [bind].
    rewrite (proj2 (py_max_Ok volumes x) E5). cbn [bind]. unfold eval_helmholtz, eval_rows. rewrite E2. now rewrite mapM_none.
  Qed.
  (** Before the fits *)
  Theorem C77_save_before volumes temps sv cv m s c free : fitted volumes temps None sv cv m -> exists ex, save volumes temps m s c free = Err ex.
  Proof.
    intros H. pose proof (fitted_is _ _ _ _ _ _ H) as (E1 & E2 & _). unfold Equilibrium.save. destruct (mapM (save_record gpa jmol m s c) (enumerate temps)) as [r|ex]; [|now exists ex]. cbn [bind].
    destruct (mapM (fun q : nat * R => do l <- item free (fst q); Ok (snd q, l)) (enumerate temps)) as [r'|ex]; [|now exists ex]. cbn [bind]. destruct (py_max volumes) as [x|ex]; [|now exists ex]. cbn [bind].
    unfold eval_helmholtz, eval_rows. rewrite E2. now exists RuntimeError.
  Qed.
  (** A file saved without entropies or heat capacities (not evaluated) cannot be read. *)
  Theorem C77_load_fails volumes temps es sv cv m s c free y : fitted volumes temps (Some (map Some es)) sv cv m -> temps <> [] ->
    length es = length temps -> fits_ok temps sv -> fits_ok temps cv -> fits_ok temps s -> fits_ok temps c ->
    save volumes temps m s c free = Ok y ->
    (s = None \/ c = None \/ (exists l, s = Some l /\ In CNone l) \/ (exists l, c = Some l /\ In CNone l)) -> load y = Err ValueError.
  Proof.
    intros H T0 L1 L2 L3 L4 L5 HS HC. destruct (save_records _ _ _ _ _ _ s c H ltac:(now rewrite map_length) L2 L3 L4 L5) as (recs & R1 & R2 & R3).
    unfold Equilibrium.save in HS. rewrite R1 in HS. cbn [bind] in HS.
    assert (Y : y_records y = recs). { apply bind_Ok in HS. destruct HS as [q1 [_ HS]]. apply bind_Ok in HS. destruct HS as [q2 [_ HS]]. apply bind_Ok in HS. destruct HS as [q3 [_ HS]].
      apply bind_Ok in HS. destruct HS as [q4 [_ HS]]. apply bind_Ok in HS. destruct HS as [q5 [_ HS]]. apply bind_Ok in HS. destruct HS as [q6 [_ HS]]. assert (Q : forall a b : file (F:=R), Ok a = Ok b -> b = a) by (intros; congruence). apply Q in HS. now rewrite HS. }
    assert (R4 : forall i r, nth_error recs i = Some r -> exists e, r_eos r = Some e /\
              (match s with None => r_entropy r = CNone | Some s' => option_map in_jmol (nth_error s' i) = Some (r_entropy r) end) /\
              (match c with None => r_cp r = CNone | Some c' => nth_error c' i = Some (r_cp r) end)).
    { intros i r Hr. assert (Li : (i < length recs)%nat) by (apply nth_error_Some; congruence). destruct (nth_error temps i) as [t|] eqn:T; [|apply nth_error_None in T; lia].
      destruct (nth_error es i) as [e|] eqn:E; [|apply nth_error_None in E; lia]. destruct (R3 i t (Some e) T ltac:(now rewrite nth_error_map, E)) as (r' & R5 & R6 & R7 & R8 & R9).
      assert (r' = r) by congruence. subst r'. eexists. split; [exact R7|]. now split. }
    assert (R5 : forall i t, nth_error temps i = Some t -> exists r, nth_error recs i = Some r).
    { intros i t Ht. assert (Li : (i < length temps)%nat) by (apply nth_error_Some; congruence). destruct (nth_error recs i) as [r|] eqn:E; [now exists r|apply nth_error_None in E; lia]. }
    assert (T1 : exists t, nth_error temps 0 = Some t) by (destruct temps as [|t l]; [congruence|now exists t]).
    unfold load. rewrite Y. destruct recs as [|r0 recs0] eqn:RE; [destruct temps; [congruence|discriminate]|]. rewrite <- RE in *. clear r0 recs0 RE. cbn [bind].
    assert (M1 : exists es', mapM (fun r => some KeyError (r_eos r)) recs = Ok es').
    { assert (G : forall l, (forall r, In r l -> exists e, r_eos r = Some e) -> exists es', mapM (fun r : record_ (F:=R) => some KeyError (r_eos r)) l = Ok es').
      { induction l as [|r l IH]; intros Hl; [now exists []|]. cbn [mapM]. destruct (Hl r (or_introl eq_refl)) as [e Q]. rewrite Q. cbn [some bind]. destruct IH as [es' IH]; [intros; apply Hl; now right|]. rewrite IH. eexists. reflexivity. }
      apply G. intros r Hr. apply In_nth_error in Hr. destruct Hr as [i Hi]. destruct (R4 i r Hi) as (e & Q & _). now exists e. }
    destruct M1 as [es' M1]. rewrite M1. cbn [bind].
    assert (V : forall (g : record_ (F:=R) -> cell (F:=R)) r, In r recs -> g r = CNone -> mapM (fun r => as_float (g r)) recs = Err ValueError).
    { intros g r Hr Hg. apply (mapM_Err _ _ r ValueError Hr); [now rewrite Hg|]. intros r' ey _. destruct (g r'); cbn; congruence. }
    assert (ES : (exists r, In r recs /\ r_entropy r = CNone) \/ (exists r, In r recs /\ r_cp r = CNone)).
    { destruct HC as [->|[->|[[l [-> Hl]]|[l [-> Hl]]]]].
      - left. destruct T1 as [t T1]. destruct (R5 0%nat t T1) as [r Hr]. exists r. split; [eapply nth_error_In; exact Hr|]. now destruct (R4 0%nat r Hr) as (e & _ & Q & _).
      - right. destruct T1 as [t T1]. destruct (R5 0%nat t T1) as [r Hr]. exists r. split; [eapply nth_error_In; exact Hr|]. now destruct (R4 0%nat r Hr) as (e & _ & _ & Q).
      - left. apply In_nth_error in Hl. destruct Hl as [i Hi]. assert (Li : (i < length l)%nat) by (apply nth_error_Some; congruence). cbn in L4.
        destruct (nth_error recs i) as [r|] eqn:E; [|apply nth_error_None in E; lia]. exists r. split; [eapply nth_error_In; exact E|]. destruct (R4 i r E) as (e & _ & Q & _). rewrite Hi in Q. cbn in Q. congruence.
      - right. apply In_nth_error in Hl. destruct Hl as [i Hi]. assert (Li : (i < length l)%nat) by (apply nth_error_Some; congruence). cbn in L5.
        destruct (nth_error recs i) as [r|] eqn:E; [|apply nth_error_None in E; lia]. exists r. split; [eapply nth_error_In; exact E|]. destruct (R4 i r E) as (e & _ & _ & Q). congruence. }
    destruct ES as [[r [Hr Hg]]|[r [Hr Hg]]].
    - now rewrite (V r_entropy r Hr Hg).
    - destruct (mapM (fun r => as_float (r_entropy r)) recs) as [q|ex] eqn:Q.
      + cbn [bind]. now rewrite (V r_cp r Hr Hg).
      + cbn [bind]. assert (X : forall (l : list (record_ (F:=R))) ex, mapM (fun r => as_float (r_entropy r)) l = Err ex -> ex = ValueError).
        { induction l as [|r' l IH]; intros ex' HX; [discriminate|]. cbn [mapM] in HX. destruct (r_entropy r'); cbn [as_float bind] in HX.
          - destruct (mapM (fun r => as_float (r_entropy r)) l) as [z|z]; cbn [bind] in HX; [discriminate|]. apply IH. congruence.
          - destruct (mapM (fun r => as_float (r_entropy r)) l) as [z|z]; cbn [bind] in HX; [discriminate|]. apply IH. congruence.
          - congruence. }
        now rewrite (X recs ex Q).
  Qed.
End C77.

(** The heat capacities of the class, documented to be returned, never are. *)
Theorem C77_heat_capacities_refuted (m : models (F:=R)) vols : api_eval_heat_capacities m vols = Err AttributeError.
Proof. reflexivity. Qed.

Print Assumptions C77_construction.
Print Assumptions C77_usable.
Print Assumptions C77_free_energy.
Print Assumptions C77_entropy.
Print Assumptions C77_cp.
Print Assumptions C77_cp_silent.
Print Assumptions C77_cp_exact.
Print Assumptions C77_cp_numerical.
Print Assumptions C77_cp_slope.
Print Assumptions C77_cp_quadratic.
Print Assumptions C77_cp_before.
Print Assumptions C77_cp_missing.
Print Assumptions C77_run.
Print Assumptions C77_gibbs.
Print Assumptions C77_gibbs_all.
Print Assumptions C77_legendre.
Print Assumptions C77_gibbs_parabola.
Print Assumptions C77_round_trip.
Print Assumptions C77_save_fails.
Print Assumptions C77_save_before.
Print Assumptions C77_load_fails.
Print Assumptions C77_heat_capacities_refuted.

(** *** Examples *)
From Coq Require Import QArith Qcanon.
Module Ex.
  Definition q (z : Z) : Qc := Q2Qc (inject_Z z).
  Definition h (z : Z) : Qc := Q2Qc (z # 10).
  (** Parabolas with minima at 10, 11, 12, 20 and curvature 2; bulk modulus 2 v0. *)
  Definition e_at (v : Z) : eos (F:=Qc) := mk_eos (q v) (q (2 * v)) (q (- v)) (fun x => q (- v) + (x - q v) * (x - q v))%Qc.
  Definition s_of (k : Z) : vfit (F:=Qc) := mk_vfit (fun v => q k + v)%Qc (fun _ => q 1).
  Definition vols := [q 9; q 11; q 13].
  Definition temps := [q 0; q 100; q 200; q 300].
  Definition ms (fv : list (option (eos (F:=Qc)))) :=
    match new_models (h 12) vols temps with
    | Ok m => mk_models (m_temps m) (m_thr m) (Some fv) (Some (map (fun k => Some (s_of k)) [0; 1; 2; 3]%Z)) (Some (map (fun k => Some (s_of k)) [0; 1; 2; 3]%Z))
    | Err _ => mk_models [] 0%F None None None
    end.
  Definition good := ms [Some (e_at 10); Some (e_at 11); Some (e_at 12); Some (e_at 13)].
  Definition bad := ms [Some (e_at 10); Some (e_at 11); Some (e_at 12); Some (e_at 20)].
  Definition r_good := run_standard (q 160) (q 1) (h 1) (h 0) good.
  Definition r_bad := run_standard (q 160) (q 1) (h 1) (h 0) bad.
End Ex.
(** Entropies 10, 12, 14, 16 at four temperatures: slopes 4/200, and heat capacities 2 and 4. *)
Example C77_example_good : Ex.r_good = Ok ([CNum (Ex.q 10); CNum (Ex.q 12); CNum (Ex.q 14); CNum (Ex.q 16)], [CNum (Ex.q 0); CNum (Ex.q 2); CNum (Ex.q 4); CNan]).
Proof. vm_compute. reflexivity. Qed.
(** The last minimum is beyond 1.2 times the largest volume: no result at any temperature. *)
Example C77_example_bad : Ex.r_bad = Err TypeError.
Proof. vm_compute. reflexivity. Qed.
(** The formula: 12 + 100 * 11 * 1 / 22 = 62. *)
Example C77_example_cp : eval_eq_cp (Ex.q 160) (Ex.q 1) (Ex.h 1) Ex.good 1 = Ok (Some (Ex.q 62)).
Proof. vm_compute. reflexivity. Qed.
Example C77_example_file : exists y p, save (Ex.q 160) (Ex.q 1) (Ex.h 1) (fun l => l) Ex.vols Ex.temps Ex.good
    (Some (map CNum [Ex.q 1; Ex.q 2; Ex.q 3; Ex.q 4])) (Some [CNan; CNum (Ex.q 2); CNum (Ex.q 4); CNan])
    [[Some (Ex.q 1); None; Some (Ex.q 3)]; [None; None; None]; [Some (Ex.q 1); Some (Ex.q 2); Some (Ex.q 3)]; []] = Ok y /\ load y = Ok p /\
  t_helmholtz p = [Ex.q (-10); Ex.q (-11); Ex.q (-12); Ex.q (-13)] /\ t_cp p = [CNan; CNum (Ex.q 2); CNum (Ex.q 4); CNan] /\
  hd [] (t_data p) = [(Ex.q 9, Ex.q 1); (Ex.q 13, Ex.q 3)].
Proof. eexists. eexists. split; [vm_compute; reflexivity|]. split; [vm_compute; reflexivity|]. split; [vm_compute; reflexivity|]. split; vm_compute; reflexivity. Qed.
