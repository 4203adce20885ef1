From Verif Require Import Base Num NumR Model.Structure Model.DatasetDFT Model.Dataset Model.Regress Model.Fit
  Spec.Dataset Spec.Structure Spec.Regress Spec.Fit Proofs.Index Proofs.StructureSpin2 Proofs.Select Proofs.RegressWeights
  Proofs.Regress Proofs.RegressFinal Proofs.Scales Proofs.Fit.
From Coq Require Import Ring Field Reals Lra.
Local Open Scope nat_scope.

Section Quadratic.
  Context {F : Type} {N : Num F} {NO : NumOrd F} {L : FieldLaws F}.
  Local Open Scope num_scope.
  Add Field Ffield : (field_laws (F:=F)).
  Notation row := (vec F).
  Variables (p : nat) (sc : row) (off : nat -> bool).

  Lemma deviation_row c u : deviation p sc off c u = yval u - dot p (xrow sc off u) c.
  Proof. rewrite dot_xrow. unfold deviation, yval. ring. Qed.

  Lemma gradient P c i :
    nsumf (fun u => deviation p sc off c u * xrow sc off u i) P = XY sc off P i - dot p (XX sc off P i) c.
  Proof.
    rewrite <- (xty_xrow sc off P i). unfold xty_of. rewrite combine_maps, nsumf_map. cbn [fst snd].
    transitivity (nsumf (fun u => xrow sc off u i * yval u) P - nsumf (fun u => xrow sc off u i * dot p (xrow sc off u) c) P).
    { rewrite <- nsumf_sub. apply nsumf_ext'. intros u. rewrite deviation_row. ring. }
    f_equal. unfold dot.
    transitivity (sumn p (fun j => nsumf (fun u => xrow sc off u i * xrow sc off u j * c j) P)).
    - rewrite sumn_nsumf_swap. apply nsumf_ext'. intros u. rewrite <- sumn_scale_l. apply sumn_ext. intros; ring.
    - apply sumn_ext. intros j _. rewrite nsumf_scale_r, <- xtx_xrow. unfold xtx_of. now rewrite nsumf_map.
  Qed.

  Lemma cross P c d : nsumf (fun u => deviation p sc off c u * dot p (xrow sc off u) d) P
    = sumn p (fun i => d i * (XY sc off P i - dot p (XX sc off P i) c)).
  Proof.
    transitivity (sumn p (fun i => nsumf (fun u => d i * (deviation p sc off c u * xrow sc off u i)) P)).
    - rewrite sumn_nsumf_swap. apply nsumf_ext'. intros u. unfold dot. rewrite <- sumn_scale_l. apply sumn_ext. intros; ring.
    - apply sumn_ext. intros i _. now rewrite nsumf_scale_l, gradient.
  Qed.

  Definition curvature (a : F) (P : list (point F)) (d : row) : F :=
    nsumf (fun u => dot p (xrow sc off u) d * dot p (xrow sc off u) d) P + a * dot p d d.

  (** The objective around a solution of the normal equations. *)
  Lemma objective_shift a P c c' :
    (forall i, (i < p)%nat -> dot p (XX sc off P i) c + a * c i = XY sc off P i) ->
    objective p sc off a P c' = objective p sc off a P c + curvature a P (fun i => c' i - c i).
  Proof.
    intros H. set (d := fun i => c' i - c i).
    assert (HS : squares p sc off P c' = squares p sc off P c
        - (1 + 1) * nsumf (fun u => deviation p sc off c u * dot p (xrow sc off u) d) P
        + nsumf (fun u => dot p (xrow sc off u) d * dot p (xrow sc off u) d) P).
    { unfold squares. rewrite <- nsumf_scale_l, <- nsumf_sub, <- nsumf_add. apply nsumf_ext'. intros u.
      assert (E : deviation p sc off c' u = deviation p sc off c u - dot p (xrow sc off u) d).
      { rewrite !deviation_row. unfold d. rewrite dot_sub_r. ring. }
      rewrite E. ring. }
    rewrite cross in HS.
    rewrite (sumn_ext p (fun i => d i * (XY sc off P i - dot p (XX sc off P i) c)) (fun i => a * (c i * d i))) in HS
      by (intros i Hi; rewrite <- H by exact Hi; ring).
    rewrite sumn_scale_l in HS. fold (dot p c d) in HS.
    unfold objective, curvature. rewrite HS. fold (dot p c c) (dot p c' c').
    assert (HC : dot p c' c' = dot p c c + (1 + 1) * dot p c d + dot p d d).
    { unfold dot, sumn. rewrite <- nsumf_scale_l, <- !nsumf_add. apply nsumf_ext'. intros i. unfold d. ring. }
    rewrite HC. ring.
  Qed.

  Lemma diag_row (m : mat F) a d i : (i < p)%nat ->
    dot p (fun j => m i j + (if (i =? j)%nat then a else 0)) d = dot p (m i) d + a * d i.
  Proof.
    intros Hi. unfold dot.
    transitivity (sumn p (fun j => m i j * d j) + sumn p (fun j => (if (i =? j)%nat then a else 0) * d j)).
    - unfold sumn. rewrite <- nsumf_add. apply nsumf_ext'. intros; ring.
    - f_equal. clear -Hi L. induction p as [|q IH]; [lia|]. rewrite sumn_S.
      destruct (Nat.eq_dec i q) as [->|Hne].
      + rewrite Nat.eqb_refl. transitivity (0 + a * d q); [|ring]. f_equal.
        transitivity (sumn q (fun _ => 0 * 0)); [apply sumn_ext; intros j Hj; replace (q =? j)%nat with false by (symmetry; apply Nat.eqb_neq; lia); ring|].
        unfold sumn. rewrite nsumf_scale_l. ring.
      + rewrite IH by lia. replace (i =? q)%nat with false by (symmetry; apply Nat.eqb_neq; exact Hne). ring.
  Qed.
  Lemma quad_form a P d : dot p d (matvec p (fun i j => XX sc off P i j + (if (i =? j)%nat then a else 0)) d) = curvature a P d.
  Proof.
    unfold curvature, matvec.
    transitivity (dot p d (fun i => dot p (XX sc off P i) d + a * d i)).
    { apply dot_ext; [reflexivity|]. intros i Hi. apply (diag_row (XX sc off P)), Hi. }
    rewrite dot_add_r, dot_scale_r. f_equal.
    rewrite (dot_ext p d d (fun i => dot p (XX sc off P i) d) (matvec p (xtx_of (map (xrow sc off) P)) d)).
    - rewrite quad_xtx, nsumf_map. reflexivity.
    - reflexivity.
    - intros i Hi. unfold matvec. apply dot_ext; [|reflexivity]. intros j Hj. symmetry. apply xtx_xrow.
  Qed.
End Quadratic.

Section RealPart.
  Local Open Scope R_scope.
  Variables (p : nat) (sc : vec R) (off : nat -> bool).
  Notation objective := (objective p sc off).
  Notation curvature := (curvature p sc off).

  Lemma dot_self_nonneg (d : vec R) : 0 <= dot p d d.
  Proof. apply nsumf_nonneg. intros i _. cbn. nra. Qed.
  Lemma curvature_nonneg a P d : 0 <= a -> 0 <= curvature a P d.
  Proof.
    intros Ha. unfold FitReal.curvature. cbn [nadd nmul R_num].
    assert (H : 0 <= nsumf (fun u => dot p (xrow sc off u) d * dot p (xrow sc off u) d) P).
    { apply nsumf_nonneg. intros u _. cbn. nra. }
    pose proof (dot_self_nonneg d). cbn [nadd nmul R_num] in H. nra.
  Qed.
  Lemma sum_zero (f : nat -> R) n : (forall i, (i < n)%nat -> 0 <= f i) -> sumn n f <= 0 -> forall i, (i < n)%nat -> f i = 0.
  Proof.
    induction n as [|n IH]; intros H Hs i Hi; [lia|]. rewrite sumn_S in Hs. cbn in Hs.
    assert (H0 : 0 <= sumn n f) by (apply nsumf_nonneg; intros k Hk; apply in_seq in Hk; apply H; lia).
    pose proof (H n ltac:(lia)). destruct (Nat.eq_dec i n) as [->|Hn]; [lra|]. apply IH; [intros; apply H; lia|lra|lia].
  Qed.
  Lemma curvature_zero a P d : 0 < a -> curvature a P d <= 0 -> forall i, (i < p)%nat -> d i = 0.
  Proof.
    intros Ha H i Hi. unfold FitReal.curvature in H. cbn [nadd nmul R_num] in H.
    assert (H1 : 0 <= nsumf (fun u => dot p (xrow sc off u) d * dot p (xrow sc off u) d) P).
    { apply nsumf_nonneg. intros u _. cbn. nra. }
    pose proof (dot_self_nonneg d) as H2.
    assert (H3 : dot p d d <= 0) by nra.
    assert (H4 : d i * d i = 0); [|nra].
    apply (sum_zero (fun k => d k * d k) p); [intros; nra|exact H3|exact Hi].
  Qed.

  Notation minimises := (minimises p sc off).

  Lemma normal_minimises a P c : 0 <= a ->
    (forall i, (i < p)%nat -> dot p (XX sc off P i) c + a * c i = XY sc off P i) -> minimises a P c.
  Proof.
    intros Ha H c'. rewrite (objective_shift (F:=R) (N:=R_num) p sc off a P c c' H). cbn [nadd R_num]. pose proof (curvature_nonneg a P (fun i => nsub (c' i) (c i)) Ha). lra.
  Qed.
  Lemma minimiser_unique a P c c' : 0 < a ->
    (forall i, (i < p)%nat -> dot p (XX sc off P i) c + a * c i = XY sc off P i) -> minimises a P c' ->
    forall i, (i < p)%nat -> c' i = c i.
  Proof.
    intros Ha H Hm i Hi. specialize (Hm c). rewrite (objective_shift (F:=R) (N:=R_num) p sc off a P c c' H) in Hm. cbn [nadd R_num] in Hm.
    assert (Hc : curvature a P (fun i => nsub (c' i) (c i)) <= 0).
    { apply (Rplus_le_reg_l (objective a P c)). rewrite Rplus_0_r. exact Hm. }
    assert (Hz := curvature_zero a P (fun i => nsub (c' i) (c i)) Ha Hc i Hi). cbn in Hz. lra.
  Qed.
End RealPart.

Section RealFit.
  Local Open Scope R_scope.
  Context {St : Type}.
  Variables (s_natoms : St -> list nat) (fe : St -> vec R) (ff fs : St -> list (vec R)).
  Variables (weight_e : R -> R -> nat -> R) (weight_f weight_s : R -> R) (big threshold weight_stress : R).
  Variables (p n_threshold n_batch : nat).
  Hypothesis Ht : 0 < threshold <= 1.
  Variables (posv : mat R -> vec R -> option (vec R)) (huge thr : R).
  Hypothesis posv_sound : sound_solver p posv.
  Notation dset := (ds R St).
  Notation usable := (usable ff fs s_natoms).
  Notation points e ps := (points fe ff fs weight_e weight_f weight_s weight_stress e ps).
  Variables train test : list (dset * list (rec R St)).
  Notation fscale := (train_scale fe threshold train).
  Notation foff := (train_off fe threshold train).

  Lemma cand_solves sc off P a : 0 < a -> forall i, (i < p)%nat ->
    dot p (XX sc off P i) (cand posv huge sc off P a) + a * cand posv huge sc off P a i = XY sc off P i.
  Proof.
    intros Ha i Hi. unfold cand, solve_linear_equation.
    set (m := fun i j => nadd (XX sc off P i j) (if (i =? j)%nat then a else n0)).
    assert (HS : posv m (XY sc off P) <> None).
    { apply (definite _ _ posv_sound). intros d [k [Hk Hd]].
      assert (HQ : sumn p (fun i => d i * sumn p (fun j => m i j * d j)) = curvature p sc off a P d) by exact (quad_form p sc off a P d).
      rewrite HQ.
      destruct (Rlt_or_le 0 (curvature p sc off a P d)) as [H|H]; [exact H|]. exfalso. apply Hd.
      exact (curvature_zero p sc off a P d Ha H k Hk). }
    destruct (posv m (XY sc off P)) as [c|] eqn:E; [|congruence].
    rewrite <- (solves _ _ posv_sound _ _ _ E i Hi). unfold matvec, m.
    exact (eq_sym (diag_row p (XX sc off P) a c i Hi)).
  Qed.
  Hypothesis Hforce : any_force test = true -> any_force train = true.
  Lemma inc_ok : any_force test = any_force train \/ any_force train = true.
  Proof. destruct (any_force train) eqn:E; [now right|]. left. destruct (any_force test); [now discriminate Hforce|reflexivity]. Qed.
  Lemma test_scale j : usable_scale threshold (any_force test) (fscale j) = fscale j.
  Proof. unfold train_scale. apply usable_scale_idem; [exact Ht|exact inc_ok]. Qed.
  Lemma test_on j : tiny threshold (any_force test) (fscale j) = false.
  Proof. unfold train_scale. apply usable_scale_on; [exact Ht|exact inc_ok]. Qed.

  Section Sequential.
    Variables (r0 : vec R) (argsort : list Z -> list nat) (part : string) (b : nat).
    Hypothesis Hs : sorts argsort.
    Hypothesis Hb : (1 <= b)%nat.
    Hypothesis Hp : p <> n_threshold.
    Definition seq_calc (ds : list dset) (scales : option (vec R)) (me : option R) :=
      calc_xtx_xty s_natoms fe ff fs r0 weight_e weight_f weight_s big threshold p n_threshold n_batch
        argsort part ds scales me weight_stress (Z.of_nat b).
    Lemma train_seq : train <> [] -> Forall usable train ->
      exists r, seq_calc (map fst train) None None = Ok r /\ least (big :: energies_per_atom train) (m_min_e r) /\
        represents p fscale foff (Of_normal r) (points (m_min_e r) train) /\ forall j, m_scales r j = fscale j.
    Proof.
      intros Hne Hu.
      destruct (seq_final s_natoms fe ff fs r0 weight_e weight_f weight_s big threshold p n_threshold n_batch argsort part
                train None None weight_stress b Hs Hb Hne Hu) as [r [E [_ [B [C [D [G [I J]]]]]]]].
      exists r. split; [exact E|]. split; [exact (B eq_refl)|]. cbn zeta in *.
      assert (HV : forall j, (if nltb (variance (energy_rows fe train) j) n0 then n1 else variance (energy_rows fe train) j) = variance (energy_rows fe train) j).
      { intros j. change (nltb (variance (energy_rows fe train) j) n0) with (Rltb (variance (energy_rows fe train) j) 0). now rewrite variance_nonneg. }
      split.
      - cbn [represents]. split; [|split; [|split; assumption]].
        + intros i j Hi Hj. rewrite (J i j Hi Hj). unfold filled'.
          replace (p =? n_threshold)%nat with false by (symmetry; apply Nat.eqb_neq; exact Hp). rewrite !HV. reflexivity.
        + intros i. rewrite (I i), HV. reflexivity.
      - intros j. rewrite (C j), HV. reflexivity.
    Qed.
    Lemma test_seq s e : test <> [] -> Forall usable test -> (forall j, s j = fscale j) ->
      exists r, seq_calc (map fst test) (Some s) (Some e) = Ok r /\
        represents p fscale (fun _ => false) (Of_normal r) (points e test).
    Proof.
      intros Hne Hu Hsc.
      destruct (seq_final s_natoms fe ff fs r0 weight_e weight_f weight_s big threshold p n_threshold n_batch argsort part
                test (Some s) (Some e) weight_stress b Hs Hb Hne Hu) as [r [E [A [_ [C [D [G [I J]]]]]]]].
      exists r. split; [exact E|]. cbn zeta in *. rewrite (A e eq_refl) in *. cbn [represents]. split; [|split; [|split; assumption]].
      - intros i j Hi Hj. rewrite (J i j Hi Hj). unfold filled'.
        replace (p =? n_threshold)%nat with false by (symmetry; apply Nat.eqb_neq; exact Hp). rewrite !Hsc, !test_on, !test_scale. reflexivity.
      - intros i. rewrite (I i), Hsc, test_on, test_scale. reflexivity.
    Qed.
  End Sequential.

  Section OneShot.
    Variable r0 : vec R.
    Definition std_calc (ds : list dset) (scales : option (vec R)) (me : option R) :=
      calc_xy s_natoms fe ff fs r0 weight_e weight_f weight_s big threshold ds scales me weight_stress.
    Lemma train_std : Forall usable train ->
      exists t, std_calc (map fst train) None None = Ok t /\ least (big :: energies_per_atom train) (t_min_e t) /\
        represents p fscale foff (Of_xy (t_x t) (t_y t)) (points (t_min_e t) train) /\ forall j, t_scales t j = fscale j.
    Proof.
      intros Hu.
      destruct (one_shot_final s_natoms fe ff fs r0 weight_e weight_f weight_s big threshold p train None None weight_stress Hu)
        as [t [E [_ [B [C [[T [T1 [T2 [T3 _]]]] _]]]]]].
      exists t. split; [exact E|]. split; [exact (B eq_refl)|]. split; [|exact C].
      exists T. split; [exact T1|]. split; [exact T2|exact T3].
    Qed.
    Lemma test_std s e : Forall usable test -> (forall j, s j = fscale j) ->
      exists t, std_calc (map fst test) (Some s) (Some e) = Ok t /\
        represents p fscale (fun _ => false) (Of_xy (t_x t) (t_y t)) (points e test).
    Proof.
      intros Hu Hsc.
      destruct (one_shot_final s_natoms fe ff fs r0 weight_e weight_f weight_s big threshold p test (Some s) (Some e) weight_stress Hu)
        as [t [E [A [_ [C [[T [T1 [T2 [T3 _]]]] _]]]]]].
      exists t. split; [exact E|]. cbn zeta in *. rewrite (A e eq_refl) in *. exists T. split; [exact T1|]. split; [|exact T3].
      eapply Select.Forall2_impl; [|exact T2]. intros r u Hr j. rewrite (Hr j), Hsc, test_on, test_scale. reflexivity.
    Qed.
  End OneShot.

  Lemma rms_test Q c : rms p fscale (fun _ => false) Q c = potential_rms p Q (fun j => c j / fscale j).
  Proof.
    unfold rms, potential_rms, squares. do 2 f_equal. apply nsumf_ext'. intros u. unfold deviation, feature. cbn zeta.
    rewrite (sumn_ext p (fun j => nmul (pt_row u j) (c j / fscale j)) (fun j => nmul (ndiv (pt_row u j) (fscale j)) (c j))); [reflexivity|].
    intros j _. cbn [nmul ndiv R_num]. unfold Rdiv. ring.
  Qed.
  Lemma rms_train P c : (forall j, (j < p)%nat -> foff j = true -> c j = 0) -> rms p fscale foff P c = potential_rms p P (fun j => c j / fscale j).
  Proof.
    intros H. unfold rms, potential_rms, squares. do 2 f_equal. apply nsumf_ext'. intros u. unfold deviation, feature. cbn zeta.
    rewrite (sumn_ext p (fun j => nmul (pt_row u j) (c j / fscale j)) (fun j => nmul (if foff j then n0 else ndiv (pt_row u j) (fscale j)) (c j))); [reflexivity|].
    intros j Hj. cbn [nmul ndiv n0 R_num]. unfold Rdiv. destruct (foff j) eqn:E; [rewrite (H j Hj E)|]; ring.
  Qed.
  Lemma potential_ext P c c' : (forall i, (i < p)%nat -> c i = c' i) -> potential_rms p P c = potential_rms p P c'.
  Proof.
    intros H. unfold potential_rms. do 2 f_equal. apply nsumf_ext'. intros u. cbn zeta.
    rewrite (sumn_ext p (fun j => nmul (pt_row u j) (c j)) (fun j => nmul (pt_row u j) (c' j))); [reflexivity|]. intros j Hj. now rewrite H.
  Qed.

  Notation minimises := (minimises p fscale foff).
  Notation best := (best_fit p fscale foff).
  Lemma off_zero P a c : 0 < a -> (forall i, (i < p)%nat -> dot p (XX fscale foff P i) c + a * c i = XY fscale foff P i) ->
    forall j, (j < p)%nat -> foff j = true -> c j = 0.
  Proof.
    intros Ha H j Hj Ho. apply (ridge_off (F:=R) (N:=R_num) p (XX fscale foff P) (XY fscale foff P) c a j); [|exact Hj| | |exact (H j Hj)].
    - intros E. cbn in E. lra.
    - intros l _. unfold XX. rewrite Ho. reflexivity.
    - unfold XY. rewrite Ho. reflexivity.
  Qed.

  Lemma outcome_best alphas P Q m : Forall (fun a => 0 < a) alphas ->
    outcome p posv huge fscale foff P Q fscale (fun _ => false) alphas m -> best alphas P Q m.
  Proof.
    intros Hp [k [a [E1 [E2 [E3 [E4 [E5 [E6 [E7 E8]]]]]]]]].
    assert (Ha : 0 < a) by (rewrite Forall_forall in Hp; exact (Hp a (nth_error_In _ _ E2))).
    pose proof (cand_solves fscale foff P a Ha) as HS.
    assert (HC : forall i, (i < p)%nat -> dot p (XX fscale foff P i) (p_coeffs m) + a * p_coeffs m i = XY fscale foff P i).
    { intros i Hi. rewrite (E4 i Hi), <- (HS i Hi). f_equal. apply dot_ext; [reflexivity|exact E4]. }
    assert (ESc : forall i, p_scaled m i = p_coeffs m i / fscale i) by (intros i; rewrite E6, E5; reflexivity).
    constructor.
    - rewrite E3. exact (nth_error_In _ _ E2).
    - exact E5.
    - rewrite E3. apply normal_minimises; [lra|exact HC].
    - exact ESc.
    - rewrite E7, (rms_train P _ (off_zero P a _ Ha HS)). apply potential_ext. intros i Hi. rewrite ESc, (E4 i Hi). reflexivity.
    - rewrite E8, rms_test. apply potential_ext. intros i Hi. rewrite ESc, (E4 i Hi). reflexivity.
    - intros a' c Hin Hm. rewrite E8.
      destruct (In_nth_error _ _ Hin) as [k' Ek'].
      assert (Ha' : 0 < a') by (rewrite Forall_forall in Hp; exact (Hp a' Hin)).
      assert (HU := minimiser_unique p fscale foff a' P _ c Ha' (cand_solves fscale foff P a' Ha') Hm).
      rewrite <- rms_test, (rms_ext p fscale (fun _ => false) Q c (cand posv huge fscale foff P a') HU).
      destruct (argmin_spec (map (fun a => rms p fscale (fun _ => false) Q (cand posv huge fscale foff P a)) alphas)) as [k2 [v [F1 [F2 [F3 _]]]]].
      { destruct alphas; [destruct Hin|discriminate]. }
      rewrite F1 in E1. injection E1 as ->. rewrite (map_nth_error _ _ _ E2) in F2. injection F2 as <-.
      specialize (F3 k' _ (map_nth_error _ _ _ Ek')). cbn [nltb R_ord] in F3. apply Rltb_false in F3. exact F3.
  Qed.

  Lemma outcome_same sc off P Q sc' off' alphas m m' :
    outcome p posv huge sc off P Q sc' off' alphas m -> outcome p posv huge sc off P Q sc' off' alphas m' -> same_model p m m'.
  Proof.
    intros [k [a [E1 [E2 [E3 [E4 [E5 [E6 [E7 E8]]]]]]]]] [k' [a' [G1 [G2 [G3 [G4 [G5 [G6 [G7 G8]]]]]]]]].
    rewrite E1 in G1. injection G1 as <-. rewrite E2 in G2. injection G2 as <-. unfold same_model.
    split; [congruence|]. split; [congruence|]. split; [congruence|]. intros i Hi.
    assert (H1 : p_coeffs m i = p_coeffs m' i) by (rewrite E4, G4 by exact Hi; reflexivity).
    assert (H2 : p_scales m i = p_scales m' i) by (rewrite E5, G5; reflexivity).
    split; [exact H1|]. split; [exact H2|]. rewrite E6, G6, H1, H2. reflexivity.
  Qed.

  Lemma fit_is alphas r0 argsort part b : sorts argsort -> (1 <= b)%nat -> p <> n_threshold -> alphas <> [] ->
    train <> [] -> test <> [] -> Forall usable train -> Forall usable test ->
    exists m e, fit p posv huge thr (seq_calc r0 argsort part b) alphas (map fst train) (map fst test) = Ok m /\
      least (big :: energies_per_atom train) e /\
      outcome p posv huge fscale foff (points e train) (points e test) fscale (fun _ => false) alphas m.
  Proof.
    intros Hs Hb Hp Ha Hn1 Hn2 Hu1 Hu2.
    destruct (train_seq r0 argsort part b Hs Hb Hp Hn1 Hu1) as [r [E [B [C D]]]].
    destruct (test_seq r0 argsort part b Hs Hb Hp (m_scales r) (m_min_e r) Hn2 Hu2 D) as [r' [E' C']].
    destruct (fit_outcome p posv huge (reads _ _ posv_sound) thr (seq_calc r0 argsort part b) alphas (map fst train) (map fst test)
                fscale foff _ _ fscale (fun _ => false) r r' Ha E C D E' C') as [m [Em Ho]].
    exists m, (m_min_e r). auto.
  Qed.
  Lemma fit_standard_is alphas r0 : alphas <> [] -> Forall usable train -> Forall usable test ->
    exists m e, fit_standard p posv huge thr (std_calc r0) alphas (map fst train) (map fst test) = Ok m /\
      least (big :: energies_per_atom train) e /\
      outcome p posv huge fscale foff (points e train) (points e test) fscale (fun _ => false) alphas m.
  Proof.
    intros Ha Hu1 Hu2.
    destruct (train_std r0 Hu1) as [r [E [B [C D]]]].
    destruct (test_std r0 (t_scales r) (t_min_e r) Hu2 D) as [r' [E' C']].
    destruct (fit_standard_outcome p posv huge (reads _ _ posv_sound) thr (std_calc r0) alphas (map fst train) (map fst test)
                fscale foff _ _ fscale (fun _ => false) r r' Ha E C D E' C') as [m [Em Ho]].
    exists m, (t_min_e r). auto.
  Qed.
  Lemma least_same (l : list R) e e' : least l e -> least l e' -> e = e'.
  Proof.
    intros [H1 H2] [H3 H4]. specialize (H2 _ H3). specialize (H4 _ H1). cbn in H2, H4. apply Rltb_false in H2, H4. lra.
  Qed.
End RealFit.
