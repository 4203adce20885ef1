From Verif Require Import Base Num NumR Model.Structure Model.DatasetDFT Model.Dataset Model.Regress Model.Fit
  Spec.Dataset Spec.Structure Spec.Regress Spec.Fit Proofs.RegressFinal Proofs.Select Proofs.Fit Proofs.FitReal Proofs.Curve.
From Coq Require Import Reals Lra.
Local Open Scope nat_scope.

Lemma curve_models {A B C} (f : A -> res C) (R : A -> B -> Prop) (g : A * B -> res C) l :
  (forall x, In x l -> exists y, R x y /\ f x = g (x, y)) ->
  exists ys, map fst ys = l /\ Forall (fun q => R (fst q) (snd q)) ys /\ mapM f l = mapM g ys.
Proof.
  induction l as [|x l IH]; intros H; [exists []; repeat split; constructor|].
  destruct (H x (or_introl eq_refl)) as [y [H1 H2]]. destruct IH as [ys [E1 [E2 E3]]]; [intros; apply H; now right|].
  exists ((x, y) :: ys). cbn [map mapM fst snd]. rewrite H2, E3, E1. repeat split. constructor; assumption.
Qed.

Section CurveReal.
  Context {St : Type}.
  Variables (s_natoms : St -> list nat) (fe : St -> vec R) (ff fs : St -> list (vec R)).
  Variables (weight_e : R -> R -> nat -> R) (weight_f weight_s : R -> R) (big threshold weight_stress : R).
  Variables (p : nat).
  Hypothesis Ht : (0 < threshold <= 1)%R.
  Variables (posv : mat R -> vec R -> option (vec R)) (huge thr : R).
  Hypothesis posv_sound : sound_solver p posv.
  Notation dset := (ds R St).
  Notation usable := (usable ff fs s_natoms).
  Notation points e ps := (points fe ff fs weight_e weight_f weight_s weight_stress e ps).
  Notation std_calc := (std_calc s_natoms fe ff fs weight_e weight_f weight_s big threshold weight_stress).
  Context {E : Type}.
  Variable accuracy : mlp (F:=R) -> res (list (string * E)).
  Variables (d : dset) (rs : list (rec R St)) (test : list (dset * list (rec R St))) (alphas : list R).
  Hypothesis Hu : usable (d, rs).
  Hypothesis Hf : ds_force d = true.
  Hypothesis Hu2 : Forall usable test.
  Hypothesis Ha : alphas <> [].
  Notation train := [(d, rs)].
  Notation fscale := (train_scale fe threshold train).
  Notation foff := (train_off fe threshold train).

  Lemma curve_is r0 : 10 <= length rs ->
    exists (models : list (nat * mlp (F:=R))) e,
      map fst models = map (fun k => k * (length rs / 10)) (seq 1 (length rs / (length rs / 10))) /\
      least (big :: energies_per_atom train) e /\
      Forall (fun q => outcome p posv huge fscale foff (points e [(d, firstn (fst q) rs)]) (points e test) fscale (fun _ => false) alphas (snd q)) models /\
      fit_learning_curve p posv huge thr (std_calc r0) accuracy alphas [d] (map fst test) =
        (do logs <- mapM (fun q => do er <- accuracy (snd q); Ok (map (fun x => (fst q, snd x)) er)) models; Ok (concat logs)).
  Proof.
    intros Hn.
    assert (Hu1 : Forall usable train) by (constructor; [exact Hu|constructor]).
    assert (AF : any_force train = true) by (unfold any_force; cbn; now rewrite Hf).
    destruct (train_std s_natoms fe ff fs weight_e weight_f weight_s big threshold weight_stress p train r0 Hu1) as [r [E1 [B [C D]]]].
    destruct (test_std s_natoms fe ff fs weight_e weight_f weight_s big threshold weight_stress p Ht train test (fun _ => AF)
                r0 (t_scales r) (t_min_e r) Hu2 D) as [r' [E1' C']].
    cbn [map fst] in E1.
    change (std_calc r0 (map fst test) (Some (t_scales r : vec R)) (Some (t_min_e r)) = Ok r') in E1'.
    assert (NS : t_n_structures r = length rs).
    { destruct (slice_rows s_natoms fe ff fs r0 weight_e weight_f weight_s big threshold p d rs None weight_stress 0 Hu Hf ltac:(lia)) as [t [G [G2 _]]].
      unfold FitReal.std_calc in E1. rewrite G in E1. injection E1 as <-. exact G2. }
    unfold fit_learning_curve.
    rewrite E1. cbn [bind]. rewrite E1'. cbn [bind]. rewrite NS, (sizes_ok _ Hn). cbn [bind].
    destruct Hu as [[els [ef [es Hd]]] _]. cbn [fst snd] in Hd. unfold get_dft. rewrite Hd. cbn [bind total_n_atoms layout].
    destruct (curve_models (curve_point p posv huge thr accuracy alphas r r' (map r_natom rs))
                (fun n m => outcome p posv huge fscale foff (points (t_min_e r) [(d, firstn n rs)]) (points (t_min_e r) test) fscale (fun _ => false) alphas m)
                (fun q => do er <- accuracy (snd q); Ok (map (fun x => (fst q, snd x)) er))
                (map (fun k => k * (length rs / 10)) (seq 1 (length rs / (length rs / 10))))) as [ms [M1 [M2 M3]]].
    { intros n Hin. apply in_map_iff in Hin. destruct Hin as [k [<- Hk]]. apply in_seq in Hk.
      assert (Hle : k * (length rs / 10) <= length rs).
      { transitivity (length rs / (length rs / 10) * (length rs / 10)); [apply Nat.mul_le_mono_r; lia|].
        rewrite Nat.mul_comm. apply Nat.mul_div_le. assert (1 <= length rs / 10) by (apply Nat.div_le_lower_bound; lia). lia. }
      destruct (slice_rows s_natoms fe ff fs r0 weight_e weight_f weight_s big threshold p d rs None weight_stress _ Hu Hf Hle)
        as [t [G [_ [x [y [G2 G3]]]]]].
      unfold FitReal.std_calc in E1. rewrite G in E1. injection E1 as ->.
      assert (G3' : represents p fscale foff (Of_xy x y) (points (t_min_e r) [(d, firstn (k * (length rs / 10)) rs)])).
      { unfold train_scale, train_off. rewrite AF. exact G3. }
      destruct (point_outcome p posv huge (reads _ _ posv_sound) thr accuracy alphas r r' (map r_natom rs) _ x y fscale foff _ _ fscale (fun _ => false) Ha G2 G3' D C')
        as [m [O1 O2]]. exists m. split; [exact O1|exact O2]. }
    exists ms, (t_min_e r). split; [exact M1|]. split; [exact B|]. split; [exact M2|]. now rewrite M3.
  Qed.
End CurveReal.
