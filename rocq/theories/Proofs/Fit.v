From Verif Require Import Base Num Model.Structure Model.DatasetDFT Model.Dataset Model.Regress Model.Fit
  Spec.Dataset Spec.Structure Spec.Regress Spec.Fit Proofs.Index Proofs.StructureSpin2 Proofs.Select Proofs.RegressWeights
  Proofs.Regress Proofs.RegressFinal.
From Coq Require Import Ring Field.

Lemma F2_map_l {A B C} (R : B -> C -> Prop) (f : A -> B) l m : Forall2 (fun a c => R (f a) c) l m -> Forall2 R (map f l) m.
Proof. induction 1; constructor; auto. Qed.
Lemma F2_nth {A B} (R : A -> B -> Prop) l m : Forall2 R l m -> forall k a, nth_error l k = Some a ->
  exists b, nth_error m k = Some b /\ R a b.
Proof.
  induction 1 as [|x y l m H _ IH]; intros [|k] a Ha; cbn in *; try discriminate.
  - injection Ha as <-. eauto.
  - eauto.
Qed.

Section Data.
  Context {F : Type} {N : Num F} {NO : NumOrd F} {L : FieldLaws F}.
  Local Open Scope num_scope.
  Add Field Ffield : (field_laws (F:=F)).
  Notation row := (vec F).
  Variable p : nat.

  Section Scaled.
    Variables (sc : row) (off : nat -> bool).
    Definition xrow (u : point F) : row := fun j => pt_weight u * feature sc off (pt_row u) j.
    Definition yval (u : point F) : F := pt_weight u * pt_value u.
    Definition XX (P : list (point F)) : mat F := fun i j => if off i || off j then 0 else XTX P i j / sc i / sc j.
    Definition XY (P : list (point F)) : row := fun i => if off i then 0 else XTY P i / sc i.

    Lemma xtx_xrow P i j : xtx_of (map xrow P) i j = XX P i j.
    Proof.
      unfold xtx_of, XX, XTX. rewrite nsumf_map. unfold xrow, feature.
      destruct (off i) eqn:Ei; [cbn [orb]; transitivity (nsumf (fun _ : point F => 0 : F) P); [apply nsumf_ext'; intros; ring|apply nsumf_zero]|].
      destruct (off j) eqn:Ej; [cbn [orb]; transitivity (nsumf (fun _ : point F => 0 : F) P); [apply nsumf_ext'; intros; ring|apply nsumf_zero]|].
      cbn [orb]. rewrite !(Fdiv_def (field_laws (F:=F))), <- !nsumf_scale_r. apply nsumf_ext'. intros u.
      rewrite !(Fdiv_def (field_laws (F:=F))). ring.
    Qed.
    Lemma combine_maps {A B C} (f : A -> B) (g : A -> C) l : combine (map f l) (map g l) = map (fun x => (f x, g x)) l.
    Proof. induction l as [|x l IH]; cbn; congruence. Qed.
    Lemma xty_xrow P i : xty_of (map xrow P) (map yval P) i = XY P i.
    Proof.
      unfold xty_of, XY, XTY. rewrite combine_maps, nsumf_map. cbn [fst snd]. unfold xrow, yval, feature.
      destruct (off i) eqn:Ei; [transitivity (nsumf (fun _ : point F => 0 : F) P); [apply nsumf_ext'; intros; ring|apply nsumf_zero]|].
      rewrite !(Fdiv_def (field_laws (F:=F))), <- !nsumf_scale_r. apply nsumf_ext'. intros u.
      rewrite !(Fdiv_def (field_laws (F:=F))). ring.
    Qed.
    Lemma ysq_yval P : ysq (map yval P) = YTY P.
    Proof. unfold ysq, YTY. now rewrite nsumf_map. Qed.

    Lemma dot_xrow u c : dot p (xrow u) c = pt_weight u * sumn p (fun j => feature sc off (pt_row u) j * c j).
    Proof. unfold dot, xrow, sumn. rewrite <- nsumf_scale_l. apply nsumf_ext'. intros; ring. Qed.

    Lemma mse_points P c : mse_standard p (map xrow P) (map yval P) c = squares p sc off P c / nnat (length P).
    Proof.
      unfold mse_standard, squares. rewrite map_length, combine_maps, nsumf_map. f_equal. apply nsumf_ext'.
      intros u. cbn [fst snd]. rewrite dot_xrow. unfold yval, deviation. ring.
    Qed.

    (** The data hold the observations [P]. *)
    Definition represents (d : data) (P : list (point F)) : Prop :=
      match d with
      | Of_xy x y => exists T, Permutation T P /\ Forall2 (fun (r : row) u => forall j, r j = xrow u j) x T /\ y = map yval T
      | Of_normal d => (forall i j, (i < p)%nat -> (j < p)%nat -> m_xtx d i j = XX P i j) /\
                       (forall i, m_xty d i = XY P i) /\ m_ysq d = YTY P /\ m_total d = length P
      end.

    Lemma squares_perm T P c : Permutation T P -> squares p sc off T c = squares p sc off P c.
    Proof. intros H. now apply nsumf_perm. Qed.
    Lemma squares_ext P c c' : (forall i, (i < p)%nat -> c i = c' i) -> squares p sc off P c = squares p sc off P c'.
    Proof.
      intros H. unfold squares. apply nsumf_ext'. intros u. unfold deviation.
      rewrite (sumn_ext p (fun j => feature sc off (pt_row u) j * c j) (fun j => feature sc off (pt_row u) j * c' j)); [reflexivity|].
      intros i Hi. now rewrite H.
    Qed.

    Lemma mse_rows_ext x x' y c : Forall2 (fun r r' : row => forall j, r j = r' j) x x' ->
      mse_standard p x y c = mse_standard p x' y c.
    Proof.
      intros H. unfold mse_standard. f_equal. revert y. induction H as [|r r' x x' Hr _ IH]; intros [|v y]; try reflexivity.
      cbn [combine]. rewrite !nsumf_cons, IH. cbn [fst snd]. rewrite (dot_ext p r r' c c); auto.
    Qed.

    Lemma rmse_ok thr coefs d P b : represents d P ->
      compute_rmse p thr coefs d b = Ok (map (rms p sc off P) coefs).
    Proof.
      destruct d as [x y|d]; cbn [represents compute_rmse].
      - intros [T [H1 [H2 H3]]]. unfold compute_rmse_standard. f_equal. apply map_ext. intros c. unfold rms. f_equal. rewrite H3.
        rewrite (mse_rows_ext x (map xrow T)), mse_points, (squares_perm T P c H1), (Permutation_length H1); [reflexivity|].
        clear -H2. induction H2; constructor; auto.
      - intros [H1 [H2 [H3 H4]]]. unfold compute_rmse_seq. f_equal. apply map_ext. intros c. unfold rms. f_equal.
        rewrite <- mse_points. apply mse_equal.
        + now rewrite !map_length.
        + now rewrite map_length.
        + intros i j Hi Hj. rewrite xtx_xrow. auto.
        + intros i Hi. rewrite xty_xrow. auto.
        + rewrite ysq_yval. exact H3.
    Qed.

    Lemma xtx_rows_ext x (T : list (point F)) i j : Forall2 (fun (r : row) u => forall j, r j = xrow u j) x T ->
      xtx_of x i j = xtx_of (map xrow T) i j.
    Proof.
      unfold xtx_of. induction 1 as [|r u x T Hr _ IH]; [reflexivity|]. cbn [map]. now rewrite !nsumf_cons, IH, !Hr.
    Qed.
    Lemma xty_rows_ext x y (T : list (point F)) i : Forall2 (fun (r : row) u => forall j, r j = xrow u j) x T ->
      xty_of x y i = xty_of (map xrow T) y i.
    Proof.
      unfold xty_of. intros H. revert y. induction H as [|r u x T Hr _ IH]; intros [|v y]; try reflexivity. cbn [map combine].
      rewrite !nsumf_cons, IH. cbn [fst]. now rewrite Hr.
    Qed.
    Lemma xy_sums x y P : represents (Of_xy x y) P ->
      (forall i j, xtx_of x i j = XX P i j) /\ (forall i, xty_of x y i = XY P i).
    Proof.
      intros [T [H1 [H2 ->]]]. split.
      - intros i j. rewrite (xtx_rows_ext x T i j H2), xtx_xrow. unfold XX. now rewrite (XTX_perm T P H1).
      - intros i. rewrite (xty_rows_ext x _ T i H2), xty_xrow. unfold XY. now rewrite (XTY_perm T P H1).
    Qed.
  End Scaled.

  (** ** Selection *)
  Variable posv : mat F -> row -> option row.
  Variable huge : F.
  Hypothesis posv_ext : forall m m' v v',
    (forall i j, (i < p)%nat -> (j < p)%nat -> m i j = m' i j) -> (forall i, (i < p)%nat -> v i = v' i) ->
    match posv m v, posv m' v' with
    | Some c, Some c' => forall i, (i < p)%nat -> c i = c' i
    | None, None => True
    | _, _ => False
    end.
  Notation sle := (solve_linear_equation posv huge).

  Lemma sle_ext m m' v v' : (forall i j, (i < p)%nat -> (j < p)%nat -> m i j = m' i j) -> (forall i, (i < p)%nat -> v i = v' i) ->
    forall i, (i < p)%nat -> sle m v i = sle m' v' i.
  Proof.
    intros Hm Hv i Hi. pose proof (posv_ext m m' v v' Hm Hv) as H. unfold solve_linear_equation.
    destruct (posv m v), (posv m' v'); try contradiction; auto.
  Qed.

  (** The candidate for the penalty [a]. *)
  Definition cand (sc : row) (off : nat -> bool) (P : list (point F)) (a : F) : row :=
    sle (fun i j => XX sc off P i j + (if (i =? j)%nat then a else 0)) (XY sc off P).

  Lemma ridge_cand sc off P xtx xty alphas : alphas <> [] ->
    (forall i j, (i < p)%nat -> (j < p)%nat -> xtx i j = XX sc off P i j) -> (forall i, xty i = XY sc off P i) ->
    exists cs m, solver_ridge sle xtx xty alphas = Ok (cs, m) /\ (forall i j, m i j = xtx i j) /\
      Forall2 (fun a (c : row) => forall i, (i < p)%nat -> c i = cand sc off P a i) alphas cs.
  Proof.
    intros Hne H1 H2.
    destruct (ridge_spec sle p (fun m m' v Hm => sle_ext m m' v v Hm (fun _ _ => eq_refl)) xtx xty alphas Hne) as [cs [m [E [Hm HF]]]].
    exists cs, m. split; [exact E|]. split; [exact Hm|]. eapply Select.Forall2_impl; [|exact HF].
    intros a c Hc i Hi. rewrite Hc by exact Hi. unfold cand. apply sle_ext; [|intros; apply H2|exact Hi].
    intros k l Hk Hl. now rewrite H1.
  Qed.

  (** The outcome of a fit. *)
  Definition outcome (sc : row) (off : nat -> bool) (P Q : list (point F)) (sc' : row) (off' : nat -> bool) (alphas : list F) (m : mlp (F:=F)) : Prop :=
    exists k a, argmin (map (fun a => rms p sc' off' Q (cand sc off P a)) alphas) = Ok k /\ nth_error alphas k = Some a /\
      p_alpha m = a /\ (forall i, (i < p)%nat -> p_coeffs m i = cand sc off P a i) /\
      (forall j, p_scales m j = sc j) /\ (forall i, p_scaled m i = p_coeffs m i / p_scales m i) /\
      p_rmse_train m = rms p sc off P (cand sc off P a) /\ p_rmse_test m = rms p sc' off' Q (cand sc off P a).

  Lemma argmin_lt (l : list F) k : argmin l = Ok k -> (k < length l)%nat.
  Proof.
    destruct l as [|a l]; [discriminate|]. cbn [argmin]. intros [= <-].
    enough (H : forall l n b (m : F), (b < n)%nat -> (argmin_from n b m l < n + length l)%nat) by (apply (H l 1%nat 0%nat a); lia).
    clear. induction l as [|x l IH]; intros n b m Hb; cbn [argmin_from length]; [lia|].
    destruct (nltb x m); [specialize (IH (S n) n x ltac:(lia))|specialize (IH (S n) b m ltac:(lia))]; lia.
  Qed.

  Lemma rms_ext sc off P c c' : (forall i, (i < p)%nat -> c i = c' i) -> rms p sc off P c = rms p sc off P c'.
  Proof. intros H. unfold rms. now rewrite (squares_ext sc off P c c' H). Qed.

  Lemma best_outcome sc off P Q sc' off' alphas (cs : list row) (scales : row) : alphas <> [] ->
    Forall2 (fun a (c : row) => forall i, (i < p)%nat -> c i = cand sc off P a i) alphas cs -> (forall j, scales j = sc j) ->
    exists m, get_best_model alphas cs scales (map (rms p sc off P) cs) (map (rms p sc' off' Q) cs) = Ok m /\
      outcome sc off P Q sc' off' alphas m.
  Proof.
    intros Hne HF Hs. unfold get_best_model. rewrite !map_length, <- (Forall2_length _ _ _ HF), Nat.eqb_refl. cbn [negb].
    assert (EM : map (rms p sc' off' Q) cs = map (fun a => rms p sc' off' Q (cand sc off P a)) alphas).
    { clear -HF L. induction HF as [|a c la lc H _ IH]; [reflexivity|]. cbn [map]. rewrite IH. f_equal. apply rms_ext, H. }
    assert (EM' : map (rms p sc off P) cs = map (fun a => rms p sc off P (cand sc off P a)) alphas).
    { clear -HF L. induction HF as [|a c la lc H _ IH]; [reflexivity|]. cbn [map]. rewrite IH. f_equal. apply rms_ext, H. }
    rewrite EM, EM'.
    destruct (argmin (map (fun a => rms p sc' off' Q (cand sc off P a)) alphas)) as [k|e] eqn:Ek.
    2:{ exfalso. destruct alphas as [|a l]; [congruence|]. discriminate. }
    pose proof (argmin_lt _ _ Ek) as Hk. rewrite map_length in Hk. cbn [bind].
    destruct (nth_error alphas k) as [a|] eqn:Ea; [|apply nth_error_None in Ea; lia].
    destruct (F2_nth _ _ _ HF k a Ea) as [c [Ec Hc]].
    unfold get. rewrite Ec. cbn [bind]. rewrite !(map_nth_error _ _ _ Ea), Ea. cbn [bind]. eexists. split; [reflexivity|].
    exists k, a. cbn. repeat (split; [first [assumption|reflexivity]|]). split; reflexivity.
  Qed.

  (** ** The three programs *)
  Context {St : Type}.
  Notation dset := (ds F St).
  Variable thr : F.
  Variables (calc_xtx_xty : list dset -> option row -> option F -> res (normal (F:=F))).
  Variables (calc_xy : list dset -> option row -> option F -> res (standard (F:=F))).

  Lemma fit_outcome alphas train test sc off P Q sc' off' r r' : alphas <> [] ->
    calc_xtx_xty train None None = Ok r -> represents sc off (Of_normal r) P -> (forall j, m_scales r j = sc j) ->
    calc_xtx_xty test (Some (m_scales r)) (Some (m_min_e r)) = Ok r' -> represents sc' off' (Of_normal r') Q ->
    exists m, fit p posv huge thr calc_xtx_xty alphas train test = Ok m /\ outcome sc off P Q sc' off' alphas m.
  Proof.
    intros Hne E1 R1 S1 E2 R2. unfold fit. rewrite E1. cbn [bind].
    destruct R1 as [A1 [A2 [A3 A4]]].
    destruct (ridge_cand sc off P (m_xtx r) (m_xty r) alphas Hne A1 A2) as [cs [mm [E [Hm HF]]]]. rewrite E. cbn [bind].
    rewrite (rmse_ok sc off thr cs _ P true).
    2:{ cbn. split; [intros i j Hi Hj; rewrite Hm; auto|auto]. }
    cbn [bind]. rewrite E2. cbn [bind]. rewrite (rmse_ok sc' off' thr cs _ Q false R2). cbn [bind].
    apply best_outcome; assumption.
  Qed.

  Lemma fit_standard_outcome alphas train test sc off P Q sc' off' t t' : alphas <> [] ->
    calc_xy train None None = Ok t -> represents sc off (Of_xy (t_x t) (t_y t)) P -> (forall j, t_scales t j = sc j) ->
    calc_xy test (Some (t_scales t)) (Some (t_min_e t)) = Ok t' -> represents sc' off' (Of_xy (t_x t') (t_y t')) Q ->
    exists m, fit_standard p posv huge thr calc_xy alphas train test = Ok m /\ outcome sc off P Q sc' off' alphas m.
  Proof.
    intros Hne E1 R1 S1 E2 R2. unfold fit_standard. rewrite E1. cbn [bind].
    destruct (xy_sums sc off _ _ P R1) as [A1 A2].
    destruct (ridge_cand sc off P (xtx_of (t_x t)) (xty_of (t_x t) (t_y t)) alphas Hne (fun i j _ _ => A1 i j) A2) as [cs [mm [E [Hm HF]]]].
    rewrite E. cbn [bind].
    rewrite (rmse_ok sc off thr cs _ P true R1). cbn [bind]. rewrite E2. cbn [bind].
    rewrite (rmse_ok sc' off' thr cs _ Q false R2). cbn [bind]. apply best_outcome; assumption.
  Qed.

  Context {E : Type}.
  Variable accuracy : mlp (F:=F) -> res (list (string * E)).
  Lemma point_outcome alphas t t' natoms n x y sc off P Q sc' off' : alphas <> [] ->
    slice_xy t n natoms = Ok (x, y) -> represents sc off (Of_xy x y) P -> (forall j, t_scales t j = sc j) ->
    represents sc' off' (Of_xy (t_x t') (t_y t')) Q ->
    exists m, outcome sc off P Q sc' off' alphas m /\
      curve_point p posv huge thr accuracy alphas t t' natoms n = (do e <- accuracy m; Ok (map (fun q => (n, snd q)) e)).
  Proof.
    intros Hne E1 R1 S1 R2. unfold curve_point. rewrite E1. cbn [bind].
    destruct (xy_sums sc off _ _ P R1) as [A1 A2].
    destruct (ridge_cand sc off P (xtx_of x) (xty_of x y) alphas Hne (fun i j _ _ => A1 i j) A2) as [cs [mm [E1' [Hm HF]]]].
    rewrite E1'. cbn [bind].
    rewrite (rmse_ok sc off thr cs _ P false R1). cbn [bind].
    rewrite (rmse_ok sc' off' thr cs _ Q false R2). cbn [bind].
    destruct (best_outcome sc off P Q sc' off' alphas cs (t_scales t) Hne HF S1) as [m [Em Ho]]. exists m. split; [exact Ho|].
    rewrite Em. reflexivity.
  Qed.
End Data.
