(** The rows of the one-shot matrix in their order, and its slices. *)
From Verif Require Import Base Num Model.Structure Model.DatasetDFT Model.Dataset Model.Index Model.Batch Model.Regress Model.Fit
  Spec.Dataset Spec.Structure Spec.Regress Spec.Fit Proofs.Index Proofs.Batch Proofs.StructureSpin Proofs.StructureSpin2 Proofs.DatasetDFT
  Proofs.RegressWeights Proofs.XtxBlocks Proofs.Regress Proofs.RegressSeq Proofs.RegressFinal Proofs.Select Proofs.Fit.
From Coq Require Import Ring Field.

(** ** Sizes *)
Lemma sizes_few n : n < 10 -> sample_sizes n = Err ValueError.
Proof. intros H. unfold sample_sizes. rewrite Nat.div_small by exact H. reflexivity. Qed.
Lemma sizes_ok n : 10 <= n -> sample_sizes n = Ok (map (fun k => k * (n / 10)) (seq 1 (n / (n / 10)))).
Proof.
  intros H. unfold sample_sizes, py_range.
  assert (Hs : 1 <= n / 10) by (apply Nat.div_le_lower_bound; lia).
  pose proof (Nat.mul_div_le n 10 ltac:(lia)) as Hn. set (s := n / 10) in *.
  destruct s as [|s'] eqn:Es; [lia|]. rewrite <- Es in *. f_equal.
  replace (n + 1 - s + (s - 1)) with n by lia.
  rewrite <- seq_shift, map_map. apply map_ext. intros k. lia.
Qed.
Lemma sizes_number n : 10 <= n -> 10 <= n / (n / 10) <= 19.
Proof.
  intros H. assert (Hs : 1 <= n / 10) by (apply Nat.div_le_lower_bound; lia).
  pose proof (Nat.mul_div_le n 10 ltac:(lia)) as Hn. pose proof (Nat.mul_succ_div_gt n 10 ltac:(lia)) as Hg. set (s := n / 10) in *.
  split; [apply Nat.div_le_lower_bound; lia|]. enough (n / s < 20) by lia. apply Nat.div_lt_upper_bound; lia.
Qed.

(** ** Slices *)
Lemma np_get_nat {A} (l : list A) k : np_get l (Z.of_nat k) = get l k.
Proof.
  unfold np_get. replace (Z.of_nat k <? 0)%Z with false by (symmetry; apply Z.ltb_ge; lia).
  replace (Z.of_nat k <? 0)%Z with false by (symmetry; apply Z.ltb_ge; lia). now rewrite Nat2Z.id.
Qed.
Lemma get_app_r {A} (a b : list A) k : get (a ++ b) (length a + k) = get b k.
Proof. unfold get. rewrite nth_error_app2 by lia. now replace (length a + k - length a) with k by lia. Qed.
Lemma get_range {A} (l : list A) : mapM (get l) (seq 0 (length l)) = Ok l.
Proof.
  enough (H : forall b a : list A, mapM (get (a ++ b)) (seq (length a) (length b)) = Ok b) by exact (H l []).
  induction b as [|x b IH]; intros a; [reflexivity|]. cbn [length seq mapM].
  assert (E : get (a ++ x :: b) (length a) = Ok x).
  { pose proof (get_app_r a (x :: b) 0) as G. rewrite Nat.add_0_r in G. exact G. }
  rewrite E. cbn [bind]. specialize (IH (a ++ [x])). rewrite <- app_assoc, app_length in IH. cbn [app length] in IH.
  rewrite Nat.add_1_r in IH. rewrite IH. reflexivity.
Qed.
Lemma mapM_app' {A B} (f : A -> res B) l m : mapM f (l ++ m) = (do a <- mapM f l; do b <- mapM f m; Ok (a ++ b)).
Proof.
  induction l as [|x l IH]; cbn [app mapM bind]; [destruct (mapM f m); reflexivity|].
  destruct (f x); [|reflexivity]. cbn [bind]. rewrite IH. destruct (mapM f l); [|reflexivity]. cbn [bind]. destruct (mapM f m); reflexivity.
Qed.
Lemma mapM_map' {A B C} (f : B -> res C) (g : A -> B) l : mapM f (map g l) = mapM (fun x => f (g x)) l.
Proof. induction l as [|x l IH]; [reflexivity|]. cbn [map mapM]. now rewrite IH. Qed.
Lemma mapM_ext' {A B} (f g : A -> res B) l : (forall x, In x l -> f x = g x) -> mapM f l = mapM g l.
Proof.
  induction l as [|x l IH]; intros H; [reflexivity|]. cbn [mapM]. rewrite H by now left. now rewrite IH by (intros; apply H; now right).
Qed.
Lemma range_get {A} (a m b : list A) : mapM (np_get (a ++ m ++ b)) (zrange (Z.of_nat (length a)) (length m)) = Ok m.
Proof.
  unfold zrange. rewrite mapM_map'. transitivity (mapM (get m) (seq 0 (length m))); [|apply get_range]. apply mapM_ext'. intros k Hk. apply in_seq in Hk.
  rewrite <- Nat2Z.inj_add, np_get_nat, get_app_r. unfold get. now rewrite nth_error_app1 by lia.
Qed.

(** Three blocks, of each the first part. *)
Lemma three {A} (e e' s s' f f' : list A) :
  mapM (np_get ((e ++ e') ++ (s ++ s') ++ (f ++ f')))
    (zrange 0 (length e) ++ zrange (Z.of_nat (length (e ++ e'))) (length s) ++ zrange (Z.of_nat (length (e ++ e') + length (s ++ s'))) (length f))
  = Ok (e ++ s ++ f).
Proof.
  rewrite !mapM_app'.
  pose proof (range_get [] e (e' ++ (s ++ s') ++ (f ++ f'))) as H1. cbn [app length Z.of_nat] in H1. rewrite <- !app_assoc in *. rewrite H1. cbn [bind].
  pose proof (range_get (e ++ e') s (s' ++ f ++ f')) as H2. rewrite <- !app_assoc in H2. rewrite H2. cbn [bind].
  pose proof (range_get ((e ++ e') ++ (s ++ s')) f f') as H3. rewrite <- !app_assoc in H3. rewrite !app_length in *.
  replace (length e + length e' + (length s + length s')) with (length e + (length e' + (length s + length s'))) by lia.
  rewrite H3. reflexivity.
Qed.

Section Rows.
  Context {F : Type} {N : Num F} {O : NumOrd F} {L : FieldLaws F} {OL : OrdLaws F} {C0 : Char0 F} {St : Type}.
  Local Open Scope num_scope.
  Add Field Ffield : (field_laws (F:=F)).
  Notation row := (vec F).
  Notation dset := (ds F St).
  Notation rec := (rec F St).
  Variable s_natoms : St -> list nat.
  Variables (fe : St -> row) (ff fs : St -> list row) (r0 : row).
  Variables (weight_e : F -> F -> nat -> F) (weight_f weight_s : F -> F).
  Variables (big threshold : F).
  Notation usable := (usable ff fs s_natoms).
  Notation calc_xy := (calc_xy s_natoms fe ff fs r0 weight_e weight_f weight_s big threshold).
  Notation pts fe ff fs w m := (fun ps => flat_map (ptsE fe weight_e m) ps ++ flat_map (ptsS fs weight_s w) ps ++ flat_map (ptsF ff weight_f) ps).

  Definition scaled (a : row) (t u : point F) : Prop :=
    (forall j, pt_row t j = pt_row u j * a j) /\ pt_value t = pt_value u /\ pt_weight t = pt_weight u.
  Lemma F2_flat {A B C} (R : B -> C -> Prop) (f : A -> list B) (g : A -> list C) l :
    (forall x, Forall2 R (f x) (g x)) -> Forall2 R (flat_map f l) (flat_map g l).
  Proof. intros H. induction l as [|x l IH]; cbn [flat_map]; [constructor|]. apply Forall2_app; auto. Qed.

  Lemma pts_map (g : row -> row) (a : row) w m ps : (forall r j, g r j = r j * a j) ->
    Forall2 (scaled a) (pts (fun s => g (fe s)) (fun s => map g (ff s)) (fun s => map g (fs s)) w m ps) (pts fe ff fs w m ps).
  Proof.
    intros Hg.
    assert (M : forall (h : F -> F) (l : list row) (v : list F),
      Forall2 (scaled a) (map (fun q => mk_point (fst q) (snd q) (h (snd q))) (combine (map g l) v))
        (map (fun q => mk_point (fst q) (snd q) (h (snd q))) (combine l v))).
    { clear -Hg. intros h l. induction l as [|r l IH]; intros [|v0 v]; cbn; constructor; [|apply IH]. unfold scaled. cbn. auto. }
    apply Forall2_app; [|apply Forall2_app]; apply F2_flat; intros q.
    - unfold ptsE. apply F2_flat. intros r. unfold energy_points. repeat constructor; cbn; auto.
    - unfold ptsS. destruct (ds_force (fst q)); [|constructor]. apply F2_flat. intros r. unfold stress_points.
      apply (M (fun v => if ds_stress (fst q) then weight_s v * (w * ds_weight (fst q)) else 0)).
    - unfold ptsF. destruct (ds_force (fst q)); [|constructor]. apply F2_flat. intros r. unfold force_points.
      apply (M (fun v => weight_f v * ds_weight (fst q))).
  Qed.

  Lemma one_shot_rows ps scales min_energy w : Forall usable ps ->
    exists t, calc_xy (map fst ps) scales min_energy w = Ok t /\
      let raw := fun j => match scales with Some s => s j | None => nsqrt (variance (energy_rows fe ps) j) end in
      let off := fun j => tiny threshold (any_force ps) (raw j) in
      let sc := fun j => usable_scale threshold (any_force ps) (raw j) in
      let T := pts fe ff fs w (t_min_e t) ps in
      let nE := length (flat_map (rowsE fe) ps) in let nS := length (flat_map (rowsS fs) ps) in
      t_first t = firsts_from fe ff fs 0 nE (nE + nS) ps /\ t_n_structures t = nE /\
      Forall2 (fun (r : row) u => forall j, r j = xrow sc off u j) (t_x t) T /\ t_y t = map yval T.
  Proof.
    intros Hu. destruct (usable_ok s_natoms ff fs ps Hu) as [Hok [Hnn Hhe]]. unfold Regress.calc_xy.
    rewrite (features_spec s_natoms fe ff fs r0 ps Hok). cbn [bind f_x f_nf f_ne f_first].
    rewrite (nf_zero s_natoms ff fs weight_e weight_f weight_s big 0%nat ps Hu). rewrite map_length.
    rewrite !app_length.
    set (nE := length (flat_map (rowsE fe) ps)). set (nS := length (flat_map (rowsS fs) ps)). set (nF := length (flat_map (rowsF ff) ps)).
    assert (XE : firstn nE (flat_map (rowsE fe) ps ++ flat_map (rowsS fs) ps ++ flat_map (rowsF ff) ps) = energy_rows fe ps).
    { unfold nE. now rewrite firstn_app, firstn_all, Nat.sub_diag, app_nil_r. }
    rewrite XE. set (Q := energy_rows fe ps).
    set (raw0 := match scales with Some s => s | None => np_std Q end).
    assert (ME : exists m, match min_energy with Some m => Ok m | None => get_min_energy big (map fst ps) end = Ok m).
    { destruct min_energy as [m|]; [now exists m|]. destruct (min_energy_spec big ps Hhe) as [m [E1 E2]]. now exists m. }
    destruct ME as [m EM]. rewrite EM. cbn [bind].
    set (inc := any_force ps).
    set (g := fun (r : row) j => (if zero_id threshold inc (raw0 j) then 0 else r j) / round_scales threshold inc raw0 j).
    change (map (fun (r : row) (j : nat) => (if zero_id threshold inc (raw0 j) then 0 else r j) / round_scales threshold inc raw0 j)) with (map g).
    rewrite !map_app, !map_flat_map.
    rewrite (flat_map_ext (fun q => map g (rowsE fe q)) (rowsE (fun s => g (fe s)))) by (intros; symmetry; apply rowsE_map).
    rewrite (flat_map_ext (fun q => map g (rowsS fs q)) (rowsS (fun s => map g (fs s)))) by (intros; symmetry; apply rowsS_map).
    rewrite (flat_map_ext (fun q => map g (rowsF ff q)) (rowsF (fun s => map g (ff s)))) by (intros; symmetry; apply rowsF_map).
    pose proof (weights_loop_spec s_natoms (fun s => g (fe s)) (fun s => map g (ff s)) (fun s => map g (fs s)) weight_e weight_f weight_s w m ps
       [] [] [] [] [] [] [] [] [] [] [] [] (repeat 0 nE) (repeat 0 nS) (repeat 0 nF) (repeat 1 nE) (repeat 1 nS) (repeat 1 nF)
       (ok_map s_natoms ff fs g ps Hok) weighted_nil weighted_nil weighted_nil) as WL.
    assert (LE : length (flat_map (rowsE (fun s => g (fe s))) ps) = nE).
    { unfold nE. rewrite (flat_map_ext _ _ (rowsE_map fe g)), <- map_flat_map. apply map_length. }
    assert (LS : length (flat_map (rowsS (fun s => map g (fs s))) ps) = nS).
    { unfold nS. rewrite (flat_map_ext _ _ (rowsS_map fs g)), <- map_flat_map. apply map_length. }
    assert (LF : length (flat_map (rowsF (fun s => map g (ff s))) ps) = nF).
    { unfold nF. rewrite (flat_map_ext _ _ (rowsF_map ff g)), <- map_flat_map. apply map_length. }
    rewrite !repeat_length, LE, LS, LF in WL.
    specialize (WL eq_refl eq_refl eq_refl eq_refl eq_refl eq_refl).
    cbn [length Nat.add app] in WL. rewrite !Nat.add_0_r in WL.
    rewrite <- !repeat_app in WL. rewrite (firsts_map fe ff fs g) in WL.
    destruct WL as [x [y [ww [EQ WT]]]]. match type of EQ with ?l = _ => match goal with |- context [bind ?z _] => change z with l end end. rewrite EQ. cbn [bind].
    eexists. split; [reflexivity|]. cbn zeta. cbn [t_min_e t_x t_y t_first t_n_structures].
    split; [reflexivity|]. split; [reflexivity|].
    assert (HR : forall j, raw0 j = match scales with Some s => s j | None => nsqrt (variance Q j) end).
    { intros j. unfold raw0. destruct scales; [reflexivity|]. unfold np_std, variance, mean. reflexivity. }
    set (a := fun j => if zero_id threshold inc (raw0 j) then 0 else ninv (round_scales threshold inc raw0 j)).
    assert (Hg : forall r j, g r j = r j * a j).
    { intros r j. unfold g, a. destruct (zero_id threshold inc (raw0 j)); rewrite (Fdiv_def (field_laws (F:=F))); ring. }
    pose proof (pts_map g a w m ps Hg) as HT. cbn beta in HT.
    set (T := flat_map (ptsE (fun s => g (fe s)) _ _) ps ++ _) in HT, WT.
    set (T' := flat_map (ptsE fe _ _) ps ++ _) in HT |- *.
    clearbody T T'. destruct WT as [W1 [W2 W3]]. split.
    - clear -W1 HT HR L. revert T' HT. induction W1 as [|r u x T Hr _ IH]; intros T' HT; inversion HT as [|? u' ? T'' [H1 [H2 H3]] HT' ]; subst; constructor; [|apply IH, HT'].
      intros j. rewrite Hr, H1, H3. unfold a, xrow, feature, round_scales, usable_scale, tiny, zero_id. fold Q. rewrite !HR.
      destruct (nltb (nabs _) _); [ring|]. rewrite (Fdiv_def (field_laws (F:=F))). reflexivity.
    - rewrite W2. clear -HT. unfold yval. induction HT as [|u u' T T' [H1 [H2 H3]] _ IH]; cbn; congruence.
  Qed.

  Section Slice.
  Variable p : nat.
  Notation shaped := (shaped ff fs s_natoms).
  Lemma lenE w m (q : dset * list rec) : length (ptsE fe w m q) = length (snd q).
  Proof. unfold ptsE, energy_points. induction (snd q); [reflexivity|]. cbn. now f_equal. Qed.
  Lemma lenS w (q : dset * list rec) : ds_force (fst q) = true -> Forall shaped (snd q) ->
    length (ptsS fs weight_s w q) = (length (snd q) * 6)%nat.
  Proof.
    intros Hf H. unfold ptsS. rewrite Hf. induction H as [|r rs [[_ [_ H1]] [_ [_ H2]]] _ IH]; [reflexivity|].
    cbn [flat_map length]. rewrite app_length, IH. unfold stress_points. rewrite map_length, combine_length. lia.
  Qed.
  Lemma lenF (q : dset * list rec) : ds_force (fst q) = true -> Forall shaped (snd q) ->
    length (ptsF ff weight_f q) = (sum (map r_natom (snd q)) * 3)%nat.
  Proof.
    intros Hf H. unfold ptsF. rewrite Hf. induction H as [|r rs [[_ [H1 _]] [_ [H2 _]]] _ IH]; [reflexivity|].
    cbn [flat_map map sum fold_right]. rewrite app_length, IH. unfold force_points. rewrite map_length, combine_length.
    change (fold_right Nat.add 0%nat (map r_natom rs)) with (sum (map r_natom rs)). lia.
  Qed.
  Lemma lenrS (q : dset * list rec) : ds_force (fst q) = true -> Forall shaped (snd q) ->
    length (rowsS fs q) = (length (snd q) * 6)%nat.
  Proof.
    intros Hf H. unfold rowsS. rewrite Hf. induction H as [|r rs [[_ [_ H1]] [_ [_ H2]]] _ IH]; [reflexivity|].
    cbn [flat_map length]. rewrite app_length, IH. lia.
  Qed.

  Lemma slice_rows d rs min_energy w n : usable (d, rs) -> ds_force d = true -> (n <= length rs)%nat ->
    exists t, calc_xy [d] None min_energy w = Ok t /\ t_n_structures t = length rs /\
      let raw := fun j => nsqrt (variance (energy_rows fe [(d, rs)]) j) in
      let off := fun j => tiny threshold true (raw j) in
      let sc := fun j => usable_scale threshold true (raw j) in
      exists x y, slice_xy t n (map r_natom rs) = Ok (x, y) /\
        represents p sc off (Of_xy x y) (points fe ff fs weight_e weight_f weight_s w (t_min_e t) [(d, firstn n rs)]).
  Proof.
    intros Hu Hf Hn.
    destruct (one_shot_rows [(d, rs)] None min_energy w (Forall_cons _ Hu (Forall_nil _))) as [t [E [E1 [E2 [E3 E4]]]]].
    exists t. split; [exact E|]. cbn [flat_map] in E2, E3, E4, E1. rewrite !app_nil_r in *.
    split; [rewrite E2; unfold rowsE; now rewrite map_length|]. cbn zeta.
    assert (AF : any_force [(d, rs)] = true) by (unfold any_force; cbn; now rewrite Hf). rewrite AF in E3.
    set (sc := fun j => usable_scale threshold true _) in *. set (off := fun j => tiny threshold true _) in *.
    assert (Hsh : Forall shaped rs) by apply Hu.
    assert (Hs1 : Forall shaped (firstn n rs)) by (rewrite <- (firstn_skipn n rs) in Hsh; apply Forall_app in Hsh; apply Hsh).
    set (q1 := (d, firstn n rs)). set (q2 := (d, skipn n rs)).
    assert (PE : ptsE fe weight_e (t_min_e t) (d, rs) = ptsE fe weight_e (t_min_e t) q1 ++ ptsE fe weight_e (t_min_e t) q2).
    { unfold ptsE, q1, q2. cbn [fst snd]. now rewrite <- flat_map_app, firstn_skipn. }
    assert (PS : ptsS fs weight_s w (d, rs) = ptsS fs weight_s w q1 ++ ptsS fs weight_s w q2).
    { unfold ptsS, q1, q2. cbn [fst snd]. rewrite Hf. now rewrite <- flat_map_app, firstn_skipn. }
    assert (PF : ptsF ff weight_f (d, rs) = ptsF ff weight_f q1 ++ ptsF ff weight_f q2).
    { unfold ptsF, q1, q2. cbn [fst snd]. rewrite Hf. now rewrite <- flat_map_app, firstn_skipn. }
    assert (LE := lenE weight_e (t_min_e t) (d, rs)). assert (LS := lenS w (d, rs) Hf Hsh).
    assert (RS := lenrS (d, rs) Hf Hsh).
    assert (RE : length (rowsE fe (d, rs)) = length rs) by (unfold rowsE; apply map_length).
    assert (LE1 := lenE weight_e (t_min_e t) q1). assert (LS1 := lenS w q1 Hf Hs1). assert (LF1 := lenF q1 Hf Hs1).
    cbn [fst snd q1] in LE, LS, RS, LE1, LS1, LF1. rewrite firstn_length, Nat.min_l in LE1, LS1 by exact Hn.
    rewrite <- firstn_map in LF1.
    rewrite PE, PS, PF in E3, E4. rewrite PE in LE. rewrite PS in LS.
    apply Forall2_app_inv_r in E3. destruct E3 as [xe [xsf [XE [E3 EX]]]].
    apply Forall2_app_inv_r in E3. destruct E3 as [xs [xf [XS [XF EX2]]]].
    apply Forall2_app_inv_r in XE. destruct XE as [xe1 [xe2 [XE1 [XE2 EX3]]]].
    apply Forall2_app_inv_r in XS. destruct XS as [xs1 [xs2 [XS1 [XS2 EX4]]]].
    apply Forall2_app_inv_r in XF. destruct XF as [xf1 [xf2 [XF1 [XF2 EX5]]]].
    unfold slice_xy. rewrite E1, EX, EX2, EX3, EX4, EX5. cbn [firsts_from fst get nth_error bind]. rewrite Hf.
    assert (L1 := Forall2_length _ _ _ XE1). assert (L2 := Forall2_length _ _ _ XE2). assert (L3 := Forall2_length _ _ _ XS1).
    assert (L4 := Forall2_length _ _ _ XS2). assert (L5 := Forall2_length _ _ _ XF1).
    rewrite app_length in LE, LS. unfold slice_ids. rewrite RE, RS.
    assert (I1 : mapM (np_get ((xe1 ++ xe2) ++ (xs1 ++ xs2) ++ xf1 ++ xf2))
              (zrange 0 n ++ zrange (Z.of_nat (length rs)) (n * 6) ++ zrange (Z.of_nat (length rs + length rs * 6)) (sum (firstn n (map r_natom rs)) * 3))
            = Ok (xe1 ++ xs1 ++ xf1)).
    { rewrite <- (three xe1 xe2 xs1 xs2 xf1 xf2). rewrite !app_length, L1, L2, L3, L4, L5, LE, LS, LE1, LS1, LF1. reflexivity. }
    rewrite I1. cbn [bind].
    assert (I2 : mapM (np_get (t_y t))
              (zrange 0 n ++ zrange (Z.of_nat (length rs)) (n * 6) ++ zrange (Z.of_nat (length rs + length rs * 6)) (sum (firstn n (map r_natom rs)) * 3))
            = Ok (map yval (ptsE fe weight_e (t_min_e t) q1) ++ map yval (ptsS fs weight_s w q1) ++ map yval (ptsF ff weight_f q1))).
    { rewrite E4, !map_app, <- three with (e' := map yval (ptsE fe weight_e (t_min_e t) q2)) (s' := map yval (ptsS fs weight_s w q2)) (f' := map yval (ptsF ff weight_f q2)).
      rewrite !app_length, !map_length, LE, LS, LE1, LS1, LF1. reflexivity. }
    rewrite I2. cbn [bind]. eexists _, _. split; [reflexivity|].
    cbn [represents]. exists (ptsE fe weight_e (t_min_e t) q1 ++ ptsS fs weight_s w q1 ++ ptsF ff weight_f q1). split; [|split].
    - pose proof (pts_perm fe ff fs weight_e weight_f weight_s w (t_min_e t) [q1]) as H. cbn [flat_map] in H. rewrite !app_nil_r in H. exact H.
    - apply Forall2_app; [exact XE1|]. apply Forall2_app; [exact XS1|exact XF1].
    - now rewrite !map_app.
  Qed.
  End Slice.
End Rows.

(** ** Energies only *)
Definition index_or_ok {A} (r : res A) : Prop := match r with Ok _ => True | Err e => e = IndexError end.
Lemma np_get_kind {A} (l : list A) i : index_or_ok (np_get l i).
Proof.
  unfold np_get, get. cbn zeta. destruct (i <? 0)%Z;
    match goal with |- context [if ?b then _ else _] => destruct b end; cbn; auto;
    match goal with |- context [nth_error ?a ?b] => destruct (nth_error a b) end; cbn; auto.
Qed.
Lemma mapM_kind {A B} (f : A -> res B) l : (forall x, In x l -> index_or_ok (f x)) -> index_or_ok (mapM f l).
Proof.
  induction l as [|x l IH]; intros H; cbn [mapM]; [exact I|]. pose proof (H x (or_introl eq_refl)) as Hx.
  destruct (f x); cbn in *; [|exact Hx]. specialize (IH (fun y Hy => H y (or_intror Hy))). destruct (mapM f l); cbn in *; auto.
Qed.
Lemma mapM_err {A B} (f : A -> res B) l x : (forall x, In x l -> index_or_ok (f x)) -> In x l -> f x = Err IndexError -> mapM f l = Err IndexError.
Proof.
  induction l as [|y l IH]; intros H Hin Hx; [destruct Hin|]. cbn [mapM]. pose proof (H y (or_introl eq_refl)) as Hy.
  destruct (f y) eqn:E; cbn in *; [|congruence]. destruct Hin as [->|Hin]; [congruence|].
  now rewrite (IH (fun z Hz => H z (or_intror Hz)) Hin Hx).
Qed.
Lemma last_size n : 10 <= n -> let L := n / (n / 10) * (n / 10) in n <= 6 * L - 2 /\ L <= n.
Proof.
  intros H L. assert (Hs : 1 <= n / 10) by (apply Nat.div_le_lower_bound; lia).
  pose proof (Nat.mul_div_le n 10 ltac:(lia)) as Hn.
  pose proof (Nat.mul_succ_div_gt n (n / 10) ltac:(lia)). pose proof (Nat.mul_div_le n (n / 10) ltac:(lia)).
  pose proof (sizes_number n H). subst L. set (s := n / 10) in *. set (k := n / s) in *. split; nia.
Qed.

Section EnergyOnly.
  Context {F : Type} {N : Num F} {O : NumOrd F} {L : FieldLaws F} {OL : OrdLaws F} {C0 : Char0 F} {St : Type}.
  Local Open Scope num_scope.
  Notation row := (vec F).
  Notation dset := (ds F St).
  Notation rec := (rec F St).
  Variable s_natoms : St -> list nat.
  Variables (fe : St -> row) (ff fs : St -> list row) (r0 : row).
  Variables (weight_e : F -> F -> nat -> F) (weight_f weight_s : F -> F).
  Variables (big threshold huge thr weight_stress : F) (p : nat).
  Variable posv : mat F -> vec F -> option (vec F).
  Notation usable := (usable ff fs s_natoms).
  Notation calc := (fun ds scales me => calc_xy s_natoms fe ff fs r0 weight_e weight_f weight_s big threshold ds scales me weight_stress).
  Context {E : Type}.
  Variable errors : mlp (F:=F) -> list (string * E).

  Lemma point_kind alphas t t' natoms n : alphas <> [] ->
    index_or_ok (curve_point p posv huge thr (fun m => Ok (errors m)) alphas t t' natoms n).
  Proof.
    intros Ha. unfold curve_point, slice_xy. destruct (get (t_first t) 0) as [first|e] eqn:Ef.
    2:{ unfold get in Ef. destruct (nth_error (t_first t) 0); [discriminate|]. injection Ef as <-. reflexivity. }
    cbn [bind]. set (ids := slice_ids first n natoms).
    pose proof (mapM_kind (np_get (t_x t)) ids (fun i _ => np_get_kind _ i)) as Kx.
    pose proof (mapM_kind (np_get (t_y t)) ids (fun i _ => np_get_kind _ i)) as Ky.
    destruct (mapM (np_get (t_x t)) ids) as [x|]; cbn in Kx; [|subst; reflexivity]. cbn [bind].
    destruct (mapM (np_get (t_y t)) ids) as [y|]; cbn in Ky; [|subst; reflexivity]. cbn [bind].
    destruct (ridge_spec (solve_linear_equation posv huge) 0 (fun _ _ _ _ _ (Hi : (_ < 0)%nat) => False_ind _ (Nat.nlt_0_r _ Hi)) (xtx_of x) (xty_of x y) alphas Ha)
      as [cs [m [Er [_ HF]]]].
    rewrite Er. cbn [bind compute_rmse]. unfold compute_rmse_standard. cbn [bind].
    pose proof (Forall2_length _ _ _ HF) as HL.
    destruct (best_spec alphas cs (t_scales t) (map (fun c => nsqrt (mse_standard p x y c)) cs) (map (fun c => nsqrt (mse_standard p (t_x t') (t_y t') c)) cs))
      as [k [b [Eb _]]]; try (rewrite ?map_length; auto); [destruct alphas; [congruence|cbn; lia]|].
    rewrite Eb. exact I.
  Qed.

  Lemma energies_only d rs test alphas : usable (d, rs) -> ds_force d = false -> Forall usable test -> alphas <> [] ->
    (10 <= length rs)%nat ->
    fit_learning_curve p posv huge thr calc (fun m => Ok (errors m)) alphas [d] (map fst test) = Err IndexError.
  Proof.
    intros Hu Hf Hu2 Ha Hn.
    destruct (one_shot_rows s_natoms fe ff fs r0 weight_e weight_f weight_s big threshold [(d, rs)] None None weight_stress
                (Forall_cons _ Hu (Forall_nil _))) as [t [E0 [E1 [E2 [E3 E4]]]]].
    unfold fit_learning_curve. change (map fst [(d, rs)]) with [d] in E0. rewrite E0. cbn [bind].
    destruct (one_shot_rows s_natoms fe ff fs r0 weight_e weight_f weight_s big threshold test (Some (t_scales t)) (Some (t_min_e t)) weight_stress Hu2)
      as [t' [E0' _]].
    change (calc_xy s_natoms fe ff fs r0 weight_e weight_f weight_s big threshold (map fst test) (Some (t_scales t : row)) (Some (t_min_e t)) weight_stress = Ok t') in E0'.
    rewrite E0'. cbn [bind].
    cbn [flat_map] in E2, E3. rewrite !app_nil_r in *. unfold rowsE in E2. rewrite map_length in E2. cbn [snd] in E2. rewrite E2.
    rewrite (sizes_ok _ Hn). cbn [bind].
    assert (Hd : exists d0, get_dft d = Ok d0).
    { destruct Hu as [[els [ef [es Hd]]] _]. cbn [fst] in Hd. unfold get_dft. rewrite Hd. eauto. }
    destruct Hd as [d0 Hd]. rewrite Hd. cbn [bind].
    set (m := (length rs / (length rs / 10))%nat).
    assert (Hm : (10 <= m <= 19)%nat) by (apply sizes_number, Hn).
    rewrite (mapM_err _ _ (m * (length rs / 10))%nat); [reflexivity| | |].
    - intros n _. apply point_kind, Ha.
    - apply in_map_iff. exists m. split; [reflexivity|]. apply in_seq. lia.
    - destruct (last_size _ Hn) as [H1 H2]. fold m in H1, H2.
      unfold curve_point, slice_xy. rewrite E1. cbn [flat_map firsts_from fst get nth_error bind]. rewrite Hf.
      assert (LX : length (t_x t) = length rs).
      { pose proof (Forall2_length _ _ _ E3) as HL. rewrite HL. rewrite !app_length.
        unfold ptsS, ptsF. cbn [fst]. rewrite Hf. cbn [length]. rewrite (lenE fe weight_e). cbn [snd]. lia. }
      rewrite (mapM_err _ _ (Z.of_nat (m * (length rs / 10) * 6 - 2))); [reflexivity| | |].
      + intros i _. apply np_get_kind.
      + unfold slice_ids. apply in_app_iff. right. apply in_app_iff. left. unfold zrange. apply in_map_iff.
        exists (m * (length rs / 10) * 6 - 1)%nat. split; [lia|]. apply in_seq. lia.
      + rewrite np_get_nat. unfold get. destruct (nth_error _ _) eqn:En; [|reflexivity].
        assert (Hl : nth_error (t_x t) (m * (length rs / 10) * 6 - 2) <> None) by congruence. apply nth_error_Some in Hl. lia.
  Qed.
End EnergyOnly.
