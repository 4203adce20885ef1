From Verif Require Import Base Num Model.Structure Model.DatasetDFT Model.Dataset Model.Index Model.Batch Model.Regress
  Spec.Dataset Spec.Structure Spec.Regress Proofs.Index Proofs.Batch Proofs.StructureSpin2 Proofs.DatasetDFT Proofs.RegressWeights Proofs.XtxBlocks.
From Coq Require Import Ring Field.

Lemma map_nth_seq_mid {A} (pre mid post : list A) d :
  map (fun i => nth i (pre ++ mid ++ post) d) (seq (length pre) (length mid)) = mid.
Proof.
  revert pre. induction mid as [|x mid IH]; intros pre; [reflexivity|]. cbn [length seq map].
  f_equal.
  - rewrite app_nth2, Nat.sub_diag by lia. reflexivity.
  - replace (pre ++ (x :: mid) ++ post) with ((pre ++ [x]) ++ mid ++ post) by (rewrite <- app_assoc; reflexivity).
    replace (S (length pre)) with (length (pre ++ [x])) by (rewrite app_length; cbn; lia). apply IH.
Qed.

Lemma combine_map_both {A B C} (f : A -> B) (g : A -> C) l : combine (map f l) (map g l) = map (fun x => (f x, g x)) l.
Proof. induction l as [|x l IH]; cbn; congruence. Qed.

Section Feat.
  Context {F : Type} {N : Num F} {St : Type}.
  Notation row := (vec F).
  Notation dset := (ds F St).
  Notation rec := (rec F St).
  Variable s_natoms : St -> list nat.
  Variables (fe : St -> row) (ff fs : St -> list row) (r0 : row).
  Notation shaped := (shaped ff fs s_natoms).
  Notation ds_ok := (ds_ok s_natoms ff fs).
  Notation rowsE := (rowsE fe). Notation rowsS := (rowsS fs). Notation rowsF := (rowsF ff).
  Notation firsts_from := (firsts_from fe ff fs).

  Lemma get_dfts ps : Forall ds_ok ps -> exists dfts, mapM get_dft (map fst ps) = Ok dfts /\
    Forall2 (fun p d => exists els ef es, d = layout els ef es (snd p)) ps dfts.
  Proof.
    induction 1 as [|p ps [[els [ef [es Hd]]] _] _ [dfts [E1 E2]]]; [exists []; split; [reflexivity|constructor]|].
    exists (layout els ef es (snd p) :: dfts). split.
    - cbn [map mapM]. unfold get_dft at 1. rewrite Hd. cbn [bind]. rewrite E1. reflexivity.
    - constructor; [exists els, ef, es; reflexivity|exact E2].
  Qed.

  Definition dsl (ps : list (dset * list rec)) : list (nat * bool) := map (fun p => (length (snd p), ds_force (fst p))) ps.
  Definition stsl (ps : list (dset * list rec)) : list St := flat_map (fun p => map r_structure (snd p)) ps.
  Definition nal (ps : list (dset * list rec)) : list nat := map (fun st => sum (s_natoms st)) (stsl ps).

  Lemma rowsS_len p : ds_ok p -> length (rowsS p) = if ds_force (fst p) then 6 * length (snd p) else 0.
  Proof.
    intros [_ [H _]]. unfold RegressWeights.rowsS. destruct (ds_force (fst p)); [|reflexivity].
    induction H as [|r rs [_ [_ [_ H2]]] _ IH]; [reflexivity|]. cbn [flat_map length]. rewrite app_length, IH, H2. lia.
  Qed.
  Lemma rowsF_len p : ds_ok p -> length (rowsF p) = if ds_force (fst p) then 3 * sum (map (fun st => sum (s_natoms st)) (map r_structure (snd p))) else 0.
  Proof.
    intros [_ [H _]]. unfold RegressWeights.rowsF. destruct (ds_force (fst p)); [|reflexivity].
    induction H as [|r rs [_ [H1 [H2 _]]] _ IH]; [reflexivity|]. cbn [flat_map map sum fold_right]. rewrite app_length, IH, H2, H1.
    unfold sum. lia.
  Qed.

  Lemma firsts_eq ps : forall pre e s f, Forall ds_ok ps -> length pre = e ->
    let na := pre ++ nal ps in
    combine (combine (set_ebegin_from e (map fst (dsl ps))) (begs f (fditems na e (dsl ps)))) (begs s (ditems (dsl ps)))
    = firsts_from e s f ps.
  Proof.
    induction ps as [|p ps IH]; intros pre e s f Hok Hp na; [reflexivity|].
    inversion Hok as [|? ? Hp1 Hps]; subst.
    cbn [dsl map fst snd set_ebegin_from ditems fditems begs RegressWeights.firsts_from].
    fold (dsl ps). fold (ditems (dsl ps)).
    set (n := length (snd p)).
    set (mid := map (fun st => sum (s_natoms st)) (map r_structure (snd p))).
    assert (Ena : na = pre ++ mid ++ nal ps).
    { unfold na, nal, mid, stsl. cbn [flat_map]. now rewrite map_app. }
    assert (Esum : map (fun i => nth i na 0) (seq (length pre) n) = mid).
    { rewrite Ena. replace n with (length mid) by (unfold mid, n; now rewrite !map_length). apply map_nth_seq_mid. }
    rewrite Esum.
    assert (LE : length (rowsE p) = n) by (unfold RegressWeights.rowsE; now rewrite map_length).
    assert (LS := rowsS_len p Hp1). assert (LF := rowsF_len p Hp1). fold mid n in LS, LF.
    assert (Lpre : length (pre ++ mid) = length pre + n) by (rewrite app_length; unfold mid, n; now rewrite !map_length).
    rewrite LE. destruct (ds_force (fst p)); rewrite LS, LF; cbn [combine]; f_equal.
    - rewrite <- (IH (pre ++ mid) (length pre + n) (s + 6 * n) (f + 3 * sum mid) Hps Lpre).
      rewrite Ena, <- app_assoc. reflexivity.
    - rewrite !Nat.add_0_r. rewrite <- (IH (pre ++ mid) (length pre + n) s f Hps Lpre).
      rewrite Ena, <- app_assoc. reflexivity.
  Qed.

  Lemma total_sitems ps : Forall ds_ok ps -> total (sitems (dsl ps)) = length (flat_map rowsS ps).
  Proof.
    induction 1 as [|p ps Hp _ IH]; [reflexivity|]. cbn [dsl map sitems flat_map fst snd]. fold (dsl ps) (sitems (dsl ps)).
    rewrite total_app, total_repeat, IH, app_length, (rowsS_len p Hp). destruct (ds_force (fst p)); lia.
  Qed.
  Lemma total_fitems ps : forall pre, Forall ds_ok ps ->
    total (fitems_from (pre ++ nal ps) (length pre) (flags (dsl ps))) = length (flat_map rowsF ps).
  Proof.
    induction ps as [|p ps IH]; intros pre Hok; [reflexivity|]. inversion Hok as [|? ? Hp Hps]; subst.
    cbn [dsl map flags flat_map fst snd]. fold (dsl ps) (flags (dsl ps)).
    set (n := length (snd p)).
    set (mid := map (fun st => sum (s_natoms st)) (map r_structure (snd p))).
    assert (Ena : pre ++ nal (p :: ps) = pre ++ mid ++ nal ps).
    { unfold nal, mid, stsl. cbn [flat_map]. now rewrite map_app. }
    assert (Esum : map (fun i => nth i (pre ++ nal (p :: ps)) 0) (seq (length pre) n) = mid).
    { rewrite Ena. replace n with (length mid) by (unfold mid, n; now rewrite !map_length). apply map_nth_seq_mid. }
    rewrite fitems_app, total_app, total_fitems_repeat, repeat_length, Esum, app_length, (rowsF_len p Hp).
    fold mid n. f_equal.
    rewrite Ena, app_assoc. replace (length pre + n) with (length (pre ++ mid)) by (rewrite app_length; unfold mid, n; now rewrite !map_length).
    apply IH, Hps.
  Qed.

  Lemma combine_forced ps : combine (flat_map (fun p => repeat (snd p) (fst p)) (dsl ps)) (stsl ps)
    = flat_map (fun p => map (fun r => (ds_force (fst p), r_structure r)) (snd p)) ps.
  Proof.
    induction ps as [|p ps IH]; [reflexivity|]. cbn [dsl map flat_map stsl fst snd]. fold (dsl ps) (stsl ps).
    rewrite combine_app by (rewrite repeat_length, map_length; reflexivity). rewrite IH. f_equal.
    induction (snd p) as [|r rs IHr]; [reflexivity|]. cbn. f_equal. exact IHr.
  Qed.

  Lemma features_spec ps : Forall ds_ok ps ->
    let nE := length (flat_map rowsE ps) in let nS := length (flat_map rowsS ps) in
    compute_features s_natoms fe ff fs r0 (map fst ps)
    = Ok (mk_features (flat_map rowsE ps ++ flat_map rowsS ps ++ flat_map rowsF ps)
                      (firsts_from 0 nE (nE + nS) ps) nE (length (flat_map rowsF ps)) nS).
  Proof.
    intros Hok nE nS. unfold compute_features. destruct (get_dfts ps Hok) as [dfts [E1 E2]]. rewrite E1. cbn [bind].
    assert (Ests : flat_map structures dfts = stsl ps).
    { clear - E2. induction E2 as [|p d ps dfts [els [ef [es ->]]] _ IH]; [reflexivity|]. cbn. now rewrite IH. }
    assert (Ens : map (fun d => length (structures d)) dfts = map fst (dsl ps)).
    { clear - E2. induction E2 as [|p d ps dfts [els [ef [es ->]]] _ IH]; [reflexivity|]. cbn. rewrite map_length. now rewrite IH. }
    assert (Eds : combine (map (fun d => length (structures d)) dfts) (map ds_force (map fst ps)) = dsl ps).
    { rewrite Ens. unfold dsl. rewrite !map_map. cbn [fst]. rewrite combine_map_both. reflexivity. }
    rewrite Eds, Ests. fold (nal ps). rewrite Ens.
    assert (LE : nE = sum (map fst (dsl ps))).
    { unfold nE, dsl. rewrite map_map. cbn [fst]. clear. induction ps as [|p ps IH]; [reflexivity|].
      cbn [flat_map map sum fold_right]. rewrite app_length, IH. unfold RegressWeights.rowsE. rewrite map_length. reflexivity. }
    rewrite (assemble_spec r0 fe ff fs (nal ps) (dsl ps) (stsl ps)).
    - rewrite set_index_closed. cbn [xf_begin_dataset xs_begin_dataset n_data_e n_data_f n_data_s].
      rewrite combine_forced, total_sitems by exact Hok.
      pose proof (total_fitems ps [] Hok) as TF. cbn [app length] in TF. rewrite TF.
      pose proof (firsts_eq ps [] 0 nE (nE + nS) Hok eq_refl) as FE. cbn [app] in FE. cbn zeta in FE.
      rewrite <- LE. unfold set_ebegin. fold nS. rewrite FE. do 2 f_equal.
      f_equal; [|f_equal].
      + unfold stsl. rewrite map_flat_map. apply flat_map_ext. intros p. unfold RegressWeights.rowsE. now rewrite map_map.
      + clear. induction ps as [|p ps IH]; [reflexivity|]. cbn [flat_map]. rewrite flat_map_app, IH. f_equal.
        unfold RegressWeights.rowsS. rewrite flat_map_map. cbn [fst snd]. destruct (ds_force (fst p)); [reflexivity|].
        induction (snd p); [reflexivity|]. cbn. assumption.
      + clear. induction ps as [|p ps IH]; [reflexivity|]. cbn [flat_map]. rewrite flat_map_app, IH. f_equal.
        unfold RegressWeights.rowsF. rewrite flat_map_map. cbn [fst snd]. destruct (ds_force (fst p)); [reflexivity|].
        induction (snd p); [reflexivity|]. cbn. assumption.
    - unfold stsl, dsl. rewrite map_map. cbn [fst]. clear. induction ps as [|p ps IH]; [reflexivity|].
      cbn [flat_map map sum fold_right]. rewrite app_length, IH, map_length. reflexivity.
    - intros j s Hs.
      assert (Hin : In s (stsl ps)) by (eapply nth_error_In, Hs).
      unfold stsl in Hin. apply in_flat_map in Hin. destruct Hin as [p [Hp Hin]]. apply in_map_iff in Hin.
      destruct Hin as [r [<- Hr]]. rewrite Forall_forall in Hok. destruct (Hok p Hp) as [_ [Hsh _]].
      rewrite Forall_forall in Hsh. destruct (Hsh r Hr) as [_ [H1 [H2 H3]]]. split; [exact H3|].
      rewrite H2, <- H1. f_equal. unfold nal.
      symmetry. apply nth_error_nth. apply (map_nth_error (fun st => sum (s_natoms st)) _ _ Hs).
  Qed.
End Feat.

Section Seq.
  Context {F : Type} {N : Num F} {O : NumOrd F} {L : FieldLaws F} {St : Type}.
  Local Open Scope num_scope.
  Add Field Ffield : (field_laws (F:=F)).
  Notation row := (vec F).
  Notation dset := (ds F St).
  Notation rec := (rec F St).
  Variable s_natoms : St -> list nat.
  Variables (fe : St -> row) (ff fs : St -> list row) (r0 : row).
  Variables (weight_e : F -> F -> nat -> F) (weight_f weight_s : F -> F).
  Variables (n_features n_threshold n_batch : nat).
  Variables (argsort : list Z -> list nat) (part_name : string).
  Notation shaped := (shaped ff fs s_natoms).
  Notation ds_ok := (ds_ok s_natoms ff fs).
  Notation rowsE := (rowsE fe).
  Notation points w m := (points fe ff fs weight_e weight_f weight_s w m).
  Notation p := n_features.

  (** Entries of X^T X that the accumulation fills. *)
  Definition filled (i j : nat) : bool :=
    (p <? n_threshold)%nat || (i / bsize p n_batch <=? j / bsize p n_batch)%nat.

  Lemma sum_xtx_spec xtx x : exists m, sum_xtx p n_threshold n_batch xtx x = Ok (Some m) /\
    forall i j, (i < p)%nat -> (j < p)%nat ->
      m i j = if filled i j then start xtx i j + xtx_of x i j else start xtx i j.
  Proof.
    unfold sum_xtx, filled. destruct (p <? n_threshold)%nat.
    - destruct xtx as [m|]; eexists; (split; [reflexivity|]); intros i j _ _; cbn [orb start]; [reflexivity|]. ring.
    - destruct (sum_large_spec p n_batch xtx x) as [m [E H]]. rewrite E. cbn [bind orb]. exists m. split; [reflexivity|exact H].
  Qed.

  (** What has been accumulated: observations [P], energy rows [Q]. *)
  Record accumulated (scales : option row) (d : data_xy) (P : list (point F)) (Q : list row) : Prop := {
    acc_xtx : match d_xtx d with
              | None => P = []
              | Some m => forall i j, (i < p)%nat -> (j < p)%nat -> m i j = if filled i j then XTX P i j else 0
              end;
    acc_xty : match d_xty d with None => P = [] | Some v => forall i, v i = XTY P i end;
    acc_sum : scales = None -> match d_xe_sum d with None => Q = [] | Some v => forall i, v i = col_sum Q i end;
    acc_sq : scales = None -> match d_xe_sq_sum d with None => Q = [] | Some v => forall i, v i = col_sq_sum Q i end;
    acc_ysq : d_y_sq_norm d = YTY P;
    acc_n : d_total d = length P }.

  Definition strong (d : data_xy (F:=F)) : Prop :=
    d_xtx d <> None /\ d_xty d <> None.

  Lemma acc_empty scales : accumulated scales empty_xy [] [].
  Proof. constructor; cbn; auto. Qed.

  Lemma sum_array_spec a b P Q i : 
    match a with None => P = [] | Some v => forall i, v i = XTY P i end -> (forall i, b i = XTY Q i) ->
    exists v, sum_array a b = Some v /\ v i = XTY (P ++ Q) i.
  Proof.
    intros H1 H2. destruct a as [v|]; cbn.
    - eexists; split; [reflexivity|]. rewrite XTY_app, H1, H2. reflexivity.
    - subst. eexists; split; [reflexivity|]. cbn. apply H2.
  Qed.

  Variables (weight_stress min_e : F).
  Lemma single_batch_spec scales d P Q q : accumulated scales d P Q -> ds_ok q ->
    exists d', single_batch s_natoms fe ff fs r0 weight_e weight_f weight_s p n_threshold n_batch
                 weight_stress min_e scales d (fst q) = Ok d' /\
      accumulated scales d' (P ++ points weight_stress min_e [q]) (Q ++ rowsE q) /\
      d_xtx d' <> None /\ d_xty d' <> None /\
      (scales = None -> d_xe_sum d' <> None /\ d_xe_sq_sum d' <> None).
  Proof.
    intros A Hq. unfold single_batch.
    pose proof (features_spec s_natoms fe ff fs r0 [q] (Forall_cons _ Hq (Forall_nil _))) as FS.
    cbn [map] in FS. rewrite FS. cbn [bind f_first f_x f_ne].
    cbn [RegressWeights.firsts_from get nth_error bind]. unfold get. cbn [nth_error bind].
    cbn [flat_map]. rewrite !app_nil_r.
    rewrite !app_length.
    set (lE := length (RegressWeights.rowsE fe q)). set (lS := length (RegressWeights.rowsS fs q)). set (lF := length (RegressWeights.rowsF ff q)).
    pose proof (weights_loop_spec s_natoms fe ff fs weight_e weight_f weight_s weight_stress min_e [q]
       [] [] [] [] [] [] [] [] [] [] [] [] (repeat 0 lE) (repeat 0 lS) (repeat 0 lF) (repeat 1 lE) (repeat 1 lS) (repeat 1 lF)
       (Forall_cons _ Hq (Forall_nil _)) weighted_nil weighted_nil weighted_nil) as WL.
    cbn [flat_map map] in WL. rewrite !app_nil_r in WL. rewrite !repeat_length in WL.
    specialize (WL eq_refl eq_refl eq_refl eq_refl eq_refl eq_refl).
    cbn [length Nat.add app] in WL. rewrite !Nat.add_0_r in WL. fold lE lS lF in WL.
    destruct WL as [x [y [w [EQ WT]]]]. cbn [weights_loop RegressWeights.firsts_from] in EQ.
    rewrite <- !repeat_app in EQ. fold lE lS lF in EQ |- *.
    destruct (apply_weights _ _ _ _ _ _ _ _) as [[[x1 y1] w1]|] eqn:EA; [|discriminate].
    cbn [bind] in EQ. injection EQ as -> -> ->. cbn [bind].
    destruct (sum_xtx_spec (d_xtx d) x) as [m [Em Hm]]. rewrite Em. cbn [bind].
    assert (PP : Permutation (ptsE fe weight_e min_e q ++ ptsS fs weight_s weight_stress q ++ ptsF ff weight_f q)
                             (points weight_stress min_e [q])).
    { pose proof (pts_perm fe ff fs weight_e weight_f weight_s weight_stress min_e [q]) as H. cbn [flat_map] in H.
      rewrite !app_nil_r in H. exact H. }
    set (T := ptsE fe weight_e min_e q ++ ptsS fs weight_s weight_stress q ++ ptsF ff weight_f q) in *.
    assert (XE : firstn lE (rowsE q ++ RegressWeights.rowsS fs q ++ RegressWeights.rowsF ff q) = rowsE q).
    { unfold lE. now rewrite firstn_app, firstn_all, Nat.sub_diag, app_nil_r. }
    rewrite XE.
    eexists. split; [reflexivity|]. split; [|cbn; repeat split; try discriminate].
    2:{ destruct (d_xty d); discriminate. }
    2:{ subst scales. cbn. destruct (d_xe_sum d); discriminate. }
    2:{ subst scales. cbn. destruct (d_xe_sq_sum d); discriminate. }
    destruct A as [A1 A2 A3 A4 A5 A6].
    constructor; cbn [d_xtx d_xty d_xe_sum d_xe_sq_sum d_y_sq_norm d_total].
    - intros i j Hi Hj. rewrite Hm by assumption. rewrite XTX_app, <- (XTX_perm _ _ PP).
      rewrite (xtx_weighted _ _ _ _ WT). unfold start. destruct (d_xtx d) as [m0|].
      + rewrite A1 by assumption. destruct (filled i j); ring.
      + subst P. destruct (filled i j); [|reflexivity]. unfold XTX at 2. rewrite nsumf_nil. ring.
    - destruct (d_xty d) as [v|] eqn:Ev; cbn [sum_array].
      + intros i. rewrite XTY_app, <- (XTY_perm _ _ PP), A2, (xty_weighted _ _ _ _ WT). reflexivity.
      + intros i. subst P. cbn [app]. rewrite <- (XTY_perm _ _ PP). apply (xty_weighted _ _ _ _ WT).
    - intros ->. specialize (A3 eq_refl). cbn [fst]. destruct (d_xe_sum d) as [v|]; cbn [sum_array].
      + intros i. unfold col_sum. rewrite nsumf_app. fold (col_sum Q i). rewrite <- A3. reflexivity.
      + intros i. subst Q. reflexivity.
    - intros ->. specialize (A4 eq_refl). cbn [snd]. destruct (d_xe_sq_sum d) as [v|]; cbn [sum_array].
      + intros i. unfold col_sq_sum. rewrite nsumf_app. fold (col_sq_sum Q i). rewrite <- A4. reflexivity.
      + intros i. subst Q. reflexivity.
    - rewrite YTY_app, A5, (ysq_weighted _ _ _ _ WT), (YTY_perm _ _ PP). reflexivity.
    - rewrite A6, app_length, <- (Permutation_length PP). f_equal.
      pose proof (weighted_length _ _ _ _ WT) as [WL1 _]. rewrite <- WL1.
      unfold lE, lS, lF. 
      apply (f_equal (@length row)) in XE.
      (* lengths of x and of the unweighted matrix agree *)
      pose proof WT as [W0 _]. apply Forall2_length in W0. rewrite W0. unfold T. rewrite !app_length.
      unfold ptsE, RegressWeights.rowsE, ptsS, RegressWeights.rowsS, ptsF, RegressWeights.rowsF.
      destruct Hq as [_ [Hsh _]]. f_equal.
      + rewrite map_length. clear. induction (snd q); cbn; congruence.
      + destruct (ds_force (fst q)); [|reflexivity]. f_equal.
        * clear -Hsh. induction Hsh as [|r rs [[_ [_ H1]] [_ [_ H2]]] _ IH]; [reflexivity|]. cbn [flat_map].
          rewrite !app_length, <- IH. unfold stress_points at 1. rewrite map_length, combine_length, H1, H2. reflexivity.
        * clear -Hsh. induction Hsh as [|r rs [[_ [H1 _]] [_ [H2 _]]] _ IH]; [reflexivity|]. cbn [flat_map].
          rewrite !app_length, <- IH. unfold force_points at 1. rewrite map_length, combine_length, H1, H2. lia.
  Qed.
End Seq.
