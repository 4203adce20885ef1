From Verif Require Import Base Num Model.Structure Model.DatasetDFT Model.Dataset Model.Index Model.Batch Model.Regress
  Spec.Dataset Spec.Structure Spec.Regress Proofs.Index Proofs.Batch Proofs.StructureSpin Proofs.StructureSpin2 Proofs.DatasetDFT
  Proofs.RegressWeights Proofs.XtxBlocks Proofs.Regress Proofs.RegressSeq.
From Coq Require Import Ring Field.

Section MinE.
  Context {F : Type} {N : Num F} {O : NumOrd F} {OL : OrdLaws F} {St : Type}.
  Local Open Scope num_scope.

  Lemma nltb_irrefl (a : F) : nltb a a = false.
  Proof. destruct (nltb a a) eqn:E; [|reflexivity]. pose proof (nltb_asym _ _ E). congruence. Qed.

  Lemma np_min_least l : forall m : F, least (m :: l) (np_min m l).
  Proof.
    induction l as [|a l IH]; intros m; cbn [np_min].
    - split; [left; reflexivity|]. intros b [<-|[]]. apply nltb_irrefl.
    - destruct (IH (if nltb a m then a else m)) as [H1 H2]. split.
      + destruct H1 as [H1|H1]; [|right; right; exact H1]. rewrite <- H1. destruct (nltb a m); [right; left|left]; reflexivity.
      + intros b [<-|[<-|Hb]].
        * eapply nltb_ntrans; [|apply H2; left; reflexivity].
          destruct (nltb a m) eqn:E; [now apply nltb_asym|apply nltb_irrefl].
        * eapply nltb_ntrans; [|apply H2; left; reflexivity]. destruct (nltb a m) eqn:E; [apply nltb_irrefl|exact E].
        * apply H2. right. exact Hb.
  Qed.

  Lemma least_app l1 l2 a b (m : F) : least l1 a -> least l2 b -> m = (if nltb b a then b else a) -> least (l1 ++ l2) m.
  Proof.
    intros [A1 A2] [B1 B2] ->. split.
    - apply in_app_iff. destruct (nltb b a); auto.
    - intros c Hc. apply in_app_iff in Hc. destruct (nltb b a) eqn:E; destruct Hc as [Hc|Hc]; auto.
      + eapply nltb_ntrans; [apply A2, Hc|]. now apply nltb_asym.
      + eapply nltb_ntrans; [apply B2, Hc|exact E].
  Qed.

  Lemma min_loop_least : forall (ps : list (list F * list nat)) (dfts : list (dft F St)) pre m,
    Forall2 (fun p d => energies d = fst p /\ total_n_atoms d = snd p /\ length (fst p) = length (snd p) /\ fst p <> []) ps dfts ->
    least pre m ->
    exists m', min_energy_loop m dfts = Ok m' /\
      least (pre ++ flat_map (fun p => map (fun q => fst q / nnat (snd q)) (combine (fst p) (snd p))) ps) m'.
  Proof.
    intros ps dfts. revert ps. induction dfts as [|d dfts IH]; intros ps pre m H Hm; inversion H as [|[es ns] ? ps' ? [H1 [H2 [H3 H4]]] H5]; subst.
    - cbn. rewrite app_nil_r. eauto.
    - cbn [min_energy_loop fst snd flat_map] in *. rewrite H1, H2.
      destruct es as [|e es]; [congruence|]. destruct ns as [|n ns]; [discriminate|]. cbn [combine map fst snd].
      set (l := map _ (combine es ns)).
      destruct (IH ps' (pre ++ (e / nnat n :: l)) (if nltb (np_min (e / nnat n) l) m then np_min (e / nnat n) l else m) H5) as [m' [E Hl]].
      { eapply least_app; [exact Hm|apply np_min_least|reflexivity]. }
      exists m'. split; [exact E|]. rewrite <- app_assoc in Hl. exact Hl.
  Qed.

  Variable big : F.
  Lemma min_energy_spec (ps : list (ds F St * list (rec F St))) :
    Forall (fun p => holds (fst p) (snd p) /\ snd p <> []) ps ->
    exists m, get_min_energy big (map fst ps) = Ok m /\ least (big :: energies_per_atom ps) m.
  Proof.
    intros H.
    assert (G : exists dfts, mapM get_dft (map fst ps) = Ok dfts /\
      Forall2 (fun p d => energies d = fst p /\ total_n_atoms d = snd p /\ length (fst p) = length (snd p) /\ fst p <> [])
        (map (fun p => (map r_energy (snd p), map r_natom (snd p))) ps) dfts).
    { induction H as [|p ps [[els [ef [es Hd]]] Hne] _ [dfts [E1 E2]]]; [exists []; split; [reflexivity|constructor]|].
      exists (layout els ef es (snd p) :: dfts). split.
      - cbn [map mapM]. unfold get_dft at 1. rewrite Hd. cbn [bind]. rewrite E1. reflexivity.
      - cbn [map]. constructor; [|exact E2]. cbn. rewrite !map_length. repeat split. destruct (snd p); [congruence|discriminate]. }
    destruct G as [dfts [E1 E2]]. unfold get_min_energy. rewrite E1. cbn [bind].
    destruct (min_loop_least _ _ [big] big E2) as [m' [E3 E4]].
    { split; [left; reflexivity|]. intros a [<-|[]]. apply nltb_irrefl. }
    exists m'. split; [exact E3|]. cbn [app] in E4. rewrite flat_map_map in E4. cbn [fst snd] in E4.
    unfold energies_per_atom. erewrite flat_map_ext; [exact E4|]. intros p. cbn. rewrite combine_map_both, map_map. reflexivity.
  Qed.
End MinE.

Section Final.
  Context {F : Type} {N : Num F} {O : NumOrd F} {L : FieldLaws F} {OL : OrdLaws F} {C0 : Char0 F} {St : Type}.
  Local Open Scope num_scope.
  Add Field Ffield : (field_laws (F:=F)).
  Notation row := (vec F).
  Notation dset := (ds F St).
  Notation rec := (rec F St).
  Variable s_natoms : St -> list nat.
  Variables (fe : St -> row) (ff fs : St -> list row) (r0 : row).
  Variables (weight_e : F -> F -> nat -> F) (weight_f weight_s : F -> F).
  Variables (big threshold : F) (n_features n_threshold n_batch : nat).
  Variables (argsort : list Z -> list nat) (part_name : string).
  Notation usable := (usable ff fs s_natoms).
  Notation points w m := (points fe ff fs weight_e weight_f weight_s w m).
  Notation p := n_features.
  Notation calc_xtx_xty := (calc_xtx_xty s_natoms fe ff fs r0 weight_e weight_f weight_s big threshold p n_threshold n_batch argsort part_name).
  Notation calc_xy := (calc_xy s_natoms fe ff fs r0 weight_e weight_f weight_s big threshold).

  Lemma usable_ok ps : Forall usable ps -> Forall (ds_ok s_natoms ff fs) ps /\ Forall (fun q => snd q <> []) ps /\
    Forall (fun p => holds (fst p) (snd p) /\ snd p <> []) ps.
  Proof.
    intros H. repeat split; (eapply Forall_impl; [|exact H]); intros q [H1 [H2 [H3 H4]]]; repeat split; auto.
  Qed.

  Lemma char0' n : (1 <= n)%nat -> nnat (F:=F) n <> 0.
  Proof. destruct n as [|n]; [lia|]. intros _. apply char0. Qed.

  Lemma variance_sums (Q : list row) j : Q <> [] ->
    nsumf (fun r => r j * r j) Q / nnat (length Q) - mean Q j * mean Q j = variance Q j.
  Proof.
    intros HQ. unfold variance.
    rewrite (nsumf_ext' (fun q => (q j - mean Q j) * (q j - mean Q j)) (fun r => (r j * r j - (1 + 1) * mean Q j * r j) + mean Q j * mean Q j)) by (intros; ring).
    rewrite nsumf_add, nsumf_sub, nsumf_scale_l, nsumf_const. unfold mean.
    assert (nnat (F:=F) (length Q) <> 0) by (apply char0'; destruct Q; [congruence|cbn; lia]).
    unfold vec in *. field. exact H.
  Qed.

  Lemma energy_rows_length ps : length (energy_rows fe ps) = sum (map (fun q : dset * list rec => length (snd q)) ps).
  Proof.
    unfold energy_rows. induction ps as [|q ps IH]; [reflexivity|]. cbn [flat_map map sum fold_right].
    rewrite app_length, map_length, IH. reflexivity.
  Qed.


  Lemma div0 (a : F) : 0 / a = 0.
  Proof. rewrite (Fdiv_def (field_laws (F:=F))). ring. Qed.

  Definition filled' (i j : nat) : bool :=
    negb (p =? n_threshold)%nat || (i / bsize p n_batch <=? j / bsize p n_batch)%nat.

  Lemma XTX_comm (P : list (point F)) i j : XTX P i j = XTX P j i.
  Proof. unfold XTX. apply nsumf_ext'. intros. ring. Qed.

  Lemma seq_final ps scales min_energy weight_stress b :
    sorts argsort -> 1 <= b -> ps <> [] -> Forall usable ps ->
    exists r, calc_xtx_xty (map fst ps) scales min_energy weight_stress (Z.of_nat b) = Ok r /\
      (forall m, min_energy = Some m -> m_min_e r = m) /\
      (min_energy = None -> least (big :: energies_per_atom ps) (m_min_e r)) /\
      let P := points weight_stress (m_min_e r) ps in
      let Q := energy_rows fe ps in
      let raw := fun j => match scales with Some s => s j
                          | None => nsqrt (if nltb (variance Q j) 0 then 1 else variance Q j) end in
      let off := fun j => tiny threshold (any_force ps) (raw j) in
      let sc := fun j => usable_scale threshold (any_force ps) (raw j) in
      (forall j, m_scales r j = sc j) /\
      m_total r = length P /\ m_ysq r = YTY P /\
      (forall i, m_xty r i = if off i then 0 else XTY P i / sc i) /\
      (forall i j, (i < p)%nat -> (j < p)%nat ->
         m_xtx r i j = if off i || off j then 0 else if filled' i j then XTX P i j / sc i / sc j else 0).
  Proof.
    intros Hs Hb Hne Hu. destruct (usable_ok ps Hu) as [Hok [Hnn Hhe]]. unfold Regress.calc_xtx_xty.
    assert (ME : exists m, match min_energy with Some m => Ok m | None => get_min_energy big (map fst ps) end = Ok m /\
       (forall m', min_energy = Some m' -> m = m') /\ (min_energy = None -> least (big :: energies_per_atom ps) m)).
    { destruct min_energy as [m|].
      - exists m. split; [reflexivity|]. split; [congruence|discriminate].
      - destruct (min_energy_spec big ps Hhe) as [m [E1 E2]]. exists m. split; [exact E1|]. split; [discriminate|auto]. }
    destruct ME as [m [EM [M1 M2]]]. rewrite EM. cbn [bind].
    destruct (dataset_loop_spec s_natoms fe ff fs r0 weight_e weight_f weight_s p n_threshold n_batch argsort part_name
                weight_stress m scales b Hs Hb ps empty_xy [] [] (acc_empty p n_threshold n_batch scales) Hok Hnn (or_intror Hne))
      as [d [sorted [E1 [[F1 [F2 F3]] [A [dfts [E2 E3]]]]]]].
    rewrite E1. cbn [bind app] in *.
    change (flat_map (rowsE fe) ps) with (energy_rows fe ps) in A.
    set (P := points weight_stress m ps) in *. set (Q := energy_rows fe ps) in *.
    destruct A as [A1 A2 A3 A4 A5 A6].
    destruct (d_xtx d) as [x0|]; [|congruence]. destruct (d_xty d) as [y0|]; [|congruence]. cbn [some_or bind].
    assert (X1 : exists x1, (if (n_threshold <? p)%nat then symmetrize_xtx p n_batch x0 else Ok x0) = Ok x1 /\
      forall i j, (i < p)%nat -> (j < p)%nat -> x1 i j = if filled' i j then XTX P i j else 0).
    { unfold filled'. destruct (n_threshold <? p)%nat eqn:ET.
      - destruct (symmetrize_spec p n_batch x0) as [x1 [Ex Hx]]. exists x1. split; [exact Ex|]. intros i j Hi Hj. rewrite Hx by assumption.
        apply Nat.ltb_lt in ET. replace (p =? n_threshold)%nat with false by (symmetry; apply Nat.eqb_neq; lia). cbn [negb orb].
        destruct (j / bsize p n_batch <? i / bsize p n_batch)%nat eqn:EB.
        + rewrite A1 by assumption. unfold filled. apply Nat.ltb_lt in EB.
          replace (j / bsize p n_batch <=? i / bsize p n_batch)%nat with true by (symmetry; apply Nat.leb_le; lia).
          rewrite orb_true_r. apply XTX_comm.
        + rewrite A1 by assumption. unfold filled. apply Nat.ltb_ge in EB.
          replace (i / bsize p n_batch <=? j / bsize p n_batch)%nat with true by (symmetry; apply Nat.leb_le; lia).
          rewrite orb_true_r. reflexivity.
      - exists x0. split; [reflexivity|]. intros i j Hi Hj. rewrite A1 by assumption. unfold filled.
        apply Nat.ltb_ge in ET. destruct (p <? n_threshold)%nat eqn:E4; cbn [orb].
        + apply Nat.ltb_lt in E4. replace (p =? n_threshold)%nat with false by (symmetry; apply Nat.eqb_neq; lia). reflexivity.
        + apply Nat.ltb_ge in E4. replace (p =? n_threshold)%nat with true by (symmetry; apply Nat.eqb_eq; lia). reflexivity. }
    destruct X1 as [x1 [EX HX]]. rewrite EX. cbn [bind]. rewrite E2. cbn [bind]. rewrite E3.
    rewrite <- energy_rows_length. fold Q.
    assert (HQ : Q <> []).
    { unfold Q, energy_rows. destruct ps as [|q ps']; [congruence|]. inversion Hnn; subst. cbn [flat_map].
      destruct (snd q); [congruence|discriminate]. }
    assert (HS : exists raw0, match scales with
              | Some s => Ok s
              | None => do a <- some_or (d_xe_sum d); do b <- some_or (d_xe_sq_sum d);
                        Ok (scales_of_sums a b (length Q))
              end = Ok raw0 /\ forall j, raw0 j = match scales with Some s => s j
                          | None => nsqrt (if nltb (variance Q j) 0 then 1 else variance Q j) end).
    { destruct scales as [s|]; [exists s; split; reflexivity|].
      destruct (F3 eq_refl) as [G1 G2]. specialize (A3 eq_refl). specialize (A4 eq_refl).
      destruct (d_xe_sum d) as [a|]; [|congruence]. destruct (d_xe_sq_sum d) as [c|]; [|congruence].
      cbn [some_or bind]. eexists. split; [reflexivity|]. intros j. unfold scales_of_sums. rewrite A3, A4.
      unfold col_sum, col_sq_sum. fold (mean Q j). rewrite variance_sums by exact HQ. reflexivity. }
    destruct HS as [raw0 [ES HR]]. rewrite ES. cbn [bind].
    assert (EI : existsb (fun x => x) (map ds_force (map fst ps)) = any_force ps).
    { unfold any_force. clear. induction ps as [|q ps IH]; [reflexivity|]. cbn. now rewrite IH. }
    rewrite EI. eexists. split; [reflexivity|]. cbn [m_min_e]. split; [intros m' Hm'; exact (M1 m' Hm')|]. split; [exact M2|].
    cbn zeta. cbn [m_scales m_total m_ysq m_xty m_xtx]. fold P Q.
    split; [intros j; unfold round_scales, usable_scale, tiny, zero_id; now rewrite HR|].
    split; [exact A6|]. split; [exact A5|]. split.
    - intros i. unfold round_scales, usable_scale, tiny, zero_id. rewrite !HR. destruct (nltb (nabs _) _); [apply div0|]. now rewrite A2.
    - intros i j Hi Hj. unfold round_scales, usable_scale, tiny, zero_id. rewrite !HR, HX by assumption.
      destruct (nltb (nabs (match scales with Some s => s i | _ => _ end)) _); cbn [orb]; [now rewrite div0, div0|].
      destruct (nltb (nabs (match scales with Some s => s j | _ => _ end)) _); cbn [orb]; [now rewrite div0, div0|].
      destruct (filled' i j); [reflexivity|]. now rewrite div0, div0.
  Qed.

  (** ** One-shot *)
  Lemma nf_zero ps : Forall usable ps -> negb (length (flat_map (rowsF ff) ps) =? 0)%nat = any_force ps.
  Proof.
    induction 1 as [|q ps Hq _ IH]; [reflexivity|]. cbn [flat_map any_force existsb]. fold (any_force ps). rewrite <- IH.
    destruct Hq as [_ [Hne [Hsh _]]]. unfold rowsF at 1. rewrite app_length. destruct (ds_force (fst q)) eqn:E; cbn [orb].
    - destruct (snd q) as [|r rs]; [congruence|]. inversion Hsh as [|? ? [[H1 _] [_ [H2 _]]]]; subst. cbn [flat_map]. rewrite app_length, H2.
      apply negb_true_iff, Nat.eqb_neq. lia.
    - reflexivity.
  Qed.

  Definition rescale (a : row) (t : point F) : point F :=
    mk_point (fun j => pt_row t j * a j) (pt_value t) (pt_weight t).
  Lemma XTX_rescale a P i j : XTX (map (rescale a) P) i j = XTX P i j * a i * a j.
  Proof. unfold XTX. rewrite nsumf_map, <- !nsumf_scale_r. apply nsumf_ext'. intros. cbn. ring. Qed.
  Lemma XTY_rescale a P i : XTY (map (rescale a) P) i = XTY P i * a i.
  Proof. unfold XTY. rewrite nsumf_map, <- !nsumf_scale_r. apply nsumf_ext'. intros. cbn. ring. Qed.
  Lemma YTY_rescale a P : YTY (map (rescale a) P) = YTY P.
  Proof. unfold YTY. rewrite nsumf_map. reflexivity. Qed.

  Section Map.
    Variable g : row -> row.
    Notation fe' := (fun s => g (fe s)). Notation ff' := (fun s => map g (ff s)). Notation fs' := (fun s => map g (fs s)).
    Lemma rowsE_map (q : dset * list rec) : rowsE fe' q = map g (rowsE fe q).
    Proof. unfold rowsE. now rewrite map_map. Qed.
    Lemma rowsS_map (q : dset * list rec) : rowsS fs' q = map g (rowsS fs q).
    Proof. unfold rowsS. destruct (ds_force (fst q)); [|reflexivity]. now rewrite map_flat_map. Qed.
    Lemma rowsF_map (q : dset * list rec) : rowsF ff' q = map g (rowsF ff q).
    Proof. unfold rowsF. destruct (ds_force (fst q)); [|reflexivity]. now rewrite map_flat_map. Qed.
    Lemma firsts_map ps : forall e s f, firsts_from fe' ff' fs' e s f ps = firsts_from fe ff fs e s f ps.
    Proof.
      induction ps as [|q ps IH]; intros; [reflexivity|]. cbn [firsts_from].
      rewrite rowsE_map, rowsS_map, rowsF_map, !map_length, IH. reflexivity.
    Qed.
    Lemma ok_map ps : Forall (ds_ok s_natoms ff fs) ps -> Forall (ds_ok s_natoms ff' fs') ps.
    Proof.
      intros H. eapply Forall_impl; [|exact H]. intros q [H1 [H2 H3]]. split; [exact H1|]. split; [|exact H3].
      eapply Forall_impl; [|exact H2]. intros r [S1 [S2 [S3 S4]]]. unfold Spec.Regress.shaped. rewrite !map_length. auto.
    Qed.
    Lemma points_map w m ps (a : row) : (forall r j, g r j = r j * a j) ->
      Forall2 (fun t u => (forall j, pt_row t j = pt_row u j * a j) /\ pt_value t = pt_value u /\ pt_weight t = pt_weight u)
        (Spec.Regress.points fe' ff' fs' weight_e weight_f weight_s w m ps) (points w m ps).
    Proof.
      intros Hg. unfold Spec.Regress.points.
      assert (M : forall (h : F -> F) (l : list row) (v : list F),
        Forall2 (fun t u => (forall j, pt_row t j = pt_row u j * a j) /\ pt_value t = pt_value u /\ pt_weight t = pt_weight u)
          (map (fun q => mk_point (fst q) (snd q) (h (snd q))) (combine (map g l) v))
          (map (fun q => mk_point (fst q) (snd q) (h (snd q))) (combine l v))).
      { clear -Hg. intros h l. induction l as [|r l IH]; intros [|v0 v]; cbn; constructor; [|apply IH]. cbn. auto. }
      induction ps as [|q ps IH]; cbn [flat_map]; [constructor|]. apply Forall2_app; [|exact IH]. clear IH.
      induction (snd q) as [|r rs IH]; cbn [flat_map]; [constructor|]. apply Forall2_app; [|exact IH]. clear IH.
      unfold record_points, energy_points. constructor; [cbn; auto|]. destruct (ds_force (fst q)); [|constructor].
      apply Forall2_app.
      - unfold stress_points. apply (M (fun v => if ds_stress (fst q) then weight_s v * (w * ds_weight (fst q)) else 0)).
      - unfold force_points. apply (M (fun v => weight_f v * ds_weight (fst q))).
    Qed.
  End Map.

  Lemma similar_sums a P' P :
    Forall2 (fun t u => (forall j, pt_row t j = pt_row u j * a j) /\ pt_value t = pt_value u /\ pt_weight t = pt_weight u) P' P ->
    (forall i j, XTX P' i j = XTX P i j * a i * a j) /\ (forall i, XTY P' i = XTY P i * a i) /\ YTY P' = YTY P /\ length P' = length P.
  Proof.
    induction 1 as [|t u P' P [H1 [H2 H3]] _ [I1 [I2 [I3 I4]]]].
    - unfold XTX, XTY, YTY. repeat split; intros; rewrite ?nsumf_nil; ring.
    - unfold XTX, XTY, YTY in *. repeat split; intros; rewrite ?nsumf_cons, ?I1, ?I2, ?I3, ?H1, ?H2, ?H3; try ring. cbn. now rewrite I4.
  Qed.

  Lemma one_shot_final ps scales min_energy weight_stress : Forall usable ps ->
    exists t, calc_xy (map fst ps) scales min_energy weight_stress = Ok t /\
      (forall m, min_energy = Some m -> t_min_e t = m) /\
      (min_energy = None -> least (big :: energies_per_atom ps) (t_min_e t)) /\
      let P := points weight_stress (t_min_e t) ps in
      let Q := energy_rows fe ps in
      let raw := fun j => match scales with Some s => s j | None => nsqrt (variance Q j) end in
      let off := fun j => tiny threshold (any_force ps) (raw j) in
      let sc := fun j => usable_scale threshold (any_force ps) (raw j) in
      (forall j, t_scales t j = sc j) /\
      (exists T, Permutation T P /\
         Forall2 (fun (r : row) u => forall j, r j = pt_weight u * (if off j then 0 else pt_row u j / sc j)) (t_x t) T /\
         t_y t = map (fun u => pt_weight u * pt_value u) T /\ t_w t = map pt_weight T) /\
      length (t_x t) = length P /\ length (t_y t) = length P /\
      ysq (t_y t) = YTY P /\
      (forall i, xty_of (t_x t) (t_y t) i = if off i then 0 else XTY P i / sc i) /\
      (forall i j, xtx_of (t_x t) i j = if off i || off j then 0 else XTX P i j / sc i / sc j).
  Proof.
    intros Hu. destruct (usable_ok ps Hu) as [Hok [Hnn Hhe]]. unfold Regress.calc_xy.
    rewrite (features_spec s_natoms fe ff fs r0 ps Hok). cbn [bind f_x f_nf f_ne f_first].
    rewrite (nf_zero ps Hu). rewrite map_length.
    rewrite !app_length.
    set (nE := length (flat_map (rowsE fe) ps)). set (nS := length (flat_map (rowsS fs) ps)). set (nF := length (flat_map (rowsF ff) ps)).
    assert (XE : firstn nE (flat_map (rowsE fe) ps ++ flat_map (rowsS fs) ps ++ flat_map (rowsF ff) ps) = energy_rows fe ps).
    { unfold nE. now rewrite firstn_app, firstn_all, Nat.sub_diag, app_nil_r. }
    rewrite XE. set (Q := energy_rows fe ps).
    set (raw0 := match scales with Some s => s | None => np_std Q end).
    assert (ME : exists m, match min_energy with Some m => Ok m | None => get_min_energy big (map fst ps) end = Ok m /\
       (forall m', min_energy = Some m' -> m = m') /\ (min_energy = None -> least (big :: energies_per_atom ps) m)).
    { destruct min_energy as [m|].
      - exists m. split; [reflexivity|]. split; [congruence|discriminate].
      - destruct (min_energy_spec big ps Hhe) as [m [E1 E2]]. exists m. split; [exact E1|]. split; [discriminate|auto]. }
    destruct ME as [m [EM [M1 M2]]]. rewrite EM. cbn [bind].
    set (inc := any_force ps).
    set (g := fun (r : row) j => (if zero_id threshold inc (raw0 j) then 0 else r j) / round_scales threshold inc raw0 j).
    change (map (fun (r : row) (j : nat) => (if zero_id threshold inc (raw0 j) then 0 else r j) / round_scales threshold inc raw0 j)) with (map g).
    rewrite !map_app, !map_flat_map.
    rewrite (flat_map_ext (fun q => map g (rowsE fe q)) (rowsE (fun s => g (fe s)))) by (intros; symmetry; apply rowsE_map).
    rewrite (flat_map_ext (fun q => map g (rowsS fs q)) (rowsS (fun s => map g (fs s)))) by (intros; symmetry; apply rowsS_map).
    rewrite (flat_map_ext (fun q => map g (rowsF ff q)) (rowsF (fun s => map g (ff s)))) by (intros; symmetry; apply rowsF_map).
    rewrite <- (firsts_map g).
    pose proof (weights_loop_spec s_natoms (fun s => g (fe s)) (fun s => map g (ff s)) (fun s => map g (fs s)) weight_e weight_f weight_s weight_stress m ps
       [] [] [] [] [] [] [] [] [] [] [] [] (repeat 0 nE) (repeat 0 nS) (repeat 0 nF) (repeat 1 nE) (repeat 1 nS) (repeat 1 nF)
       (ok_map g ps Hok) weighted_nil weighted_nil weighted_nil) as WL.
    assert (LE : length (flat_map (rowsE (fun s => g (fe s))) ps) = nE).
    { unfold nE. rewrite (flat_map_ext _ _ (rowsE_map g)), <- map_flat_map. apply map_length. }
    assert (LS : length (flat_map (rowsS (fun s => map g (fs s))) ps) = nS).
    { unfold nS. rewrite (flat_map_ext _ _ (rowsS_map g)), <- map_flat_map. apply map_length. }
    assert (LF : length (flat_map (rowsF (fun s => map g (ff s))) ps) = nF).
    { unfold nF. rewrite (flat_map_ext _ _ (rowsF_map g)), <- map_flat_map. apply map_length. }
    rewrite !repeat_length, LE, LS, LF in WL.
    specialize (WL eq_refl eq_refl eq_refl eq_refl eq_refl eq_refl).
    cbn [length Nat.add app] in WL. rewrite !Nat.add_0_r in WL.
    rewrite <- !repeat_app in WL.
    destruct WL as [x [y [w [EQ WT]]]]. match type of EQ with ?l = _ => match goal with |- context [bind ?z _] => change z with l end end. rewrite EQ. cbn [bind].
    eexists. split; [reflexivity|]. cbn [t_min_e]. split; [intros m' Hm'; exact (M1 m' Hm')|]. split; [exact M2|].
    cbn zeta. cbn [t_scales t_x t_y t_w]. fold Q inc.
    assert (PP := pts_perm (fun s => g (fe s)) (fun s => map g (ff s)) (fun s => map g (fs s)) weight_e weight_f weight_s weight_stress m ps).
    set (T := flat_map (ptsE _ _ _) ps ++ _) in PP, WT.
    set (a := fun j => if zero_id threshold inc (raw0 j) then 0 else ninv (round_scales threshold inc raw0 j)).
    assert (Hg : forall r j, g r j = r j * a j).
    { intros r j. unfold g, a. destruct (zero_id threshold inc (raw0 j)); rewrite (Fdiv_def (field_laws (F:=F))); ring. }
    destruct (similar_sums a _ _ (points_map g weight_stress m ps a Hg)) as [S1 [S2 [S3 S4]]].
    set (P := points weight_stress m ps) in *.
    pose proof (weighted_length _ _ _ _ WT) as [L1 [L2 L3]].
    assert (HR : forall j, raw0 j = match scales with Some s => s j | None => nsqrt (variance Q j) end).
    { intros j. unfold raw0. destruct scales; [reflexivity|]. unfold np_std, variance, mean. reflexivity. }
    split; [intros j; unfold round_scales, usable_scale, tiny, zero_id; now rewrite HR|].
    split.
    { destruct (Permutation_Forall2 (Permutation_sym PP) (points_map g weight_stress m ps a Hg)) as [T' [PT HT]].
      exists T'. split; [symmetry; exact PT|]. destruct WT as [W1 [W2 W3]]. split.
      - clear -W1 HT HR L. revert T' HT. induction W1 as [|r u x T Hr _ IH]; intros T' HT; inversion HT as [|? u' ? T'' [H1 [H2 H3]] HT' ]; subst; constructor; [|apply IH, HT'].
        intros j. rewrite Hr, H1, H3. unfold a, round_scales, usable_scale, tiny, zero_id. rewrite !HR. destruct (nltb (nabs _) _); [ring|].
        rewrite (Fdiv_def (field_laws (F:=F))). reflexivity.
      - rewrite W2, W3. clear -HT. split; induction HT as [|u u' T T' [H1 [H2 H3]] _ IH]; cbn; congruence. }
    split; [rewrite L1, (Permutation_length PP); exact S4|].
    split; [rewrite L2, (Permutation_length PP); exact S4|].
    split; [rewrite (ysq_weighted _ _ _ _ WT), (YTY_perm _ _ PP); exact S3|]. split.
    - intros i. rewrite (xty_weighted _ _ _ _ WT), (XTY_perm _ _ PP), S2. unfold a, round_scales, usable_scale, tiny, zero_id.
      rewrite !HR. destruct (nltb (nabs _) _); [ring|]. rewrite (Fdiv_def (field_laws (F:=F))). reflexivity.
    - intros i j. rewrite (xtx_weighted _ _ _ _ WT), (XTX_perm _ _ PP), S1. unfold a, round_scales, usable_scale, tiny, zero_id.
      rewrite !HR. destruct (nltb (nabs (match scales with Some s => s i | _ => _ end)) _); cbn [orb]; [ring|].
      destruct (nltb (nabs (match scales with Some s => s j | _ => _ end)) _); cbn [orb]; [ring|].
      rewrite !(Fdiv_def (field_laws (F:=F))). reflexivity.
  Qed.
End Final.

Section Corollaries.
  Context {F : Type} {N : Num F} {O : NumOrd F} {L : FieldLaws F} {OL : OrdLaws F} {C0 : Char0 F} {St : Type}.
  Local Open Scope num_scope.
  Add Field Ffield2 : (field_laws (F:=F)).
  Notation row := (vec F).
  Notation dset := (ds F St).
  Notation rec := (rec F St).
  Variable s_natoms : St -> list nat.
  Variables (fe : St -> row) (ff fs : St -> list row).
  Variables (weight_e : F -> F -> nat -> F) (weight_f weight_s : F -> F).
  Variables (big threshold : F) (n_features n_threshold n_batch : nat).
  Notation usable := (usable ff fs s_natoms).
  Notation points w m := (points fe ff fs weight_e weight_f weight_s w m).
  Notation p := n_features.

  Lemma least_unique (l : list F) a b : least l a -> least l b -> nltb a b = false /\ nltb b a = false.
  Proof. intros [A1 A2] [B1 B2]. auto. Qed.

  Lemma points_tagged w m ps : points w m ps
    = flat_map (fun t => record_points fe ff fs weight_e weight_f weight_s w m (fst (fst (fst t))) (snd (fst (fst t))) (snd (fst t)) (snd t)) (tagged ps).
  Proof.
    unfold Spec.Regress.points, tagged. induction ps as [|q ps IH]; [reflexivity|]. cbn [flat_map]. rewrite flat_map_app, IH. f_equal.
    rewrite flat_map_map. reflexivity.
  Qed.
  Lemma rows_tagged (ps : list (dset * list rec)) : energy_rows fe ps = map (fun t => fe (r_structure (snd t))) (tagged ps).
  Proof.
    unfold energy_rows, tagged. rewrite map_flat_map. apply flat_map_ext. intros q. rewrite map_map. reflexivity.
  Qed.
  Lemma epa_tagged (ps : list (dset * list rec)) : energies_per_atom ps = map (fun t => r_energy (snd t) / nnat (r_natom (snd t))) (tagged ps).
  Proof.
    unfold energies_per_atom, tagged. rewrite map_flat_map. apply flat_map_ext. intros q. rewrite map_map. reflexivity.
  Qed.
  Lemma any_tagged (ps : list (dset * list rec)) : Forall (fun q => snd q <> []) ps ->
    any_force ps = existsb (fun t => snd (fst (fst t))) (tagged ps).
  Proof.
    unfold any_force, tagged. induction 1 as [|q ps Hq _ IH]; [reflexivity|]. cbn [existsb flat_map]. rewrite existsb_app, IH. f_equal.
    destruct (snd q) as [|r rs]; [congruence|]. cbn. destruct (ds_force (fst q)); [reflexivity|]. cbn. clear. induction rs; [reflexivity|]. cbn. assumption.
  Qed.
  Lemma existsb_perm {A} (f : A -> bool) l l' : Permutation l l' -> existsb f l = existsb f l'.
  Proof.
    induction 1; cbn; [reflexivity|now rewrite IHPermutation| |congruence]. destruct (f x), (f y); reflexivity.
  Qed.
  Lemma mean_perm (Q Q' : list row) j : Permutation Q Q' -> mean Q j = mean Q' j.
  Proof. intros H. unfold mean. now rewrite (nsumf_perm _ _ _ H), (Permutation_length H). Qed.
  Lemma variance_perm (Q Q' : list row) j : Permutation Q Q' -> variance Q j = variance Q' j.
  Proof. intros H. unfold variance. rewrite (mean_perm Q Q' j H). now rewrite (nsumf_perm _ _ _ H), (Permutation_length H). Qed.
  Lemma least_perm (l l' : list F) m : Permutation l l' -> least l m -> least l' m.
  Proof.
    intros H [H1 H2]. split; [eapply Permutation_in; eassumption|]. intros a Ha. apply H2. eapply Permutation_in; [symmetry; exact H|exact Ha].
  Qed.

  (** The same normal equations, up to the entries that are read. *)
  Definition same_normal (r r' : normal (F:=F)) : Prop :=
    m_min_e r = m_min_e r' /\ m_total r = m_total r' /\ m_ysq r = m_ysq r' /\
    (forall j, m_scales r j = m_scales r' j) /\ (forall i, m_xty r i = m_xty r' i) /\
    (forall i j, (i < p)%nat -> (j < p)%nat -> m_xtx r i j = m_xtx r' i j).

  Notation calc r0 argsort part := (Regress.calc_xtx_xty s_natoms fe ff fs r0 weight_e weight_f weight_s big threshold p n_threshold n_batch argsort part).

  Lemma regroup r0 r0' argsort argsort' part part' ps ps' scales min_energy weight_stress b b' :
    sorts argsort -> sorts argsort' -> 1 <= b -> 1 <= b' -> ps <> [] -> ps' <> [] ->
    Forall usable ps -> Forall usable ps' -> Permutation (tagged ps) (tagged ps') ->
    exists r r', calc r0 argsort part (map fst ps) scales min_energy weight_stress (Z.of_nat b) = Ok r /\
      calc r0' argsort' part' (map fst ps') scales min_energy weight_stress (Z.of_nat b') = Ok r' /\ same_normal r r'.
  Proof.
    intros S1 S2 B1 B2 N1 N2 U1 U2 HP.
    destruct (seq_final s_natoms fe ff fs r0 weight_e weight_f weight_s big threshold p n_threshold n_batch argsort part ps scales min_energy weight_stress b S1 B1 N1 U1)
      as [r [E1 [M1 [M2 [Q1 [Q2 [Q3 [Q4 Q5]]]]]]]].
    destruct (seq_final s_natoms fe ff fs r0' weight_e weight_f weight_s big threshold p n_threshold n_batch argsort' part' ps' scales min_energy weight_stress b' S2 B2 N2 U2)
      as [r' [E1' [M1' [M2' [Q1' [Q2' [Q3' [Q4' Q5']]]]]]]].
    exists r, r'. split; [exact E1|]. split; [exact E1'|].
    assert (EM : m_min_e r = m_min_e r').
    { destruct min_energy as [m|]; [now rewrite (M1 m), (M1' m)|]. specialize (M2 eq_refl). specialize (M2' eq_refl).
      assert (L2 : least (big :: energies_per_atom ps) (m_min_e r')).
      { eapply least_perm; [|exact M2']. constructor. rewrite !epa_tagged. symmetry. apply Permutation_map, HP. }
      destruct (least_unique _ _ _ M2 L2). now apply nltb_antisym. }
    destruct (usable_ok s_natoms ff fs ps U1) as [_ [NN1 _]]. destruct (usable_ok s_natoms ff fs ps' U2) as [_ [NN2 _]].
    assert (EI : any_force ps = any_force ps') by (rewrite !any_tagged by assumption; apply existsb_perm, HP).
    assert (PQ : Permutation (energy_rows fe ps) (energy_rows fe ps')) by (rewrite !rows_tagged; apply Permutation_map, HP).
    assert (PP : Permutation (points weight_stress (m_min_e r) ps) (points weight_stress (m_min_e r') ps')).
    { rewrite EM, !points_tagged. apply Permutation_flat_map, HP. }
    assert (ER : forall j, match scales with Some s => s j
                          | None => nsqrt (if nltb (variance (energy_rows fe ps) j) 0 then 1 else variance (energy_rows fe ps) j) end
                 = match scales with Some s => s j
                          | None => nsqrt (if nltb (variance (energy_rows fe ps') j) 0 then 1 else variance (energy_rows fe ps') j) end).
    { intros j. destruct scales; [reflexivity|]. now rewrite (variance_perm _ _ j PQ). }
    unfold same_normal. split; [exact EM|].
    split; [rewrite Q2, Q2'; apply Permutation_length, PP|].
    split; [rewrite Q3, Q3'; apply YTY_perm, PP|].
    split; [intros j; rewrite Q1, Q1', EI, ER; reflexivity|].
    split; [intros i; rewrite Q4, Q4', EI, ER, (XTY_perm _ _ PP); reflexivity|].
    intros i j Hi Hj. rewrite Q5, Q5', EI, !ER, (XTX_perm _ _ PP) by assumption. reflexivity.
  Qed.

  Lemma agree r0 r0' argsort part ps scales min_energy weight_stress b :
    sorts argsort -> 1 <= b -> ps <> [] -> Forall usable ps -> p <> n_threshold ->
    (scales = None -> forall j, nltb (variance (energy_rows fe ps) j) 0 = false) ->
    exists r t, calc r0 argsort part (map fst ps) scales min_energy weight_stress (Z.of_nat b) = Ok r /\
      Regress.calc_xy s_natoms fe ff fs r0' weight_e weight_f weight_s big threshold (map fst ps) scales min_energy weight_stress = Ok t /\
      m_min_e r = t_min_e t /\ m_total r = length (t_y t) /\ m_total r = length (t_x t) /\ m_ysq r = ysq (t_y t) /\
      (forall j, m_scales r j = t_scales t j) /\
      (forall i, m_xty r i = xty_of (t_x t) (t_y t) i) /\
      (forall i j, (i < p)%nat -> (j < p)%nat -> m_xtx r i j = xtx_of (t_x t) i j).
  Proof.
    intros S1 B1 N1 U1 HT HV.
    destruct (seq_final s_natoms fe ff fs r0 weight_e weight_f weight_s big threshold p n_threshold n_batch argsort part ps scales min_energy weight_stress b S1 B1 N1 U1)
      as [r [E1 [M1 [M2 [Q1 [Q2 [Q3 [Q4 Q5]]]]]]]].
    destruct (one_shot_final s_natoms fe ff fs r0' weight_e weight_f weight_s big threshold p ps scales min_energy weight_stress U1)
      as [t [E1' [M1' [M2' [T1 [_ [T2 [T3 [T4 [T5 T6]]]]]]]]]].
    exists r, t. split; [exact E1|]. split; [exact E1'|].
    assert (EM : m_min_e r = t_min_e t).
    { destruct min_energy as [m|]; [now rewrite (M1 m), (M1' m)|]. specialize (M2 eq_refl). specialize (M2' eq_refl).
      destruct (least_unique _ _ _ M2 M2'). now apply nltb_antisym. }
    assert (ER : forall j, match scales with Some s => s j
                          | None => nsqrt (if nltb (variance (energy_rows fe ps) j) 0 then 1 else variance (energy_rows fe ps) j) end
                 = match scales with Some s => s j | None => nsqrt (variance (energy_rows fe ps) j) end).
    { intros j. destruct scales; [reflexivity|]. now rewrite (HV eq_refl). }
    split; [exact EM|]. rewrite EM in *.
    split; [now rewrite Q2, T3|]. split; [now rewrite Q2, T2|]. split; [now rewrite Q3, T4|].
    split; [intros j; now rewrite Q1, T1, ER|].
    split; [intros i; now rewrite Q4, T5, ER|].
    intros i j Hi Hj. rewrite Q5, T6, !ER by assumption. unfold filled'.
    replace (p =? n_threshold)%nat with false by (symmetry; apply Nat.eqb_neq; exact HT). reflexivity.
  Qed.
End Corollaries.
