From Verif Require Import Base Num Model.Structure Model.DatasetDFT Model.Dataset Model.Index Model.Batch Model.Regress
  Spec.Dataset Spec.Structure Spec.Regress Proofs.Index Proofs.Batch Proofs.StructureSpin Proofs.StructureSpin2 Proofs.DatasetDFT
  Proofs.RegressWeights Proofs.XtxBlocks Proofs.Regress.
From Coq Require Import Ring Field.

Lemma flat_map_slices {A} (rs : list A) bs :
  flat_map (fun p => seq (fst p) (snd p - fst p)) bs = seq 0 (length rs) ->
  Forall (fun p => fst p < snd p /\ snd p <= length rs) bs ->
  flat_map (fun p => slice (fst p) (snd p) rs) bs = rs.
Proof.
  intros H1 H2.
  assert (G : flat_map (fun p => slice (fst p) (snd p) rs) bs
              = flat_map (fun i => match nth_error rs i with Some a => [a] | None => [] end)
                  (flat_map (fun p => seq (fst p) (snd p - fst p)) bs)).
  { clear H1. induction H2 as [|[b e] bs [Hb He] _ IH]; [reflexivity|]. cbn [flat_map fst snd] in *.
    rewrite flat_map_app, <- IH. f_equal. clear IH. revert b e Hb He. induction rs as [|a rs IHr]; intros b e Hb He; [cbn in He; lia|].
    destruct e as [|e]; [lia|]. destruct b as [|b].
    - unfold slice. cbn [skipn firstn]. cbn [Nat.sub seq flat_map nth_error app]. f_equal.
      destruct e as [|e]; [reflexivity|]. cbn in He.
      specialize (IHr 0 (S e) ltac:(lia) ltac:(lia)). unfold slice in IHr. cbn [skipn] in IHr. rewrite IHr.
      rewrite Nat.sub_0_r. rewrite <- seq_shift, flat_map_map. reflexivity.
    - unfold slice. cbn [skipn firstn]. cbn in He. specialize (IHr b e ltac:(lia) ltac:(lia)). unfold slice in IHr. rewrite IHr.
      cbn [Nat.sub]. rewrite <- (seq_shift (e - b) b), flat_map_map. reflexivity. }
  rewrite G, H1. clear. induction rs as [|a rs IH]; [reflexivity|]. cbn [length seq flat_map nth_error app]. f_equal.
  rewrite <- seq_shift, flat_map_map. exact IH.
Qed.

Section Seq.
  Context {F : Type} {N : Num F} {O : NumOrd F} {L : FieldLaws F} {St : Type}.
  Local Open Scope num_scope.
  Add Field Ffield : (field_laws (F:=F)).
  Notation row := (vec F).
  Notation dset := (ds F St).
  Notation rec := (rec F St).
  Variable s_natoms : St -> list nat.
  Variables (fe : St -> row) (ff fs : St -> list row) (r0 : row).
  Variables (weight_e : F -> F -> nat -> F) (weight_f weight_s : F -> F).
  Variables (big threshold : F) (n_features n_threshold n_batch : nat).
  Variables (argsort : list Z -> list nat) (part_name : string).
  Notation shaped := (shaped ff fs s_natoms).
  Notation ds_ok := (ds_ok s_natoms ff fs).
  Notation rowsE := (rowsE fe).
  Notation points w m := (points fe ff fs weight_e weight_f weight_s w m).
  Notation p := n_features.
  Notation accumulated := (accumulated n_features n_threshold n_batch).

  Lemma acc_perm scales d P Q P' Q' : Permutation P P' -> Permutation Q Q' ->
    accumulated scales d P Q -> accumulated scales d P' Q'.
  Proof.
    intros HP HQ [A1 A2 A3 A4 A5 A6]. constructor.
    - destruct (d_xtx d); [|subst; now apply Permutation_nil in HP]. intros. rewrite <- (XTX_perm _ _ HP). auto.
    - destruct (d_xty d); [|subst; now apply Permutation_nil in HP]. intros. rewrite <- (XTY_perm _ _ HP). auto.
    - intros H. specialize (A3 H). destruct (d_xe_sum d); [|subst; now apply Permutation_nil in HQ].
      intros. rewrite A3. apply nsumf_perm, HQ.
    - intros H. specialize (A4 H). destruct (d_xe_sq_sum d); [|subst; now apply Permutation_nil in HQ].
      intros. rewrite A4. apply nsumf_perm, HQ.
    - rewrite A5. apply YTY_perm, HP.
    - rewrite A6. apply Permutation_length, HP.
  Qed.

  Definition full (scales : option row) (d : data_xy (F:=F)) : Prop :=
    d_xtx d <> None /\ d_xty d <> None /\ (scales = None -> d_xe_sum d <> None /\ d_xe_sq_sum d <> None).

  Variables (weight_stress min_e : F).
  Notation batch_loop := (batch_loop s_natoms fe ff fs r0 weight_e weight_f weight_s p n_threshold n_batch part_name weight_stress min_e).
  Notation dataset_loop := (dataset_loop s_natoms fe ff fs r0 weight_e weight_f weight_s p n_threshold n_batch argsort part_name weight_stress min_e).

  Lemma points_cons q ps : points weight_stress min_e (q :: ps) = points weight_stress min_e [q] ++ points weight_stress min_e ps.
  Proof. unfold Spec.Regress.points. cbn [flat_map]. now rewrite app_nil_r. Qed.

  Lemma points_rebuild (x x' : dset) rs : ds_force x' = ds_force x -> ds_stress x' = ds_stress x -> ds_weight x' = ds_weight x ->
    points weight_stress min_e [(x', rs)] = points weight_stress min_e [(x, rs)].
  Proof. intros H1 H2 H3. unfold Spec.Regress.points. cbn [flat_map fst snd]. now rewrite H1, H2, H3. Qed.

  Lemma batch_loop_spec (data : dset) rs scales : ds_ok (data, rs) ->
    forall bs d P Q, accumulated scales d P Q ->
    (full scales d \/ bs <> []) ->
    exists d', batch_loop scales data (map toZ bs) d = Ok d' /\ full scales d' /\
      accumulated scales d'
        (P ++ flat_map (fun b => points weight_stress min_e [(data, slice (fst b) (snd b) rs)]) bs)
        (Q ++ flat_map (fun b => rowsE (data, slice (fst b) (snd b) rs)) bs).
  Proof.
    intros [[els [ef [es Hd]]] [Hsh Hst]]. cbn [fst snd] in *.
    induction bs as [|[b e] bs IH]; intros d P Q A Hf.
    - cbn. rewrite !app_nil_r. exists d. split; [reflexivity|]. destruct Hf as [Hf|Hf]; [|congruence]. auto.
    - cbn [map toZ Regress.batch_loop fst snd]. rewrite !Nat2Z.id. unfold slice_dft. rewrite Hd.
      rewrite slice_layout.
      2:{ clear -Hsh. induction Hsh as [|? ? [H _]]; constructor; assumption. }
      set (sl := mk_ds (ds_type data) (Single part_name) (ds_force data) (ds_stress data) (ds_weight data)
                  (Some (layout els ef es (slice b e rs))) false).
      assert (Esl : new_ds (ds_type data) (Single part_name) (ds_force data) (ds_stress data) (ds_weight data)
                      (Some (layout els ef es (slice b e rs))) = Ok sl) by (unfold new_ds; destruct (ds_type data); reflexivity).
      rewrite Esl. cbn [bind].
      assert (Hok : ds_ok (sl, slice b e rs)).
      { split; [exists els, ef, es; reflexivity|]. split; [apply Forall_slice, Hsh|exact Hst]. }
      destruct (single_batch_spec s_natoms fe ff fs r0 weight_e weight_f weight_s p n_threshold n_batch weight_stress min_e
                  scales d P Q (sl, slice b e rs) A Hok) as [d' [E1 [A' [F1 [F2 F3]]]]].
      cbn [fst] in E1. rewrite E1. cbn [bind].
      destruct (IH d' _ _ A' (or_introl (conj F1 (conj F2 F3)))) as [d'' [E2 [F4 A'']]].
      exists d''. split; [exact E2|]. split; [exact F4|].
      cbn [flat_map fst snd]. rewrite <- !app_assoc in A''.
      rewrite (points_rebuild data sl) in A'' by reflexivity. exact A''.
  Qed.

  Lemma dataset_loop_spec scales b : sorts argsort -> 1 <= b -> forall ps d P Q,
    accumulated scales d P Q -> Forall ds_ok ps -> Forall (fun q => snd q <> []) ps ->
    (full scales d \/ ps <> []) ->
    exists d' sorted, dataset_loop scales (Z.of_nat b) (map fst ps) d = Ok (d', sorted) /\ full scales d' /\
      accumulated scales d' (P ++ points weight_stress min_e ps) (Q ++ flat_map rowsE ps) /\
      exists dfts, mapM get_dft sorted = Ok dfts /\
        sum (map (fun d => length (energies d)) dfts) = sum (map (fun q => length (snd q)) ps).
  Proof.
    intros Hs Hb. induction ps as [|[x rs] ps IH]; intros d P Q A Hok Hne Hf.
    - cbn. rewrite !app_nil_r. destruct Hf as [Hf|Hf]; [|congruence]. exists d, [].
      split; [reflexivity|]. split; [exact Hf|]. split; [exact A|]. exists []. split; reflexivity.
    - inversion Hok as [|? ? [[els [ef [es Hd]]] [Hsh Hst]] Hok']; subst. inversion Hne as [|? ? Hn Hne']; subst. cbn [fst snd] in *.
      cbn [map fst Regress.dataset_loop]. unfold sort_dft. rewrite Hd.
      assert (Hrok : Forall rec_ok rs) by (clear -Hsh; induction Hsh as [|? ? [H _]]; constructor; assumption).
      destruct (sort_layout els ef es argsort (sorts_argsort_ok _ Hs) rs Hrok Hn) as [rs' [E1 [Hp _]]].
      rewrite E1. cbn [bind]. unfold get_dft at 1. cbn [with_dft ds_dft bind layout structures]. rewrite map_length.
      destruct (batches_spec (length rs') b Hb) as [bs [E2 [Hc Hbd]]]. rewrite E2. cbn [bind].
      set (x' := with_dft x (layout els ef es rs') (ds_done x)).
      assert (Hok1 : ds_ok (x', rs')).
      { split; [exists els, ef, es; reflexivity|]. split; [|exact Hst]. eapply Permutation_Forall; [symmetry; exact Hp|exact Hsh]. }
      assert (Hbs : bs <> []).
      { intros ->. cbn in Hc. destruct rs' as [|? ?]; [|discriminate]. now apply Permutation_nil in Hp. }
      destruct (batch_loop_spec x' rs' scales Hok1 bs d P Q A (or_intror Hbs)) as [d1 [E3 [F1 A1]]].
      rewrite E3. cbn [bind].
      assert (Hsl : flat_map (fun q => slice (fst q) (snd q) rs') bs = rs').
      { apply flat_map_slices; [exact Hc|]. eapply Forall_impl; [|exact Hbd]. cbn. tauto. }
      assert (A1' : accumulated scales d1 (P ++ points weight_stress min_e [(x, rs)]) (Q ++ rowsE (x, rs))).
      { eapply acc_perm; [| |exact A1].
        - apply Permutation_app_head. unfold Spec.Regress.points. cbn [flat_map fst snd]. rewrite app_nil_r.
          transitivity (flat_map (record_points fe ff fs weight_e weight_f weight_s weight_stress min_e (ds_weight x) (ds_force x) (ds_stress x)) rs').
          + match goal with |- Permutation _ (flat_map ?g _) => transitivity (flat_map g (flat_map (fun q => slice (fst q) (snd q) rs') bs)) end;
              [|rewrite Hsl; reflexivity].
            clear. induction bs as [|q bs IH]; [constructor|]. cbn [flat_map]. rewrite flat_map_app, app_nil_r.
            apply Permutation_app; [reflexivity|exact IH].
          + apply Permutation_flat_map, Hp.
        - apply Permutation_app_head. unfold RegressWeights.rowsE. cbn [snd].
          transitivity (map (fun r : rec => fe (r_structure r)) rs').
          + match goal with |- Permutation _ (map ?g _) => transitivity (map g (flat_map (fun q => slice (fst q) (snd q) rs') bs)) end;
              [|rewrite Hsl; reflexivity].
            clear. induction bs as [|q bs IH]; [constructor|]. cbn [flat_map]. rewrite map_app.
            apply Permutation_app; [reflexivity|exact IH].
          + apply Permutation_map, Hp. }
      destruct (IH d1 _ _ A1' Hok' Hne' (or_introl F1)) as [d2 [t [E4 [F2 [A2 [dfts [E5 E6]]]]]]].
      rewrite E4. cbn [bind]. exists d2, (x' :: t). split; [reflexivity|]. split; [exact F2|]. split.
      + rewrite <- !app_assoc in A2. rewrite (points_cons (x, rs)). exact A2.
      + exists (layout els ef es rs' :: dfts). cbn [mapM]. unfold get_dft at 1. cbn [x' with_dft ds_dft bind]. rewrite E5. split; [reflexivity|].
        cbn [map layout energies snd]. rewrite map_length, (Permutation_length Hp). unfold sum in *. cbn [fold_right]. now rewrite E6.
  Qed.
End Seq.
