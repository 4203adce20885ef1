From Verif Require Import Base Model.Split Model.Structure Model.DatasetDFT Spec.Dataset
  Proofs.Split Proofs.Structure Proofs.StructureSpin.
From Coq Require Import ZifyBool ZifyNat.

Lemma mapM_app {X Y} (f : X -> res Y) l1 l2 :
  mapM f (l1 ++ l2) = do a <- mapM f l1; do b <- mapM f l2; Ok (a ++ b).
Proof.
  induction l1 as [|x l1 IH]; cbn.
  - destruct (mapM f l2); reflexivity.
  - destruct (f x); cbn; [|reflexivity]. rewrite IH.
    destruct (mapM f l1); cbn; [|reflexivity]. destruct (mapM f l2); reflexivity.
Qed.

Lemma picks_map {X Y} (f : X -> Y) l ids vs : picks l ids vs -> mapM (get (map f l)) ids = Ok (map f vs).
Proof.
  intros H. apply mapM_get_Forall2. induction H as [|i v ids vs H _ IH]; cbn; constructor; [|exact IH].
  rewrite nth_error_map, H. reflexivity.
Qed.

(** reading the block of one record out of the concatenation *)
Lemma read_block {X Y} (f : X -> list Y) l1 r l2 :
  mapM (get (flat_map f (l1 ++ r :: l2))) (seq (length (flat_map f l1)) (length (f r))) = Ok (f r).
Proof.
  apply mapM_get_Forall2. rewrite flat_map_app. cbn [flat_map].
  generalize (flat_map f l1) as pre. generalize (flat_map f l2) as post. generalize (f r) as b. clear.
  intros b post. induction b as [|y b IH]; intros pre; cbn; constructor.
  - rewrite nth_error_app2, Nat.sub_diag by lia. reflexivity.
  - specialize (IH (pre ++ [y])). rewrite app_length, Nat.add_1_r, <- app_assoc in IH. exact IH.
Qed.

Lemma cumsum_from_spec acc l :
  cumsum_from acc l = map (fun i => acc + sum (firstn (S i) l)) (seq 0 (length l)).
Proof.
  revert acc; induction l as [|x l IH]; intros acc; cbn [cumsum_from length seq map]; [reflexivity|].
  rewrite IH. f_equal.
  - cbn. lia.
  - rewrite <- seq_shift, map_map. apply map_ext. intros i. cbn [firstn sum fold_right].
    unfold sum. cbn. lia.
Qed.

Lemma cumsum_nth l i : i < length l -> nth_error (cumsum l) i = Some (sum (firstn (S i) l)).
Proof.
  intros H. unfold cumsum. rewrite cumsum_from_spec, nth_error_map.
  rewrite (nth_error_nth' _ 0) by (rewrite seq_length; exact H). rewrite seq_nth by exact H. reflexivity.
Qed.

Lemma removelast_nth {X} (l : list X) i : S i < length l -> nth_error (removelast l) i = nth_error l i.
Proof.
  revert i; induction l as [|x l IH]; intros i H; [cbn in H; lia|].
  destruct l as [|y l]; [cbn in H; lia|].
  change (removelast (x :: y :: l)) with (x :: removelast (y :: l)).
  destruct i as [|i]; [reflexivity|]. cbn [nth_error]. apply IH. cbn in *. lia.
Qed.

Lemma begin_nth l i : i < length l ->
  nth_error (0 :: removelast (cumsum l)) i = Some (sum (firstn i l)).
Proof.
  intros H. destruct i as [|i]; [reflexivity|]. cbn [nth_error].
  assert (length (cumsum l) = length l) as L.
  { unfold cumsum. rewrite cumsum_from_spec, map_length, seq_length. reflexivity. }
  rewrite removelast_nth by lia. apply cumsum_nth. lia.
Qed.

Lemma firstn_S_nth {X} (l : list X) i x : nth_error l i = Some x ->
  firstn (S i) l = firstn i l ++ [x].
Proof.
  revert l; induction i as [|i IH]; intros [|y l] H; cbn in H; try discriminate.
  - injection H as ->. reflexivity.
  - cbn [firstn app]. f_equal. apply IH, H.
Qed.

Lemma flat_map_map {X Y Z'} (f : X -> Y) (g : Y -> list Z') l :
  flat_map g (map f l) = flat_map (fun x => g (f x)) l.
Proof. induction l as [|x l IH]; cbn; [reflexivity|]. now rewrite IH. Qed.

Lemma map_add_seq a s n : map (fun k => a + k) (seq s n) = seq (a + s) n.
Proof.
  revert s; induction n as [|n IH]; intros s; cbn; [reflexivity|].
  rewrite IH. do 2 f_equal. lia.
Qed.

Section Layout.
  Context {W S : Type}.
  Notation rec := (rec W S).
  Variables (els : list string) (ef es : bool).
  Notation layout := (layout els ef es).

  Lemma sum_natom (rs : list rec) : Forall rec_ok rs ->
    sum (map (fun n => n * 3) (map r_natom rs)) = length (flat_map r_force rs).
  Proof.
    induction 1 as [|r rs [_ [H _]] _ IH]; cbn; [reflexivity|]. rewrite app_length, H.
    unfold sum in IH. rewrite IH. lia.
  Qed.

  Lemma len_stress (rs : list rec) : Forall rec_ok rs -> length (flat_map r_stress rs) = 6 * length rs.
  Proof.
    induction 1 as [|r rs [_ [_ H]] _ IH]; [reflexivity|]. cbn [flat_map length].
    rewrite app_length, H, IH. lia.
  Qed.

  Lemma split_nth {X} (l : list X) i x : nth_error l i = Some x ->
    l = firstn i l ++ x :: skipn (Datatypes.S i) l /\ length (firstn i l) = i.
  Proof.
    revert l; induction i as [|i IH]; intros [|y l] H; cbn in H; try discriminate.
    - injection H as ->. auto.
    - destruct (IH l H) as [E L]. split; [cbn; f_equal; exact E|cbn; now rewrite L].
  Qed.

  Lemma ids_spec (rs rs' : list rec) ids : Forall rec_ok rs -> picks rs ids rs' ->
    exists idf ids6, force_stress_ids (layout rs) ids = Ok (idf, ids6) /\
      mapM (get (flat_map r_force rs)) idf = Ok (flat_map r_force rs') /\
      mapM (get (flat_map r_stress rs)) ids6 = Ok (flat_map r_stress rs') /\
      (ids <> [] -> idf <> []).
  Proof.
    intros Hok Hp. unfold force_stress_ids. cbn [total_n_atoms layout Dataset.layout].
    set (ns := map (fun n => n * 3) (map r_natom rs)).
    assert (Ln : length ns = length rs) by (unfold ns; now rewrite !map_length).
    assert (B : mapM (get (0 :: removelast (cumsum ns))) ids = Ok (map (fun i => sum (firstn i ns)) ids)).
    { apply mapM_get_Forall2. induction Hp as [|i r ids rs' H _ IH]; cbn [map]; constructor; [|exact IH].
      apply begin_nth. rewrite Ln. apply nth_error_Some. congruence. }
    assert (E : mapM (get (cumsum ns)) ids = Ok (map (fun i => sum (firstn (Datatypes.S i) ns)) ids)).
    { clear B. apply mapM_get_Forall2.
      induction Hp as [|i r ids rs' H _ IH]; cbn [map]; constructor; [|exact IH].
      apply cumsum_nth. rewrite Ln. apply nth_error_Some. congruence. }
    rewrite B, E. cbn [bind]. eexists _, _. split; [reflexivity|].
    rewrite combine_map, flat_map_map.
    cbn [fst snd].
    assert (K : forall i r, nth_error rs i = Some r ->
       sum (firstn i ns) = length (flat_map r_force (firstn i rs)) /\
       sum (firstn (Datatypes.S i) ns) - sum (firstn i ns) = length (r_force r) /\
       rs = firstn i rs ++ r :: skipn (Datatypes.S i) rs /\
       i * 6 = length (flat_map r_stress (firstn i rs)) /\ length (r_stress r) = 6 /\
       length (r_force r) <> 0).
    { intros i r Hr. destruct (split_nth _ _ _ Hr) as [Es Li].
      assert (Hok' := Hok). rewrite Es in Hok'. apply Forall_app in Hok'. destruct Hok' as [Ho1 Ho2].
      inversion Ho2 as [|? ? [Hr0 [Hr1 Hr2]] _]; subst.
      assert (F : forall k, firstn k ns = map (fun n => n * 3) (map r_natom (firstn k rs))).
      { intros k. unfold ns. rewrite !firstn_map. reflexivity. }
      assert (S1 : sum (firstn i ns) = length (flat_map r_force (firstn i rs))).
      { rewrite F. apply sum_natom, Ho1. }
      split; [exact S1|]. split; [|split; [exact Es|split; [|split]]].
      - rewrite !F. rewrite (firstn_S_nth rs i r Hr), !map_app, sum_app. cbn. lia.
      - rewrite len_stress by exact Ho1. lia.
      - exact Hr2.
      - lia. }
    split; [|split].
    - clear B E. induction Hp as [|i r ids rs' H Hp IH]; [reflexivity|]. cbn [flat_map]. rewrite mapM_app.
      destruct (K i r H) as [K1 [K2 [K3 _]]]. rewrite K2, K1. rewrite K3 at 1. rewrite read_block.
      cbn [bind]. rewrite IH. reflexivity.
    - clear B E. induction Hp as [|i r ids rs' H Hp IH]; [reflexivity|]. cbn [flat_map].
      rewrite mapM_app.
      destruct (K i r H) as [_ [_ [K3 [K4 [K5 _]]]]].
      replace (map (fun k => i * 6 + k) (seq 0 6))
        with (seq (length (flat_map r_stress (firstn i rs))) (length (r_stress r))).
      + rewrite K3 at 1. rewrite read_block. cbn [bind]. rewrite IH. reflexivity.
      + rewrite K5, <- K4, map_add_seq, Nat.add_0_r. reflexivity.
    - intros Hne. destruct Hp as [|i r ids rs' H Hp]; [congruence|]. cbn [flat_map].
      destruct (K i r H) as [_ [K2 [_ [_ [_ K6]]]]]. rewrite K2.
      destruct (length (r_force r)); [congruence|]. cbn. discriminate.
  Qed.

  Lemma take_layout (rs rs' : list rec) ids : Forall rec_ok rs -> picks rs ids rs' -> ids <> [] ->
    take (layout rs) ids = Ok (layout rs').
  Proof.
    intros Hok Hp Hne. destruct (ids_spec rs rs' ids Hok Hp) as [idf [ids6 [E [F [G N]]]]].
    unfold take. rewrite E. cbn [bind]. specialize (N Hne).
    unfold np_take_list. destruct idf as [|i0 idf]; [congruence|].
    cbn [structures energies forces stresses volumes total_n_atoms files d_elements exist_force exist_stress
         layout Dataset.layout].
    rewrite !(picks_map _ _ _ _ Hp), F, G. reflexivity.
  Qed.

  Lemma slice_map {X Y} (f : X -> Y) b e l : slice b e (map f l) = map f (slice b e l).
  Proof. unfold slice. rewrite firstn_map, skipn_map. reflexivity. Qed.

  Lemma firstn_length_flat {X Y} (f : X -> list Y) l k :
    firstn (length (flat_map f (firstn k l))) (flat_map f l) = flat_map f (firstn k l).
  Proof.
    rewrite <- (firstn_skipn k l) at 2. rewrite flat_map_app.
    rewrite firstn_app, firstn_all, Nat.sub_diag. cbn. apply app_nil_r.
  Qed.

  Lemma skipn_length_flat {X Y} (f : X -> list Y) l k :
    skipn (length (flat_map f (firstn k l))) (flat_map f l) = flat_map f (skipn k l).
  Proof.
    rewrite <- (firstn_skipn k l) at 2. rewrite flat_map_app.
    rewrite skipn_app, skipn_all, Nat.sub_diag. reflexivity.
  Qed.

  Lemma slice_flat {X Y} (f : X -> list Y) l b e : b <= e ->
    slice (length (flat_map f (firstn b l))) (length (flat_map f (firstn e l))) (flat_map f l)
    = flat_map f (slice b e l).
  Proof.
    intros H. unfold slice. rewrite firstn_length_flat.
    rewrite <- (skipn_length_flat f (firstn e l) b). f_equal. f_equal. f_equal.
    rewrite firstn_firstn. f_equal. lia.
  Qed.

  Lemma Forall_firstn {X} (Q : X -> Prop) n l : Forall Q l -> Forall Q (firstn n l).
  Proof. intros H. rewrite <- (firstn_skipn n l) in H. apply Forall_app in H. tauto. Qed.

  Lemma Forall_slice {X} (Q : X -> Prop) b e l : Forall Q l -> Forall Q (slice b e l).
  Proof.
    intros H. unfold slice. apply (Forall_firstn _ e) in H.
    rewrite <- (firstn_skipn b (firstn e l)) in H. apply Forall_app in H. tauto.
  Qed.

  Lemma slice_empty {X} b e (l : list X) : e <= b -> slice b e l = [].
  Proof. intros H. apply skipn_all2. rewrite firstn_length. lia. Qed.

  Lemma slice_layout b e (rs : list rec) : Forall rec_ok rs ->
    d_slice b e (layout rs) = layout (slice b e rs).
  Proof.
    intros Hok. unfold d_slice.
    cbn [structures energies forces stresses volumes total_n_atoms files d_elements exist_force exist_stress
         layout Dataset.layout].
    rewrite !slice_map.
    assert (F : forall k, sum (firstn k (map r_natom rs)) * 3 = length (flat_map r_force (firstn k rs))).
    { intros k. rewrite <- (sum_natom (firstn k rs)) by (apply Forall_firstn, Hok).
      rewrite firstn_map. generalize (map r_natom (firstn k rs)). clear.
      induction l as [|x l IH]; cbn; [reflexivity|]. unfold sum in IH. lia. }
    rewrite !F.
    assert (ST : slice (b * 6) (e * 6) (flat_map r_stress rs) = flat_map r_stress (slice b e rs)).
    { assert (LS : forall k, length (flat_map r_stress (firstn k rs)) = 6 * Nat.min k (length rs)).
      { intros k. rewrite len_stress by (apply Forall_firstn, Hok). now rewrite firstn_length. }
      pose proof (len_stress rs Hok) as LA.
      unfold slice.
      assert (FE : firstn (e * 6) (flat_map r_stress rs) = flat_map r_stress (firstn e rs)).
      { destruct (Nat.le_gt_cases e (length rs)) as [H|H].
        - rewrite <- firstn_length_flat. f_equal. rewrite LS. lia.
        - rewrite !firstn_all2 by (rewrite ?LA; lia). reflexivity. }
      rewrite FE. set (m := firstn e rs). assert (Hm : Forall rec_ok m) by apply Forall_firstn, Hok.
      destruct (Nat.le_gt_cases b (length m)) as [H|H].
      - rewrite <- skipn_length_flat. f_equal.
        rewrite len_stress by (apply Forall_firstn, Hm). rewrite firstn_length. lia.
      - rewrite !skipn_all2 by (rewrite ?len_stress by exact Hm; lia). reflexivity. }
    rewrite ST.
    assert (FO : slice (length (flat_map r_force (firstn b rs))) (length (flat_map r_force (firstn e rs)))
                   (flat_map r_force rs) = flat_map r_force (slice b e rs)).
    { destruct (Nat.le_gt_cases b e) as [H|H]; [apply slice_flat, H|].
      rewrite (slice_empty b e) by lia. apply slice_empty.
      rewrite <- (firstn_skipn e (firstn b rs)), firstn_firstn, flat_map_app, app_length.
      replace (Nat.min e b) with e by lia. lia. }
    rewrite FO. reflexivity.
  Qed.
End Layout.

Section Ops.
  Context {W S : Type}.
  Notation rec := (rec W S).
  Variables (els : list string) (ef es : bool).
  Notation layout := (layout els ef es).
  Variable argsort : list Z -> list nat.
  Hypothesis Hargsort : argsort_ok argsort.

  Lemma picks_Forall (Q : rec -> Prop) rs ids rs' : Forall Q rs -> picks rs ids rs' -> Forall Q rs'.
  Proof.
    intros H Hp. induction Hp as [|i r ids rs' Hr _ IH]; constructor; [|exact IH].
    rewrite Forall_forall in H. eapply H, nth_error_In, Hr.
  Qed.

  Lemma picks_exist {X} (l : list X) ids : Forall (fun i => i < length l) ids -> exists vs, picks l ids vs.
  Proof.
    induction 1 as [|i ids Hi _ [vs IH]]; [exists []; constructor|].
    apply nth_error_Some in Hi. destruct (nth_error l i) as [v|] eqn:E; [|congruence].
    exists (v :: vs). constructor; assumption.
  Qed.

  Lemma picks_perm {X} (l : list X) ids vs : picks l ids vs -> Permutation ids (seq 0 (length l)) ->
    Permutation vs l.
  Proof.
    intros H1 H2. apply mapM_get_Forall2 in H1.
    destruct (mapM_get_perm l ids _ vs H2 H1) as [vs' [E P]]. rewrite mapM_get_seq in E.
    injection E as <-. exact P.
  Qed.

  Lemma sort_layout (rs : list rec) : Forall rec_ok rs -> rs <> [] ->
    exists rs', d_sort argsort (layout rs) = Ok (layout rs') /\ Permutation rs' rs /\
      StronglySorted (fun a b => r_natom a <= r_natom b) rs'.
  Proof.
    intros Hok Hne. unfold d_sort. cbn [total_n_atoms Dataset.layout].
    rewrite map_map. set (ns := map (fun x => Z.of_nat (r_natom x)) rs).
    destruct (Hargsort ns) as [Hp Hs].
    assert (Ln : length ns = length rs) by (unfold ns; now rewrite map_length). rewrite Ln in Hp.
    destruct (picks_exist rs (argsort ns)) as [rs' Hr].
    { apply Forall_forall. intros i Hi. apply (Permutation_in _ Hp) in Hi. apply in_seq in Hi. lia. }
    exists rs'. split; [|split].
    - apply take_layout; auto. intros E. rewrite E in Hp. apply Permutation_length in Hp.
      rewrite seq_length in Hp. destruct rs; [congruence|discriminate].
    - eapply picks_perm; eassumption.
    - pose proof (picks_map (fun x => Z.of_nat (r_natom x)) _ _ _ Hr) as E. fold ns in E.
      apply Hs in E. clear - E. induction rs' as [|r rs' IH]; [constructor|]. cbn in E.
      inversion E as [|? ? E1 E2]; subst. constructor; [apply IH, E1|].
      rewrite Forall_map in E2. eapply Forall_impl; [|exact E2]. cbn. lia.
  Qed.

  Lemma split_layout (rs : list rec) p q : Forall rec_ok rs -> (0 < q)%Z -> (0 <= p <= q)%Z ->
    exists tr te, d_split (layout rs) p q = Ok (some_layout els ef es tr, some_layout els ef es te) /\
      (exists itr ite, split_ids_train_test (length rs) p q = Ok (itr, ite) /\
                       picks rs itr tr /\ picks rs ite te) /\
      Permutation (tr ++ te) rs.
  Proof.
    intros Hok Hq Hp. destruct (split_files_ids rs p q Hq Hp) as [itr [ite [tr [te [E [_ [F1 [F2 P]]]]]]]].
    exists tr, te. split; [|split; [exists itr, ite; auto|exact P]].
    unfold d_split. cbn [energies Dataset.layout]. rewrite map_length, E. cbn [bind].
    assert (G : forall ids vs, picks rs ids vs ->
      match ids with [] => Ok None | _ :: _ => do x <- take (layout rs) ids; Ok (Some x) end
      = Ok (some_layout els ef es vs)).
    { intros ids vs H. destruct H as [|i v ids vs Hi H]; [reflexivity|].
      rewrite (take_layout els ef es rs (v :: vs)); [reflexivity|exact Hok|constructor; assumption|discriminate]. }
    rewrite (G _ _ F1). cbn [bind]. rewrite (G _ _ F2). reflexivity.
  Qed.

  Lemma slice_sub {X} b e (l : list X) : exists extra, Permutation (slice b e l ++ extra) l.
  Proof.
    unfold slice. exists (firstn b (firstn e l) ++ skipn e l).
    rewrite app_assoc. rewrite (Permutation_app_comm (skipn b (firstn e l))).
    rewrite firstn_skipn, firstn_skipn. reflexivity.
  Qed.

  Lemma run1_layout o (rs : list rec) d' : Forall rec_ok rs -> ratio_ok o ->
    run1 argsort o (layout rs) = Ok (Some d') ->
    exists rs', d' = layout rs' /\ Forall rec_ok rs' /\ exists extra, Permutation (rs' ++ extra) rs.
  Proof.
    intros Hok Hr. destruct o as [b e| |p q|p q]; cbn [run1].
    - rewrite slice_layout by exact Hok. intros [= <-]. exists (slice b e rs).
      split; [reflexivity|]. split; [apply Forall_slice, Hok|apply slice_sub].
    - destruct rs as [|r rs].
      + intros H. exfalso. unfold d_sort, take in H. cbn [Dataset.layout total_n_atoms map] in H.
        destruct (Hargsort []) as [Hp _]. cbn in Hp. apply Permutation_sym, Permutation_nil in Hp.
        rewrite Hp in H. cbn in H. discriminate.
      + destruct (sort_layout (r :: rs) Hok ltac:(discriminate)) as [rs' [E [P _]]]. rewrite E.
        cbn [bind]. intros [= <-]. exists rs'. split; [reflexivity|].
        split; [eapply Permutation_Forall; [symmetry; exact P|exact Hok]|].
        exists []. now rewrite app_nil_r.
    - destruct Hr as [H1 H2]. destruct (split_layout rs p q Hok H1 H2) as [tr [te [E [_ P]]]].
      rewrite E. cbn [bind]. intros H. exists tr. destruct tr as [|r tr]; [discriminate|]. injection H as <-.
      split; [reflexivity|]. split; [|eauto].
      eapply Permutation_Forall in Hok; [|symmetry; exact P]. apply Forall_app in Hok. tauto.
    - destruct Hr as [H1 H2]. destruct (split_layout rs p q Hok H1 H2) as [tr [te [E [_ P]]]].
      rewrite E. cbn [bind]. intros H. exists te. destruct te as [|r te]; [discriminate|]. injection H as <-.
      split; [reflexivity|]. split; [|exists tr; rewrite Permutation_app_comm; exact P].
      eapply Permutation_Forall in Hok; [|symmetry; exact P]. apply Forall_app in Hok. tauto.
  Qed.

  Lemma run_layout os : forall (rs : list rec) d', Forall rec_ok rs -> Forall ratio_ok os ->
    run argsort os (layout rs) = Ok (Some d') ->
    exists rs', d' = layout rs' /\ Forall rec_ok rs' /\ exists extra, Permutation (rs' ++ extra) rs.
  Proof.
    induction os as [|o os IH]; intros rs d' Hok Hr; cbn [run].
    - intros [= <-]. exists rs. split; [reflexivity|]. split; [exact Hok|]. exists []. now rewrite app_nil_r.
    - inversion Hr as [|? ? Hr1 Hr2]; subst.
      destruct (run1 argsort o (layout rs)) as [[d1|]|] eqn:E; cbn [bind]; try discriminate.
      destruct (run1_layout o rs d1 Hok Hr1 E) as [rs1 [-> [Hok1 [ex1 P1]]]].
      intros H. destruct (IH rs1 d' Hok1 Hr2 H) as [rs' [-> [Hok' [ex2 P2]]]].
      exists rs'. split; [reflexivity|]. split; [exact Hok'|]. exists (ex2 ++ ex1).
      rewrite app_assoc, P2. exact P1.
  Qed.
End Ops.

(** ** Construction *)
Section Build.
  Context {W S : Type} (wzero : W).
  Variables (s_volume : S -> W) (s_name : S -> option string) (s_natoms : S -> list nat).
  Variable permute : S -> list (list W) -> res (S * list (list W)).
  Variable n_col : S -> nat.

  Lemma collect_built sts es fs ss rs : built_all s_volume s_name s_natoms permute sts es fs ss rs ->
    collect W S permute sts fs ss
    = Ok (map r_structure rs, flat_map r_force rs, flat_map r_stress rs) /\
    map r_energy rs = es /\ map r_volume rs = map s_volume (map r_structure rs) /\
    map r_natom rs = map (fun st => sum (s_natoms st)) (map r_structure rs) /\
    map r_file rs = map s_name (map r_structure rs) /\
    length (flat_map r_stress rs) = length rs * 6.
  Proof.
    induction 1 as [|st e f s r sts es fs ss rs [st' [f' [E ->]]] _ IH]; [auto 10|].
    destruct IH as [I1 [I2 [I3 [I4 [I5 I6]]]]]. cbn [collect map flat_map]. rewrite E. cbn [bind].
    rewrite I1. cbn [bind r_structure r_energy r_force r_stress r_volume r_natom r_file].
    rewrite I2, I3, I4, I5. repeat split. rewrite app_length, I6. reflexivity.
  Qed.

  Lemma set_properties_built sts es fs ss els rs :
    built_all s_volume s_name s_natoms permute sts es fs ss rs ->
    Forall (fun r => length (r_force r) = 3 * r_natom r) rs ->
    set_properties W S wzero s_volume s_name s_natoms permute sts es (Some fs) (Some ss) n_col els
    = Ok (layout els true true rs).
  Proof.
    intros Hb Hf. destruct (collect_built _ _ _ _ _ Hb) as [I1 [I2 [I3 [I4 [I5 I6]]]]].
    assert (L : length sts = length rs /\ length es = length rs /\ length fs = length rs /\ length ss = length rs).
    { clear - Hb. induction Hb; cbn; lia. }
    destruct L as [L1 [L2 [L3 L4]]].
    unfold set_properties. rewrite L1, L2, L3, L4, Nat.eqb_refl. cbn [py_assert bind].
    rewrite I1. cbn [bind]. unfold check_errors.
    cbn [energies stresses volumes structures total_n_atoms forces].
    rewrite !map_length, L2, I6, Nat.eqb_refl. cbn [py_assert bind].
    assert (LF : length (flat_map r_force rs) = sum (map (fun st => sum (s_natoms st)) (map r_structure rs)) * 3).
    { rewrite <- I4. clear - Hf. induction Hf as [|r rs H _ IH]; cbn; [reflexivity|].
      rewrite app_length, H. unfold sum in IH. lia. }
    rewrite LF, Nat.eqb_refl. cbn [py_assert bind].
    unfold layout. rewrite I2, I3, I4, I5. rewrite Nat.eqb_refl. reflexivity.
  Qed.
End Build.
