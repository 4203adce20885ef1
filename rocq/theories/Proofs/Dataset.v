From Verif Require Import Base Model.Split Model.Structure Model.DatasetDFT Model.Dataset Spec.Dataset
  Spec.Load Proofs.Split Proofs.Structure Proofs.StructureSpin Proofs.DatasetDFT.

Ltac inv_ok :=
  repeat match goal with
  | H : bind ?x _ = Ok _ |- _ =>
      let E := fresh "E" in destruct x eqn:E; cbn [bind] in H; [|discriminate H]
  | H : context [let '(_, _) := ?x in _] |- _ => destruct x
  end.

Lemma mapM_Forall2 {X Y} (f : X -> res Y) l ys : mapM f l = Ok ys -> Forall2 (fun x y => f x = Ok y) l ys.
Proof.
  revert ys. induction l as [|x l IH]; cbn; intros ys H; [injection H as <-; constructor|].
  destruct (f x) eqn:E; cbn in H; [|discriminate]. destruct (mapM f l) eqn:E2; cbn in H; [|discriminate].
  injection H as <-. constructor; auto.
Qed.

Section Load.
  Context {W S : Type}.
  Variables (wzero : W) (wsub wadd : W -> W -> W) (wscale : nat -> W -> W).
  Variable wmul : W -> W -> W.
  Variable s_natoms : S -> list nat.
  Variable parse : dtype -> fileset -> res (dft W S).
  Variable imaginary : string -> bool.
  Variable fsort : list string -> list string.
  Variable part_name : string.
  Variable argsort : list Z -> list nat.
  Notation lower := (lower wzero wsub wadd wscale s_natoms).
  Notation atoms_energy := (atoms_energy wzero wadd wscale).
  Notation subtract := (subtract wzero wsub wadd wscale s_natoms).
  Notation parse_files := (parse_files wzero wsub wadd wscale s_natoms parse).
  Notation parsed_once := (parsed_once wzero wsub wadd wscale s_natoms parse).
  Notation apply_ae := (apply_atomic_energy W S wzero s_natoms wsub wadd wscale).

  Lemma dot_n_energy ns a x : dot_n W wzero wadd wscale ns a = Ok x -> x = atoms_energy ns a.
  Proof.
    unfold dot_n. destruct (length ns =? length a) eqn:E; [|discriminate]. intros [= <-]. clear E.
    revert a. induction ns as [|n ns IH]; intros [|e a]; cbn; try reflexivity. now rewrite IH.
  Qed.

  Lemma apply_layout els ef es (rs : list (rec W S)) a d' :
    apply_ae a (layout els ef es rs) = Ok d' -> d' = layout els ef es (map (lower a) rs).
  Proof.
    unfold apply_atomic_energy. cbn [energies structures layout].
    destruct (mapM _ _) as [xs|] eqn:E; cbn [bind]; [|discriminate]. intros [= <-].
    assert (xs = map (fun r => r_energy (lower a r)) rs) as ->.
    { revert xs E. induction rs as [|r rs IH]; cbn; intros xs E; [congruence|].
      destruct (dot_n W wzero wadd wscale (s_natoms (r_structure r)) a) eqn:D; cbn in E; [|discriminate].
      apply dot_n_energy in D. subst.
      destruct (mapM _ _) as [ys|] eqn:E2; cbn in E; [|discriminate]. injection E as <-.
      f_equal. apply IH. reflexivity. }
    unfold layout. cbn. rewrite !map_map, !flat_map_concat_map, !map_map. reflexivity.
  Qed.

  Lemma apply_layout_ok els ef es (rs : list (rec W S)) a :
    Forall (fun r => length (s_natoms (r_structure r)) = length a) rs ->
    apply_ae a (layout els ef es rs) = Ok (layout els ef es (map (lower a) rs)).
  Proof.
    intros H. destruct (apply_ae a (layout els ef es rs)) eqn:E.
    - apply apply_layout in E. now subst.
    - exfalso. revert E. unfold apply_atomic_energy. cbn [energies structures layout].
      assert (M : exists ys, mapM (fun p => do x <- dot_n W wzero wadd wscale (s_natoms (snd p)) a;
                      Ok (wsub (fst p) x)) (combine (map r_energy rs) (map r_structure rs)) = Ok ys).
      { induction H as [|r rs Hr _ [ys IH]]; cbn; [eauto|]. unfold dot_n at 1. rewrite Hr, Nat.eqb_refl. cbn.
        rewrite IH. cbn. eauto. }
      destruct M as [ys M]. rewrite M. discriminate.
  Qed.

  Lemma apply_layout_refused els ef es (rs : list (rec W S)) a r :
    In r rs -> length (s_natoms (r_structure r)) <> length a ->
    apply_ae a (layout els ef es rs) = Err ValueError.
  Proof.
    intros Hr Hn. unfold apply_atomic_energy. cbn [energies structures layout].
    assert (M : mapM (fun p => do x <- dot_n W wzero wadd wscale (s_natoms (snd p)) a; Ok (wsub (fst p) x))
                  (combine (map r_energy rs) (map r_structure rs)) = Err ValueError); [|now rewrite M].
    induction rs as [|r' rs IH]; [destruct Hr|]. cbn [map combine mapM fst snd]. unfold dot_n at 1.
    destruct Hr as [-> | Hr].
    - rewrite (proj2 (Nat.eqb_neq _ _) Hn). reflexivity.
    - destruct (length (s_natoms (r_structure r')) =? length a); [|reflexivity]. cbn [bind]. now rewrite (IH Hr).
  Qed.

  Lemma rec_ok_lower a rs : Forall rec_ok rs -> Forall rec_ok (map (lower a) rs).
  Proof. intros H. rewrite Forall_map. eapply Forall_impl; [|exact H]. auto. Qed.

  Hypothesis Hparse : parses_records parse.

  Lemma parse_files_once a x y : ds_done x = false -> parse_files a x = Ok y ->
    parsed_once a y /\ ds_done y = true /\ ds_files y = ds_files x /\ ds_type y = ds_type x.
  Proof.
    unfold Dataset.parse_files, Dataset.subtract. intros Hd H. inv_ok. cbn in H. rewrite Hd in H. inv_ok.
    injection H as <-. destruct (Hparse _ _ _ E) as [els [ef [es [rs [-> Hok]]]]].
    apply apply_layout in E0. subst. split; [|auto]. exists els, ef, es, rs. auto.
  Qed.

  Lemma new_done t f i s w d x : new_ds t f i s w d = Ok x ->
    ds_done (W := W) (S := S) x = false /\ ds_files x = f /\ ds_type x = t /\ ds_dft x = d.
  Proof. unfold new_ds. destruct t, f; try discriminate; intros [= <-]; auto. Qed.

  Lemma parse_list a xs ys : Forall (fun x : ds W S => ds_done x = false) xs -> mapM (parse_files a) xs = Ok ys ->
    Forall (fun y => parsed_once a y /\ ds_done y = true) ys /\ map ds_files ys = map ds_files xs.
  Proof.
    intros Hd H. apply mapM_Forall2 in H. induction H as [|x y xs ys Hx _ IH]; [split; constructor|].
    inversion Hd; subst. destruct IH as [I1 I2]; [assumption|].
    destruct (parse_files_once a x y) as [P1 [P2 [P3 P4]]]; auto.
    split; [constructor; auto|]. cbn. now rewrite P3, I2.
  Qed.

  Lemma subtract_list_done a (ys zs : list (ds W S)) : Forall (fun y => ds_done y = true) ys ->
    mapM (subtract a) ys = Ok zs -> zs = ys.
  Proof.
    intros Hd H. apply mapM_Forall2 in H. induction H as [|y z ys zs Hy _ IH]; [reflexivity|].
    inversion Hd; subst. f_equal; [|auto]. revert Hy. unfold Dataset.subtract.
    destruct (ds_dft y); [|discriminate]. rewrite H1. congruence.
  Qed.

  Lemma from_multiple_once t inf ins w a train test tr te :
    from_multiple wzero wsub wadd wscale s_natoms parse fsort t inf ins w a train test = Ok (tr, te) ->
    Forall (parsed_once a) (tr ++ te) /\
    map ds_files tr = map (fun l => Many (fsort l)) train /\
    map ds_files te = map (fun l => Many (fsort l)) test.
  Proof.
    unfold from_multiple. intros H. inv_ok. injection H as <- <-.
    assert (N : forall l xs, mapM (fun f => new_ds t (Many (fsort f)) inf ins w None) l = Ok xs ->
      Forall (fun x : ds W S => ds_done x = false) xs /\ map ds_files xs = map (fun l => Many (fsort l)) l).
    { intros l xs F. apply mapM_Forall2 in F. induction F as [|f x l xs Fx _ [I1 I2]]; [split; constructor|].
      apply new_done in Fx. destruct Fx as [F1 [F2 _]]. split; [constructor; auto|]. cbn. now rewrite F2, I2. }
    apply N in E, E0. destruct E as [D1 G1], E0 as [D2 G2].
    apply parse_list in E1, E2; auto. destruct E1 as [P1 Q1], E2 as [P2 Q2].
    split; [|split; congruence].
    apply Forall_app. split; eapply Forall_impl; [|exact P1| |exact P2]; cbn; tauto.
  Qed.

  Lemma split_imag_done wimag x ys : split_imag (S := S) wmul imaginary wimag x = Ok ys ->
    Forall (fun y => ds_done y = false) ys /\ Permutation (flat_map files_of ys) (files_of x).
  Proof.
    unfold split_imag, files_of. destruct (ds_files x) as [|l]; [discriminate|]. intros H.
    assert (P : Permutation (filter (fun f => negb (imaginary f)) l ++ filter imaginary l) l).
    { clear. induction l as [|f l IH]; cbn; [constructor|]. destruct (imaginary f); cbn.
      - rewrite <- Permutation_middle. now constructor.
      - now constructor. }
    destruct (filter (fun f => negb (imaginary f)) l) as [|n no] eqn:En;
      destruct (filter imaginary l) as [|i im] eqn:Ei; cbn [bind] in H; inv_ok;
      repeat match goal with G : Ok _ = Ok _ |- _ => injection G as <- end;
      repeat match goal with G : new_ds _ _ _ _ _ _ = Ok _ |- _ => apply new_done in G; destruct G as [? [? [_ _]]] end;
      (split; [repeat constructor; auto|]); cbn;
      repeat match goal with G : ds_files _ = _ |- _ => rewrite G; clear G end;
      rewrite ?app_nil_r in *; exact P.
  Qed.

  Lemma split_imag_list_done wimag xs ys : split_imag_list (S := S) wmul imaginary wimag xs = Ok ys ->
    Forall (fun y => ds_done y = false) ys /\ Permutation (flat_map files_of ys) (flat_map files_of xs).
  Proof.
    unfold split_imag_list. intros H. inv_ok. injection H as <-. apply mapM_Forall2 in E.
    induction E as [|x l xs ll Hx _ [I1 I2]]; [split; constructor|]. cbn.
    apply split_imag_done in Hx. destruct Hx as [H1 H2]. split; [apply Forall_app; auto|].
    rewrite flat_map_app. now apply Permutation_app.
  Qed.

  Lemma flat_files (xs ys : list (ds W S)) : map ds_files ys = map ds_files xs ->
    flat_map files_of ys = flat_map files_of xs.
  Proof.
    revert ys. induction xs as [|x xs IH]; intros [|y ys]; cbn; try discriminate; auto.
    intros [= H1 H2]. unfold files_of at 1 3. rewrite H1. f_equal. auto.
  Qed.

  Notation from_single := (from_single wzero wsub wadd wscale wmul s_natoms parse imaginary fsort part_name).

  (** Common tail of the two list paths. *)
  Lemma single_tail t wimag a x trl trl1 trl2 :
    ds_done x = false ->
    (if is_sscha t then split_imag_list wmul imaginary wimag [x] else Ok [x]) = Ok trl ->
    mapM (parse_files a) trl = Ok trl1 -> mapM (subtract a) trl1 = Ok trl2 ->
    Forall (parsed_once a) trl2 /\ Permutation (flat_map files_of trl2) (files_of x).
  Proof.
    intros D H1 H2 H3.
    assert (Forall (fun y => ds_done y = false) trl /\ Permutation (flat_map files_of trl) (files_of x)) as [K1 K2].
    { destruct (is_sscha t).
      - apply split_imag_list_done in H1. cbn in H1. now rewrite app_nil_r in H1.
      - injection H1 as <-. split; [repeat constructor; auto|]. cbn. now rewrite app_nil_r. }
    apply parse_list in H2; auto. destruct H2 as [P Q].
    apply subtract_list_done in H3.
    - subst. split; [eapply Forall_impl; [|exact P]; cbn; tauto|]. now rewrite (flat_files _ _ Q).
    - eapply Forall_impl; [|exact P]; cbn; tauto.
  Qed.

  Lemma from_single_train_test t inf ins w wimag a train test p q tr te :
    from_single t inf ins w wimag a (TrainTest train test) p q = Ok (tr, te) ->
    Forall (parsed_once a) (tr ++ te) /\
    Permutation (flat_map files_of tr) (fsort train) /\ Permutation (flat_map files_of te) (fsort test).
  Proof.
    unfold Dataset.from_single. intros H.
    destruct (new_ds t (Many (fsort train)) inf ins w None) as [x|] eqn:X; cbn [bind] in H; [|discriminate].
    destruct (new_ds t (Many (fsort test)) inf ins w None) as [y|] eqn:Y; cbn [bind] in H; [|discriminate].
    inv_ok. injection H as <- <-.
    apply new_done in X, Y. destruct X as [X1 [X2 _]], Y as [Y1 [Y2 _]].
    destruct (single_tail _ _ _ _ _ _ _ X1 E E1 E3) as [A1 A2].
    destruct (single_tail _ _ _ _ _ _ _ Y1 E0 E2 E4) as [B1 B2].
    unfold files_of in A2 at 2. unfold files_of in B2 at 2. rewrite X2 in A2. rewrite Y2 in B2.
    split; [apply Forall_app; auto|auto].
  Qed.

  Lemma from_single_files t inf ins w wimag a l p q tr te :
    (0 < q)%Z -> (0 <= p <= q)%Z ->
    from_single t inf ins w wimag a (Files l) p q = Ok (tr, te) ->
    Forall (parsed_once a) (tr ++ te) /\ Permutation (flat_map files_of (tr ++ te)) (fsort l).
  Proof.
    intros Hq Hp. unfold Dataset.from_single. intros H.
    destruct (new_ds t (Many (fsort l)) inf ins w None) as [x|] eqn:X; cbn [bind] in H; [|discriminate].
    apply new_done in X. destruct X as [X1 [X2 [X3 X4]]].
    destruct (split_files x p q) as [[u v]|] eqn:Sf; cbn [bind] in H; [|discriminate].
    unfold split_files in Sf. rewrite X4, X2 in Sf. destruct (is_phono3py (ds_type x)); [discriminate|].
    destruct (split_files_ids (fsort l) p q Hq Hp) as [i1 [i2 [ftr [fte [_ [Es [_ [_ P]]]]]]]].
    rewrite Es in Sf. cbn [bind] in Sf. revert H. inv_ok. injection Sf as <- <-.
    apply new_done in E, E0. destruct E as [D1 [F1 _]], E0 as [D2 [F2 _]].
    intros H. inv_ok. injection H as <- <-.
    destruct (single_tail _ _ _ _ _ _ _ D1 E E1 E3) as [A1 A2].
    destruct (single_tail _ _ _ _ _ _ _ D2 E0 E2 E4) as [B1 B2].
    split; [apply Forall_app; auto|].
    rewrite flat_map_app. rewrite A2, B2. unfold files_of. rewrite F1, F2. exact P.
  Qed.

  Notation shared_once := (shared_once wzero wsub wadd wscale s_natoms parse).

  Lemma map_some_layout els ef es (rs : list (rec W S)) d' :
    some_layout els ef es rs = Some d' -> d' = layout els ef es rs /\ rs <> [].
  Proof. destruct rs; [discriminate|]. intros [= <-]. split; [reflexivity|discriminate]. Qed.

  Lemma split_dft_parts x u v p q els ef es (rs : list (rec W S)) :
    (0 < q)%Z -> (0 <= p <= q)%Z -> Forall rec_ok rs ->
    ds_dft x = Some (layout els ef es rs) -> split_dft part_name x p q = Ok (u, v) ->
    exists tr te, Permutation (tr ++ te) rs /\
      ds_dft u = some_layout els ef es tr /\ ds_dft v = some_layout els ef es te /\
      ds_done u = false /\ ds_done v = false.
  Proof.
    intros Hq Hp Hok Hx. unfold split_dft. rewrite Hx.
    destruct (split_layout els ef es rs p q Hok Hq Hp) as [tr [te [E [_ P]]]]. rewrite E. cbn [bind].
    intros H. inv_ok. injection H as <- <-. apply new_done in E0, E1.
    exists tr, te. destruct E0 as [? [_ [_ ?]]], E1 as [? [_ [_ ?]]]. repeat split; assumption.
  Qed.

  (** One string: the parts are lowered a second time. *)
  Lemma from_single_string t inf ins w wimag a f p q tr te :
    is_sscha t = false -> (0 < q)%Z -> (0 <= p <= q)%Z ->
    from_single t inf ins w wimag a (OneString f) p q = Ok (tr, te) ->
    exists els ef es rs rtr rte u v,
      parse t (Single f) = Ok (layout els ef es rs) /\ Permutation (rtr ++ rte) rs /\
      tr = [u] /\ te = [v] /\
      ds_dft u = Some (layout els ef es (map (fun r => lower a (lower a r)) rtr)) /\
      ds_dft v = Some (layout els ef es (map (fun r => lower a (lower a r)) rte)).
  Proof.
    intros Ht Hq Hp. unfold Dataset.from_single. intros H.
    destruct (new_ds t (Single f) inf ins w None) as [x|] eqn:X; cbn [bind] in H; [|discriminate].
    apply new_done in X. destruct X as [X1 [X2 [X3 X4]]].
    destruct (parse_files a x) as [x1|] eqn:X5; cbn [bind] in H; [|discriminate].
    unfold Dataset.parse_files in X5. rewrite X2, X3 in X5.
    destruct (parse t (Single f)) as [d|] eqn:Pd; cbn [bind] in X5; [|discriminate].
    unfold Dataset.subtract in X5. cbn [with_dft ds_dft ds_done] in X5. rewrite X1 in X5.
    destruct (apply_ae a d) as [d1|] eqn:Ad; cbn [bind] in X5; [|discriminate]. injection X5 as <-.
    destruct (Hparse _ _ _ Pd) as [els [ef [es [rs [-> Hok]]]]]. apply apply_layout in Ad. subst d1.
    match type of H with context [split_dft _ ?y _ _] => destruct (split_dft part_name y p q) as [[u v]|] eqn:Sp end;
      cbn [bind] in H; [|discriminate].
    eapply split_dft_parts in Sp; [|exact Hq|exact Hp|apply rec_ok_lower, Hok|reflexivity].
    destruct Sp as [ltr [lte [P [Du [Dv [Fu Fv]]]]]]. rewrite Ht in H. cbn [bind mapM] in H. inv_ok.
    injection H as <- <-.
    assert (M : exists rtr rte, Permutation (rtr ++ rte) rs /\ ltr = map (lower a) rtr /\ lte = map (lower a) rte).
    { destruct (Permutation_map_inv _ _ P) as [l [El Pl]]. symmetry in El. apply map_eq_app in El.
      destruct El as [r1 [r2 [-> [<- <-]]]]. exists r1, r2. split; [now symmetry|auto]. }
    destruct M as [rtr [rte [Pr [-> ->]]]].
    assert (G : forall y z rr, ds_dft y = some_layout els ef es (map (lower a) rr) -> ds_done y = false ->
      subtract a y = Ok z -> ds_dft z = Some (layout els ef es (map (fun r => lower a (lower a r)) rr))).
    { clear. intros y z rr H1 H2 H. unfold Dataset.subtract in H. rewrite H1, H2 in H.
      destruct (some_layout els ef es (map (lower a) rr)) as [d|] eqn:Es; [|discriminate].
      apply map_some_layout in Es. destruct Es as [-> _]. inv_ok. injection H as <-.
      apply apply_layout in E. subst. rewrite map_map. reflexivity. }
    repeat match goal with K : bind _ _ = Ok _ |- _ => revert K end. intros. inv_ok.
    repeat match goal with K : Ok _ = Ok _ |- _ => injection K as <- end.
    exists els, ef, es, rs, rtr, rte. do 2 eexists. split; [reflexivity|]. split; [exact Pr|].
    split; [reflexivity|]. split; [reflexivity|]. split; eapply G; eassumption.
  Qed.

  Notation from_structures := (from_structures wzero wsub wadd wscale s_natoms part_name).

  Lemma subtract_layout a (x y : ds W S) els ef es rs :
    ds_done x = false -> ds_dft x = some_layout els ef es rs -> subtract a x = Ok y ->
    ds_dft y = Some (layout els ef es (map (lower a) rs)).
  Proof.
    intros H1 H2 H. unfold Dataset.subtract in H. rewrite H1, H2 in H.
    destruct (some_layout els ef es rs) as [d|] eqn:Es; [|discriminate].
    apply map_some_layout in Es. destruct Es as [-> _]. inv_ok. injection H as <-.
    apply apply_layout in E. now subst.
  Qed.

  Lemma from_structures_whole t inf ins w a els ef es rs p q tr te :
    (0 < q)%Z -> (0 <= p <= q)%Z -> Forall rec_ok rs ->
    from_structures t inf ins w a (Whole (layout els ef es rs)) p q = Ok (tr, te) ->
    exists rtr rte u v, Permutation (rtr ++ rte) rs /\ tr = [u] /\ te = [v] /\
      ds_dft u = Some (layout els ef es (map (lower a) rtr)) /\
      ds_dft v = Some (layout els ef es (map (lower a) rte)).
  Proof.
    intros Hq Hp Hok. unfold Dataset.from_structures. intros H.
    destruct (new_ds t (Single part_name) inf ins w _) as [x|] eqn:X; cbn [bind] in H; [|discriminate].
    apply new_done in X. destruct X as [X1 [X2 [X3 X4]]].
    destruct (split_dft part_name x p q) as [[u v]|] eqn:Sp; cbn [bind] in H; [|discriminate].
    eapply split_dft_parts in Sp; [|exact Hq|exact Hp|exact Hok|exact X4].
    destruct Sp as [rtr [rte [P [Du [Dv [Fu Fv]]]]]]. inv_ok. injection H as <- <-.
    exists rtr, rte. do 2 eexists. split; [exact P|]. split; [reflexivity|]. split; [reflexivity|].
    split; [apply (subtract_layout _ _ _ _ _ _ _ Fu Du E)|apply (subtract_layout _ _ _ _ _ _ _ Fv Dv E0)].
  Qed.

  Lemma from_structures_parts t inf ins w a els1 ef1 es1 rs1 els2 ef2 es2 rs2 p q tr te :
    from_structures t inf ins w a (Parts (layout els1 ef1 es1 rs1) (layout els2 ef2 es2 rs2)) p q = Ok (tr, te) ->
    exists u v, tr = [u] /\ te = [v] /\
      ds_dft u = Some (layout els1 ef1 es1 (map (lower a) rs1)) /\
      ds_dft v = Some (layout els2 ef2 es2 (map (lower a) rs2)).
  Proof.
    unfold Dataset.from_structures. intros H.
    destruct (new_ds t (Single part_name) inf ins w (Some (layout els1 ef1 es1 rs1))) as [x|] eqn:X; cbn [bind] in H; [|discriminate].
    destruct (new_ds t (Single part_name) inf ins w (Some (layout els2 ef2 es2 rs2))) as [y|] eqn:Y; cbn [bind] in H; [|discriminate].
    apply new_done in X, Y. destruct X as [X1 [X2 [X3 X4]]], Y as [Y1 [Y2 [Y3 Y4]]].
    assert (G : forall (y z : ds W S) els ef es rr, ds_dft y = Some (layout els ef es rr) -> ds_done y = false ->
      subtract a y = Ok z -> ds_dft z = Some (layout els ef es (map (lower a) rr))).
    { clear. intros y z els ef es rr H1 H2 H. unfold Dataset.subtract in H. rewrite H1, H2 in H.
      inv_ok. injection H as <-. apply apply_layout in E. now subst. }
    inv_ok. injection H as <- <-. do 2 eexists. split; [reflexivity|]. split; [reflexivity|].
    split; eapply G; eassumption.
  Qed.

  Notation from_lines := (from_lines wzero wsub wadd wscale wmul s_natoms parse imaginary part_name).

  Lemma classify_done p q lines : forall tr te ns,
    Forall (fun l : tag * ds W S => ds_done (snd l) = false) lines ->
    Forall (fun x => ds_done x = false) (tr ++ te ++ ns) ->
    let '(tr', te', ns') := fold_left (classify p q) lines (tr, te, ns) in
    Forall (fun x => ds_done x = false) (tr' ++ te' ++ ns').
  Proof.
    induction lines as [|[g x] lines IH]; intros tr te ns Hl Hd; [exact Hd|].
    inversion Hl as [|? ? Hx Hl']; subst. cbn in Hx. cbn [fold_left classify].
    rewrite !Forall_app in Hd. destruct Hd as [D1 [D2 D3]].
    destruct g; [| |destruct (split_files x p q) as [[u v]|] eqn:Sf|]; apply IH; auto; rewrite !Forall_app;
      repeat split; auto; repeat constructor; auto;
      unfold split_files in Sf; destruct (ds_dft x); try discriminate; destruct (is_phono3py _); try discriminate;
      destruct (ds_files x); try discriminate; inv_ok; injection Sf as <- <-; apply new_done in E0, E1; tauto.
  Qed.

  Lemma from_lines_once t wimag a lines p q tr te :
    (0 < q)%Z -> (0 <= p <= q)%Z ->
    Forall (fun l : tag * ds W S => ds_done (snd l) = false) lines ->
    from_lines t wimag a lines p q = Ok (tr, te) ->
    exists tr1 te1 parts, tr = tr1 ++ map fst parts /\ te = te1 ++ map snd parts /\
      Forall (parsed_once a) (tr1 ++ te1) /\ Forall (shared_once a) parts.
  Proof.
    intros Hq Hp Hl. unfold Dataset.from_lines.
    pose proof (classify_done p q lines [] [] [] Hl (Forall_nil _)) as C.
    destruct (fold_left (classify p q) lines ([], [], [])) as [[tr0 te0] ns0].
    rewrite !Forall_app in C. destruct C as [C1 [C2 C3]].
    intros H. inv_ok. injection H as <- <-.
    assert (D : forall xs ys, Forall (fun x : ds W S => ds_done x = false) xs ->
      (if is_sscha t then split_imag_list wmul imaginary wimag xs else Ok xs) = Ok ys ->
      Forall (fun x => ds_done x = false) ys).
    { intros xs ys Hx Hy. destruct (is_sscha t); [apply split_imag_list_done in Hy; tauto|congruence]. }
    apply D in E, E0; auto. apply parse_list in E1, E2, E3; auto.
    destruct E1 as [E1 _], E2 as [E2 _], E3 as [E3 _].
    exists a2, a3, a5. split; [reflexivity|]. split; [reflexivity|]. split.
    - apply Forall_app. split; eapply Forall_impl; [|exact E1| |exact E2]; cbn; tauto.
    - apply mapM_Forall2 in E4. clear E E0 E1 E2 C1 C2 C3 D.
      induction E4 as [|x [u v] xs uvs Hx _ IH]; [constructor|]. inversion E3 as [|? ? [Px _] E3']; subst.
      constructor; [|auto]. destruct Px as [els [ef [es [rs [Hok [P1 P2]]]]]].
      eapply split_dft_parts in Hx; [|exact Hq|exact Hp|apply rec_ok_lower, Hok|exact P2].
      destruct Hx as [ltr [lte [P [Du [Dv _]]]]].
      destruct (Permutation_map_inv _ _ P) as [l [El Pl]]. symmetry in El. apply map_eq_app in El.
      destruct El as [r1 [r2 [-> [<- <-]]]].
      exists (ds_type x), (ds_files x), els, ef, es, rs, r1, r2. cbn. split; [exact P1|]. split; [now symmetry|auto].
  Qed.

  Lemma history_once a (x y : ds W S) h : argsort_ok argsort ->
    ds_done x = false -> parse_files a x = Ok y ->
    forall z, run_touch wzero wsub wadd wscale s_natoms argsort h y = Ok z ->
    exists els ef es rs rs', parse (ds_type x) (ds_files x) = Ok (layout els ef es rs) /\
      Permutation rs' rs /\ ds_dft z = Some (layout els ef es (map (lower a) rs')).
  Proof.
    intros Ha Hd Hp z Hz. destruct (parse_files_once a x y Hd Hp) as [P [D [F T]]].
    destruct P as [els [ef [es [rs [Hok [P1 P2]]]]]]. rewrite F, T in P1.
    exists els, ef, es, rs. 
    assert (G : forall y rs1, Permutation rs1 rs -> ds_done y = true ->
      ds_dft y = Some (layout els ef es (map (lower a) rs1)) -> 
      run_touch wzero wsub wadd wscale s_natoms argsort h y = Ok z ->
      exists rs', Permutation rs' rs /\ ds_dft z = Some (layout els ef es (map (lower a) rs'))).
    { clear - Ha Hok. induction h as [|[|a'] h IH]; intros y rs1 Pr D Dy Hz; cbn [run_touch] in Hz.
      - injection Hz as <-. eauto.
      - unfold sort_dft in Hz. rewrite Dy in Hz.
        destruct rs1 as [|r rs1].
        + destruct (Ha []) as [Hq _]. cbn in Hq. apply Permutation_sym, Permutation_nil in Hq.
          unfold d_sort, take in Hz. cbn [map layout total_n_atoms] in Hz. rewrite Hq in Hz. discriminate.
        + destruct (sort_layout els ef es argsort Ha (map (lower a) (r :: rs1))) as [rs2 [E [P2 _]]].
          { apply rec_ok_lower. eapply Permutation_Forall; [symmetry; exact Pr|exact Hok]. }
          { discriminate. }
          rewrite E in Hz. cbn [bind] in Hz.
          destruct (Permutation_map_inv _ _ P2) as [l [-> Pl]].
          apply (IH (with_dft y (layout els ef es (map (lower a) l)) (ds_done y)) l); [|exact D|reflexivity|exact Hz].
          eapply Permutation_trans; [apply Permutation_sym; exact Pl|exact Pr].
      - unfold Dataset.subtract in Hz. rewrite Dy, D in Hz. cbn [bind] in Hz. eapply IH; eassumption. }
    destruct (G y rs (Permutation_refl _) D P2 Hz) as [rs' [G1 G2]]. exists rs'. auto.
  Qed.
End Load.
