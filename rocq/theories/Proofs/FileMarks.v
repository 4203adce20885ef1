From Verif Require Import Base Model.Split Model.Structure Model.DatasetDFT Model.Dataset Model.DatasetLines Model.Parser
  Spec.Dataset Spec.Load Spec.FileMarks Proofs.Split Proofs.Structure Proofs.StructureSpin Proofs.DatasetDFT Proofs.Dataset.


Lemma partition_map {X Y} (b : X -> bool) (f g : X -> Y) l :
  Permutation (map g (filter (fun x => negb (b x)) l) ++ map f (filter b l)) (map (fun x => if b x then f x else g x) l).
Proof.
  induction l as [|x l IH]; cbn; [constructor|]. destruct (b x); cbn.
  - rewrite <- Permutation_middle. now constructor.
  - now constructor.
Qed.

Section W.
  Context {W S : Type}.
  Variables (wzero : W) (wsub wadd : W -> W -> W) (wscale : nat -> W -> W).
  Variable wmul : W -> W -> W.
  Variable s_natoms : S -> list nat.
  Variable parse : dtype -> fileset -> res (dft W S).
  Variable imaginary : string -> bool.
  Variable fsort : list string -> list string.
  Variable part_name : string.
  Notation subtract := (subtract wzero wsub wadd wscale s_natoms).
  Notation parse_files := (parse_files wzero wsub wadd wscale s_natoms parse).
  Notation split_imag := (split_imag (S := S) wmul imaginary).
  Notation split_imag_list := (split_imag_list (S := S) wmul imaginary).
  Notation from_single := (from_single wzero wsub wadd wscale wmul s_natoms parse imaginary fsort part_name).
  Notation from_multiple := (from_multiple wzero wsub wadd wscale s_natoms parse fsort).
  Notation from_structures := (from_structures wzero wsub wadd wscale s_natoms part_name).
  Notation from_lines := (from_lines wzero wsub wadd wscale wmul s_natoms parse imaginary part_name).
  Notation marks_of := (marks_of wmul imaginary).
  Notation lines_marks := (lines_marks wmul imaginary).

  Lemma new_kept t f i s w d x : new_ds t f i s w d = Ok x ->
    ds_files (W := W) (S := S) x = f /\ ds_weight x = w /\ ds_force x = i /\ ds_stress x = s.
  Proof. unfold new_ds. destruct t, f; try discriminate; intros [= <-]; auto. Qed.

  Definition kept (x y : ds W S) : Prop := ds_files y = ds_files x /\ same_settings x y.

  Lemma subtract_kept a x y : subtract a x = Ok y -> kept x y.
  Proof.
    unfold Dataset.subtract. destruct (ds_dft x); [|discriminate]. destruct (ds_done x); intros H.
    - injection H as <-. repeat split.
    - inv_ok. injection H as <-. repeat split.
  Qed.
  Lemma parse_kept a x y : parse_files a x = Ok y -> kept x y.
  Proof. unfold Dataset.parse_files. intros H. inv_ok. apply subtract_kept in H. exact H. Qed.

  Lemma kept_marks x y : kept x y -> marks y = marks x.
  Proof. intros [H1 [H2 [H3 H4]]]. unfold marks, files_of. now rewrite H1, H2, H3, H4. Qed.
  Lemma kept_list (f : ds W S -> res (ds W S)) xs ys : (forall x y, f x = Ok y -> kept x y) ->
    mapM f xs = Ok ys -> Forall2 kept xs ys.
  Proof. intros K H. apply mapM_Forall2 in H. induction H; constructor; auto. Qed.
  Lemma kept_flat xs ys : Forall2 kept xs ys -> flat_map marks ys = flat_map marks xs.
  Proof. induction 1; cbn; [reflexivity|]. now rewrite (kept_marks _ _ H), IHForall2. Qed.

  (** The weights of a data set of type [t] before the imaginary files are set apart. *)
  Definition split_marks (t : dtype) (wimag : W) (x : ds W S) : list (marked W) :=
    marks_of t wimag (ds_weight x) (ds_force x) (ds_stress x) (files_of x).

  Lemma split_imag_marks wimag x ys : split_imag wimag x = Ok ys ->
    Permutation (flat_map marks ys) (split_marks Sscha wimag x).
  Proof.
    unfold Dataset.split_imag, split_marks, FileMarks.marks_of, files_of. destruct (ds_files x) as [|l]; [discriminate|]. intros H.
    pose proof (partition_map imaginary (fun f => (f, wmul (ds_weight x) wimag, ds_force x, ds_stress x))
                  (fun f => (f, ds_weight x, ds_force x, ds_stress x)) l) as P.
    replace (map (fun f => (f, weigh wmul imaginary Sscha wimag (ds_weight x) f, ds_force x, ds_stress x)) l)
      with (map (fun f => if imaginary f then (f, wmul (ds_weight x) wimag, ds_force x, ds_stress x)
                          else (f, ds_weight x, ds_force x, ds_stress x)) l)
      by (apply map_ext; intros f; cbn; now destruct (imaginary f)).
    rewrite <- P. clear P.
    destruct (filter (fun f => negb (imaginary f)) l) as [|n no] eqn:En;
      destruct (filter imaginary l) as [|i im] eqn:Ei; cbn [bind] in H; inv_ok;
      repeat match goal with G : Ok _ = Ok _ |- _ => injection G as <- end;
      repeat match goal with G : new_ds _ _ _ _ _ _ = Ok _ |- _ => apply new_kept in G; destruct G as [? [? [? ?]]] end;
      cbn [flat_map app]; unfold marks, files_of;
      repeat match goal with G : ?p _ = _ |- _ => rewrite G; clear G end;
      rewrite ?app_nil_r; reflexivity.
  Qed.

  Lemma split_any t wimag xs ys :
    (if is_sscha t then split_imag_list wimag xs else Ok xs) = Ok ys ->
    Permutation (flat_map marks ys) (flat_map (split_marks t wimag) xs).
  Proof.
    destruct (is_sscha t) eqn:T.
    - destruct t; try discriminate. unfold Dataset.split_imag_list. intros H. inv_ok. injection H as <-.
      apply mapM_Forall2 in E. induction E as [|x l xs ll Hx _ IH]; [constructor|]. cbn.
      rewrite flat_map_app. apply Permutation_app; [now apply split_imag_marks|exact IH].
    - intros [= <-]. destruct t; try discriminate; reflexivity.
  Qed.

  Lemma tail_marks t wimag a x trl trl1 trl2 :
    (if is_sscha t then split_imag_list wimag [x] else Ok [x]) = Ok trl ->
    mapM (parse_files a) trl = Ok trl1 -> mapM (subtract a) trl1 = Ok trl2 ->
    Permutation (flat_map marks trl2) (split_marks t wimag x).
  Proof.
    intros H1 H2 H3. apply split_any in H1. cbn in H1. rewrite app_nil_r in H1. rewrite <- H1.
    apply (kept_list _ _ _ (parse_kept a)), kept_flat in H2.
    apply (kept_list _ _ _ (subtract_kept a)), kept_flat in H3. now rewrite H3, H2.
  Qed.

  Lemma split_marks_new t wimag t' l i s w d x : new_ds t' (Many l) i s w d = Ok x ->
    split_marks t wimag x = marks_of t wimag w i s l.
  Proof. intros H. apply new_kept in H. unfold split_marks, files_of. now destruct H as [-> [-> [-> ->]]]. Qed.

  Lemma single_train_test_marks t inf ins w wimag a train test p q tr te :
    from_single t inf ins w wimag a (TrainTest train test) p q = Ok (tr, te) ->
    Permutation (flat_map marks tr) (marks_of t wimag w inf ins (fsort train)) /\
    Permutation (flat_map marks te) (marks_of t wimag w inf ins (fsort test)).
  Proof.
    unfold Dataset.from_single. intros H.
    destruct (new_ds t (Many (fsort train)) inf ins w None) as [x|] eqn:X; cbn [bind] in H; [|discriminate].
    destruct (new_ds t (Many (fsort test)) inf ins w None) as [y|] eqn:Y; cbn [bind] in H; [|discriminate].
    inv_ok. injection H as <- <-.
    rewrite <- (split_marks_new _ _ _ _ _ _ _ _ _ X), <- (split_marks_new _ _ _ _ _ _ _ _ _ Y).
    split; eapply tail_marks; eassumption.
  Qed.

  Lemma split_files_marks t wimag (x u v : ds W S) p q : (0 < q)%Z -> (0 <= p <= q)%Z ->
    split_files x p q = Ok (u, v) ->
    Permutation (split_marks t wimag u ++ split_marks t wimag v) (split_marks t wimag x).
  Proof.
    intros Hq Hp. unfold split_files. destruct (ds_dft x); [discriminate|].
    destruct (is_phono3py (ds_type x)); [discriminate|]. destruct (ds_files x) as [|l] eqn:Fx; [discriminate|].
    destruct (split_files_ids l p q Hq Hp) as [i1 [i2 [ftr [fte [_ [-> [_ [_ P]]]]]]]]. cbn [bind]. intros H. inv_ok.
    injection H as <- <-. rewrite (split_marks_new _ _ _ _ _ _ _ _ _ E), (split_marks_new _ _ _ _ _ _ _ _ _ E0).
    unfold split_marks, files_of. rewrite Fx. unfold FileMarks.marks_of. rewrite <- map_app. now apply Permutation_map.
  Qed.

  Lemma single_files_marks t inf ins w wimag a l p q tr te :
    (0 < q)%Z -> (0 <= p <= q)%Z ->
    from_single t inf ins w wimag a (Files l) p q = Ok (tr, te) ->
    Permutation (flat_map marks (tr ++ te)) (marks_of t wimag w inf ins (fsort l)).
  Proof.
    intros Hq Hp. unfold Dataset.from_single. intros H.
    destruct (new_ds t (Many (fsort l)) inf ins w None) as [x|] eqn:X; cbn [bind] in H; [|discriminate].
    destruct (split_files x p q) as [[u v]|] eqn:Sf; cbn [bind] in H; [|discriminate].
    inv_ok. injection H as <- <-.
    rewrite <- (split_marks_new _ _ _ _ _ _ _ _ _ X), flat_map_app.
    rewrite <- (split_files_marks _ _ _ _ _ _ _ Hq Hp Sf).
    apply Permutation_app; eapply tail_marks; eassumption.
  Qed.

  Lemma split_dft_kept (x u v : ds W S) p q : split_dft part_name x p q = Ok (u, v) ->
    same_settings x u /\ same_settings x v.
  Proof.
    unfold split_dft. destruct (ds_dft x); [|discriminate]. intros H. inv_ok. injection H as <- <-.
    apply new_kept in E0, E1. unfold same_settings. intuition congruence.
  Qed.

  Lemma single_string_settings t inf ins w wimag a f p q tr te : is_sscha t = false ->
    from_single t inf ins w wimag a (OneString f) p q = Ok (tr, te) ->
    Forall (fun x => ds_weight x = w /\ ds_force x = inf /\ ds_stress x = ins) (tr ++ te) /\ length tr = 1 /\ length te = 1.
  Proof.
    intros Ht. unfold Dataset.from_single. rewrite Ht. intros H.
    destruct (new_ds t (Single f) inf ins w None) as [x|] eqn:X; cbn [bind] in H; [|discriminate].
    destruct (parse_files a x) as [x1|] eqn:P; cbn [bind] in H; [|discriminate].
    destruct (split_dft part_name x1 p q) as [[u v]|] eqn:Sp; cbn [bind] in H; [|discriminate].
    inv_ok. injection H as <- <-.
    repeat match goal with K : Ok _ = Ok _ |- _ => injection K as <- end.
    apply new_kept in X. apply parse_kept in P. apply split_dft_kept in Sp.
    apply (kept_list _ _ _ (subtract_kept a)) in E, E0.
    inversion E as [|? u' ? ? Ku E']; subst. inversion E'; subst.
    inversion E0 as [|? v' ? ? Kv E0']; subst. inversion E0'; subst.
    destruct Sp as [Su Sv]. unfold kept, same_settings in *. cbn. split; [|auto].
    repeat constructor; intuition congruence.
  Qed.

  Lemma structures_settings t inf ins w a src p q tr te :
    from_structures t inf ins w a src p q = Ok (tr, te) ->
    Forall (fun x => ds_weight x = w /\ ds_force x = inf /\ ds_stress x = ins) (tr ++ te) /\ length tr = 1 /\ length te = 1.
  Proof.
    unfold Dataset.from_structures. intros H.
    assert (K : exists u v, subtract a u = Ok (hd v tr) /\ subtract a v = Ok (hd u te) /\ length tr = 1 /\ length te = 1 /\
      (ds_weight u = w /\ ds_force u = inf /\ ds_stress u = ins) /\ (ds_weight v = w /\ ds_force v = inf /\ ds_stress v = ins)).
    { destruct src as [d|d1 d2].
      - destruct (new_ds t (Single part_name) inf ins w (Some d)) as [x|] eqn:X; cbn [bind] in H; [|discriminate].
        destruct (split_dft part_name x p q) as [[u v]|] eqn:Sp; cbn [bind] in H; [|discriminate].
        inv_ok. injection H as <- <-. apply new_kept in X. apply split_dft_kept in Sp. exists u, v.
        unfold same_settings in Sp. cbn. intuition congruence.
      - destruct (new_ds t (Single part_name) inf ins w (Some d1)) as [u|] eqn:X; cbn [bind] in H; [|discriminate].
        destruct (new_ds t (Single part_name) inf ins w (Some d2)) as [v|] eqn:Y; cbn [bind] in H; [|discriminate].
        inv_ok. injection H as <- <-. apply new_kept in X, Y. exists u, v. cbn. intuition congruence. }
    destruct K as [u [v [K1 [K2 [L1 [L2 [K3 K4]]]]]]].
    destruct tr as [|x [|]]; try discriminate. destruct te as [|y [|]]; try discriminate. cbn in K1, K2.
    apply subtract_kept in K1, K2. unfold kept, same_settings in *. split; [|auto].
    cbn. repeat constructor; intuition congruence.
  Qed.

  Lemma multiple_marks t inf ins w a train test tr te :
    from_multiple t inf ins w a train test = Ok (tr, te) ->
    map marks tr = map (fun l => map (fun f => (f, w, inf, ins)) (fsort l)) train /\
    map marks te = map (fun l => map (fun f => (f, w, inf, ins)) (fsort l)) test.
  Proof.
    unfold Dataset.from_multiple. intros H. inv_ok. injection H as <- <-.
    assert (N : forall l xs, mapM (fun f => new_ds t (Many (fsort f)) inf ins w None) l = Ok xs ->
      map (marks (S := S)) xs = map (fun l => map (fun f => (f, w, inf, ins)) (fsort l)) l).
    { intros l xs F. apply mapM_Forall2 in F. induction F as [|f x l xs Fx _ IH]; [reflexivity|].
      cbn. rewrite IH. f_equal. apply new_kept in Fx. unfold marks, files_of. now destruct Fx as [-> [-> [-> ->]]]. }
    apply N in E, E0. rewrite <- E, <- E0. clear N E E0.
    apply (kept_list _ _ _ (parse_kept a)) in E1, E2.
    assert (M : forall xs ys, Forall2 kept xs ys -> map marks ys = map marks xs).
    { induction 1; cbn; [reflexivity|]. now rewrite (kept_marks _ _ H), IHForall2. }
    split; apply M; assumption.
  Qed.

  (** * Lines of the input file *)

  (** A line as the parser makes it: not read yet, of the type of the run. *)
  Definition fresh (t : dtype) (l : tag * ds W S) : Prop :=
    ds_dft (snd l) = None /\ ds_type (snd l) = t /\
    match ds_files (snd l) with Many _ => is_phono3py t = false | Single _ => is_phono3py t = true end.

  Lemma split_files_total (x : ds W S) l p q : (0 < q)%Z -> (0 <= p <= q)%Z -> ds_dft x = None ->
    is_phono3py (ds_type x) = false -> ds_files x = Many l -> exists u v, split_files x p q = Ok (u, v).
  Proof.
    intros Hq Hp D T Fx. unfold split_files. rewrite D, T, Fx.
    destruct (split_files_ids l p q Hq Hp) as [i1 [i2 [ftr [fte [_ [-> _]]]]]]. cbn [bind].
    destruct (ds_type x); try discriminate; cbn; eauto.
  Qed.

  Notation sm := split_marks.
  Lemma classify_marks t wimag p q lines : (0 < q)%Z -> (0 <= p <= q)%Z -> Forall (fresh t) lines ->
    forall tr te ns,
    let '(tr', te', ns') := fold_left (classify p q) lines (tr, te, ns) in
    ns' = ns ++ map snd (filter whole_line lines) /\
    exists dtr dte,
      Permutation (dtr ++ dte) (lines_marks t wimag (filter (fun l => has_tag Data l && negb (whole_line l)) lines)) /\
      Permutation (flat_map (sm t wimag) tr') (flat_map (sm t wimag) tr ++ lines_marks t wimag (filter (has_tag TrainData) lines) ++ dtr) /\
      Permutation (flat_map (sm t wimag) te') (flat_map (sm t wimag) te ++ lines_marks t wimag (filter (has_tag TestData) lines) ++ dte).
  Proof.
    intros Hq Hp. induction lines as [|[g x] lines IH]; intros Hl tr te ns.
    - cbn. rewrite !app_nil_r. split; [reflexivity|]. exists [], []. cbn. rewrite !app_nil_r. repeat split; constructor || reflexivity.
    - inversion Hl as [|? ? Hx Hl']; subst. specialize (IH Hl'). cbn [fold_left classify].
      assert (R : forall ll : list (tag * ds W S), lines_marks t wimag ((g, x) :: ll) = sm t wimag x ++ lines_marks t wimag ll) by reflexivity.
      destruct g.
      + specialize (IH (tr ++ [x]) te ns). destruct (fold_left (classify p q) lines _) as [[tr' te'] ns'].
        cbn [filter whole_line has_tag fst andb]. destruct IH as [-> [dtr [dte [P1 [P2 P3]]]]]. split; [reflexivity|].
        exists dtr, dte. split; [exact P1|]. split; [|exact P3]. rewrite P2, R, flat_map_app. cbn [flat_map].
        rewrite app_nil_r, <- !app_assoc. reflexivity.
      + specialize (IH tr (te ++ [x]) ns). destruct (fold_left (classify p q) lines _) as [[tr' te'] ns'].
        cbn [filter whole_line has_tag fst andb]. destruct IH as [-> [dtr [dte [P1 [P2 P3]]]]]. split; [reflexivity|].
        exists dtr, dte. split; [exact P1|]. split; [exact P2|]. rewrite P3, R, flat_map_app. cbn [flat_map].
        rewrite app_nil_r, <- !app_assoc. reflexivity.
      + destruct Hx as [Hd [Ht Hf]]. cbn [snd] in Hd, Ht, Hf.
        cbn [filter whole_line has_tag fst snd andb]. destruct (ds_files x) as [f|l] eqn:Fx.
        * assert (Sf : exists e, split_files x p q = Err e).
          { unfold split_files. rewrite Hd, Ht, Hf. eauto. }
          destruct Sf as [e ->]. specialize (IH tr te (ns ++ [x])). destruct (fold_left (classify p q) lines _) as [[tr' te'] ns'].
          destruct IH as [-> [dtr [dte [P1 [P2 P3]]]]]. split; [now rewrite <- app_assoc|]. cbn [negb].
          exists dtr, dte. auto.
        * destruct (split_files_total x l p q Hq Hp Hd) as [u [v Sf]]; [congruence|exact Fx|]. rewrite Sf.
          specialize (IH (tr ++ [u]) (te ++ [v]) ns). destruct (fold_left (classify p q) lines _) as [[tr' te'] ns'].
          destruct IH as [-> [dtr [dte [P1 [P2 P3]]]]]. split; [reflexivity|]. cbn [negb].
          exists (sm t wimag u ++ dtr), (sm t wimag v ++ dte). split; [|split].
          -- rewrite R, <- P1, <- (split_files_marks t wimag x u v p q Hq Hp Sf), <- !app_assoc.
             apply Permutation_app_head. rewrite !app_assoc. apply Permutation_app_tail, Permutation_app_comm.
          -- rewrite P2, flat_map_app. cbn [flat_map]. rewrite app_nil_r, <- !app_assoc. apply Permutation_app_head.
             rewrite !app_assoc. apply Permutation_app_tail, Permutation_app_comm.
          -- rewrite P3, flat_map_app. cbn [flat_map]. rewrite app_nil_r, <- !app_assoc. apply Permutation_app_head.
             rewrite !app_assoc. apply Permutation_app_tail, Permutation_app_comm.
      + specialize (IH tr te (ns ++ [x])). destruct (fold_left (classify p q) lines _) as [[tr' te'] ns'].
        cbn [filter whole_line has_tag fst snd andb map]. destruct IH as [-> [dtr [dte [P1 [P2 P3]]]]].
        split; [now rewrite <- app_assoc|]. exists dtr, dte. auto.
  Qed.

  Lemma from_lines_marks t wimag a lines p q tr te :
    (0 < q)%Z -> (0 <= p <= q)%Z -> Forall (fresh t) lines ->
    from_lines t wimag a lines p q = Ok (tr, te) ->
    exists tr1 te1 parts dtr dte, tr = tr1 ++ map fst parts /\ te = te1 ++ map snd parts /\
      Permutation (dtr ++ dte) (lines_marks t wimag (filter (fun l => has_tag Data l && negb (whole_line l)) lines)) /\
      Permutation (flat_map marks tr1) (lines_marks t wimag (filter (has_tag TrainData) lines) ++ dtr) /\
      Permutation (flat_map marks te1) (lines_marks t wimag (filter (has_tag TestData) lines) ++ dte) /\
      Forall2 (fun l uv => same_settings (snd l) (fst uv) /\ same_settings (snd l) (snd uv))
              (filter whole_line lines) parts.
  Proof.
    intros Hq Hp Hl. unfold Dataset.from_lines.
    pose proof (classify_marks t wimag p q lines Hq Hp Hl [] [] []) as C.
    destruct (fold_left (classify p q) lines ([], [], [])) as [[tr0 te0] ns0].
    destruct C as [-> [dtr [dte [P1 [P2 P3]]]]]. intros H. inv_ok. injection H as <- <-.
    apply split_any in E, E0. apply (kept_list _ _ _ (parse_kept a)) in E1, E2, E3.
    apply kept_flat in E1, E2. apply mapM_Forall2 in E4.
    exists a2, a3, a5, dtr, dte. do 2 (split; [reflexivity|]). split; [exact P1|].
    split; [now rewrite E1, E, P2|]. split; [now rewrite E2, E0, P3|].
    clear P1 P2 P3 E E0 E1 E2. cbn [app] in E3. revert a4 a5 E3 E4.
    induction (filter whole_line lines) as [|l ls IH]; cbn; intros ns2 parts E3 E4.
    - inversion E3; subst. inversion E4; subst. constructor.
    - inversion E3 as [|? y ? ys Ky E3']; subst. inversion E4 as [|? [u v] ? uvs Su E4']; subst.
      constructor; [|eauto]. apply split_dft_kept in Su. destruct Ky as [_ Ky], Su as [Su Sv].
      unfold same_settings in *. cbn. intuition congruence.
  Qed.

  Variables (wone : W) (globbed : string -> list string) (float_of : string -> res W).
  Notation line_ds := (line_ds (S := S) wone globbed float_of).

  Lemma line_listed t prefix pf ps words x : is_phono3py t = false ->
    line_ds t prefix pf ps words = Ok x ->
    exists f, hd_error words = Some f /\
    listed_line wone globbed float_of (located prefix f) words pf ps x /\ fresh t (Data, x) /\ ds_done x = false.
  Proof.
    intros T. unfold DatasetLines.line_ds, ds_of_strings. rewrite T.
    destruct words as [|f ws]; [discriminate|]. intros H.
    exists f. split; [reflexivity|]. unfold listed_line.
    destruct ws as [|s ws]; [|destruct ws as [|n ws]]; cbn [bind] in H; inv_ok; injection H as <-;
      repeat match goal with K : Ok _ = Ok _ |- _ => injection K as <- end;
      (split; [|split; [|destruct pf, ps; reflexivity]]);
      try (destruct pf, ps; repeat split; cbn; assumption).
    - exists true. destruct pf, ps; cbn; auto.
    - exists a0. destruct pf, ps, a0; cbn; auto.
    - exists a0. destruct pf, ps, a0; cbn; auto.
  Qed.

  Lemma line_phono3py prefix pf ps words x :
    line_ds Phono3py prefix pf ps words = Ok x ->
    exists f, hd_error words = Some f /\ ds_files x = Single (located prefix f) /\
      ds_force x = pf /\ ds_stress x = ps /\ ds_weight x = wone /\ fresh Phono3py (Data, x) /\ ds_done x = false.
  Proof.
    unfold DatasetLines.line_ds, ds_of_strings. cbn [is_phono3py].
    destruct words as [|f ws]; [discriminate|]. cbn [bind]. intros [= <-].
    exists f. split; [reflexivity|]. destruct pf, ps; cbn; repeat split.
  Qed.
End W.
