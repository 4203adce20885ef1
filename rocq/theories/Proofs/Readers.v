(** Lemmas on the readers of output files. *)
From Verif Require Import Base Num Model.Structure Model.Readers Spec.Readers Proofs.Structure.
From Coq Require String.
Import String.StringSyntax.
Local Open Scope string_scope.
Local Open Scope list_scope.
Local Open Scope nat_scope.

Section Readers.
  Context {F : Type} {N : Num F} {NO : NumOrd F} {P A : Type}.
  Notation structure := (structure P A F).
  Notation vasprun := (vasprun (F := F) (P := P) (A := A)).
  Notation calc := (calc (F := F) (P := P) (A := A)).
  Notation sample := (sample (F := F) (P := P) (A := A)).
  Notation lists := (lists (F := F) (P := P) (A := A)).

  Lemma bind_Ok {X Y} (m : res X) (f : X -> res Y) y : bind m f = Ok y <-> exists x, m = Ok x /\ f x = Ok y.
  Proof. destruct m as [x|e]; cbn; split; [eauto|intros (x' & H & E); now injection H as ->|discriminate|intros (x' & H & _); discriminate]. Qed.
  Lemma some_Ok {X} e (o : option X) x : some e o = Ok x <-> o = Some x.
  Proof. destruct o; cbn; split; congruence. Qed.
  Lemma checked_Ok (st st' : structure) : checked st = Ok st' <-> st' = st /\ consistent st.
  Proof.
    unfold checked, consistent, py_assert. destruct (Nat.eqb_spec (length (positions st)) (length (elements st))); cbn [bind]; [|split; [discriminate|intuition lia]].
    destruct (Nat.eqb_spec (length (elements st)) (length (types st))); cbn [bind]; [|split; [discriminate|intuition lia]].
    destruct (Nat.eqb_spec (length (elements st)) (sum (n_atoms st))); cbn [bind]; [|split; [discriminate|intuition lia]]. split; [intros H; injection H as <-; intuition lia|intros [-> _]; reflexivity].
  Qed.
  Lemma cell_structure_Ok (x : vasprun) name c st : cell_structure x name c = Ok st <-> structure_of x name c st.
  Proof.
    destruct c as [[ax pos] vol]. unfold cell_structure. rewrite checked_Ok. unfold structure_of, consistent. cbn [fst snd]. split.
    - intros (-> & H). cbn [axis positions volume Structure.name n_atoms elements types] in *. do 5 (split; [reflexivity|]). split; [|split; [|exact H]].
      + clear. induction (x_elements x) as [|e l IH]; constructor; [|exact IH]. unfold fix_zr. destruct (String.eqb_spec e "r"); [left|right]; auto.
      + clear. induction (x_types x) as [|t l IH]; constructor; [lia|exact IH].
    - destruct st as [ax' pos' na' el' ty' vol' nm']. cbn [axis positions volume Structure.name n_atoms elements types]. intros (-> & -> & -> & -> & -> & HE & HT & HC).
      assert (EE : el' = map fix_zr (x_elements x)). { clear -HE. induction HE as [|e e' l l' H HE IH]; [reflexivity|]. cbn [map]. f_equal; [|exact IH]. unfold fix_zr. destruct (String.eqb_spec e "r"); destruct H as [[? ?]|[? ?]]; congruence. }
      assert (ET : ty' = map (fun t => (t - 1)%Z) (x_types x)). { clear -HT. induction HT as [|e e' l l' H HE IH]; [reflexivity|]. cbn [map]. f_equal; [lia|exact IH]. }
      subst. auto.
  Qed.
  Lemma mapM_Ok_iff {X Y} (f : X -> res Y) l ys : mapM f l = Ok ys <-> Forall2 (fun x y => f x = Ok y) l ys.
  Proof.
    revert ys. induction l as [|a l IH]; intros ys; cbn [mapM].
    - split; [intros H; injection H as <-; constructor|intros H; inversion H; reflexivity].
    - rewrite bind_Ok. split.
      + intros (y & E1 & E2). apply bind_Ok in E2. destruct E2 as (ys' & E2 & E3). injection E3 as <-. constructor; [exact E1|now apply IH].
      + intros H. inversion H as [|? y ? ys' H1 H2]. subst. exists y. split; [exact H1|]. apply bind_Ok. exists ys'. split; [now apply IH|reflexivity].
  Qed.
  Lemma find_first_Some {X} (f : calc -> option X) l v : find_first f l = Some v <-> first_having f l v.
  Proof.
    induction l as [|c l IH]; cbn [find_first].
    - split; [discriminate|]. intros (l1 & c & l2 & H & _). destruct l1; discriminate.
    - destruct (f c) as [x|] eqn:E.
      + split.
        * intros H. injection H as ->. exists [], c, l. auto.
        * intros (l1 & c' & l2 & H & HF & HV). destruct l1 as [|c0 l1]; [injection H as -> ->; congruence|]. injection H as -> ->. inversion HF. congruence.
      + rewrite IH. split.
        * intros (l1 & c' & l2 & -> & HF & HV). exists (c :: l1), c', l2. auto.
        * intros (l1 & c' & l2 & H & HF & HV). destruct l1 as [|c0 l1]; [injection H as -> ->; congruence|]. injection H as -> ->. inversion HF. subst. exists l1, c', l2. auto.
  Qed.
  Lemma is_md_true (x : vasprun) : is_md x = true <-> x_ibrion x = Some 0%Z.
  Proof. unfold is_md. destruct (x_ibrion x) as [i|]; [|split; discriminate]. rewrite Z.eqb_eq. split; congruence. Qed.
  Lemma is_convergent_false tol (x : vasprun) : is_convergent tol x = false <-> not_converged tol x.
  Proof.
    unfold is_convergent, not_converged. destruct (x_calcs x) as [|c cs]; [split; [discriminate|intros (c & cs & es & e2 & e1 & H & _); discriminate]|].
    assert (S : forall es, mapM (some AttributeError) (c_steps c) = Ok es <-> c_steps c = map Some es).
    { intros es. rewrite mapM_Ok_iff. split; intros H.
      - induction H as [|o e l l' H1 H2 IH]; [reflexivity|]. cbn. f_equal; [now apply some_Ok in H1|exact IH].
      - rewrite H. clear. induction es as [|e es IH]; constructor; [reflexivity|exact IH]. }
    destruct (mapM (some AttributeError) (c_steps c)) as [es|e] eqn:E.
    - pose proof (proj1 (S es) eq_refl) as S1. split.
      + destruct (rev es) as [|e1 [|e2 r]] eqn:R; try discriminate. intros H. exists c, cs, (rev r), e2, e1. split; [reflexivity|]. split; [|exact H]. rewrite S1. f_equal. rewrite <- (rev_involutive es), R. cbn. now rewrite <- app_assoc.
      + intros (c' & cs' & es' & e2 & e1 & H & H1 & H2). injection H as <- <-. rewrite S1 in H1.
        assert (EQ : es = es' ++ [e2; e1]). { clear -H1. revert H1. generalize (es' ++ [e2; e1]). induction es as [|a es IH]; intros [|b l] H; try discriminate; [reflexivity|]. cbn in H. injection H as -> H. f_equal. now apply IH. }
        rewrite EQ, rev_app_distr. cbn. exact H2.
    - split; [discriminate|]. intros (c' & cs' & es' & e2 & e1 & H & H1 & H2). injection H as <- <-. apply S in H1. discriminate.
  Qed.

  Definition append (s : lists) (rs : list sample) : lists :=
    mk_lists (l_structures s ++ map s_structure rs) (l_energies s ++ map s_energy rs) (l_forces s ++ map s_force rs) (l_stresses s ++ map s_stress rs).
  Lemma append_append s rs rs' : append (append s rs) rs' = append s (rs ++ rs').
  Proof. unfold append. cbn [l_structures l_energies l_forces l_stresses]. rewrite !map_app, !app_assoc. reflexivity. Qed.
  Lemma append_nil s : append s [] = s.
  Proof. unfold append. cbn [map]. rewrite !app_nil_r. now destruct s. Qed.
  Lemma append_none rs : append no_lists rs = lists_of rs.
  Proof. reflexivity. Qed.

  (** ** VASP *)
  Section Vasp.
  Variables (parse : string -> res vasprun) (tol kbar : F).
  Lemma md_samples (x : vasprun) name sts es fs ss :
    (m_structures x name = Ok sts /\ m_energies x = Ok es /\ m_forces x = Ok fs /\ m_stresses x = Ok ss) <->
    exists rs, Forall2 (calc_sample kbar x name) (x_calcs x) rs /\ sts = map s_structure rs /\ es = map s_energy rs /\ fs = map s_force rs /\
      map (fun p => to_ev kbar (fst p) (volume (snd p))) (combine ss sts) = map s_stress rs /\ Forall2 (fun c t => c_stress c = Some t) (x_calcs x) ss.
  Proof.
    unfold m_structures, m_energies, m_forces, m_stresses. rewrite !mapM_Ok_iff. revert sts es fs ss. induction (x_calcs x) as [|c l IH]; intros sts es fs ss.
    - split.
      + intros (H1 & H2 & H3 & H4). inversion H1. inversion H2. inversion H3. inversion H4. exists []. repeat split; constructor.
      + intros (rs & H & -> & -> & -> & _ & H4). inversion H. inversion H4. cbn. repeat split; constructor.
    - split.
      + intros (H1 & H2 & H3 & H4). inversion H1 as [|? st ? sts' S1 H1']. inversion H2 as [|? e ? es' S2 H2']. inversion H3 as [|? f ? fs' S3 H3']. inversion H4 as [|? t ? ss' S4 H4']. subst.
        destruct (proj1 (IH sts' es' fs' ss') (Logic.conj H1' (Logic.conj H2' (Logic.conj H3' H4')))) as (rs & R1 & -> & -> & -> & R5 & R6).
        apply some_Ok in S2. apply some_Ok in S3. apply some_Ok in S4. apply bind_Ok in S1. destruct S1 as (cell & S1 & S1'). apply some_Ok in S1. apply cell_structure_Ok in S1'.
        exists (mk_sample st e f (to_ev kbar t (volume st)) :: rs). cbn [map s_structure s_energy s_force s_stress combine fst snd]. split; [constructor; [|exact R1]|].
        * exists cell, t. cbn [s_structure s_energy s_force s_stress]. auto 10.
        * do 3 (split; [reflexivity|]). split; [now rewrite R5|]. constructor; assumption.
      + intros (rs & H & -> & -> & -> & H5 & H6). inversion H as [|? r ? rs' (cell & t & C1 & C2 & C3 & C4 & C5 & C6) R]. subst. inversion H6 as [|? t' ? ss' T1 T2]. subst. cbn [map combine] in *.
        assert (H5' := f_equal (@tl _) H5). cbn [tl] in H5'.
        destruct (proj2 (IH (map s_structure rs') (map s_energy rs') (map s_force rs') ss')) as (I1 & I2 & I3 & I4); [exists rs'; auto 10|].
        repeat split; constructor; auto; [|now rewrite C3|now rewrite C4|now rewrite T1]. rewrite C1. cbn. now apply cell_structure_Ok.
  Qed.
  Lemma read_vasprun_Ok s file s' : read_vasprun parse tol kbar s file = Ok s' <->
    exists x rs, parse file = Ok x /\ file_samples tol kbar x file rs /\ s' = append s rs.
  Proof.
    unfold read_vasprun. rewrite bind_Ok. split.
    - intros (x & EP & H). exists x. destruct (is_md x) eqn:MD.
      + apply is_md_true in MD. apply bind_Ok in H. destruct H as (sts & H1 & H). apply bind_Ok in H. destruct H as (es & H2 & H). apply bind_Ok in H. destruct H as (fs & H3 & H). apply bind_Ok in H. destruct H as (ss & H4 & H).
        destruct (proj1 (md_samples x file sts es fs ss) (Logic.conj H1 (Logic.conj H2 (Logic.conj H3 H4)))) as (rs & R1 & -> & -> & -> & R5 & _). exists rs. split; [exact EP|]. split; [now apply dynamics|]. rewrite R5 in H. symmetry. injection H as <-. reflexivity.
      + assert (NM : x_ibrion x <> Some 0%Z) by (rewrite <- is_md_true, MD; discriminate). rewrite EP in H. destruct (is_convergent tol x) eqn:CV.
        * assert (NC : ~ not_converged tol x) by (rewrite <- is_convergent_false, CV; discriminate). apply bind_Ok in H. destruct H as (st & H1 & H). apply bind_Ok in H. destruct H as (e & H2 & H). apply bind_Ok in H. destruct H as (f & H3 & H). apply bind_Ok in H. destruct H as (t & H4 & H).
          exists [mk_sample st e f (to_ev kbar t (volume st))]. split; [exact EP|]. split; [apply static; auto|injection H as <-; reflexivity].
          unfold v_structure in H1. apply bind_Ok in H1. destruct H1 as (cell & H1 & H1'). apply some_Ok in H1. apply cell_structure_Ok in H1'. unfold v_energy in H2. destruct (x_calcs x) as [|c cs] eqn:EC; [discriminate|]. apply some_Ok in H2.
          unfold v_forces in H3. apply some_Ok in H3. apply find_first_Some in H3. unfold v_stress in H4. apply some_Ok in H4. apply find_first_Some in H4. exists c, cs, cell, t. cbn [s_structure s_energy s_force s_stress]. auto 10.
        * apply is_convergent_false in CV. exists []. split; [exact EP|]. split; [now apply skipped|]. rewrite append_nil. congruence.
    - intros (x & rs & EP & HS & ->). exists x. split; [exact EP|]. destruct HS as [rs MD R1|r NM NC R1|NM NC].
      + rewrite (proj2 (is_md_true x) MD). assert (SS : exists ss, Forall2 (fun c t => c_stress c = Some t) (x_calcs x) ss /\ map (fun p => to_ev kbar (fst p) (volume (snd p))) (combine ss (map s_structure rs)) = map s_stress rs).
        { clear -R1. induction R1 as [|c r l rs (cell & t & C1 & C2 & C3 & C4 & C5 & C6) R1 IH]; [exists []; split; [constructor|reflexivity]|]. destruct IH as (ss & I1 & I2). exists (t :: ss). split; [now constructor|]. cbn [map combine fst snd]. rewrite I2, C6. reflexivity. }
        destruct SS as (ss & S1 & S2). destruct (proj2 (md_samples x file (map s_structure rs) (map s_energy rs) (map s_force rs) ss)) as (I1 & I2 & I3 & I4); [exists rs; auto 10|].
        rewrite I1, I2, I3, I4. cbn [bind]. rewrite S2. reflexivity.
      + assert (MD : is_md x = false) by (destruct (is_md x) eqn:M; [apply is_md_true in M; contradiction|reflexivity]). assert (CV : is_convergent tol x = true) by (destruct (is_convergent tol x) eqn:C; [reflexivity|apply is_convergent_false in C; contradiction]).
        rewrite MD, EP, CV. destruct R1 as (c & cs & cell & t & C1 & C2 & C3 & C4 & C5 & C6 & C7). apply find_first_Some in C5. apply find_first_Some in C6.
        unfold v_structure, v_energy, v_forces, v_stress. rewrite C2. cbn [some bind]. rewrite (proj2 (cell_structure_Ok x file cell (s_structure r)) C3). cbn [bind]. rewrite C1 at 1. rewrite C4. cbn [some bind]. rewrite C5, C6. cbn [some bind]. unfold append. cbn [map]. rewrite C7. reflexivity.
      + assert (MD : is_md x = false) by (destruct (is_md x) eqn:M; [apply is_md_true in M; contradiction|reflexivity]). rewrite MD, EP, (proj2 (is_convergent_false tol x) NC), append_nil. reflexivity.
  Qed.
  End Vasp.
  Lemma foldM_samples (step : lists -> string -> res lists) (Q : string -> list sample -> Prop) :
    (forall s file s', step s file = Ok s' <-> exists rs, Q file rs /\ s' = append s rs) ->
    forall files s l, foldM step s files = Ok l <-> exists rss, Forall2 Q files rss /\ l = append s (concat rss).
  Proof.
    intros H. induction files as [|f files IH]; intros s l; cbn [foldM].
    - split; [intros E; injection E as <-; exists []; split; [constructor|now rewrite append_nil]|]. intros (rss & R & ->). inversion R. cbn [concat]. now rewrite append_nil.
    - rewrite bind_Ok. split.
      + intros (s1 & E1 & E2). apply H in E1. destruct E1 as (rs & Q1 & ->). apply IH in E2. destruct E2 as (rss & Q2 & ->). exists (rs :: rss). split; [now constructor|]. cbn [concat]. now rewrite append_append.
      + intros (rss & R & ->). inversion R as [|? rs ? rss' Q1 Q2]. subst. exists (append s rs). split; [apply H; eauto|]. apply IH. exists rss'. split; [exact Q2|]. cbn [concat]. now rewrite append_append.
  Qed.

  (** ** SSCHA *)
  Section Sscha.
  Variables (yaml : string -> res (sscha_yaml (F := F) (P := P) (A := A))) (kjmol : F).
  Lemma load_cell_Ok (o : option structure) name st' : load_cell o name = Ok st' <-> exists st, o = Some st /\ renamed name st st'.
  Proof.
    unfold load_cell. rewrite bind_Ok. split.
    - intros (st & E & H). apply some_Ok in E. apply bind_Ok in H. destruct H as (st1 & E1 & H). apply checked_Ok in E1. destruct E1 as [-> HC]. injection H as <-. exists st. split; [exact E|]. now split.
    - intros (st & -> & HC & ->). exists st. split; [reflexivity|]. apply bind_Ok. exists st. split; [now apply checked_Ok|reflexivity].
  Qed.
  Lemma sscha_properties_Ok sym y name (st : structure) e f t : sscha_properties kjmol sym y name = Ok (st, e, f, t) <-> sscha_sample kjmol sym y name (mk_sample st e f t).
  Proof.
    unfold sscha_properties, sscha_sample. cbn [s_structure s_energy s_force s_stress].
    assert (C : (match y_sym_forces y with None => false | Some _ => sym end) = true <-> sym = true /\ y_sym_forces y <> None) by (destruct (y_sym_forces y), sym; split; intuition congruence).
    destruct (match y_sym_forces y with None => false | Some _ => sym end) eqn:E.
    - destruct (proj1 C eq_refl) as [-> NS]. split.
      + intros H. left. split; [reflexivity|]. apply bind_Ok in H. destruct H as (st1 & H1 & H). apply load_cell_Ok in H1. destruct H1 as (st0 & H1 & H1'). apply bind_Ok in H. destruct H as (f1 & H2 & H). apply some_Ok in H2. apply bind_Ok in H. destruct H as (t1 & H3 & H). apply some_Ok in H3.
        exists st0. assert (st1 = st /\ e = ndiv (y_free_energy y) kjmol /\ f1 = f /\ t1 = t) as (-> & -> & -> & ->) by (injection H; auto). auto 10.
      + intros [[_ (st0 & H1 & H2 & -> & H4 & H5)]|[[HX|HX] _]]; [|discriminate|congruence]. rewrite (proj2 (load_cell_Ok (y_unitcell y) name st)) by eauto. rewrite H4, H5. reflexivity.
    - assert (NS : sym = false \/ y_sym_forces y = None) by (destruct sym; [right|now left]; destruct (y_sym_forces y); [discriminate|reflexivity]). split.
      + intros H. right. split; [exact NS|]. apply bind_Ok in H. destruct H as (st1 & H1 & H). apply load_cell_Ok in H1. destruct H1 as (st0 & H1 & H1'). apply bind_Ok in H. destruct H as (n & H2 & H). apply some_Ok in H2. apply bind_Ok in H. destruct H as (f1 & H3 & H). apply some_Ok in H3. apply bind_Ok in H. destruct H as (t1 & H4 & H). apply some_Ok in H4.
        exists st0, n, t1. assert (st1 = st /\ f1 = f) as (-> & ->) by (injection H; auto). injection H as <- <-. auto 10.
      + intros [[-> (st0 & H1 & H2 & _ & H4 & H5)]|[_ (st0 & n & t0 & H1 & H2 & H3 & -> & H5 & H6 & ->)]]; [destruct NS as [?|NS]; [discriminate|congruence]|]. rewrite (proj2 (load_cell_Ok (y_supercell y) name st)) by eauto. rewrite H3, H5, H6. reflexivity.
  Qed.
  Lemma read_sscha_Ok sym s file s' : read_sscha yaml kjmol sym s file = Ok s' <->
    exists rs, (exists y, yaml file = Ok y /\ (~ used y /\ rs = [] \/ used y /\ exists r, rs = [r] /\ sscha_sample kjmol sym y file r)) /\ s' = append s rs.
  Proof.
    unfold read_sscha. rewrite bind_Ok.
    assert (U : forall y : sscha_yaml (F := F) (P := P) (A := A), used y \/ ~ used y /\ (y_converge y = false \/ y_supercell y = None \/ y_forces y = None \/ y_stress y = None)).
    { intros y. unfold used. destruct (y_converge y); [|right; intuition congruence]. destruct (y_supercell y); [|right; intuition congruence]. destruct (y_forces y); [|right; intuition congruence]. destruct (y_stress y); [|right; intuition congruence]. left. repeat split; discriminate. }
    assert (G : forall y : sscha_yaml (F := F) (P := P) (A := A), used y -> y_converge y = true /\ has (y_supercell y) = true /\ has (y_forces y) = true /\ has (y_stress y) = true).
    { intros y (H1 & H2 & H3 & H4). unfold has. destruct (y_supercell y), (y_forces y), (y_stress y); try congruence. auto. }
    split.
    - intros (y & EY & H). destruct (U y) as [HU|[HU HC]].
      + destruct (G y HU) as (G1 & G2 & G3 & G4). rewrite G1, G2, G3, G4 in H. cbn [negb] in H. apply bind_Ok in H. destruct H as ([[[st e] f] t] & H1 & H). apply sscha_properties_Ok in H1. exists [mk_sample st e f t]. split; [|injection H as <-; reflexivity]. exists y. split; [exact EY|]. right. eauto.
      + exists []. split; [exists y; split; [exact EY|now left]|]. rewrite append_nil. destruct HC as [HC|[HC|[HC|HC]]]; rewrite HC in H; cbn [has negb] in H; repeat match type of H with (if ?b then _ else _) = _ => destruct b end; try congruence; cbn in H; try congruence.
    - intros (rs & (y & EY & [[HU ->]|[HU (r & -> & HS)]]) & ->); exists y; (split; [exact EY|]).
      + rewrite append_nil. destruct (U y) as [HX|[_ HC]]; [contradiction|]. destruct (negb (y_converge y)) eqn:E1; [reflexivity|]. destruct (negb (has (y_supercell y))) eqn:E2; [reflexivity|]. destruct (negb (has (y_forces y))) eqn:E3; [reflexivity|]. destruct (negb (has (y_stress y))) eqn:E4; [reflexivity|].
        exfalso. apply HU. unfold used, has in *. destruct (y_converge y), (y_supercell y), (y_forces y), (y_stress y); try discriminate. repeat split; discriminate.
      + destruct (G y HU) as (G1 & G2 & G3 & G4). rewrite G1, G2, G3, G4. cbn [negb]. destruct r as [st e f t]. rewrite (proj2 (sscha_properties_Ok sym y file st e f t) HS). reflexivity.
  Qed.
  End Sscha.

  (** ** Electronic properties *)
  Variables (rtol atol : F).
  Lemma pick_Ok temp rows ps : pick rtol atol temp rows = Ok ps <->
    (ps = [] /\ Forall (fun r => isclose rtol atol (fst r) temp = false) rows) \/ (exists p, ps = [p] /\ row_at rtol atol temp rows (Some p)).
  Proof.
    induction rows as [|[t o] rows IH]; cbn [pick fst snd].
    - split; [intros H; injection H as <-; left; auto|]. intros [[-> _]|(p & _ & r1 & t & r2 & H & _)]; [reflexivity|destruct r1; discriminate].
    - destruct (isclose rtol atol t temp) eqn:E.
      + split.
        * intros H. apply bind_Ok in H. destruct H as (p & H1 & H). apply some_Ok in H1. subst o. injection H as <-. right. exists p. split; [reflexivity|]. exists [], t, rows. auto.
        * intros [[_ H]|(p & -> & r1 & t' & r2 & H & HT & HF)]; [inversion H; cbn in *; congruence|]. destruct r1 as [|r r1]; [injection H as -> -> ->; reflexivity|]. injection H as <- ->. inversion HF. cbn in *. congruence.
      + rewrite IH. split.
        * intros [[-> H]|(p & -> & r1 & t' & r2 & -> & HT & HF)]; [left; auto|]. right. exists p. split; [reflexivity|]. exists ((t, o) :: r1), t', r2. auto.
        * intros [[-> H]|(p & -> & r1 & t' & r2 & H & HT & HF)]; [left; inversion H; auto|]. right. exists p. split; [reflexivity|]. destruct r1 as [|r r1]; [injection H as -> -> ->; congruence|]. injection H as <- ->. inversion HF. subst. exists r1, t', r2. auto.
  Qed.
End Readers.
