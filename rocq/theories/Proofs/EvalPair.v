(** The fast evaluator of pair models against features times coefficients. *)
From Verif Require Import Base Num Complex Spec.Poly Spec.ModelParams Model.Cxx Model.Mapping Model.ModelParams Model.Features Model.Potential
  Model.Neighbor Model.Compute Model.Eval Proofs.Cxx Proofs.Mapping Proofs.ModelParams Proofs.Sums Proofs.FeatureVals Proofs.Potential Proofs.PerAtom
  Proofs.GtinvFeatures Proofs.OrderParams Proofs.PolyTerms Proofs.NeighborList Proofs.EvalGtinv.
From Coq Require Import Ring Field.

Section Eval.
  Context {F : Type} {N : Num F} {NO : NumOrd F} {FL : FieldLaws F} {C0 : Char0 F}.
  Local Open Scope num_scope.
  Add Field Ffield : (field_laws (F:=F)).
  Variable tol : F.
  Variable B : basis F.
  Variable fp : fparams F.
  Hypothesis PM : fp_gtinv fp = false.
  Hypothesis MT : fp_model_type fp <= 2.
  Let nt := fp_n_type fp.
  Notation M := (mp_pair (mapping fp)).
  Lemma pair_eq : M = mapping_pair nt (fp_cond fp).
  Proof. unfold mapping. now rewrite PM. Qed.
  Lemma pok : pair_ok nt (fp_cond fp) M.
  Proof. rewrite pair_eq. apply mapping_pair_ok. Qed.
  Definition ploc (t : nat) : list ntpAttr := nth t (pm_loc M) [].
  Definition p_dflt : ntpAttr := NTP 0 0 0 0 0 0.
  Definition pat (t h : nat) : ntpAttr := nth h (ploc t) p_dflt.
  Definition npl (t : nat) : nat := length (ploc t).
  Lemma pat_nth t h : h < npl t -> nth_error (ploc t) h = Some (pat t h).
  Proof. intros H. unfold pat. now apply nth_error_nth'. Qed.
  Lemma ntp_tp a : In a (pm_ntp M) -> p_tp a < length (tp_to_types nt).
  Proof.
    rewrite (po_all _ _ _ pok). intros H. apply ntp_global_tp in H. rewrite tp_to_n_length in H. tauto.
  Qed.
  Lemma ploc_core t : t < nt -> map pcore (ploc t) = map pcore (filter (fun a => touch nt t (p_tp a)) (pm_ntp M)).
  Proof.
    intros Ht. unfold ploc. pose proof ntp_tp as HL. rewrite pair_eq in *. unfold mapping_pair in *. 
    destruct (ntp_local_spec nt (ntp_global (tp_to_n nt (fp_cond fp)))) as [_ [S2 _]].
    { intros a Ha. destruct (ntp_local nt (ntp_global (tp_to_n nt (fp_cond fp)))). apply HL. exact Ha. }
    specialize (S2 t Ht). destruct (ntp_local nt (ntp_global (tp_to_n nt (fp_cond fp)))) as [v m]. exact S2.
  Qed.
  Lemma pat_il t h : t < nt -> h < npl t -> p_il (pat t h) = h.
  Proof. intros Ht Hh. apply (po_loc _ _ _ pok t h _ Ht (pat_nth t h Hh)). Qed.

  (** Features of one type: one order parameter each. *)
  Definition fsP (t : nat) : list (sfeature F) := nth t (linear_features_pair nt M) [].
  Lemma fsP_eq t : t < nt -> fsP t = map (fun h => [(1, [h])]) (seq 0 (npl t)).
  Proof.
    intros Ht. unfold fsP, linear_features_pair.
    set (ty := fun a : ntpAttr => let '(t1, t2) := nth (p_tp a) (tp_to_types nt) (0, 0)%nat in if (t1 =? t2)%nat then [t1] else [t1; t2]).
    rewrite (fold_left_ext _ (fun (v : list (list (sfeature F))) a => fold_left (fun (v : list (list (sfeature F))) t => push t ([(1, [um_get [p_gid a; t] (pm_iloc M)])] : sfeature F) v) (ty a) v)).
    2:{ intros v a _. unfold lin_pair_step, ty. destruct (nth (p_tp a) _ _) as [t1 t2]. destruct (t1 =? t2); reflexivity. }
    rewrite (pushes_rows ty (fun a t => ([(1, [um_get [p_gid a; t] (pm_iloc M)])] : sfeature F))).
    2:{ intros a Ha. pose proof (ends_lt nt (p_tp a) (ntp_tp a Ha)) as [E1 E2]. unfold ends in E1, E2. rewrite repeat_length. fold nt. unfold ty. destruct (nth (p_tp a) _ _) as [t1 t2]. cbn in E1, E2.
        destruct (Nat.eqb_spec t1 t2) as [Q|Q]; (split; [repeat constructor; cbn; intuition congruence|intros x; cbn; intuition (subst; assumption)]). }
    rewrite nth_repeat_nil. cbn [app].
    rewrite (filter_ext (fun a => mem t (ty a)) (fun a => touch nt t (p_tp a))).
    2:{ intros a. unfold ty, touch, ends. destruct (nth (p_tp a) _ _) as [t1 t2]. cbn [fst snd]. unfold mem. destruct (Nat.eqb_spec t1 t2) as [Q|Q].
        - subst t2. cbn [existsb]. rewrite orb_false_r, orb_diag. apply Nat.eqb_sym.
        - cbn [existsb]. rewrite orb_false_r, (Nat.eqb_sym t t1), (Nat.eqb_sym t t2). reflexivity. }
    transitivity (map (fun g => [(1 : F, [um_get [g; t] (pm_iloc M)])]) (map p_gid (filter (fun a => touch nt t (p_tp a)) (pm_ntp M)))); [now rewrite map_map|].
    assert (E : map p_gid (filter (fun a => touch nt t (p_tp a)) (pm_ntp M)) = map p_gid (ploc t)).
    { pose proof (f_equal (map snd) (ploc_core t Ht)) as E. rewrite !map_map in E. symmetry. exact E. }
    rewrite E, map_map. unfold npl. apply (nth_ext _ _ [] []); rewrite !map_length, ?seq_length; [reflexivity|]. intros h Hh.
    rewrite (nth_mapd _ _ _ p_dflt) by exact Hh. rewrite (nth_mapd _ _ _ 0%nat) by (now rewrite seq_length). rewrite seq_nth by exact Hh.
    destruct (po_loc _ _ _ pok t h _ Ht (pat_nth t h Hh)) as [_ [E' _]]. fold (pat t h). rewrite E'. reflexivity.
  Qed.
  Lemma fsP_len t : t < nt -> length (fsP t) = npl t.
  Proof. intros Ht. now rewrite fsP_eq, map_length, seq_length. Qed.
  Lemma fsP_nth t h : t < nt -> h < npl t -> nth h (fsP t) [] = [(1, [h])].
  Proof. intros Ht Hh. rewrite fsP_eq by exact Ht. rewrite (nth_mapd _ _ _ 0%nat) by (now rewrite seq_length). now rewrite seq_nth. Qed.
  Definition polyP (t : nat) : list polyTerm := set_polynomial (n_linear fp) (modelp fp) t.
  Lemma ftP_eq t : t < nt -> ft fp t = build_ftype false false (fun _ => false) (fsP t) (fsP t) (polyP t).
  Proof.
    intros Ht. unfold ft, features. rewrite PM. rewrite (nth_mapd _ _ _ 0%nat) by (now rewrite seq_length). rewrite seq_nth by exact Ht. reflexivity.
  Qed.
  Lemma polyP_ok t term : t < nt -> In term (polyP t) ->
    pt_gid term < n_variables (n_linear fp) (modelp fp) /\ (forall i, In i (pt_ids term) -> i < npl t) /\ 1 <= length (pt_ids term) <= 3.
  Proof.
    intros Ht H. assert (PK : poly_ok nt (n_linear fp) (adm_pair nt (pm_ntp M)) (modelp fp)).
    { unfold n_linear, modelp. rewrite PM. now apply poly_ok_pair. }
    destruct (term_factors nt _ _ _ PK t Ht term H) as [H1 [H2 _]]. split; [exact H1|]. split; [|exact (set_polynomial_sizes _ _ _ _ H)].
    rewrite (pk_1 _ _ _ _ PK t Ht) in H2. rewrite Forall_forall in H2. intros i Hi. specialize (H2 i Hi).
    assert (E : npl t = length (filter (fun a => touch nt t (p_tp a)) (pm_ntp M))).
    { pose proof (f_equal (@length _) (ploc_core t Ht)) as E. now rewrite !map_length in E. }
    rewrite E, <- (filter_seq_length _ _ p_dflt). unfold n_linear in H2. rewrite PM in H2.
    rewrite (filter_ext_in _ (adm_pair nt (pm_ntp M) t)); [exact H2|]. intros k Hk. apply in_seq in Hk.
    assert (Hl : p_tp (nth k (pm_ntp M) p_dflt) < length (tp_to_types nt)) by (apply ntp_tp, nth_In; lia).
    unfold p_dflt in *. set (tp := p_tp (nth k (pm_ntp M) _)) in *.
    destruct (touch nt t tp) eqn:Et.
    - symmetry. apply adm_pair_iff. fold tp. destruct (touch_inv nt t tp Hl Ht Et) as [E1 E2]. exists (oth nt t tp). split; [exact E2|now symmetry].
    - symmetry. destruct (adm_pair nt (pm_ntp M) t k) eqn:Ea; [|reflexivity]. apply adm_pair_iff in Ea. destruct Ea as [t2 [H3 H4]]. fold tp in H4.
      rewrite <- H4 in Et. destruct (touch_tpair nt t t2 Ht H3) as [E1 _]. congruence.
  Qed.
  Lemma poly_empty t term : t < nt -> In term (polyP t) -> 0 < npl t.
  Proof. intros Ht H. destruct (polyP_ok t term Ht H) as [_ [H1 H2]]. destruct (pt_ids term) as [|i ids]; [cbn in H2; lia|]. specialize (H1 i (or_introl eq_refl)). lia. Qed.

  (** Values of the linear features. *)
  Lemma feature_valP t a i : t < nt -> i < npl t -> nth i (compute_features_pair (ft fp t) a) 0 = a i.
  Proof.
    intros Ht Hi. rewrite ftP_eq by exact Ht. unfold compute_features_pair, build_ftype. cbn [f_mapped f_prod andb].
    unfold mapped_algo2. rewrite map_map. rewrite (nth_mapd _ _ _ ([] : sfeature F)) by (now rewrite fsP_len). rewrite fsP_nth by assumption.
    unfold feature_map. cbn [fold_left fst snd]. unfold plus_at, um_alter. cbn [um_find]. cbn.
    destruct (set_map_get (nonequiv_ids (fsP t)) [i] [] (lexn_nodup _)) as [_ E].
    - apply (nonequiv_In (fsP t) [(1, [i])] (1, [i])); [|now left]. rewrite <- (fsP_nth t i Ht Hi). apply nth_In. now rewrite fsP_len.
    - rewrite E. reflexivity.
  Qed.

  (** Partial derivatives. *)
  Definition pp w t (v : nat -> F) h : F := nsumf (fun term => w term * nsumf (fun i => mval v (erase i (pt_ids term)) * (if nth i (pt_ids term) 0%nat =? h then 1 else 0)) (seq 0 (length (pt_ids term)))) (polyP t).
  Lemma partialP w t v (a : nat -> F) h : t < nt -> partial (fun x => x) w (fsP t) (polyP t) v a h = pp w t v h.
  Proof.
    intros Ht. unfold partial, pp. apply nsumf_ext. intros term Hterm. f_equal. apply nsumf_ext. intros i Hi. apply in_seq in Hi. f_equal.
    destruct (polyP_ok t term Ht Hterm) as [_ [H1 _]].
    rewrite fsP_nth; [|exact Ht|apply H1, nth_In; lia]. rewrite nsumf_cons, nsumf_nil. cbn [fst snd length seq nth]. rewrite nsumf_cons, nsumf_nil.
    destruct (nth i (pt_ids term) 0%nat =? h); cbn; ring.
  Qed.
  Lemma pp_dir w t v d : t < nt -> nsumf (fun h => d h * pp w t v h) (seq 0 (npl t)) = nsumf (fun term => w term * mder v d (pt_ids term)) (polyP t).
  Proof.
    intros Ht. unfold pp. rewrite (nsumf_ext' _ (fun h => nsumf (fun term => w term * nsumf (fun i => mval v (erase i (pt_ids term)) * (if nth i (pt_ids term) 0%nat =? h then d h else 0)) (seq 0 (length (pt_ids term)))) (polyP t))).
    - rewrite nsumf_swap. apply nsumf_ext. intros term Hterm. rewrite nsumf_scale_l. f_equal. rewrite nsumf_swap, mder_expand. apply nsumf_ext. intros i Hi. apply in_seq in Hi.
      rewrite nsumf_scale_l. f_equal. apply nsumf_delta. destruct (polyP_ok t term Ht Hterm) as [_ [H1 _]]. apply H1, nth_In. lia.
    - intros h. rewrite <- nsumf_scale_l. apply nsumf_ext'. intros term. transitivity (w term * (d h * nsumf (fun i => mval v (erase i (pt_ids term)) * (if nth i (pt_ids term) 0%nat =? h then 1 else 0)) (seq 0 (length (pt_ids term))))); [ring|].
      f_equal. rewrite <- nsumf_scale_l. apply nsumf_ext'. intros i. destruct (_ =? _); ring.
  Qed.
  Lemma mder_selfP (v : nat -> F) ids : mder v v ids = nnat (length ids) * mval v ids.
  Proof. rewrite mder_expand. rewrite (nsumf_ext _ (fun _ => mval v ids)); [rewrite nsumf_const, seq_length; reflexivity|]. intros j Hj. apply in_seq in Hj. symmetry. apply nprod_erase. lia. Qed.
  Lemma mder_extP (v d d' : nat -> F) ids : (forall i, In i ids -> d i = d' i) -> mder v d ids = mder v d' ids.
  Proof. intros Hd. rewrite !mder_expand. apply nsumf_ext. intros j Hj. apply in_seq in Hj. rewrite Hd by (apply nth_In; lia). reflexivity. Qed.
  Lemma n_prodsP t term : t < nt -> In term (polyP t) -> n_prods (fsP t) term = length (pt_ids term).
  Proof.
    intros Ht Hterm. unfold n_prods. destruct (polyP_ok t term Ht Hterm) as [_ [H1 _]]. revert H1. generalize (pt_ids term) as ids. intros ids Hids.
    assert (G : forall s, fold_left (fun s id => (s + feature_size (fsP t) id)%nat) ids s = (s + length ids)%nat).
    { induction ids as [|i ids IH]; intros s; cbn [fold_left length]; [lia|]. rewrite IH by (intros k Hk; apply Hids; now right).
      unfold feature_size. rewrite fsP_nth; [cbn; lia|exact Ht|apply Hids; now left]. }
    apply (G 0%nat).
  Qed.

  Section Sums.
    Variable pot : list F.
    Variable t : nat.
    Hypothesis Ht : t < nt.
    Notation P := (potential_type fp pot (mapping fp) t (ft fp t)).
    Lemma p_modelP : 0 < npl t -> p_model P = map (sort_by pot_leb) (terms_of (npl t) (fun h => false) (fun h => h) (terms_map (ft fp t) (fun h => false) pot)).
    Proof.
      intros Hp. unfold potential_type. cbn [p_model]. fold (ploc t). fold (npl t). rewrite (proj2 (Nat.ltb_lt 0 (npl t)) Hp).
      assert (E : 0 < length (pm_ntp M)).
      { destruct (po_loc _ _ _ pok t 0%nat _ Ht (pat_nth t 0 Hp)) as [_ [_ [_ [_ [_ [_ [b [Hb _]]]]]]]].
        destruct (pm_ntp M); [destruct (p_gid _); discriminate|cbn; lia]. }
      rewrite (proj2 (Nat.ltb_lt 0 _) E). reflexivity.
    Qed.
    Lemma sum_specP (c : potTerm F -> F) (sel : F * F -> F) (wt : polyTerm -> F) a h : h < npl t ->
      (forall pt, c pt = sel (po_e pt, po_f pt)) -> (forall x y, sel (fst x + fst y, snd x + snd y) = sel x + sel y) ->
      (forall term x, In term (polyP t) -> sel (nth (pt_gid term) pot 0 * x / nnat (n_prods (fsP t) term), nth (pt_gid term) pot 0 * x) = wt term * x) ->
      let fvals := compute_prod_features (p_ft P) (compute_features_pair (p_ft P) a) in
      let derivs := compute_products (f_dprod (p_ft P)) a in
      nth h (map (fun ts => half * fold_left (fun s t => s + c t * (nth (po_pf t) fvals 0 * nth (po_prod t) derivs 0)) ts 0) (p_model P)) 0 = half * pp wt t a h.
    Proof.
      intros Hh Hc Hadd Hw fvals derivs. assert (Hp : 0 < npl t) by lia.
      assert (Hl : length (p_model P) = npl t) by (rewrite p_modelP by exact Hp; now rewrite map_length, terms_of_group, group_length).
      rewrite (nth_mapd _ _ _ []) by (now rewrite Hl). f_equal. rewrite fold_sum, add0l, p_modelP by exact Hp.
      rewrite (nsumf_ext' _ (fun pt => sel (po_e pt, po_f pt) * (nth (po_pf pt) fvals 0 * nth (po_prod pt) derivs 0))) by (intros pt; now rewrite Hc).
      rewrite (terms_row_sum _ _ _ (ft fp t) pot sel (fun pr pf => nth pf fvals 0 * nth pr derivs 0) h Hadd Hh).
      unfold fvals, derivs. cbn [potential_type p_ft]. set (vals := compute_features_pair (ft fp t) a). rewrite ftP_eq by exact Ht.
      pose proof (updates_sum (fun x : F => x) false false (fsP t) (fsP t) (polyP t) (fun _ => false) pot (fun h => h) (fun k => nth k vals 0) a sel wt h h) as U.
      cbv zeta in U. etransitivity; [apply U|].
      - exact Hw.
      - intros term i Hterm Hi. rewrite fsP_len by exact Ht. now apply (polyP_ok t term Ht Hterm).
      - reflexivity.
      - reflexivity.
      - rewrite partialP by exact Ht. unfold pp. apply nsumf_ext. intros term Hterm. f_equal. apply nsumf_ext. intros i Hi. f_equal. apply mval_ext. intros k Hk.
        apply feature_valP; [exact Ht|]. apply (polyP_ok t term Ht Hterm). eapply erase_incl. exact Hk.
    Qed.
  End Sums.

  Lemma pair_tp_sum {T} {NT : Num T} {LT : RingLaws T} t tp (g : ntpAttrC -> T) : t < nt -> tp < length (tp_to_types nt) ->
    nsumf g (nth tp (nth t (pm_tp M) []) []) = nsumf (fun h => if p_tp (pat t h) =? tp then g (pcmp (pat t h)) else 0) (seq 0 (npl t)).
  Proof.
    intros Ht Htp. rewrite (po_tp _ _ _ pok t tp Ht Htp), nsumf_map, nsumf_filter. fold (ploc t).
    rewrite <- (nsumf_seq_nth (fun a => if p_tp a =? tp then g (pcmp a) else 0) (ploc t) p_dflt). reflexivity.
  Qed.

  Section System.
    Variable types : nat -> nat.
    Variable rows : list (list (nat * v3 F)).
    Let n := length rows.
    Hypothesis Hrows : forall i j d, i < n -> In (j, d) (nth i rows []) -> j < n.
    Hypothesis Htypes : forall i, i < n -> types i < nt.
    Notation FR := (FR rows).
    Definition tpj (i j : nat) : nat := tpair nt (types i) (types j).
    Lemma FR_ltP i jd : i < n -> In jd (FR i) -> fst jd < n.
    Proof. intros Hi Hjd. unfold EvalGtinv.FR in Hjd. rewrite (full_row n rows eq_refl Hrows i Hi) in Hjd. exact (sel_lt n rows eq_refl Hrows i jd Hjd). Qed.
    (** Sums over the neighbours for one order parameter. *)
    Definition psum (ker : nat -> nat -> v3 F -> F) (w : nat * v3 F -> F) (i : nat) (nb : list (nat * v3 F)) (h : nat) : F :=
      nsumf (fun jd => if inside fp (snd jd) && (p_tp (pat (types i) h) =? tpj i (fst jd))%nat
                       then w jd * ker (tpj i (fst jd)) (p_n_id (pat (types i) h)) (snd jd) else 0) nb.
    Lemma lp_sum (ker : nat -> nat -> v3 F -> F) (w : nat * v3 F -> F) i nb h : i < n -> h < npl (types i) ->
      nsumf (fun e : ntpAttr * nat * v3 F * nat => let '(a, j, d, tp) := e in if (p_il a =? h)%nat then w (j, d) * ker tp (p_n_id a) d else 0)
        (lp_loop fp types (types i) nb) = psum ker w i nb h.
    Proof.
      intros Hi Hh. unfold lp_loop, pair_loop, psum. rewrite nsumf_flat_map. apply nsumf_ext'. intros [j d]. cbn [fst snd]. fold nt. fold (tpj i j).
      destruct (inside fp d); cbn [andb]; [|reflexivity]. rewrite nsumf_map, nsumf_filter. unfold pair_attrs. fold (ploc (types i)).
      rewrite <- (nsumf_seq_nth _ (ploc (types i)) p_dflt).
      rewrite (nsumf_ext _ (fun k => if h =? k then (if p_tp (pat (types i) k) =? tpj i j then w (j, d) * ker (tpj i j) (p_n_id (pat (types i) k)) d else 0) else 0)).
      - rewrite (nsumf_delta _ (fun k => if p_tp (pat (types i) k) =? tpj i j then w (j, d) * ker (tpj i j) (p_n_id (pat (types i) k)) d else 0)) by exact Hh. reflexivity.
      - intros k Hk. apply in_seq in Hk. fold (pat (types i) k). rewrite pat_il by (try apply Htypes; assumption || (unfold npl; lia)). rewrite (Nat.eqb_sym k h).
        destruct (h =? k), (p_tp (pat (types i) k) =? tpj i j); reflexivity.
    Qed.
    Lemma psum_perm ker w i nb nb' h : Permutation nb nb' -> psum ker w i nb h = psum ker w i nb' h.
    Proof. intros P. unfold psum. now apply nsumf_perm. Qed.

    Section Pairs.
      Variable ker : nat -> nat -> v3 F -> F.
      Variable eps : F.
      Hypothesis Heps : eps * eps = 1.
      Hypothesis Hker : forall tp k d, ker tp k (vneg d) = eps * ker tp k d.
      Variable w : nat -> nat * v3 F -> F.
      Hypothesis Hw : forall i j d, w j (i, vneg d) = eps * w i (j, d).
      Variable S : nat -> nat -> F.
      Definition one_p (i : nat) (jd : nat * v3 F) : F :=
        if inside fp (snd jd) then w i jd * nsumf (fun a => ker (tpj i (fst jd)) (pc_n_id a) (snd jd) * S i (pc_il a)) (nth (tpj i (fst jd)) (nth (types i) (pm_tp M) []) []) else 0.
      Definition two_p (i : nat) (jd : nat * v3 F) : F :=
        if inside fp (snd jd) then w i jd * nsumf (fun a => ker (tpj i (fst jd)) (pc_n_id a) (snd jd) * (S i (pc_il a) + S (fst jd) (pc_jl a))) (nth (tpj i (fst jd)) (nth (types i) (pm_tp M) []) []) else 0.
      Lemma sides_p i jd : i < n -> fst jd < n -> two_p i jd = one_p i jd + one_p (fst jd) (i, vneg (snd jd)).
      Proof.
        destruct jd as [j d]. cbn [fst snd]. intros Hi Hj. unfold two_p, one_p. cbn [fst snd]. rewrite (inside_neg fp). destruct (inside fp d); [|ring]. rewrite Hw.
        assert (E : tpj j i = tpj i j) by (apply tpair_sym; now apply Htypes). rewrite E.
        assert (Es : nth (tpj i j) (nth (types j) (pm_tp M) []) [] = map pswap (nth (tpj i j) (nth (types i) (pm_tp M) []) [])).
        { rewrite <- E. apply (po_swap _ _ _ pok); now apply Htypes. }
        rewrite Es, nsumf_map. rewrite <- !nsumf_scale_l, <- nsumf_add. apply nsumf_ext'. intros a. cbn [pswap pc_n_id pc_il]. rewrite Hker. set (K := ker _ _ _).
        transitivity (w i (j, d) * (K * S i (pc_il a)) + (eps * eps) * (w i (j, d) * (K * S j (pc_jl a)))); [rewrite Heps|]; ring.
      Qed.
      Lemma pairs_sum_p : nsumf (fun i => nsumf (two_p i) (nth i rows [])) (seq 0 n) =
        nsumf (fun i => nsumf (fun h => psum ker (w i) i (FR i) h * S i h) (seq 0 (npl (types i)))) (seq 0 n).
      Proof.
        rewrite (nsumf_ext (fun i => nsumf (two_p i) (nth i rows [])) (fun i => nsumf (fun jd => one_p i jd + one_p (fst jd) (i, vneg (snd jd))) (nth i rows []))).
        2:{ intros i Hi. apply in_seq in Hi. apply nsumf_ext. intros [j d] Hjd. apply sides_p; [lia|]. cbn [fst]. apply (Hrows i j d); [lia|exact Hjd]. }
        unfold n. rewrite <- (pair_sum rows one_p Hrows). apply nsumf_ext. intros i Hi. apply in_seq in Hi. assert (Hi' : i < n) by (unfold n; lia). fold (FR i).
        unfold psum.
        rewrite (nsumf_ext' _ (fun h => nsumf (fun jd => (if inside fp (snd jd) && (p_tp (pat (types i) h) =? tpj i (fst jd)) then w i jd * ker (tpj i (fst jd)) (p_n_id (pat (types i) h)) (snd jd) else 0) * S i h) (FR i))) by (intros h; symmetry; apply nsumf_scale_r).
        rewrite nsumf_swap. apply nsumf_ext. intros jd Hjd. pose proof (FR_ltP i jd Hi' Hjd) as Hj. unfold one_p.
        destruct (inside fp (snd jd)); cbn [andb].
        2:{ symmetry. rewrite (nsumf_ext' _ (fun _ => 0)) by (intros h; ring). apply nsumf_zero. }
        rewrite pair_tp_sum; [|now apply Htypes|apply tpair_lt; now apply Htypes]. rewrite <- nsumf_scale_l. apply nsumf_ext. intros h Hh. apply in_seq in Hh.
        destruct (p_tp _ =? _); [|ring]. cbn [pcmp pc_n_id pc_il]. rewrite pat_il by (try apply Htypes; assumption || lia). ring.
      Qed.
    End Pairs.

    Variable coeffs : list F.
    Variable neigh : nat -> list (nat * v3 F).
    Hypothesis Hneigh : forall i, i < n -> Permutation (neigh i) (FR i).
    Notation A := (polymlp_eval fp coeffs).
    Notation H := (csr_of rows).
    Notation cf := (cf coeffs).
    Notation pot := (pot coeffs).
    Notation nvar := (nvar fp).
    Definition kfn (tp k : nat) (d : v3 F) : F := fn B fp tp k (norm d).
    Definition aP (i : nat) : nat -> F := pair_dn B fp types (types i) (neigh i).
    Lemma kfn_neg tp k d : kfn tp k (vneg d) = 1 * kfn tp k d.
    Proof. unfold kfn. rewrite norm_neg. ring. Qed.
    Lemma kval_neg c tp k d : pair_val B fp c tp k (vneg d) = - (1) * pair_val B fp c tp k d.
    Proof.
      unfold pair_val. rewrite norm_neg. replace (vc c (vneg d)) with (- vc c d) by (destruct c as [|[|]]; reflexivity).
      rewrite !(Fdiv_def (field_laws (F:=F))). ring.
    Qed.
    Lemma aP_sum i h : i < n -> h < npl (types i) -> aP i h = psum kfn (fun _ => 1) i (FR i) h.
    Proof.
      intros Hi Hh. rewrite <- (psum_perm _ _ _ (neigh i) (FR i)) by (now apply Hneigh). rewrite <- lp_sum by assumption. unfold aP, pair_dn.
      rewrite accum_spec, nsumf_map. apply nsumf_ext'. intros [[[a j] d] tp]. cbn [fst snd]. unfold kfn. destruct (p_il a =? h); ring.
    Qed.
    Lemma antp_aP i h : i < n -> h < npl (types i) -> antp B A types (length rows) H i h = aP i h.
    Proof.
      intros Hi Hh. rewrite aP_sum by assumption. unfold antp, row_loop. rewrite accum_spec, nsumf_flat_map. unfold psum. fold (FR i). apply nsumf_ext. intros [j d] Hjd.
      pose proof (FR_ltP i _ Hi Hjd) as Hj. cbn [fst snd] in *. change (ap_fp A) with fp. fold nt. fold (tpj i j).
      rewrite (inside_neg fp). destruct (inside fp d); cbn [andb]; [|reflexivity]. rewrite nsumf_map. cbn [fst snd]. unfold pair_tp. change (ap_fp A) with fp.
      rewrite pair_tp_sum; [|now apply Htypes|apply tpair_lt; now apply Htypes].
      rewrite (nsumf_ext _ (fun k => if h =? k then (if p_tp (pat (types i) k) =? tpj i j then 1 * kfn (tpj i j) (p_n_id (pat (types i) k)) d else 0) else 0)).
      - rewrite (nsumf_delta _ (fun k => if p_tp (pat (types i) k) =? tpj i j then 1 * kfn (tpj i j) (p_n_id (pat (types i) k)) d else 0)) by exact Hh. reflexivity.
      - intros k Hk. apply in_seq in Hk. cbn [pcmp pc_il pc_n_id]. rewrite pat_il by (try apply Htypes; assumption || lia). rewrite (Nat.eqb_sym k h), norm_neg.
        unfold kfn. destruct (h =? k), (p_tp _ =? _); ring.
    Qed.
    Lemma pmodelP_eq t : t < nt -> pmodel A t = potential_type fp pot (mapping fp) t (ft fp t).
    Proof.
      intros Ht. unfold pmodel, polymlp_eval, set_potential_model. cbn [ap_model]. unfold potential.
      assert (Hl : length (features fp true) = nt) by (unfold features; rewrite PM; now rewrite map_length, seq_length).
      rewrite (nth_mapd _ _ _ (0%nat, ftype0)) by (now rewrite combine_length, seq_length, Hl, Nat.min_id).
      rewrite combine_nth by (now rewrite seq_length, Hl). rewrite seq_nth by exact Ht. reflexivity.
    Qed.
    Definition we_p (term : polyTerm) : F := cf (pt_gid term) / nnat (length (pt_ids term)).
    Definition wd_p (term : polyTerm) : F := cf (pt_gid term).
    Notation SP i := (sums_pair B A types (length rows) H i).
    Lemma pp_scale w w' t v v' h : t < nt -> (forall i, i < npl t -> v i = v' i) -> (forall term, In term (polyP t) -> half * w term = w' term) -> half * pp w t v h = pp w' t v' h.
    Proof.
      intros Ht Hv Hw. unfold pp. rewrite <- nsumf_scale_l. apply nsumf_ext. intros term Hterm.
      rewrite <- (Hw term Hterm). transitivity (half * w term * nsumf (fun i => mval v (erase i (pt_ids term)) * (if nth i (pt_ids term) 0%nat =? h then 1 else 0)) (seq 0 (length (pt_ids term)))); [ring|].
      f_equal. apply nsumf_ext. intros i Hi. f_equal. apply mval_ext. intros k Hk. apply Hv. apply (polyP_ok t term Ht Hterm). eapply erase_incl. exact Hk.
    Qed.
    Lemma S_e_p i h : i < n -> h < npl (types i) -> nth h (fst (SP i)) 0 = pp we_p (types i) (aP i) h.
    Proof.
      intros Hi Hh. pose proof (Htypes i Hi) as Ht. unfold sums_pair, sum_of_prod_antp. cbn [fst]. rewrite pmodelP_eq by exact Ht.
      etransitivity; [refine (sum_specP pot (types i) Ht po_e fst (fun term => nth (pt_gid term) pot 0 / nnat (length (pt_ids term))) _ h Hh _ _ _); [reflexivity|reflexivity|]|].
      - intros term x Hterm. cbn [fst]. rewrite n_prodsP by assumption. rewrite !(Fdiv_def (field_laws (F:=F))). ring.
      - apply pp_scale; [exact Ht|intros k Hk; now apply antp_aP|]. intros term _. rewrite pot_nth. unfold we_p. rewrite !(Fdiv_def (field_laws (F:=F))).
        set (x := ninv _). transitivity ((half * (1 + 1)) * (cf (pt_gid term) * x)); [ring|]. rewrite half_two. ring.
    Qed.
    Lemma S_d_p i h : i < n -> h < npl (types i) -> nth h (snd (SP i)) 0 = pp wd_p (types i) (aP i) h.
    Proof.
      intros Hi Hh. pose proof (Htypes i Hi) as Ht. unfold sums_pair, sum_of_prod_antp. cbn [snd]. rewrite pmodelP_eq by exact Ht.
      etransitivity; [refine (sum_specP pot (types i) Ht po_f snd (fun term => nth (pt_gid term) pot 0) _ h Hh _ _ _); [reflexivity|reflexivity|]|].
      - reflexivity.
      - apply pp_scale; [exact Ht|intros k Hk; now apply antp_aP|]. intros term _. rewrite pot_nth. unfold wd_p.
        transitivity ((half * (1 + 1)) * cf (pt_gid term)); [ring|]. rewrite half_two. ring.
    Qed.
    Lemma terms_sumP t (f : polyTerm -> F) : t < nt -> nsumf f (all_terms fp t) = nsumf f (polyP t).
    Proof.
      intros Ht. unfold all_terms, terms_k. replace (f_poly (ft fp t)) with (polyP t) by (now rewrite ftP_eq). rewrite !nsumf_app, !nsumf_filter, <- !nsumf_add.
      apply nsumf_ext. intros x Hx. destruct (polyP_ok t x Ht Hx) as [_ [_ Hs]].
      destruct (length (pt_ids x)) as [|[|[|[|]]]]; cbn [Nat.eqb]; try lia; ring.
    Qed.
    Lemma all_terms_InP t x : t < nt -> In x (all_terms fp t) -> In x (polyP t).
    Proof.
      intros Ht. unfold all_terms, terms_k. replace (f_poly (ft fp t)) with (polyP t) by (now rewrite ftP_eq).
      intros Hx. apply in_app_or in Hx. destruct Hx as [Hx|Hx]; [|apply in_app_or in Hx; destruct Hx as [Hx|Hx]]; apply filter_In in Hx; tauto.
    Qed.
    Lemma gids_lt (f : nat -> polyTerm -> F) :
      Forall (fun e : nat * F => fst e < nvar) (flat_map (fun a => map (fun x => (pt_gid x, f a x)) (all_terms fp (types a))) (seq 0 n)).
    Proof.
      apply Forall_forall. intros e He. apply in_flat_map in He. destruct He as [i [Hi He]]. apply in_seq in Hi. apply in_map_iff in He. destruct He as [x [<- Hx]]. cbn [fst].
      assert (Ht : types i < nt) by (apply Htypes; lia). exact (proj1 (polyP_ok (types i) x Ht (all_terms_InP (types i) x Ht Hx))).
    Qed.
    Theorem energy_pair force : energy tol B A types (length rows) H =
      nsumf (fun g => xe_sum tol B fp types (length rows) neigh force g * cf g) (seq 0 nvar).
    Proof.
      transitivity (nsumf (fun i => nsumf (fun term => cf (pt_gid term) * mval (aP i) (pt_ids term)) (polyP (types i))) (seq 0 n)).
      - unfold energy, pairs.
        rewrite (fold_left_ext _ (fun s p => s + (fun p : nat * nat * v3 F * (F * (nat -> F)) => fst (snd p)) p)) by (intros s [[[i j] d] c] _; reflexivity).
        rewrite fold_sum, nsumf_flat_map, add0l.
        transitivity (nsumf (fun i => nsumf (two_p kfn (fun _ _ => 1) (fun i k => nth k (fst (SP i)) 0) i) (nth i rows [])) (seq 0 n)).
        + apply nsumf_ext. intros i Hi. apply in_seq in Hi. unfold row_loop. rewrite nsumf_flat_map, row_csr by lia. apply nsumf_ext'. intros [j d]. cbn [fst snd].
          change (ap_fp A) with fp. rewrite (inside_neg fp). unfold two_p. cbn [fst snd].
          destruct (inside fp d) eqn:E; [|reflexivity]. rewrite nsumf_cons, nsumf_nil. cbn [fst snd].
          unfold contrib. change (ap_fp A) with fp. rewrite PM. unfold pair_contrib. cbn [fst]. rewrite fold_sum, add0l. change (ap_fp A) with fp. fold nt. fold (tpj i j).
          unfold kfn. rewrite norm_neg. unfold pair_tp. change (ap_fp A) with fp. ring.
        + rewrite (pairs_sum_p kfn 1); [|ring|apply kfn_neg|intros; ring]. apply nsumf_ext. intros i Hi. apply in_seq in Hi. assert (Hi' : i < n) by lia.
          pose proof (Htypes i Hi') as Ht.
          rewrite (nsumf_ext _ (fun h => aP i h * pp we_p (types i) (aP i) h)).
          * rewrite pp_dir by exact Ht. apply nsumf_ext. intros term Hterm. rewrite mder_selfP. unfold we_p. destruct (polyP_ok _ _ Ht Hterm) as [_ [_ Hs]].
            destruct (length (pt_ids term)) as [|q]; [lia|]. pose proof (char0 (F:=F) q) as Hq. set (N0 := nnat (S q)) in *. field. exact Hq.
          * intros h Hh. apply in_seq in Hh. rewrite S_e_p, aP_sum by (assumption || lia). reflexivity.
      - symmetry. unfold xe_sum. cbv zeta. rewrite (accum_pair nvar); [|apply (gids_lt (fun a x => order_e (de tol B fp types force (types a) (neigh a)) (pt_ids x)))].
        rewrite nsumf_flat_map. apply nsumf_ext. intros i Hi. apply in_seq in Hi. assert (Hi' : i < n) by lia. rewrite nsumf_map. cbn [fst snd].
        rewrite (terms_sumP (types i) (fun x => order_e (de tol B fp types force (types i) (neigh i)) (pt_ids x) * cf (pt_gid x))) by (now apply Htypes).
        apply nsumf_ext. intros term Hterm. destruct (polyP_ok (types i) term (Htypes i Hi') Hterm) as [_ [Hids Hsz]].
        rewrite order_e_spec by exact Hsz. unfold de. rewrite PM. fold (aP i). ring.
    Qed.
    Lemma slow_sum_p (dfun : nat -> nat -> F) (D : nat -> nat -> F) : (forall i k, i < n -> k < npl (types i) -> dfun i k = D i k) ->
      nsumf (fun g => accum (flat_map (fun a => map (fun x => (pt_gid x, order_d (de tol B fp types true (types a) (neigh a)) (dfun a) (pt_ids x))) (all_terms fp (types a))) (seq 0 n)) g * cf g) (seq 0 nvar) =
      nsumf (fun i => nsumf (fun h => D i h * pp wd_p (types i) (aP i) h) (seq 0 (npl (types i)))) (seq 0 n).
    Proof.
      intros Hd. rewrite (accum_pair nvar); [|apply (gids_lt (fun a x => order_d (de tol B fp types true (types a) (neigh a)) (dfun a) (pt_ids x)))].
      rewrite nsumf_flat_map. apply nsumf_ext. intros i Hi. apply in_seq in Hi. assert (Hi' : i < n) by lia. rewrite nsumf_map. cbn [fst snd].
      rewrite (terms_sumP (types i) (fun x => order_d (de tol B fp types true (types i) (neigh i)) (dfun i) (pt_ids x) * cf (pt_gid x))) by (now apply Htypes).
      rewrite pp_dir by (now apply Htypes).
      apply nsumf_ext. intros term Hterm. destruct (polyP_ok (types i) term (Htypes i Hi') Hterm) as [_ [Hids Hsz]].
      rewrite order_d_spec by exact Hsz. unfold de. rewrite PM. fold (aP i). rewrite (mder_extP _ _ (D i)); [unfold wd_p; ring|].
      intros k Hk. apply Hd; [exact Hi'|now apply Hids].
    Qed.
    Lemma fast_sum_p (w : nat -> nat * v3 F -> F) c : (forall i j d, w j (i, vneg d) = - (1) * w i (j, d)) ->
      nsumf (fun p => let '(i, j, d, f) := p in w i (j, vneg d) * snd f c) (pairs tol B A types (length rows) H) =
      nsumf (fun i => nsumf (fun h => psum (pair_val B fp c) (w i) i (FR i) h * pp wd_p (types i) (aP i) h) (seq 0 (npl (types i)))) (seq 0 n).
    Proof.
      intros Hw. unfold pairs. rewrite nsumf_flat_map.
      transitivity (nsumf (fun i => nsumf (two_p (pair_val B fp c) w (fun i k => nth k (snd (SP i)) 0) i) (nth i rows [])) (seq 0 n)).
      - apply nsumf_ext. intros i Hi. apply in_seq in Hi. unfold row_loop. rewrite nsumf_flat_map, row_csr by lia. apply nsumf_ext'. intros [j d]. cbn [fst snd].
        change (ap_fp A) with fp. rewrite (inside_neg fp). unfold two_p. cbn [fst snd].
        destruct (inside fp d) eqn:E; [|reflexivity]. rewrite nsumf_cons, nsumf_nil. cbn [fst snd].
        unfold contrib. change (ap_fp A) with fp. rewrite PM. unfold pair_contrib. cbn [snd]. rewrite fold_sum, add0l, vneg_neg. change (ap_fp A) with fp. fold nt. fold (tpj i j).
        unfold pair_val. rewrite norm_neg. unfold pair_tp. change (ap_fp A) with fp.
        replace (vc c (vneg d)) with (- vc c d) by (destruct c as [|[|]]; reflexivity).
        rewrite (nsumf_ext' (fun a => fn_d B fp (tpj i j) (pc_n_id a) (norm d) * vc c d / norm d * (nth (pc_il a) (snd (SP i)) 0 + nth (pc_jl a) (snd (SP j)) 0))
          (fun a => (vc c d / norm d) * (fn_d B fp (tpj i j) (pc_n_id a) (norm d) * (nth (pc_il a) (snd (SP i)) 0 + nth (pc_jl a) (snd (SP j)) 0)))) by (intros a; rewrite !(Fdiv_def (field_laws (F:=F))); ring).
        rewrite nsumf_scale_l, !(Fdiv_def (field_laws (F:=F))). ring.
      - rewrite (pairs_sum_p (pair_val B fp c) (- (1))); [|ring|apply kval_neg|exact Hw]. apply nsumf_ext. intros i Hi. apply in_seq in Hi.
        apply nsumf_ext. intros h Hh. apply in_seq in Hh. rewrite S_d_p by lia. reflexivity.
    Qed.
    Theorem forces_pair c k : c < 3 ->
      forces tol B A types (length rows) H c k =
      nsumf (fun g => xf_sum tol B fp types (length rows) neigh (3 * k + c) g * cf g) (seq 0 nvar).
    Proof.
      intros Hc. unfold xf_sum. cbv zeta.
      assert (Ek : ((3 * k + c) / 3 = k /\ (3 * k + c) mod 3 = c)%nat).
      { split; [symmetry; apply (Nat.div_unique _ 3 k c); lia|symmetry; apply (Nat.mod_unique _ 3 k c); lia]. }
      rewrite (slow_sum_p (fun a => df tol B fp types (types a) a (neigh a) (3 * k + c)) (fun i => psum (pair_val B fp c) (w_atom i k) i (FR i))).
      - rewrite <- (fast_sum_p (fun i => w_atom i k) c).
        + unfold forces. rewrite accum_spec, nsumf_flat_map. apply nsumf_ext'. intros [[[i j] d] f]. rewrite !nsumf_cons, nsumf_nil. cbn [fst snd].
          unfold w_atom. cbn [fst]. destruct (i =? k), (j =? k); ring.
        + intros i j d. unfold w_atom. cbn [fst]. ring.
      - intros i q Hi Hq. unfold df. destruct Ek as [-> ->]. rewrite PM. rewrite <- (psum_perm _ _ _ (neigh i) (FR i)) by (now apply Hneigh). rewrite <- lp_sum by assumption.
        unfold pair_dn_f, row_updates. rewrite accum_spec, nsumf_flat_map, nsumf_map. apply nsumf_ext'. intros [[[a j] d] tp]. unfold w_atom. cbn [fst].
        destruct (p_il a =? q); [|reflexivity]. rewrite !nsumf_cons, nsumf_nil. cbn [fst snd]. destruct (i =? k), (j =? k); ring.
    Qed.
    Theorem stress_pair k :
      stress tol B A types (length rows) H k =
      nsumf (fun g => xs_sum tol B fp types (length rows) neigh k g * cf g) (seq 0 nvar).
    Proof.
      unfold xs_sum. cbv zeta. destruct (stress_comp k) as [c c'] eqn:Ec.
      rewrite (slow_sum_p (fun a => ds tol B fp types (types a) (neigh a) k) (fun i => psum (pair_val B fp c') (w_stress c) i (FR i))).
      - rewrite <- (fast_sum_p (fun i => w_stress c) c').
        + unfold stress. rewrite Ec.
          rewrite (fold_left_ext _ (fun s p => s + (fun p : nat * nat * v3 F * (F * (nat -> F)) => let '(i, j, d, f) := p in vc c d * snd f c') p)) by (intros s [[[i j] d] f] _; reflexivity).
          rewrite fold_sum, add0l. apply nsumf_ext'. intros [[[i j] d] f]. unfold w_stress. cbn [snd].
          replace (vc c (vneg d)) with (- vc c d) by (destruct c as [|[|]]; reflexivity). ring.
        + intros i j d. unfold w_stress. cbn [snd]. replace (vc c (vneg d)) with (- vc c d) by (destruct c as [|[|]]; reflexivity). ring.
      - intros i q Hi Hq. unfold ds. rewrite PM. rewrite <- (psum_perm _ _ _ (neigh i) (FR i)) by (now apply Hneigh). rewrite <- lp_sum by assumption.
        unfold pair_dn_s. rewrite Ec. rewrite accum_spec, nsumf_map. apply nsumf_ext'. intros [[[a j] d] tp]. unfold w_stress. cbn [fst snd].
        destruct (p_il a =? q); [|reflexivity]. unfold pair_val. rewrite !(Fdiv_def (field_laws (F:=F))). ring.
    Qed.
  End System.
End Eval.
