(** The fast evaluator of gtinv models against features times coefficients. *)
From Verif Require Import Base Num Complex Spec.Poly Spec.ModelParams Spec.Gtinv Model.Cxx Model.Mapping Model.ModelParams Model.Features Model.Potential
  Model.Neighbor Model.Compute Model.Eval Proofs.Cxx Proofs.Mapping Proofs.ModelParams Proofs.Sums Proofs.FeatureVals Proofs.Potential Proofs.PerAtom
  Proofs.GtinvTables Proofs.GtinvFeatures Proofs.OrderParams Proofs.PolyTerms Proofs.NeighborList.
From Coq Require Import Ring Field.

Lemma filter_seq_length {A} (p : A -> bool) l d : length (filter (fun i => p (nth i l d)) (seq 0 (length l))) = length (filter p l).
Proof.
  induction l as [|x l IH]; [reflexivity|]. cbn [length seq]. rewrite <- seq_shift.
  assert (E : forall s, length (filter (fun i => p (nth i (x :: l) d)) (map S s)) = length (filter (fun i => p (nth i l d)) s)).
  { clear. induction s as [|k s IH]; [reflexivity|]. cbn [map filter]. change (nth (S k) (x :: l) d) with (nth k l d).
    destruct (p (nth k l d)); cbn [length]; now rewrite IH. }
  cbn [filter]. change (nth 0 (x :: l) d) with x. destruct (p x); cbn [length]; now rewrite E, IH.
Qed.

Section Eval.
  Context {F : Type} {N : Num F} {NO : NumOrd F} {FL : FieldLaws F} {C0 : Char0 F}.
  Local Open Scope num_scope.
  Add Field Ffield : (field_laws (F:=F)).
  Variable tol : F.
  Variable B : basis F.
  Variable fp : fparams F.
  Hypothesis GT : gtinv_table fp.
  Hypothesis BO : basis_ok B (fp_maxl fp).
  Hypothesis Htol : forall x, nltb tol (nabs x) = false -> x = 0.
  Let nt := fp_n_type fp.
  Let G := mp_gt (mapping fp).
  Definition nvar : nat := n_variables (n_linear fp) (modelp fp).
  Definition fsT (t : nat) : list (sfeature F) := nth t (linear_features_gtinv (ids_plain (mp_gt (mapping fp))) fp) [].
  Definition repsT (t : nat) : list (sfeature F) := nth t (linear_features_gtinv (ids_rep (mp_gt (mapping fp))) fp) [].
  Definition polyT (t : nat) : list polyTerm := set_polynomial (n_linear fp) (modelp fp) t.

  Section Type_.
    Variable t : nat.
    Hypothesis Ht : t < nt.
    Lemma fsT_eq : fsT t = map (lin_gtinv_feature (ids_plain (mp_gt (mapping fp)) t) fp) (row_terms fp t).
    Proof. apply (features_row fp GT t). Qed.
    Lemma repsT_eq : repsT t = map (lin_gtinv_feature (ids_rep (mp_gt (mapping fp)) t) fp) (row_terms fp t).
    Proof. apply (features_row fp GT t). Qed.
    Lemma len_reps : length (fsT t) = length (repsT t).
    Proof. rewrite fsT_eq, repsT_eq. now rewrite !map_length. Qed.
    Lemma ft_eq : ft fp t = build_ftype true true (fun _ => false) (fsT t) (repsT t) (polyT t).
    Proof.
      unfold ft, features. rewrite (gt_gtinv _ GT).
      rewrite (nth_mapd _ _ _ 0%nat) by (now rewrite seq_length). rewrite seq_nth by exact Ht. reflexivity.
    Qed.
    Lemma polyT_ok term : In term (polyT t) -> pt_gid term < nvar /\ (forall i, In i (pt_ids term) -> i < length (fsT t)) /\ 1 <= length (pt_ids term) <= 3.
    Proof.
      intros H. assert (PK : poly_ok nt (n_linear fp) (adm_gtinv (fp_linear fp)) (modelp fp)).
      { unfold n_linear, modelp. rewrite (gt_gtinv _ GT). apply poly_ok_gtinv; [apply (lts_types_ok fp GT)|apply (gt_type _ GT)]. }
      destruct (term_factors nt _ _ _ PK t Ht term H) as [H1 [H2 _]]. split; [exact H1|]. split; [|exact (set_polynomial_sizes _ _ _ _ H)].
      rewrite (pk_1 _ _ _ _ PK t Ht) in H2. rewrite Forall_forall in H2. intros i Hi. specialize (H2 i Hi).
      rewrite fsT_eq, map_length. unfold row_terms. rewrite <- (filter_seq_length _ _ (LT 0 0 0 0 [])).
      unfold n_linear in H2. rewrite (gt_gtinv _ GT) in H2. exact H2.
    Qed.
    Lemma ids_ltT term i : In term (polyT t) -> In i (pt_ids term) -> i < length (fsT t).
    Proof. intros H. now apply polyT_ok. Qed.
    Lemma heads_ltT i st h : i < length (fsT t) -> In st (nth i (fsT t) []) -> In h (snd st) -> h < nhl fp t.
    Proof. rewrite fsT_eq. apply (fs_heads_lt fp GT t Ht). Qed.
    Lemma same_sizeT i st : i < length (fsT t) -> In st (nth i (fsT t) []) -> length (snd st) = feature_size (fsT t) i.
    Proof. rewrite fsT_eq. intros H1 H2. now apply (fs_same_size fp GT t Ht). Qed.
    Lemma n_prods_pos term : In term (polyT t) -> 0 < n_prods (fsT t) term.
    Proof.
      intros H. unfold n_prods. rewrite (fold_sizes (fsT t) (polyT t) (nhl fp t) ids_ltT heads_ltT same_sizeT). destruct (polyT_ok term H) as [_ [H1 H2]]. destruct (pt_ids term) as [|i ids]; [cbn in H2; lia|].
      cbn [map]. change (list_sum (feature_size (fsT t) i :: map (feature_size (fsT t)) ids)) with (feature_size (fsT t) i + list_sum (map (feature_size (fsT t)) ids))%nat.
      assert (Hi : i < length (fsT t)) by (apply H1; now left). rewrite fsT_eq in Hi |- *. pose proof (fs_size_pos fp GT t Ht i Hi). lia.
    Qed.
    Lemma closedT i : i < length (fsT t) -> exists g, Permutation (nth i (fsT t) []) g /\
      Forall2 (fun st st' : sterm F => fst st' = fst st /\ Permutation (snd st') (map (cjl fp t) (snd st))) (nth i (fsT t) []) g.
    Proof. rewrite fsT_eq. apply (fs_closed fp GT t Ht). Qed.
    Lemma ccT i st : i < length (fsT t) -> In st (nth i (fsT t) []) -> nprod (map (ccl fp t) (snd st)) = 1.
    Proof. rewrite fsT_eq. apply (fs_cc fp GT t Ht). Qed.
    Lemma sgT i st : i < length (fsT t) -> In st (nth i (fsT t) []) -> nprod (map (sgl fp t) (snd st)) = 1.
    Proof. rewrite fsT_eq. apply (fs_sg fp GT t Ht). Qed.

    Lemma cj_ltT h : h < nhl fp t -> cjl fp t h < nhl fp t.
    Proof. intros H. apply (conj_facts fp GT t Ht h H). Qed.
    Lemma cj_cjT h : h < nhl fp t -> cjl fp t (cjl fp t h) = h.
    Proof. intros H. apply (conj_facts fp GT t Ht h H). Qed.
    Lemma cc_sqT h : ccl fp t h * ccl fp t h = 1.
    Proof. apply sgn_sq. Qed.
    Lemma sg_sqT h : sgl fp t h * sgl fp t h = 1.
    Proof. apply sgn_sq. Qed.
    Definition partialT w v a h := partial of_real w (fsT t) (polyT t) v a h.
    Lemma partial_extT w v v' a a' h : (forall i, i < length (fsT t) -> v i = v' i) -> (forall h, h < nhl fp t -> a h = a' h) ->
      partialT w v a h = partialT w v' a' h.
    Proof.
      exact (partial_ext (fsT t) (polyT t) (nhl fp t) ids_ltT heads_ltT same_sizeT (cjl fp t) (ccl fp t) cj_ltT cj_cjT cc_sqT closedT ccT
        (lowl fp t) (nocl fp t) (low_conj_l fp GT t Ht) (low_noc_l fp GT t Ht) (sgl fp t) sg_sqT sgT w v v' a a' h).
    Qed.
    Lemma partial_parityT w v a h : partialT w v (fun h => of_real (sgl fp t h) * a h) h = of_real (sgl fp t h) * partialT w v a h.
    Proof.
      exact (partial_parity (fsT t) (polyT t) (nhl fp t) ids_ltT heads_ltT same_sizeT (cjl fp t) (ccl fp t) cj_ltT cj_cjT cc_sqT closedT ccT
        (lowl fp t) (nocl fp t) (low_conj_l fp GT t Ht) (low_noc_l fp GT t Ht) (sgl fp t) sg_sqT sgT w v a h).
    Qed.

    Definition sym (a : nat -> Cx F) : Prop := forall h, h < nhl fp t -> a (cjl fp t h) = of_real (ccl fp t h) * conj (a h).
    (** Linear features of an atom with order parameters [a]. *)
    Lemma feature_val a i : sym a -> i < length (fsT t) -> nth i (compute_features_gtinv tol (ft fp t) a) 0 = phi (fsT t) a i.
    Proof.
      intros Ha Hi. rewrite ft_eq, gtinv_feature_value; [|now rewrite <- len_reps|exact len_reps|reflexivity|intros _; exact Htol].
      unfold phi. rewrite fsT_eq in Hi |- *. rewrite repsT_eq. now apply (reps_value fp GT t Ht).
    Qed.
    Lemma feature_der a d i : i < length (fsT t) -> nth i (compute_features_deriv (ft fp t) a d) 0 = fder (nth i (fsT t) []) a d.
    Proof. intros Hi. rewrite ft_eq. now apply gtinv_feature_deriv. Qed.

    Variable pot : list F.
    Notation P := (potential_type fp pot (mapping fp) t (ft fp t)).
    Lemma pair_empty : pm_ntp (mp_pair (mapping fp)) = [] /\ nth t (pm_loc (mp_pair (mapping fp))) [] = [].
    Proof. unfold mapping. rewrite (gt_gtinv _ GT). cbn. split; [reflexivity|]. apply nth_repeat_nil. Qed.
    Definition elimT (h : nat) : bool := is_conj (mapping fp) t h.
    Definition tgtT (h : nat) : nat := noconj_id (mapping fp) t h.
    Lemma p_model_eq : p_model P = map (sort_by pot_leb) (terms_of (length (nc_attrs fp t)) elimT tgtT (terms_map (ft fp t) elimT pot)).
    Proof. unfold potential_type. destruct pair_empty as [-> ->]. reflexivity. Qed.
    Lemma sum_spec (c : potTerm F -> F) (sel : F * F -> F) (wt : polyTerm -> F) a h : sym a -> h < nhl fp t -> nocl fp t h = true ->
      (forall pt, c pt = sel (po_e pt, po_f pt)) -> (forall x y, sel (fst x + fst y, snd x + snd y) = sel x + sel y) ->
      (forall term x, In term (polyT t) -> sel (nth (pt_gid term) pot 0 * x / nnat (n_prods (fsT t) term), nth (pt_gid term) pot 0 * x) = wt term * x) ->
      let fvals := compute_prod_features (p_ft P) (compute_features_gtinv tol (p_ft P) a) in
      let derivs := compute_products (f_dprod (p_ft P)) a in
      let i := a_inc (att fp t h) in
      fold_left (fun s j =>
          let pt := nth j (p_flat P) (PoT 0 0 0%nat 0%nat) in
          let d := nth (po_prod pt) derivs (0, 0) in
          let sc := nth (po_pf pt) fvals 0 * c pt in
          (re s + re d * sc, im s + im d * sc)) (seq (nth i (p_off P) 0%nat) (nth (S i) (p_off P) 0%nat - nth i (p_off P) 0%nat)) (0, 0)
      = partialT wt (phi (fsT t) a) a h.
    Proof.
      intros Ha Hh Hn Hc Hadd Hw fvals derivs i.
      assert (Hi : i < length (p_model P)).
      { rewrite p_model_eq, map_length, terms_of_group, group_length. apply nth_error_Some. unfold i.
        rewrite (nc_at fp GT t Ht h Hh Hn). discriminate. }
      rewrite (fold_left_ext _ (fun s j => s + (fun pt => of_real (c pt) * (of_real (nth (po_pf pt) fvals 0) * nth (po_prod pt) derivs (0, 0))) (nth j (p_flat P) (PoT 0 0 0%nat 0%nat)))).
      2:{ intros s j _. cbv zeta beta. apply cx_eq; cbn; ring. }
      rewrite fold_sum. change (p_flat P) with (concat (p_model P)). change (p_off P) with (flat_offsets (p_model P)).
      rewrite (sum_flat (fun pt => of_real (c pt) * (of_real (nth (po_pf pt) fvals 0) * nth (po_prod pt) derivs (0, 0)))) by exact Hi.
      transitivity (nsumf (fun pt => of_real (sel (po_e pt, po_f pt)) * (of_real (nth (po_pf pt) fvals 0) * nth (po_prod pt) derivs (0, 0))) (nth i (p_model P) [])).
      { rewrite (nsumf_ext' _ (fun pt => of_real (sel (po_e pt, po_f pt)) * (of_real (nth (po_pf pt) fvals 0) * nth (po_prod pt) derivs (0, 0)))) by (intros pt; now rewrite Hc).
        apply cx_eq; cbn; ring. }
      rewrite p_model_eq.
      rewrite (terms_row_sum _ elimT tgtT (ft fp t) pot (fun x => of_real (sel x)) (fun pr pf => of_real (nth pf fvals 0) * nth pr derivs (0, 0))).
      2:{ intros x y. now rewrite Hadd, of_real_add. }
      2:{ rewrite p_model_eq, map_length, terms_of_group, group_length in Hi. exact Hi. }
      unfold fvals, derivs. cbn [potential_type p_ft]. set (vals := compute_features_gtinv tol (ft fp t) a). rewrite ft_eq.
      pose proof (updates_sum of_real true true (fsT t) (repsT t) (polyT t) elimT pot tgtT
        (fun k => nth k vals 0) a (fun x => of_real (sel x)) wt h i) as U.
      cbv zeta in U.
      etransitivity; [apply U|].
      - intros term x Hterm. rewrite Hw by exact Hterm. apply of_real_mul.
      - exact ids_ltT.
      - unfold elimT, is_conj. change (lm_conj (a_lm (att fp t h)) = false). unfold nocl in Hn. now destruct (lm_conj _).
      - intros k st h' Hk Hst Hh' He. unfold tgtT, noconj_id, i. fold (att fp t).
        change (a_inc (att fp t h') =? a_inc (att fp t h) = (h' =? h))%nat.
        pose proof (heads_ltT k st h' Hk Hst Hh') as Hl. assert (Hn' : nocl fp t h' = true) by (unfold nocl; change (negb (elimT h') = true); now rewrite He).
        destruct (Nat.eqb_spec h' h) as [Q|Q]; [subst h'; apply Nat.eqb_refl|]. apply Nat.eqb_neq. intros E. apply Q. now apply (inc_inj fp GT t Ht).
      - apply partial_extT; [|reflexivity]. intros k Hk. now apply feature_val.
    Qed.

    (** Sums over m <= 0 are halves of sums over all m. *)
    Definition fac (m : Z) : F := if (m =? 0)%Z then half else 1.
    Lemma half_two : half * (1 + 1) = 1.
    Proof. unfold half. field. intros E. apply (char0 (F:=F) 1). transitivity (1 + 1 : F); [cbn [nnat]; ring|exact E]. Qed.
    Lemma half_sum wt v a Z D : sym a -> real0 fp t Z -> (forall h, h < nhl fp t -> D h = ext fp t Z h) ->
      nsumf (fun h => if nocl fp t h then fac (lm_m (a_lm (att fp t h))) * prod_real (Z h) (partialT wt v a h) else 0) (seq 0 (nhl fp t))
      = half * nsumf (fun term => wt term * mder v (fun i => fder (nth i (fsT t) []) a D) (pt_ids term)) (polyT t).
    Proof.
      intros Ha HZ HD. rewrite <- (partial_dir (fsT t) (polyT t) (nhl fp t) ids_ltT heads_ltT wt v a D).
      rewrite (sum_noconj_real (fsT t) (polyT t) (nhl fp t) ids_ltT heads_ltT same_sizeT (cjl fp t) (ccl fp t) cj_ltT cj_cjT cc_sqT closedT ccT
        (lowl fp t) (nocl fp t) (low_conj_l fp GT t Ht) (low_noc_l fp GT t Ht)).
      - rewrite <- nsumf_scale_l. apply nsumf_ext. intros h Hh. apply in_seq in Hh. destruct (nocl fp t h) eqn:En; [|ring].
        rewrite HD by lia. unfold ext. rewrite En. fold (partialT wt v a h). set (x := prod_real _ _). unfold lowl, fac.
        rewrite (noc_low fp GT t Ht) in En by lia. apply Z.leb_le in En.
        destruct (Z.ltb_spec (lm_m (a_lm (att fp t h))) 0), (Z.eqb_spec (lm_m (a_lm (att fp t h))) 0); try lia; [|ring].
        transitivity ((half * (1 + 1)) * x); [rewrite half_two|]; ring.
      - intros h Hh. rewrite !HD by (try apply cj_ltT; exact Hh). exact (ext_conj fp GT (fun _ => 0%nat) t Ht Z HZ h Hh).
      - intros h Hh. apply (partial_conj (fsT t) (polyT t) (nhl fp t) ids_ltT heads_ltT same_sizeT (cjl fp t) (ccl fp t) cj_ltT cj_cjT cc_sqT closedT ccT); assumption.
    Qed.
    Lemma phi_extT a a' i : i < length (fsT t) -> (forall h, h < nhl fp t -> a h = a' h) -> phi (fsT t) a i = phi (fsT t) a' i.
    Proof.
      intros Hi Ha. unfold phi, fval, pval. f_equal. apply nsumf_ext. intros st Hst. f_equal. f_equal. apply map_ext_in. intros h Hh. apply Ha.
      exact (heads_ltT i st h Hi Hst Hh).
    Qed.
    (** The lists of terms of each size. *)
    Lemma all_terms_In x : In x (all_terms fp t) -> In x (polyT t).
    Proof.
      unfold all_terms, terms_k. replace (f_poly (ft fp t)) with (polyT t) by (now rewrite ft_eq).
      intros H. apply in_app_or in H. destruct H as [H|H]; [|apply in_app_or in H; destruct H as [H|H]]; apply filter_In in H; tauto.
    Qed.
    Lemma terms_sum (f : polyTerm -> F) : nsumf f (all_terms fp t) = nsumf f (polyT t).
    Proof.
      unfold all_terms, terms_k. replace (f_poly (ft fp t)) with (polyT t) by (now rewrite ft_eq). rewrite !nsumf_app, !nsumf_filter, <- !nsumf_add.
      apply nsumf_ext. intros x Hx. destruct (polyT_ok x Hx) as [_ [_ H]].
      destruct (length (pt_ids x)) as [|[|[|[|]]]]; cbn [Nat.eqb]; try lia; ring.
    Qed.
  End Type_.

  Lemma gt_tp_sum {T} {NT : Num T} {LT : RingLaws T} t tp (g : nlmtpAttrC -> T) : t < nt -> tp < length (tp_to_types nt) ->
    nsumf g (nth tp (nth t (gm_tp (mp_gt (mapping fp))) []) []) =
    nsumf (fun h => if nocl fp t h then if a_tp (att fp t h) =? tp then g (gcmp (att fp t h)) else 0 else 0) (seq 0 (nhl fp t)).
  Proof.
    intros Ht Htp. rewrite (go_tp _ _ _ _ _ (gok fp GT) t tp Ht Htp), nsumf_map, nsumf_filter.
    exact (nc_sum fp GT t Ht (fun a => if a_tp a =? tp then g (gcmp a) else 0)).
  Qed.

  Section System.
    Variable types : nat -> nat.
    Variable rows : list (list (nat * v3 F)).
    Let n := length rows.
    Hypothesis Hrows : forall i j d, i < n -> In (j, d) (nth i rows []) -> j < n.
    Hypothesis Htypes : forall i, i < n -> types i < nt.
    Definition FR (i : nat) : list (nat * v3 F) := row (get_full_list (length rows) (csr_of rows)) i.
    Definition tpi (i j : nat) : nat := tpair nt (types i) (types j).

    Section Pairs.
      Variable ker : nat -> nat -> nat -> v3 F -> Cx F.
      Variable eps : F.
      Hypothesis Heps : eps * eps = 1.
      Hypothesis Hker : forall t h tp d, t < nt -> h < nhl fp t -> nocl fp t h = true ->
        ker tp (a_n_id (att fp t h)) (lm_key (a_lm (att fp t h))) (vneg d) =
        of_real (eps * sgl fp t h) * ker tp (a_n_id (att fp t h)) (lm_key (a_lm (att fp t h))) d.
      Variable w : nat -> nat * v3 F -> F.
      Hypothesis Hw : forall i j d, w j (i, vneg d) = eps * w i (j, d).
      Variable S : nat -> nat -> Cx F.
      Definition Kw (i : nat) (jd : nat * v3 F) (tp n key : nat) : Cx F := cscale (w i jd) (ker tp n key (snd jd)).
      Definition ok (tp : nat) (d : v3 F) (a : nlmtpAttrC) : bool := negb (nltb (fn B fp tp (c_n_id a) (norm d)) tol).
      Definition one_side (i : nat) (jd : nat * v3 F) : F :=
        if inside fp (snd jd) then w i jd * nsumf (fun a => fac (c_m a) * prod_real (ker (tpi i (fst jd)) (c_n_id a) (c_key a) (vneg (snd jd))) (S i (c_inc a)))
          (filter (ok (tpi i (fst jd)) (snd jd)) (gt_tp (set_potential_model fp []) (types i) (tpi i (fst jd)))) else 0.
      Definition two_sides (i : nat) (jd : nat * v3 F) : F :=
        if inside fp (snd jd) then w i jd * nsumf (fun a => prod_real (ker (tpi i (fst jd)) (c_n_id a) (c_key a) (vneg (snd jd)))
             (cscale (fac (c_m a)) (S i (c_inc a) + cscale (sgn (c_sign a)) (S (fst jd) (c_jnc a)))))
          (filter (ok (tpi i (fst jd)) (snd jd)) (gt_tp (set_potential_model fp []) (types i) (tpi i (fst jd)))) else 0.
      Lemma vneg_neg (d : v3 F) : vneg (vneg d) = d.
      Proof. destruct d as [x y z]. unfold vneg. cbn. f_equal; ring. Qed.
      Lemma sides i jd : i < n -> fst jd < n -> two_sides i jd = one_side i jd + one_side (fst jd) (i, vneg (snd jd)).
      Proof.
        destruct jd as [j d]. cbn [fst snd]. intros Hi Hj. unfold two_sides, one_side. cbn [fst snd].
        rewrite (inside_neg fp). destruct (inside fp d); [|ring]. rewrite Hw.
        assert (E : tpi j i = tpi i j) by (apply tpair_sym; now apply Htypes). rewrite E.
        unfold gt_tp. change (ap_fp (set_potential_model fp [])) with fp.
        assert (Es : nth (tpi i j) (nth (types j) (gm_tp (mp_gt (mapping fp))) []) [] = map gswap (nth (tpi i j) (nth (types i) (gm_tp (mp_gt (mapping fp))) []) [])).
        { rewrite <- E. apply (go_swap _ _ _ _ _ (gok fp GT)); now apply Htypes. }
        rewrite Es.
        rewrite (map_filter_comm gswap _ (ok (tpi i j) d)) by (intros a; unfold ok; now rewrite (norm_neg d)).
        rewrite nsumf_map. rewrite !nsumf_filter.
        assert (Hlt : tpi i j < length (tp_to_types nt)) by (apply tpair_lt; now apply Htypes).
        rewrite !(gt_tp_sum _ _ _ (Htypes i Hi) Hlt). rewrite <- !nsumf_scale_l, <- nsumf_add. apply nsumf_ext. intros h Hh. apply in_seq in Hh.
        destruct (nocl fp (types i) h) eqn:En; [|ring]. destruct (a_tp (att fp (types i) h) =? tpi i j); [|ring].
        destruct (ok (tpi i j) d _); [|ring]. cbn [gcmp gswap c_n_id c_key c_m c_sign c_inc c_jnc]. fold (sgl fp (types i) h).
        rewrite (Hker (types i) h (tpi i j) (vneg d)); [|now apply Htypes|lia|exact En].
        set (K := ker _ _ _ (vneg d)). set (s := sgl fp (types i) h). set (f := fac _).
        destruct K as [k1 k2], (S i _) as [s1 s2], (S j _) as [s3 s4]. unfold prod_real, cscale. cbn.
        transitivity (w i (j, d) * (f * (k1 * s1 - k2 * s2)) + (eps * eps) * (w i (j, d) * (f * (s * k1 * s3 - s * k2 * s4)))); [rewrite Heps|]; ring.
      Qed.
      Lemma one_side_sum i : i < n -> nsumf (one_side i) (FR i) =
        nsumf (fun h => if nocl fp (types i) h then fac (lm_m (a_lm (att fp (types i) h))) *
          prod_real (of_real (eps * sgl fp (types i) h) * zsum tol B fp types (types i) (Kw i) (FR i) h) (S i (a_inc (att fp (types i) h))) else 0) (seq 0 (nhl fp (types i))).
      Proof.
        intros Hi.
        assert (Hlt : forall jd, In jd (FR i) -> fst jd < n).
        { intros jd Hjd. unfold FR in Hjd. rewrite (full_row n rows eq_refl Hrows i Hi) in Hjd. exact (sel_lt n rows eq_refl Hrows i jd Hjd). }
        rewrite (nsumf_ext (one_side i) (fun jd => nsumf (fun h => if nocl fp (types i) h then
            (if inside fp (snd jd) && on tol B fp (types i) h (tpi i (fst jd)) (snd jd) then
               fac (lm_m (a_lm (att fp (types i) h))) * prod_real (of_real (eps * sgl fp (types i) h) * Kw i jd (tpi i (fst jd)) (a_n_id (att fp (types i) h)) (lm_key (a_lm (att fp (types i) h))))
                 (S i (a_inc (att fp (types i) h))) else 0) else 0) (seq 0 (nhl fp (types i))))).
        - rewrite nsumf_swap. apply nsumf_ext. intros h Hh. destruct (nocl fp (types i) h); [|apply nsumf_zero].
          unfold zsum. fold nt. set (x := S i _). set (f := fac _). set (s := of_real _). change (tpair nt (types i)) with (fun a => tpair nt (types i) a). fold (tpi i).
          transitivity (nsumf (fun jd => f * prod_real (s * (if inside fp (snd jd) && on tol B fp (types i) h (tpi i (fst jd)) (snd jd)
              then Kw i jd (tpi i (fst jd)) (a_n_id (att fp (types i) h)) (lm_key (a_lm (att fp (types i) h))) else 0)) x) (FR i)).
          + apply nsumf_ext'. intros jd. destruct (_ && _); [reflexivity|]. unfold prod_real. destruct s, x. cbn. ring.
          + rewrite nsumf_scale_l. f_equal. rewrite <- nsumf_scale_l. unfold prod_real. rewrite re_sum, im_sum.
            rewrite nsumf_sub, !nsumf_scale_r. reflexivity.
        - intros jd Hjd. specialize (Hlt jd Hjd). unfold one_side. destruct (inside fp (snd jd)); cbn [andb].
          2:{ symmetry. rewrite (nsumf_ext' _ (fun _ => 0)); [apply nsumf_zero|]. intros h. now destruct (nocl fp (types i) h). }
          rewrite nsumf_filter. unfold gt_tp. change (ap_fp (set_potential_model fp [])) with fp.
          rewrite gt_tp_sum; [|now apply Htypes|apply tpair_lt; now apply Htypes].
          rewrite <- nsumf_scale_l. apply nsumf_ext. intros h Hh. apply in_seq in Hh. destruct (nocl fp (types i) h) eqn:En; [|ring].
          unfold on, ok. cbn [gcmp c_n_id c_key c_m c_inc]. destruct (a_tp _ =? _); cbn [andb]; [|ring]. destruct (negb _); [|ring].
          rewrite Hker; [|now apply Htypes|lia|exact En]. unfold Kw. destruct (ker _ _ _ (snd jd)) as [k1 k2], (S i _) as [s1 s2]. unfold prod_real, cscale. cbn. ring.
      Qed.
      Lemma pairs_sum : nsumf (fun i => nsumf (two_sides i) (nth i rows [])) (seq 0 n) =
        nsumf (fun i => nsumf (fun h => if nocl fp (types i) h then fac (lm_m (a_lm (att fp (types i) h))) *
          prod_real (of_real (eps * sgl fp (types i) h) * zsum tol B fp types (types i) (Kw i) (FR i) h) (S i (a_inc (att fp (types i) h))) else 0) (seq 0 (nhl fp (types i)))) (seq 0 n).
      Proof.
        rewrite (nsumf_ext (fun i => nsumf (two_sides i) (nth i rows [])) (fun i => nsumf (fun jd => one_side i jd + one_side (fst jd) (i, vneg (snd jd))) (nth i rows []))).
        - unfold n. rewrite <- (pair_sum rows one_side Hrows). apply nsumf_ext. intros i Hi. apply in_seq in Hi. apply one_side_sum. lia.
        - intros i Hi. apply in_seq in Hi. apply nsumf_ext. intros [j d] Hjd. apply sides; [lia|]. cbn [fst]. apply (Hrows i j d); [lia|exact Hjd].
      Qed.
    End Pairs.

    (** The two evaluators. *)
    Variable coeffs : list F.
    Variable neigh : nat -> list (nat * v3 F).
    Hypothesis Hneigh : forall i, i < n -> Permutation (neigh i) (FR i).
    Notation A := (polymlp_eval fp coeffs).
    Notation H := (csr_of rows).
    Definition cf (g : nat) : F := nth g coeffs 0.
    Definition aS (i : nat) : nat -> Cx F := anlmtp_d0 tol B fp types (types i) (neigh i).
    Definition aF (i : nat) : nat -> Cx F := anlmtp tol B A types (length rows) H i.
    Lemma aS_ext i h : i < n -> h < nhl fp (types i) -> aS i h = ext fp (types i) (zsum tol B fp types (types i) (Kval B fp) (FR i)) h.
    Proof.
      intros Hi Hh. unfold aS. rewrite (d0_spec tol B fp GT types (types i) (Htypes i Hi)) by exact Hh.
      apply (ext_ext fp GT types (types i) (Htypes i Hi)); [|exact Hh]. intros k _ _. apply (zsum_perm tol B fp types (types i)). now apply Hneigh.
    Qed.
    Lemma val_real0 i : i < n -> real0 fp (types i) (zsum tol B fp types (types i) (Kval B fp) (FR i)).
    Proof.
      intros Hi. apply zsum_real. intros jd h tp Hh Hm. exact (val_real B fp GT BO types (types i) (Htypes i Hi) h tp (snd jd) Hh Hm).
    Qed.
    Lemma aS_sym i : i < n -> sym (types i) (aS i).
    Proof.
      intros Hi h Hh. pose proof (cj_ltT (types i) (Htypes i Hi) h Hh). rewrite !aS_ext by assumption.
      apply (ext_conj fp GT types (types i) (Htypes i Hi)); [now apply val_real0|exact Hh].
    Qed.
    Lemma FR_lt i jd : i < n -> In jd (FR i) -> fst jd < n.
    Proof. intros Hi Hjd. unfold FR in Hjd. rewrite (full_row n rows eq_refl Hrows i Hi) in Hjd. exact (sel_lt n rows eq_refl Hrows i jd Hjd). Qed.
    Lemma nc_list_sum i h : i < n -> h < nhl fp (types i) -> nocl fp (types i) h = true ->
      nsumf (fun e => if fst e =? a_inc (att fp (types i) h) then snd e else 0) (anlmtp_nc tol B A types (length rows) H i) =
      of_real (sgl fp (types i) h) * zsum tol B fp types (types i) (Kval B fp) (FR i) h.
    Proof.
      intros Hi Hh Hn. unfold anlmtp_nc, row_loop. rewrite nsumf_flat_map. unfold zsum. rewrite <- nsumf_scale_l. fold (FR i).
      apply nsumf_ext. intros [j d] Hjd. pose proof (FR_lt i _ Hi Hjd) as Hj. cbn [fst snd] in *.
      change (ap_fp A) with fp. fold nt. fold (tpi i j).
      rewrite (inside_neg fp). destruct (inside fp d); cbn [andb]; [|rewrite nsumf_nil; apply cx_eq; cbn; ring].
      rewrite nsumf_map, nsumf_filter. cbn [fst snd]. unfold gt_tp. change (ap_fp A) with fp.
      rewrite gt_tp_sum; [|now apply Htypes|apply tpair_lt; now apply Htypes].
      rewrite (nsumf_ext _ (fun k => if k =? h then (if on tol B fp (types i) h (tpi i j) d then of_real (sgl fp (types i) h) * Kval B fp (j, d) (tpi i j) (a_n_id (att fp (types i) h)) (lm_key (a_lm (att fp (types i) h))) else 0) else 0)).
      - rewrite (nsumf_ext' _ (fun k => if h =? k then (if on tol B fp (types i) h (tpi i j) d then of_real (sgl fp (types i) h) * Kval B fp (j, d) (tpi i j) (a_n_id (att fp (types i) h)) (lm_key (a_lm (att fp (types i) h))) else 0) else 0)) by (intros k; now rewrite Nat.eqb_sym).
        rewrite (nsumf_delta _ (fun _ => if on tol B fp (types i) h (tpi i j) d then _ else 0)) by exact Hh. destruct (on tol B fp (types i) h (tpi i j) d); [reflexivity|apply cx_eq; cbn; ring].
      - intros k Hk. apply in_seq in Hk. destruct (Nat.eqb_spec k h) as [->|Ne].
        + rewrite Hn. cbn [gcmp c_n_id c_inc c_key]. rewrite Nat.eqb_refl. unfold on. rewrite norm_neg. destruct (a_tp _ =? _); cbn [andb]; [|reflexivity].
          destruct (negb _); [|reflexivity]. unfold Kval. cbn [snd].
          rewrite <- (val_neg B fp GT BO types (types i) (Htypes i Hi) h (tpi i j) d Hh Hn). unfold gt_val. now rewrite norm_neg.
        + destruct (nocl fp (types i) k) eqn:Ek; [|reflexivity]. destruct (a_tp _ =? _); [|reflexivity]. destruct (negb _); [|reflexivity].
          cbn [gcmp c_inc]. destruct (Nat.eqb_spec (a_inc (att fp (types i) k)) (a_inc (att fp (types i) h))) as [Q|Q]; [|reflexivity].
          exfalso. apply Ne. apply (inc_inj fp GT (types i) (Htypes i Hi)); assumption || lia.
    Qed.
    Lemma aF_aS i h : i < n -> h < nhl fp (types i) -> aF i h = of_real (sgl fp (types i) h) * aS i h.
    Proof.
      intros Hi Hh. unfold aF, anlmtp. change (ap_fp A) with fp.
      assert (E : forall k, k < nhl fp (types i) -> nocl fp (types i) k = true ->
        (accum (map (fun e => (fst e, re (snd e))) (anlmtp_nc tol B A types (length rows) H i)) (a_inc (att fp (types i) k)),
         accum (map (fun e => (fst e, im (snd e))) (anlmtp_nc tol B A types (length rows) H i)) (a_inc (att fp (types i) k))) =
        of_real (sgl fp (types i) k) * zsum tol B fp types (types i) (Kval B fp) (FR i) k).
      { intros k Hk Hn. rewrite <- nc_list_sum by assumption. rewrite !accum_spec, !nsumf_map. cbn [fst snd].
        apply cx_eq; cbn [re im fst snd]; [change (fst (nsumf ?f ?l)) with (re (nsumf f l)); rewrite re_sum|change (snd (nsumf ?f ?l)) with (im (nsumf f l)); rewrite im_sum];
          apply nsumf_ext'; intros e; destruct (fst e =? _); reflexivity. }
      rewrite (conjugate_spec fp GT types (types i) (Htypes i Hi)); [|intros k Hk Hm|exact Hh].
      - rewrite aS_ext by assumption. rewrite <- (ext_sg fp GT (types i) (Htypes i Hi)) by exact Hh.
        apply (ext_ext fp GT types (types i) (Htypes i Hi)); [exact E|exact Hh].
      - assert (Hn : nocl fp (types i) k = true) by (rewrite (noc_low fp GT (types i) (Htypes i Hi)), Hm by exact Hk; reflexivity).
        specialize (E k Hk Hn). apply (f_equal im) in E. cbn [im snd] in E. rewrite E. pose proof (val_real0 i Hi k Hk Hm) as R.
        destruct (zsum _ _ _ _ _ _ _ k) as [x y]. cbn in *. rewrite R. ring.
    Qed.

    Definition pot : list F := map (fun c => (1 + 1) * c) coeffs.
    Lemma pot_nth g : nth g pot 0 = (1 + 1) * cf g.
    Proof. unfold pot, cf. replace (0 : F) with ((1 + 1) * 0 : F) at 1 by ring. apply (map_nth (fun c => (1 + 1) * c)). Qed.
    Lemma pmodel_eq t : t < nt -> pmodel A t = potential_type fp pot (mapping fp) t (ft fp t).
    Proof.
      intros Ht. unfold pmodel, polymlp_eval, set_potential_model. cbn [ap_model]. unfold potential.
      assert (Hl : length (features fp true) = nt) by (unfold features; rewrite (gt_gtinv _ GT); now rewrite map_length, seq_length).
      rewrite (nth_mapd _ _ _ (0%nat, ftype0)) by (now rewrite combine_length, seq_length, Hl, Nat.min_id).
      rewrite combine_nth by (now rewrite seq_length, Hl). rewrite seq_nth by exact Ht. reflexivity.
    Qed.
    Definition w_e (t : nat) (term : polyTerm) : F := (1 + 1) * cf (pt_gid term) / nnat (n_prods (fsT t) term).
    Definition w_d (term : polyTerm) : F := (1 + 1) * cf (pt_gid term).
    Lemma aF_sym i : i < n -> sym (types i) (aF i).
    Proof.
      intros Hi h Hh. pose proof (cj_ltT (types i) (Htypes i Hi) h Hh). rewrite !aF_aS by assumption. rewrite (aS_sym i Hi h Hh).
      rewrite (sg_cj fp GT (types i) (Htypes i Hi) h Hh). apply cx_eq; cbn; ring.
    Qed.
    Notation SG i := (sums_gtinv tol B A types (length rows) H i).
    (** Sums over the terms are partial derivatives at the order parameters of the slow evaluator. *)
    Lemma partial_fast wt i h : i < n -> h < nhl fp (types i) ->
      partialT (types i) wt (phi (fsT (types i)) (aF i)) (aF i) h =
      of_real (sgl fp (types i) h) * partialT (types i) wt (phi (fsT (types i)) (aS i)) (aS i) h.
    Proof.
      intros Hi Hh. rewrite <- (partial_parityT (types i) (Htypes i Hi)). apply partial_extT; [now apply Htypes| |intros k Hk; now apply aF_aS].
      intros k Hk. transitivity (phi (fsT (types i)) (fun h => of_real (sgl fp (types i) h) * aS i h) k).
      - apply phi_extT; [now apply Htypes|exact Hk|]. intros q Hq. now apply aF_aS.
      - apply phi_parity; [|exact Hk]. intros q st Hq Hst. apply (sgT (types i) (Htypes i Hi) q st Hq Hst).
    Qed.
    Lemma off_lt i h : i < n -> h < nhl fp (types i) -> nocl fp (types i) h = true ->
      a_inc (att fp (types i) h) < length (p_off (pmodel A (types i))) - 1.
    Proof.
      intros Hi Hh Hn. rewrite pmodel_eq by (now apply Htypes). pose proof (p_model_eq (types i) pot) as E. cbn [potential_type p_off p_model] in E |- *.
      set (m := map (sort_by pot_leb) _) in *. destruct (flat_offsets_nth m 0) as [_ ->]; [lia|].
      assert (L : length m = length (nc_attrs fp (types i))) by (rewrite E, map_length, terms_of_group, group_length; reflexivity).
      rewrite L. cbn. rewrite Nat.sub_0_r. apply nth_error_Some. rewrite (nc_at fp GT (types i) (Htypes i Hi) h Hh Hn). discriminate.
    Qed.
    Lemma S_e i h : i < n -> h < nhl fp (types i) -> nocl fp (types i) h = true ->
      nth (a_inc (att fp (types i) h)) (fst (SG i)) (0, 0) =
      of_real (sgl fp (types i) h) * partialT (types i) (w_e (types i)) (phi (fsT (types i)) (aS i)) (aS i) h.
    Proof.
      intros Hi Hh Hn. rewrite <- partial_fast by assumption. unfold sums_gtinv, sum_of_prod_anlmtp. cbn [fst].
      rewrite (nth_mapd _ _ _ 0%nat) by (rewrite seq_length; now apply off_lt). rewrite seq_nth by (now apply off_lt). rewrite Nat.add_0_l.
      rewrite pmodel_eq by (now apply Htypes). fold (aF i).
      refine (sum_spec (types i) (Htypes i Hi) pot po_e fst (w_e (types i)) (aF i) h (aF_sym i Hi) Hh Hn _ _ _); [reflexivity|reflexivity|].
      intros term x _. cbn [fst]. rewrite pot_nth. unfold w_e. rewrite !(Fdiv_def (field_laws (F:=F))). ring.
    Qed.
    Lemma S_d i h : i < n -> h < nhl fp (types i) -> nocl fp (types i) h = true ->
      nth (a_inc (att fp (types i) h)) (snd (SG i)) (0, 0) =
      of_real (sgl fp (types i) h) * partialT (types i) w_d (phi (fsT (types i)) (aS i)) (aS i) h.
    Proof.
      intros Hi Hh Hn. rewrite <- partial_fast by assumption. unfold sums_gtinv, sum_of_prod_anlmtp. cbn [snd].
      rewrite (nth_mapd _ _ _ 0%nat) by (rewrite seq_length; now apply off_lt). rewrite seq_nth by (now apply off_lt). rewrite Nat.add_0_l.
      rewrite pmodel_eq by (now apply Htypes). fold (aF i).
      refine (sum_spec (types i) (Htypes i Hi) pot po_f snd w_d (aF i) h (aF_sym i Hi) Hh Hn _ _ _); [reflexivity|reflexivity|].
      intros term x _. cbn [snd]. rewrite pot_nth. unfold w_d. ring.
    Qed.

    (** Total of a sum over half pairs. *)
    Lemma total ker eps w Sv wt (D : nat -> nat -> Cx F) : eps * eps = 1 ->
      (forall t h tp d, t < nt -> h < nhl fp t -> nocl fp t h = true ->
        ker tp (a_n_id (att fp t h)) (lm_key (a_lm (att fp t h))) (vneg d) =
        of_real (eps * sgl fp t h) * ker tp (a_n_id (att fp t h)) (lm_key (a_lm (att fp t h))) d) ->
      (forall t h tp d, t < nt -> h < nhl fp t -> lm_m (a_lm (att fp t h)) = 0%Z -> im (ker tp (a_n_id (att fp t h)) (lm_key (a_lm (att fp t h))) d) = 0) ->
      (forall i j d, w j (i, vneg d) = eps * w i (j, d)) ->
      (forall i h, i < n -> h < nhl fp (types i) -> nocl fp (types i) h = true ->
         Sv i (a_inc (att fp (types i) h)) = of_real (sgl fp (types i) h) * partialT (types i) (wt i) (phi (fsT (types i)) (aS i)) (aS i) h) ->
      (forall i h, i < n -> h < nhl fp (types i) -> D i h = ext fp (types i) (zsum tol B fp types (types i) (Kw ker w i) (FR i)) h) ->
      nsumf (fun i => nsumf (two_sides ker w Sv i) (nth i rows [])) (seq 0 n) =
      eps * half * nsumf (fun i => nsumf (fun term => wt i term * mder (phi (fsT (types i)) (aS i)) (fun k => fder (nth k (fsT (types i)) []) (aS i) (D i)) (pt_ids term)) (polyT (types i))) (seq 0 n).
    Proof.
      intros He Hker Hreal Hw HS HD. rewrite (pairs_sum ker eps He Hker w Hw Sv). rewrite <- nsumf_scale_l.
      apply nsumf_ext. intros i Hi. apply in_seq in Hi. assert (Hi' : i < n) by lia.
      set (Z := zsum tol B fp types (types i) (Kw ker w i) (FR i)).
      transitivity (eps * nsumf (fun h => if nocl fp (types i) h then fac (lm_m (a_lm (att fp (types i) h))) *
        prod_real (Z h) (partialT (types i) (wt i) (phi (fsT (types i)) (aS i)) (aS i) h) else 0) (seq 0 (nhl fp (types i)))).
      - rewrite <- nsumf_scale_l. apply nsumf_ext. intros h Hh. apply in_seq in Hh. destruct (nocl fp (types i) h) eqn:En; [|ring].
        rewrite HS by (assumption || lia). set (p := partialT _ _ _ _ _). pose proof (sg_sqT (types i) h) as Q. set (s := sgl fp (types i) h) in *.
        destruct (Z h) as [z1 z2], p as [p1 p2]. unfold prod_real. cbn. set (f := fac _).
        transitivity (eps * (f * ((s * s) * z1 * p1 - (s * s) * z2 * p2))); [ring|]. rewrite Q. ring.
      - rewrite (half_sum (types i) (Htypes i Hi') (wt i) _ (aS i) Z (D i)); [ring|now apply aS_sym| |intros h Hh; now apply HD].
        apply zsum_real. intros jd h tp Hh Hm. unfold Kw. pose proof (Hreal (types i) h tp (snd jd) (Htypes i Hi') Hh Hm) as R.
        destruct (ker _ _ _ (snd jd)) as [x y]. cbn in *. rewrite R. ring.
    Qed.

    Lemma two_half : (1 + 1) * half = 1 :> F.
    Proof. transitivity (half * (1 + 1) : F); [ring|apply half_two]. Qed.
    Definition one_w (i : nat) (jd : nat * v3 F) : F := 1.
    Lemma pair_value (w : nat -> nat * v3 F -> F) ker (Sv : nat -> nat -> Cx F) i j d :
      w i (j, d) * fold_left (fun s a => s + prod_real (ker (tpi i j) (c_n_id a) (c_key a) (vneg d))
         (cscale (if (c_m a =? 0)%Z then half else 1) (Sv i (c_inc a) + cscale (sgn (c_sign a)) (Sv j (c_jnc a)))))
        (filter (fun a => negb (nltb (fn B fp (tpi i j) (c_n_id a) (norm (vneg d))) tol)) (gt_tp A (types i) (tpi i j))) 0 =
      if inside fp d then two_sides ker w Sv i (j, d) else w i (j, d) * fold_left (fun s a => s + prod_real (ker (tpi i j) (c_n_id a) (c_key a) (vneg d))
         (cscale (if (c_m a =? 0)%Z then half else 1) (Sv i (c_inc a) + cscale (sgn (c_sign a)) (Sv j (c_jnc a)))))
        (filter (fun a => negb (nltb (fn B fp (tpi i j) (c_n_id a) (norm (vneg d))) tol)) (gt_tp A (types i) (tpi i j))) 0.
    Proof.
      destruct (inside fp d) eqn:E; [|reflexivity]. unfold two_sides. cbn [fst snd]. rewrite E. f_equal.
      rewrite fold_sum, norm_neg. unfold fac, ok. apply add0l.
    Qed.

    Theorem energy_gtinv : energy tol B A types (length rows) H =
      nsumf (fun g => xe_sum tol B fp types (length rows) neigh true g * cf g) (seq 0 nvar).
    Proof.
      transitivity (nsumf (fun i => nsumf (fun term => cf (pt_gid term) * mval (phi (fsT (types i)) (aS i)) (pt_ids term)) (polyT (types i))) (seq 0 n)).
      - unfold energy, pairs. 
        rewrite (fold_left_ext _ (fun s p => s + (fun p : nat * nat * v3 F * (F * (nat -> F)) => fst (snd p)) p)) by (intros s [[[i j] d] c] _; reflexivity).
        rewrite fold_sum, nsumf_flat_map, add0l.
        transitivity (nsumf (fun i => nsumf (two_sides (gt_val B fp) one_w (fun i k => nth k (fst (SG i)) (0, 0)) i) (nth i rows [])) (seq 0 n)).
        + apply nsumf_ext. intros i Hi. apply in_seq in Hi. unfold row_loop. rewrite nsumf_flat_map, row_csr by lia. apply nsumf_ext'. intros [j d]. cbn [fst snd].
          change (ap_fp A) with fp. rewrite (inside_neg fp). 
          destruct (inside fp d) eqn:E; [|rewrite nsumf_nil; unfold two_sides; cbn [snd]; now rewrite E]. rewrite nsumf_cons, nsumf_nil. cbn [fst snd].
          unfold contrib. change (ap_fp A) with fp. rewrite (gt_gtinv _ GT). unfold gtinv_contrib. cbn [fst].
          pose proof (pair_value one_w (gt_val B fp) (fun i k => nth k (fst (SG i)) (0, 0)) i j d) as P. rewrite E in P. rewrite <- P. unfold one_w. unfold tpi. 
          change (ap_fp A) with fp. fold nt.
          match goal with |- ?a + 0 = 1 * ?b => change b with a; generalize a end. intros x. ring.
        + rewrite (total (gt_val B fp) 1 one_w _ (fun i => w_e (types i)) aS); [|ring| | |intros; unfold one_w; ring|exact S_e|].
          * rewrite <- nsumf_scale_l. apply nsumf_ext. intros i Hi. apply in_seq in Hi. rewrite <- nsumf_scale_l. apply nsumf_ext. intros term Hterm.
            assert (Ht : types i < nt) by (apply Htypes; lia).
            rewrite (mder_self (fsT (types i)) (polyT (types i)) (nhl fp (types i)) (ids_ltT (types i) Ht) (heads_ltT (types i) Ht) (same_sizeT (types i) Ht) (aS i) term Hterm).
            unfold w_e. pose proof (n_prods_pos (types i) Ht term Hterm) as Hp. destruct (n_prods (fsT (types i)) term) as [|q]; [lia|].
            pose proof (char0 (F:=F) q) as Hq. set (N0 := nnat (S q)) in *. set (m := mval _ _).
            transitivity (((1 + 1) * half) * (cf (pt_gid term) * m * (N0 / N0))); [rewrite !(Fdiv_def (field_laws (F:=F))); ring|]. rewrite two_half. field. exact Hq.
          * intros t h tp d Ht Hh Hn. rewrite (val_neg B fp GT BO types t Ht h tp d Hh Hn). apply cx_eq; cbn; ring.
          * intros t h tp d Ht Hh Hm. exact (val_real B fp GT BO types t Ht h tp d Hh Hm).
          * intros i h Hi Hh. rewrite aS_ext by assumption. apply (ext_ext fp GT types (types i) (Htypes i Hi)); [|exact Hh]. intros k _ _.
            unfold zsum. apply nsumf_ext'. intros jd. destruct (_ && _); [|reflexivity]. unfold Kval, Kw, one_w. destruct (gt_val _ _ _ _ _ _) as [x y]. apply cx_eq; cbn; ring.
      - symmetry. unfold xe_sum. rewrite (accum_pair nvar).
        + rewrite nsumf_flat_map. apply nsumf_ext. intros i Hi. apply in_seq in Hi. assert (Hi' : i < n) by lia. cbv zeta. rewrite nsumf_map. cbn [fst snd].
          rewrite (terms_sum (types i) (Htypes i Hi') (fun x => order_e (de tol B fp types true (types i) (neigh i)) (pt_ids x) * cf (pt_gid x))).
          apply nsumf_ext. intros term Hterm. destruct (polyT_ok (types i) (Htypes i Hi') term Hterm) as [_ [Hids Hsz]].
          rewrite order_e_spec by exact Hsz. rewrite (mval_ext _ (phi (fsT (types i)) (aS i))); [ring|].
          intros k Hk. unfold de. rewrite (gt_gtinv _ GT). apply feature_val; [now apply Htypes|now apply aS_sym|now apply Hids].
        + apply Forall_forall. intros e He. apply in_flat_map in He. destruct He as [i [Hi He]]. apply in_seq in Hi. apply in_map_iff in He. destruct He as [x [<- Hx]]. cbn [fst].
          exact (proj1 (polyT_ok (types i) (Htypes i ltac:(lia)) x (all_terms_In (types i) (Htypes i ltac:(lia)) x Hx))).
    Qed.

    (** Derivatives. *)
    Lemma mder_ext (v d v' d' : nat -> F) ids : (forall i, In i ids -> v i = v' i) -> (forall i, In i ids -> d i = d' i) -> mder v d ids = mder v' d' ids.
    Proof.
      intros Hv Hd. rewrite !mder_expand. apply nsumf_ext. intros j Hj. apply in_seq in Hj. rewrite Hd by (apply nth_In; lia). f_equal.
      apply mval_ext. intros i Hi. apply Hv. eapply erase_incl. exact Hi.
    Qed.
    Lemma slow_sum (dfun : nat -> nat -> F) (D : nat -> nat -> Cx F) :
      (forall i k, i < n -> k < length (fsT (types i)) -> dfun i k = fder (nth k (fsT (types i)) []) (aS i) (D i)) ->
      nsumf (fun g => accum (flat_map (fun a => map (fun x => (pt_gid x, order_d (de tol B fp types true (types a) (neigh a)) (dfun a) (pt_ids x))) (all_terms fp (types a))) (seq 0 n)) g * cf g) (seq 0 nvar) =
      nsumf (fun i => nsumf (fun term => cf (pt_gid term) * mder (phi (fsT (types i)) (aS i)) (fun k => fder (nth k (fsT (types i)) []) (aS i) (D i)) (pt_ids term)) (polyT (types i))) (seq 0 n).
    Proof.
      intros Hd. rewrite (accum_pair nvar).
      - rewrite nsumf_flat_map. apply nsumf_ext. intros i Hi. apply in_seq in Hi. assert (Hi' : i < n) by lia. rewrite nsumf_map. cbn [fst snd].
        rewrite (terms_sum (types i) (Htypes i Hi') (fun x => order_d (de tol B fp types true (types i) (neigh i)) (dfun i) (pt_ids x) * cf (pt_gid x))).
        apply nsumf_ext. intros term Hterm. destruct (polyT_ok (types i) (Htypes i Hi') term Hterm) as [_ [Hids Hsz]].
        rewrite order_d_spec by exact Hsz. rewrite (mder_ext _ _ (phi (fsT (types i)) (aS i)) (fun k => fder (nth k (fsT (types i)) []) (aS i) (D i))); [ring| |].
        + intros k Hk. unfold de. rewrite (gt_gtinv _ GT). apply feature_val; [now apply Htypes|now apply aS_sym|now apply Hids].
        + intros k Hk. apply Hd; [exact Hi'|now apply Hids].
      - apply Forall_forall. intros e He. apply in_flat_map in He. destruct He as [i [Hi He]]. apply in_seq in Hi. apply in_map_iff in He. destruct He as [x [<- Hx]]. cbn [fst].
        exact (proj1 (polyT_ok (types i) (Htypes i ltac:(lia)) x (all_terms_In (types i) (Htypes i ltac:(lia)) x Hx))).
    Qed.
    Lemma fast_sum (w : nat -> nat * v3 F -> F) c (D : nat -> nat -> Cx F) :
      (forall i j d, w j (i, vneg d) = - w i (j, d)) ->
      (forall i h, i < n -> h < nhl fp (types i) -> D i h = ext fp (types i) (zsum tol B fp types (types i) (Kder B fp (w i) c) (FR i)) h) ->
      nsumf (fun p => let '(i, j, d, f) := p in w i (j, vneg d) * snd f c) (pairs tol B A types (length rows) H) =
      nsumf (fun i => nsumf (fun term => cf (pt_gid term) * mder (phi (fsT (types i)) (aS i)) (fun k => fder (nth k (fsT (types i)) []) (aS i) (D i)) (pt_ids term)) (polyT (types i))) (seq 0 n).
    Proof.
      intros Hw HD. unfold pairs. rewrite nsumf_flat_map.
      transitivity (- nsumf (fun i => nsumf (two_sides (gt_val_d B fp c) w (fun i k => nth k (snd (SG i)) (0, 0)) i) (nth i rows [])) (seq 0 n)).
      - rewrite <- nsumf_opp. apply nsumf_ext. intros i Hi. apply in_seq in Hi. unfold row_loop. rewrite nsumf_flat_map, row_csr by lia.
        rewrite <- nsumf_opp. apply nsumf_ext'. intros [j d]. cbn [fst snd].
        change (ap_fp A) with fp. rewrite (inside_neg fp).
        destruct (inside fp d) eqn:E; [|rewrite nsumf_nil; unfold two_sides; cbn [snd]; rewrite E; ring]. rewrite nsumf_cons, nsumf_nil. cbn [fst snd].
        unfold contrib. change (ap_fp A) with fp. rewrite (gt_gtinv _ GT). unfold gtinv_contrib. cbn [snd].
        pose proof (pair_value w (gt_val_d B fp c) (fun i k => nth k (snd (SG i)) (0, 0)) i j d) as P. rewrite E in P. rewrite <- P. rewrite vneg_neg. unfold tpi.
        change (ap_fp A) with fp. fold nt.
        rewrite !fold_sum, !add0l.
        transitivity (w i (j, d) * (- nsumf (fun a => prod_real (gt_val_d B fp c (tpair nt (types i) (types j)) (c_n_id a) (c_key a) (vneg d))
           (cscale (if (c_m a =? 0)%Z then half else 1) (nth (c_inc a) (snd (SG i)) (0, 0) + cscale (sgn (c_sign a)) (nth (c_jnc a) (snd (SG j)) (0, 0)))))
           (filter (fun a => negb (nltb (fn B fp (tpair nt (types i) (types j)) (c_n_id a) (norm (vneg d))) tol)) (gt_tp A (types i) (tpair nt (types i) (types j)))))); [|ring].
        rewrite <- nsumf_opp.
        match goal with |- ?a * ?x + 0 = ?a * ?y => replace x with y; [generalize y; intros; ring|] end.
        apply nsumf_ext'. intros a. unfold prod_real. destruct (gt_val_d _ _ _ _ _ _ _) as [x y]. destruct (cscale (if (c_m a =? 0)%Z then _ else _) _) as [z u]. cbn. ring.
      - rewrite (total (gt_val_d B fp c) (- (1)) w _ (fun _ => w_d) D); [|ring| | | |exact S_d|exact HD].
        + transitivity (half * nsumf (fun i => (1 + 1) * nsumf (fun term => cf (pt_gid term) * mder (phi (fsT (types i)) (aS i)) (fun k => fder (nth k (fsT (types i)) []) (aS i) (D i)) (pt_ids term)) (polyT (types i))) (seq 0 n)).
          * transitivity (half * nsumf (fun i => nsumf (fun term => w_d term * mder (phi (fsT (types i)) (aS i)) (fun k => fder (nth k (fsT (types i)) []) (aS i) (D i)) (pt_ids term)) (polyT (types i))) (seq 0 n)); [ring|].
            f_equal. apply nsumf_ext'. intros i. rewrite <- nsumf_scale_l. apply nsumf_ext'. intros term. unfold w_d. ring.
          * rewrite nsumf_scale_l. match goal with |- half * (_ * ?x) = _ => transitivity ((half * (1 + 1)) * x); [ring|]; rewrite half_two; ring end.
        + intros t h tp d Ht Hh Hn. rewrite (val_d_neg B fp GT BO types t Ht h c tp d (field_laws (F:=F)) Hh Hn). destruct (gt_val_d _ _ _ _ _ _ _). apply cx_eq; cbn; ring.
        + intros t h tp d Ht Hh Hm. exact (val_d_real B fp GT BO types t Ht h c tp d (field_laws (F:=F)) Hh Hm).
        + intros i j d. rewrite Hw. ring.
    Qed.
    Theorem forces_gtinv c k : c < 3 ->
      forces tol B A types (length rows) H c k =
      nsumf (fun g => xf_sum tol B fp types (length rows) neigh (3 * k + c) g * cf g) (seq 0 nvar).
    Proof.
      intros Hc. unfold xf_sum. cbv zeta.
      assert (Ek : ((3 * k + c) / 3 = k /\ (3 * k + c) mod 3 = c)%nat).
      { split; [symmetry; apply (Nat.div_unique _ 3 k c); lia|symmetry; apply (Nat.mod_unique _ 3 k c); lia]. }
      rewrite (slow_sum (fun a => df tol B fp types (types a) a (neigh a) (3 * k + c)) (fun i => anlmtp_df tol B fp types c (types i) i (neigh i) k)).
      - rewrite <- (fast_sum (fun i => w_atom i k) c).
        + unfold forces. rewrite accum_spec, nsumf_flat_map. apply nsumf_ext'. intros [[[i j] d] f]. rewrite !nsumf_cons, nsumf_nil. cbn [fst snd].
          unfold w_atom. cbn [fst]. destruct (i =? k), (j =? k); ring.
        + intros i j d. unfold w_atom. cbn [fst]. ring.
        + intros i h Hi Hh. rewrite (df_spec tol B fp GT types (types i) (Htypes i Hi)) by exact Hh.
          apply (ext_ext fp GT types (types i) (Htypes i Hi)); [|exact Hh]. intros q _ _. apply (zsum_perm tol B fp types (types i)). now apply Hneigh.
      - intros i q Hi Hq. unfold df. destruct Ek as [-> ->]. rewrite (gt_gtinv _ GT). apply feature_der; [now apply Htypes|exact Hq].
    Qed.
    (** The two evaluators pair the components of the displacement and of the derivative in opposite orders. *)
    Theorem stress_either k :
      (forall i q, i < n -> q < length (fsT (types i)) ->
        fder (nth q (fsT (types i)) []) (aS i) (ext fp (types i) (zsum tol B fp types (types i) (Kder B fp (w_stress (snd (stress_comp k))) (fst (stress_comp k))) (neigh i))) =
        fder (nth q (fsT (types i)) []) (aS i) (ext fp (types i) (zsum tol B fp types (types i) (Kder B fp (w_stress (fst (stress_comp k))) (snd (stress_comp k))) (neigh i)))) ->
      stress tol B A types (length rows) H k =
      nsumf (fun g => xs_sum tol B fp types (length rows) neigh k g * cf g) (seq 0 nvar).
    Proof.
      intros Hsw. unfold xs_sum. cbv zeta.
      rewrite (slow_sum (fun a => ds tol B fp types (types a) (neigh a) k)
        (fun i => ext fp (types i) (zsum tol B fp types (types i) (Kder B fp (w_stress (fst (stress_comp k))) (snd (stress_comp k))) (neigh i)))).
      - rewrite <- (fast_sum (fun i => w_stress (fst (stress_comp k))) (snd (stress_comp k))).
        + unfold stress. destruct (stress_comp k) as [c c'] eqn:Ec. cbn [fst snd].
          rewrite (fold_left_ext _ (fun s p => s + (fun p : nat * nat * v3 F * (F * (nat -> F)) => let '(i, j, d, f) := p in vc c d * snd f c') p)) by (intros s [[[i j] d] f] _; reflexivity).
          rewrite fold_sum, add0l. apply nsumf_ext'. intros [[[i j] d] f]. unfold w_stress. cbn [snd].
          replace (vc c (vneg d)) with (- vc c d) by (destruct c as [|[|]]; reflexivity). ring.
        + intros i j d. unfold w_stress. cbn [snd]. replace (vc (fst (stress_comp k)) (vneg d)) with (- vc (fst (stress_comp k)) d) by (destruct (fst (stress_comp k)) as [|[|]]; reflexivity). ring.
        + intros i h Hi Hh. apply (ext_ext fp GT types (types i) (Htypes i Hi)); [|exact Hh]. intros q _ _. apply (zsum_perm tol B fp types (types i)). now apply Hneigh.
      - intros i q Hi Hq. rewrite <- Hsw by assumption. unfold ds. rewrite (gt_gtinv _ GT). rewrite feature_der by (try apply Htypes; assumption).
        unfold fder, pval. do 2 f_equal. apply nsumf_ext. intros st Hst. f_equal. f_equal. apply map_ext_in. intros h Hh. f_equal.
        pose proof (heads_ltT (types i) (Htypes i Hi) q st h Hq Hst Hh) as Hl. now rewrite (ds_spec tol B fp GT types (types i) (Htypes i Hi)) by exact Hl.
    Qed.
    Theorem stress_gtinv k : k < 3 ->
      stress tol B A types (length rows) H k =
      nsumf (fun g => xs_sum tol B fp types (length rows) neigh k g * cf g) (seq 0 nvar).
    Proof. intros Hk. apply stress_either. intros i q _ _. replace (stress_comp k) with (k, k) by (destruct k as [|[|[|]]]; reflexivity || lia). reflexivity. Qed.
  End System.
End Eval.
