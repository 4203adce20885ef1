(** The features of one type of a gtinv model and their symmetries. *)
From Verif Require Import Base Num Complex Spec.Poly Spec.ModelParams Spec.Gtinv Model.Cxx Model.Mapping Model.ModelParams Model.Features Model.Potential
  Model.Compute Proofs.Cxx Proofs.Mapping Proofs.ModelParams Proofs.Sums Proofs.FeatureVals Proofs.PerAtom Proofs.GtinvTables.
From Coq Require Import Ring.

(** Pushing a value to several rows. *)
Lemma pushes_row {A} (types : list nat) (x : nat -> A) : forall v t, NoDup types -> (forall t, In t types -> t < length v) ->
  length (fold_left (fun v t => push t (x t) v) types v) = length v /\
  nth t (fold_left (fun v t => push t (x t) v) types v) [] = nth t v [] ++ (if mem t types then [x t] else []).
Proof.
  induction types as [|y types IH]; intros v t Hd Hb; cbn [fold_left].
  - cbn. split; [reflexivity|now rewrite app_nil_r].
  - inversion Hd; subst. destruct (IH (push y (x y) v) t) as [I1 I2]; [assumption|intros z Hz; rewrite push_length; apply Hb; now right|].
    rewrite push_length in I1. split; [exact I1|]. rewrite I2, push_nth by (apply Hb; now left).
    unfold mem. cbn [existsb]. destruct (Nat.eqb_spec t y) as [->|Ne]; cbn [orb].
    + destruct (existsb (Nat.eqb y) types) eqn:E; [exfalso; apply H1, mem_In, E|]. now rewrite app_nil_r.
    + now rewrite app_nil_r.
Qed.
Lemma pushes_rows {A X} (types : X -> list nat) (f : X -> nat -> A) l : forall v t,
  (forall x, In x l -> NoDup (types x) /\ forall t, In t (types x) -> t < length v) ->
  nth t (fold_left (fun v x => fold_left (fun v t => push t (f x t) v) (types x) v) l v) [] =
  nth t v [] ++ map (fun x => f x t) (filter (fun x => mem t (types x)) l).
Proof.
  induction l as [|x l IH]; intros v t H; cbn [fold_left filter map]; [now rewrite app_nil_r|].
  destruct (H x (or_introl eq_refl)) as [H1 H2]. destruct (pushes_row (types x) (f x) v t H1 H2) as [P1 P2].
  rewrite IH by (intros y Hy; rewrite P1; apply H; now right). rewrite P2, <- app_assoc. f_equal.
  destruct (mem t (types x)); reflexivity.
Qed.

Lemma map_nth_seq {A} (l : list A) d : map (fun k => nth k l d) (seq 0 (length l)) = l.
Proof.
  induction l as [|x l IH]; [reflexivity|]. cbn [length seq map nth]. f_equal. rewrite <- seq_shift, map_map. exact IH.
Qed.

Section Rows.
  Context {F : Type} {N : Num F} {L : RingLaws F}.
  Local Open Scope num_scope.
  Add Ring Fring : (ring_laws (F:=F)).

  Lemma sgn_sq z : sgn z * sgn z = 1 :> F.
  Proof. unfold sgn. destruct (z <? 0)%Z; ring. Qed.
  (** Product of signs. *)
  Lemma sign_prod {A} (s : A -> Z) (e : A -> nat) l :
    (forall x, In x l -> s x = if Nat.even (e x) then 1%Z else (-1)%Z) ->
    nprod (map (fun x => sgn (s x)) l) = (if Nat.even (list_sum (map e l)) then 1 else - (1)) :> F.
  Proof.
    induction l as [|x l IH]; intros H; [reflexivity|].
    cbn [map]. change (list_sum (e x :: map e l)) with (e x + list_sum (map e l))%nat.
    rewrite Nat.even_add. cbn [nprod fold_right]. fold (nprod (map (fun x => sgn (F:=F) (s x)) l)).
    rewrite IH by (intros; apply H; now right). rewrite (H x) by now left.
    destruct (Nat.even (e x)), (Nat.even (list_sum (map e l))); cbn; ring.
  Qed.

  Variable fp : fparams F.
  Hypothesis GT : gtinv_table fp.
  Let nt := fp_n_type fp.
  Let n_fn := length (fp_params fp).
  Let M := mapping fp.
  Let G := mp_gt M.
  Let tpn := tp_to_n nt (fp_cond fp).
  Let lts := fp_linear fp.
  Lemma mp_gt_eq : mp_gt (mapping fp) = mapping_gtinv nt n_fn (fp_maxl fp) (fp_cond fp).
  Proof. unfold mapping. rewrite (gt_gtinv _ GT). reflexivity. Qed.
  Lemma lts_types_ok : types_ok nt lts.
  Proof. apply linear_terms_types_ok; [apply (gt_cond _ GT)|apply (gt_l _ GT)]. Qed.

  Variable t : nat.
  Hypothesis Ht : t < nt.
  Definition row_terms : list linearTerm := filter (fun x => mem t (lt_type1 x)) (fp_linear fp).
  Lemma features_row ids : nth t (linear_features_gtinv ids fp) [] = map (lin_gtinv_feature (ids t) fp) row_terms.
  Proof.
    unfold linear_features_gtinv.
    rewrite (pushes_rows lt_type1 (fun x t => lin_gtinv_feature (ids t) fp x)).
    - rewrite nth_repeat_nil. reflexivity.
    - intros x Hx. destruct (lts_types_ok x Hx) as [H1 H2]. rewrite repeat_length. split; [now apply ssorted_nodup|].
      rewrite Forall_forall in H2. exact H2.
  Qed.

  (** Data of a linear term of this type. *)
  Definition lc_of (x : linearTerm) : list nat := nth (lt_lm x) (fp_l_comb fp) [].
  Definition tps_of (x : linearTerm) : list nat := nth (lt_tp x) (nth (lt_order x) (fp_tp_combs fp) []) [].
  Lemma row_term_ok x : In x row_terms ->
    nth_error (fp_l_comb fp) (lt_lm x) = Some (lc_of x) /\ length (tps_of x) = length (lc_of x) /\ lc_of x <> [] /\ lt_n x < n_fn /\
    Forall (fun tp => tp < length (tp_to_types nt) /\ In (lt_n x) (nth tp tpn []) /\ touch nt t tp = true) (tps_of x).
  Proof.
    intros Hx. apply filter_In in Hx. destruct Hx as [Hx Hm].
    destruct (linear_terms_sound nt n_fn (fp_cond fp) (fp_l_comb fp) (gt_cond _ GT) (gt_l _ GT) x Hx) as [lc [[V1 [V2 [V3 V4]]] [H1 [H2 [H3 H4]]]]].
    assert (El : lc_of x = lc) by (unfold lc_of; apply (nth_error_nth _ _ _ V1)). rewrite El.
    split; [exact V1|]. split; [exact V2|]. split; [apply (gt_l _ GT); eapply nth_error_In; exact V1|]. split; [exact H1|].
    apply mem_In in Hm. apply H4 in Hm. destruct Hm as [_ Hm].
    rewrite Forall_forall in *. intros tp Htp. specialize (Hm tp Htp).
    assert (Htl : tp < length (tp_to_types nt)) by (destruct Hm as [t2 [Ht2 <-]]; now apply tpair_lt).
    split; [exact Htl|]. split; [apply V4, Htp|]. now apply touch_adm.
  Qed.

  Definition locs : list nlmtpAttr := nth t (gm_loc (mp_gt (mapping fp))) [].
  Definition att (h : nat) : nlmtpAttr := nth h locs a_dflt.
  Definition cjl (h : nat) : nat := a_icj (att h).
  Definition ccl (h : nat) : F := sgn (lm_cc (a_lm (att h))).
  Definition sgl (h : nat) : F := sgn (lm_sign (a_lm (att h))).
  Definition nocl (h : nat) : bool := negb (lm_conj (a_lm (att h))).
  Definition lowl (h : nat) : bool := (lm_m (a_lm (att h)) <? 0)%Z.
  Definition nhl : nat := length locs.

  Lemma att_nth h : h < nhl -> nth_error locs h = Some (att h).
  Proof. intros H. unfold att. now apply nth_error_nth'. Qed.
  Lemma conj_facts h : h < nhl ->
    cjl h < nhl /\ cjl (cjl h) = h /\ a_lm (att (cjl h)) = lm_attr (lm_l (a_lm (att h))) (- lm_m (a_lm (att h))) /\
    a_lm (att h) = lm_attr (lm_l (a_lm (att h))) (lm_m (a_lm (att h))) /\
    a_n_id (att (cjl h)) = a_n_id (att h) /\ a_tp (att (cjl h)) = a_tp (att h) /\
    (Z.abs (lm_m (a_lm (att h))) <= Z.of_nat (lm_l (a_lm (att h))))%Z /\
    (lm_m (a_lm (att h)) = 0%Z -> cjl h = h).
  Proof.
    intros H. pose proof (att_nth h H) as E. unfold locs in E. rewrite mp_gt_eq in E.
    destruct (go_conj _ _ _ _ _ (mapping_gtinv_ok nt n_fn (fp_maxl fp) (fp_cond fp)) t h _ Ht E) as [a' [C1 [C2 [C3 [C4 [C5 [C6 [C7 [C8 [C9 C10]]]]]]]]]].
    rewrite <- mp_gt_eq in C1. fold locs in C1. fold (cjl h) in C1.
    assert (E' : att (cjl h) = a') by (unfold att; apply (nth_error_nth _ _ _ C1)).
    split; [apply nth_error_Some; unfold locs in *; rewrite C1; discriminate|].
    split; [unfold cjl at 1; now rewrite E'|]. rewrite E'.
    split; [exact C6|]. split; [exact C7|]. split; [exact C4|]. split; [exact C5|]. split; [exact C8|exact C9].
  Qed.
  Lemma noc_low h : h < nhl -> nocl h = (lm_m (a_lm (att h)) <=? 0)%Z.
  Proof.
    intros H. destruct (conj_facts h H) as [_ [_ [_ [E _]]]]. unfold nocl. rewrite E at 1. cbn [lm_attr lm_conj].
    rewrite Bool.negb_involutive. destruct (Z.ltb_spec (lm_m (a_lm (att h))) 1), (Z.leb_spec (lm_m (a_lm (att h))) 0); lia || reflexivity.
  Qed.
  Lemma low_conj_l h : h < nhl -> negb (nocl (cjl h)) = lowl h.
  Proof.
    intros H. destruct (conj_facts h H) as [H1 [_ [E _]]]. rewrite noc_low by exact H1. rewrite E. cbn [lm_attr lm_m]. unfold lowl.
    destruct (Z.leb_spec (- lm_m (a_lm (att h))) 0), (Z.ltb_spec (lm_m (a_lm (att h))) 0); cbn; lia || reflexivity.
  Qed.
  Lemma low_noc_l h : h < nhl -> lowl h = true -> nocl h = true.
  Proof. intros H E. rewrite noc_low by exact H. unfold lowl in E. apply Z.ltb_lt in E. apply Z.leb_le. lia. Qed.

  (** Numbers of the order parameters in a product, before sorting. *)
  Definition raw (n : nat) (lms tps : list nat) : list nat :=
    map (fun k => lid nt n_fn (fp_maxl fp) (fp_cond fp) t n (nth k lms 0%nat) (nth k tps 0%nat)) (seq 0 (length lms)).
  Lemma plain_raw n lms tps : Permutation (ids_plain (mp_gt (mapping fp)) t n lms tps) (raw n lms tps).
  Proof.
    unfold ids_plain, vec_to_iloc. rewrite (Permutation_map _ (sortn_perm _)). unfold vec_to_global. rewrite map_map.
    unfold raw, lid. rewrite mp_gt_eq. reflexivity.
  Qed.

  Section Term.
    Variable x : linearTerm.
    Hypothesis Hx : In x row_terms.
    Let lc := lc_of x.
    Let tps := tps_of x.
    Variable lms : list nat.
    Hypothesis Hlms : In lms (nth (lt_lm x) (fp_lm_array fp) []).
    Lemma lms_ok : length lms = length lc /\ forall k, k < length lms ->
      nth k lc 0%nat <= fp_maxl fp /\ (nth k lc 0 * nth k lc 0 <= nth k lms 0 <= nth k lc 0 * nth k lc 0 + 2 * nth k lc 0)%nat.
    Proof.
      destruct (row_term_ok x Hx) as [E _]. pose proof (gt_lms _ GT _ _ _ E Hlms) as H. fold lc in H. clear -H.
      induction H as [|l i lc' lms' Hli H IH]; [split; [reflexivity|cbn; lia]|]. destruct IH as [I1 I2]. split; [cbn; lia|].
      intros [|k] Hk; cbn [nth length] in *; [exact Hli|]. apply I2. lia.
    Qed.
    Definition hk (k : nat) : nat := lid nt n_fn (fp_maxl fp) (fp_cond fp) t (lt_n x) (nth k lms 0%nat) (nth k tps 0%nat).
    Lemma hk_spec k : k < length lms ->
      hk k < nhl /\ a_lm (att (hk k)) = lm_attr (nth k lc 0%nat) (Z.of_nat (nth k lms 0%nat) - Z.of_nat (nth k lc 0 * nth k lc 0 + nth k lc 0)%nat) /\
      cjl (hk k) = lid nt n_fn (fp_maxl fp) (fp_cond fp) t (lt_n x) (conj_lm (nth k lc 0%nat) (nth k lms 0%nat)) (nth k tps 0%nat) /\
      a_gid (att (hk k)) = um_get [lt_n x; nth k lms 0%nat; nth k tps 0%nat] (gm_global (mp_gt (mapping fp))) /\
      um_get [lt_n x; conj_lm (nth k lc 0%nat) (nth k lms 0%nat); nth k tps 0%nat] (gm_global (mp_gt (mapping fp))) =
      global_conj (gm_all (mp_gt (mapping fp))) (um_get [lt_n x; nth k lms 0%nat; nth k tps 0%nat] (gm_global (mp_gt (mapping fp)))).
    Proof.
      intros Hk. destruct (row_term_ok x Hx) as [E [E2 [_ [Hn Hall]]]]. destruct lms_ok as [L1 L2]. destruct (L2 k Hk) as [L3 L4].
      assert (Hin : In (nth k tps 0%nat) (tps_of x)) by (apply nth_In; unfold lc in *; lia).
      rewrite Forall_forall in Hall. destruct (Hall _ Hin) as [A1 [A2 A3]].
      pose proof (lid_spec nt n_fn (fp_maxl fp) (fp_cond fp) (gt_cond _ GT) t (lt_n x) (nth k lc 0%nat) (nth k lms 0%nat) (nth k tps 0%nat) Ht Hn L3 L4 A1 A2 A3) as S.
      cbv zeta in S. fold (hk k) in S. rewrite <- mp_gt_eq in S. fold locs in S. fold (att (hk k)) in S. fold nhl in S.
      destruct S as [S1 [S2 [S3 [S4 [S5 [S6 S7]]]]]]. split; [exact S1|]. split; [exact S4|]. split; [exact S7|]. split; [exact S5|exact S6].
    Qed.
    Lemma raw_hk : raw (lt_n x) lms tps = map hk (seq 0 (length lms)).
    Proof. reflexivity. Qed.
    Lemma raw_lt h : In h (raw (lt_n x) lms tps) -> h < nhl.
    Proof. rewrite raw_hk. intros H. apply in_map_iff in H. destruct H as [k [<- Hk]]. apply in_seq in Hk. apply hk_spec. lia. Qed.
    Lemma conj_lms_nth k : k < length lms -> nth k (conj_lms lc lms) 0%nat = conj_lm (nth k lc 0%nat) (nth k lms 0%nat).
    Proof.
      intros Hk. destruct lms_ok as [L1 _]. unfold conj_lms.
      rewrite (nth_mapd _ _ _ (0%nat, 0%nat)) by (rewrite combine_length; lia). rewrite combine_nth by lia. reflexivity.
    Qed.
    Lemma conj_lms_length : length (conj_lms lc lms) = length lms.
    Proof. destruct lms_ok as [L1 _]. unfold conj_lms. rewrite map_length, combine_length. lia. Qed.
    Lemma raw_conj : raw (lt_n x) (conj_lms lc lms) tps = map cjl (raw (lt_n x) lms tps).
    Proof.
      rewrite raw_hk. unfold raw. rewrite conj_lms_length, map_map. apply map_ext_in. intros k Hk. apply in_seq in Hk.
      destruct (hk_spec k ltac:(lia)) as [_ [_ [E _]]]. rewrite E, conj_lms_nth by lia. reflexivity.
    Qed.
    Lemma raw_cc : nprod (map ccl (raw (lt_n x) lms tps)) = 1.
    Proof.
      rewrite raw_hk, map_map. unfold ccl.
      rewrite (sign_prod (fun k => lm_cc (a_lm (att (hk k)))) (fun k => nth k lms 0%nat)).
      - destruct (row_term_ok x Hx) as [E _]. pose proof (gt_even_m _ GT _ _ _ E Hlms) as Ev.
        rewrite map_nth_seq. apply Nat.even_spec in Ev. now rewrite Ev.
      - intros k Hk. apply in_seq in Hk. destruct (hk_spec k ltac:(lia)) as [_ [E _]]. rewrite E. cbn [lm_attr lm_cc].
        set (l := nth k lc 0%nat). set (i := nth k lms 0%nat).
        assert (Hl : exists q : nat, (l * l + l = 2 * q)%nat).
        { destruct (Nat.Even_or_Odd l) as [[q Q]|[q Q]]; [exists (q * (l + 1))%nat|exists (l * (q + 1))%nat]; clearbody l; subst l; lia. }
        destruct Hl as [q Hq]. rewrite Hq.
        destruct (Nat.Even_or_Odd i) as [Ev|Od].
        + pose proof Ev as Ev'. apply Nat.even_spec in Ev'. rewrite Ev'. destruct Ev as [p Hp].
          replace (Z.of_nat i - Z.of_nat (2 * q))%Z with ((Z.of_nat p - Z.of_nat q) * 2)%Z by lia. rewrite Z.rem_mul by lia. reflexivity.
        + assert (Ev' : Nat.even i = false) by (rewrite <- Nat.negb_odd; apply Nat.odd_spec in Od; now rewrite Od). rewrite Ev'. destruct Od as [p Hp].
          destruct (Z.eqb_spec (Z.rem (Z.of_nat i - Z.of_nat (2 * q)) 2) 0) as [C|C]; [|reflexivity].
          apply Z.rem_divide in C; [|lia]. destruct C as [r Hr]. lia.
    Qed.
    Lemma raw_sg : nprod (map sgl (raw (lt_n x) lms tps)) = 1.
    Proof.
      rewrite raw_hk, map_map. unfold sgl.
      rewrite (sign_prod (fun k => lm_sign (a_lm (att (hk k)))) (fun k => nth k lc 0%nat)).
      - destruct (row_term_ok x Hx) as [E _]. pose proof (gt_even_l _ GT _ _ E) as Ev. destruct lms_ok as [L1 _]. rewrite L1.
        rewrite map_nth_seq. apply Nat.even_spec in Ev. fold lc in Ev. now rewrite Ev.
      - intros k Hk. apply in_seq in Hk. destruct (hk_spec k ltac:(lia)) as [_ [E _]]. rewrite E. cbn [lm_attr lm_sign].
        set (l := nth k lc 0%nat). destruct (Nat.eqb_spec (l mod 2) 0) as [Q|Q]; destruct (Nat.even l) eqn:Ev; try reflexivity.
        + apply Nat.mod_divides in Q; [|lia]. destruct Q as [c Hc]. assert (Nat.Even l) by (exists c; exact Hc). apply Nat.even_spec in H. congruence.
        + apply Nat.even_spec in Ev. destruct Ev as [c Hc]. exfalso. apply Q. rewrite Hc, Nat.mul_comm. apply Nat.mod_mul. lia.
    Qed.
    (** The chosen representative. *)
    Lemma rep_raw : Permutation (ids_rep (mp_gt (mapping fp)) t (lt_n x) lms tps) (raw (lt_n x) lms tps) \/
      Permutation (ids_rep (mp_gt (mapping fp)) t (lt_n x) lms tps) (map cjl (raw (lt_n x) lms tps)).
    Proof.
      unfold ids_rep. set (g1 := sortn (vec_to_global (mp_gt (mapping fp)) (lt_n x) lms tps)).
      set (g2 := sortn (map (global_conj (gm_all (mp_gt (mapping fp)))) g1)).
      assert (H : hd [] (set_of lexn [g1; g2]) = g1 \/ hd [] (set_of lexn [g1; g2]) = g2).
      { assert (Hin : In (hd [] (set_of lexn [g1; g2])) [g1; g2]).
        { apply lexn_In. destruct (set_of lexn [g1; g2]) as [|y s] eqn:E; [|now left].
          exfalso. assert (C : In g1 (set_of lexn [g1; g2])) by (apply lexn_In; now left). rewrite E in C. exact C. }
        cbn in Hin. intuition. }
      destruct H as [-> | ->]; [left|right].
      - apply plain_raw.
      - rewrite <- raw_conj. rewrite <- plain_raw. unfold ids_plain, vec_to_iloc. apply Permutation_map.
        unfold g2. rewrite !sortn_perm. unfold g1. rewrite (Permutation_map _ (sortn_perm _)).
        unfold vec_to_global. rewrite map_map, conj_lms_length.
        match goal with |- Permutation ?a ?b => assert (E : a = b); [|rewrite E; reflexivity] end.
        apply map_ext_in. intros k Hk. apply in_seq in Hk. destruct (hk_spec k ltac:(lia)) as [_ [_ [_ [_ E]]]].
        rewrite conj_lms_nth by lia. now rewrite E.
    Qed.
  End Term.

  (** The features, product by product. *)
  Definition tbl (x : linearTerm) : list (F * list nat) := combine (nth (lt_lm x) (fp_lm_coeffs fp) []) (nth (lt_lm x) (fp_lm_array fp) []).
  Lemma feature_tbl ids x : In x row_terms ->
    lin_gtinv_feature ids fp x = map (fun cl => (fst cl, ids (lt_n x) (snd cl) (tps_of x))) (tbl x).
  Proof.
    intros Hx. destruct (row_term_ok x Hx) as [E _]. pose proof (gt_coeffs _ GT _ _ E) as Hl.
    unfold lin_gtinv_feature, tbl. fold (tps_of x).
    set (cs := nth (lt_lm x) (fp_lm_coeffs fp) []) in *. set (lms := nth (lt_lm x) (fp_lm_array fp) []) in *. clearbody cs lms.
    apply nth_ext with (d := (0, [])) (d' := (0, [])).
    - rewrite !map_length, seq_length, combine_length. lia.
    - intros k Hk. rewrite map_length, seq_length in Hk.
      rewrite (nth_mapd _ _ _ 0%nat) by (now rewrite seq_length). rewrite seq_nth by exact Hk. cbn [Nat.add].
      rewrite (nth_mapd _ _ _ (0, [])) by (rewrite combine_length; lia). rewrite combine_nth by exact Hl. reflexivity.
  Qed.
  Lemma tbl_snd x cl : In x row_terms -> In cl (tbl x) -> In (snd cl) (nth (lt_lm x) (fp_lm_array fp) []).
  Proof. intros _ H. destruct cl. apply in_combine_r in H. exact H. Qed.

  Let fs := map (lin_gtinv_feature (ids_plain G t) fp) row_terms.
  Let reps := map (lin_gtinv_feature (ids_rep G t) fp) row_terms.
  Lemma fs_nth i : i < length fs -> exists x, In x row_terms /\ nth i fs [] = lin_gtinv_feature (ids_plain G t) fp x /\ nth i reps [] = lin_gtinv_feature (ids_rep G t) fp x.
  Proof.
    unfold fs, reps. rewrite map_length. intros Hi. exists (nth i row_terms (LT 0 0 0 0 [])).
    split; [now apply nth_In|]. split; apply nth_mapd; exact Hi.
  Qed.
  Lemma st_plain i st : i < length fs -> In st (nth i fs []) -> exists x lms, In x row_terms /\ In lms (nth (lt_lm x) (fp_lm_array fp) []) /\
    nth i fs [] = lin_gtinv_feature (ids_plain G t) fp x /\ Permutation (snd st) (raw (lt_n x) lms (tps_of x)).
  Proof.
    intros Hi Hst. destruct (fs_nth i Hi) as [x [Hx [E _]]]. rewrite E, feature_tbl in Hst by exact Hx. apply in_map_iff in Hst.
    destruct Hst as [cl [<- Hcl]]. exists x, (snd cl). split; [exact Hx|]. split; [eapply tbl_snd; eauto|]. split; [exact E|]. cbn [snd]. apply plain_raw.
  Qed.
  Lemma fs_heads_lt i st h : i < length fs -> In st (nth i fs []) -> In h (snd st) -> h < nhl.
  Proof.
    intros Hi Hst Hh. destruct (st_plain i st Hi Hst) as [x [lms [Hx [Hl [_ P]]]]]. eapply raw_lt; [exact Hx|exact Hl|].
    eapply Permutation_in; [exact P|exact Hh].
  Qed.
  Lemma fs_same_size i st : i < length fs -> In st (nth i fs []) -> length (snd st) = feature_size fs i /\ 0 < feature_size fs i.
  Proof.
    intros Hi Hst. destruct (st_plain i st Hi Hst) as [x [lms [Hx [Hl [E P]]]]]. unfold feature_size.
    assert (Hlen : forall st, In st (nth i fs []) -> length (snd st) = length (lc_of x)).
    { intros st' H. rewrite E, feature_tbl in H by exact Hx. apply in_map_iff in H. destruct H as [cl [<- Hcl]]. cbn [snd].
      rewrite (Permutation_length (plain_raw _ _ _)). unfold raw. rewrite map_length, seq_length.
      apply (lms_ok x Hx _ (tbl_snd x cl Hx Hcl)). }
    rewrite (Hlen st Hst), (Hlen (hd (0, []) (nth i fs []))); [split; [reflexivity|]|].
    - destruct (row_term_ok x Hx) as [_ [_ [Hne _]]]. destruct (lc_of x); [congruence|cbn; lia].
    - destruct (nth i fs []); [contradiction|now left].
  Qed.
  Lemma fs_nonempty i : i < length fs -> nth i fs [] <> [].
  Proof.
    intros Hi. destruct (fs_nth i Hi) as [x [Hx [E _]]]. rewrite E. destruct (row_term_ok x Hx) as [El _].
    pose proof (gt_ne _ GT _ _ El) as Hne. unfold lin_gtinv_feature. destruct (nth (lt_lm x) (fp_lm_array fp) []); [congruence|discriminate].
  Qed.
  Lemma fs_size_pos i : i < length fs -> 0 < feature_size fs i.
  Proof. intros Hi. pose proof (fs_nonempty i Hi) as H. destruct (nth i fs []) as [|st l] eqn:E; [congruence|]. apply (fs_same_size i st Hi). rewrite E. now left. Qed.
  Lemma fs_closed i : i < length fs -> exists g, Permutation (nth i fs []) g /\
    Forall2 (fun st st' : sterm F => fst st' = fst st /\ Permutation (snd st') (map cjl (snd st))) (nth i fs []) g.
  Proof.
    intros Hi. destruct (fs_nth i Hi) as [x [Hx [E _]]]. rewrite E, feature_tbl by exact Hx.
    destruct (row_term_ok x Hx) as [El _]. pose proof (gt_conj _ GT _ _ El) as P. cbv zeta in P. fold (tbl x) in P.
    set (mk := fun cl : F * list nat => (fst cl, ids_plain G t (lt_n x) (snd cl) (tps_of x))).
    exists (map mk (map (fun cl => (fst cl, conj_lms (lc_of x) (snd cl))) (tbl x))). split; [now apply Permutation_map|].
    rewrite map_map. assert (Hin : forall cl, In cl (tbl x) -> In (snd cl) (nth (lt_lm x) (fp_lm_array fp) [])) by (intros cl; now apply tbl_snd).
    clear P E. induction (tbl x) as [|cl l IH]; constructor.
    - cbn [mk fst snd]. split; [reflexivity|]. unfold G, M. rewrite plain_raw, plain_raw.
      rewrite (raw_conj x Hx _ (Hin cl (or_introl eq_refl))). reflexivity.
    - apply IH. intros c Hc. apply Hin. now right.
  Qed.
  Lemma fs_cc i st : i < length fs -> In st (nth i fs []) -> nprod (map ccl (snd st)) = 1.
  Proof.
    intros Hi Hst. destruct (st_plain i st Hi Hst) as [x [lms [Hx [Hl [_ P]]]]]. rewrite (nprod_perm _ _ (Permutation_map _ P)). now apply raw_cc.
  Qed.
  Lemma fs_sg i st : i < length fs -> In st (nth i fs []) -> nprod (map sgl (snd st)) = 1.
  Proof.
    intros Hi Hst. destruct (st_plain i st Hi Hst) as [x [lms [Hx [Hl [_ P]]]]]. rewrite (nprod_perm _ _ (Permutation_map _ P)). now apply raw_sg.
  Qed.
  Lemma reps_value i (a : nat -> Cx F) : i < length fs -> (forall h, h < nhl -> a (cjl h) = of_real (ccl h) * conj (a h)) ->
    fval (nth i reps []) a = fval (nth i fs []) a.
  Proof.
    intros Hi Ha. destruct (fs_nth i Hi) as [x [Hx [E E']]]. rewrite E, E', !feature_tbl by exact Hx. unfold fval, pval. rewrite !re_sum, !nsumf_map.
    apply nsumf_ext. intros cl Hcl. cbn [fst snd]. rewrite !re_scale. f_equal.
    pose proof (tbl_snd x cl Hx Hcl) as Hl. unfold G, M. rewrite (nprod_perm _ _ (Permutation_map a (plain_raw (lt_n x) (snd cl) (tps_of x)))).
    destruct (rep_raw x Hx _ Hl) as [P|P]; rewrite (nprod_perm _ _ (Permutation_map a P)); [reflexivity|].
    apply (rep_value nhl cjl ccl a); [exact Ha|intros h Hh; exact (raw_lt x Hx _ Hl h Hh)|now apply raw_cc].
  Qed.
End Rows.
