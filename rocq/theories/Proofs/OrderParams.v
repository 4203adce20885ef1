(** Order parameters of a gtinv model in the two evaluators. *)
From Verif Require Import Base Num Complex Spec.Poly Spec.ModelParams Spec.Gtinv Model.Cxx Model.Mapping Model.ModelParams Model.Features Model.Potential
  Model.Neighbor Model.Compute Model.Eval Proofs.Cxx Proofs.Mapping Proofs.ModelParams Proofs.Sums Proofs.FeatureVals Proofs.Potential Proofs.PerAtom
  Proofs.GtinvTables Proofs.GtinvFeatures.
From Coq Require Import Ring.

(** A loop of pairs of writes. *)
Lemma vset_fold {A T} (p q : A -> nat) (u w : A -> T) l h x : forall v,
  (forall a, In a l -> p a = h \/ q a = h -> (if q a =? h then w a else u a) = x) ->
  (v h = x \/ exists a, In a l /\ (p a = h \/ q a = h)) ->
  fold_left (fun v a => vset (vset v (p a) (u a)) (q a) (w a)) l v h = x.
Proof.
  induction l as [|a l IH]; intros v H1 H2; cbn [fold_left].
  - destruct H2 as [H2|[a [[] _]]]. exact H2.
  - apply IH; [intros b Hb; apply H1; now right|].
    unfold vset. rewrite (Nat.eqb_sym h (q a)), (Nat.eqb_sym h (p a)).
    pose proof (H1 a (or_introl eq_refl)) as Ha. destruct (Nat.eqb_spec (q a) h) as [Q|Q]; [left; now apply Ha; right|].
    destruct (Nat.eqb_spec (p a) h) as [P|P]; [left; now apply Ha; left|].
    destruct H2 as [H2|[b [[<-|Hb] Hpq]]]; [now left|exfalso; tauto|right; now exists b].
Qed.
(** A loop of writes whose sources are never written. *)
Lemma fill_fold {A T} (c : A -> bool) (p : A -> nat) (g : A -> (nat -> T) -> T) (P : nat -> Prop) l h x : forall v v0,
  (forall a, In a l -> c a = true -> ~ P (p a)) ->
  (forall a v, In a l -> c a = true -> (forall k, P k -> v k = v0 k) -> p a = h -> g a v = x) ->
  (forall k, P k -> v k = v0 k) ->
  (v h = x \/ exists a, In a l /\ c a = true /\ p a = h) ->
  fold_left (fun v a => if c a then vset v (p a) (g a v) else v) l v h = x.
Proof.
  induction l as [|a l IH]; intros v v0 H1 H2 H3 H4; cbn [fold_left].
  - destruct H4 as [H4|[a [[] _]]]. exact H4.
  - apply (IH _ v0).
    + intros b Hb. apply H1. now right.
    + intros b v' Hb. apply H2. now right.
    + intros k Hk. destruct (c a) eqn:E; [|now apply H3]. unfold vset. destruct (Nat.eqb_spec k (p a)) as [Q|Q]; [|now apply H3].
      subst k. exfalso. exact (H1 a (or_introl eq_refl) E Hk).
    + destruct (c a) eqn:E.
      * unfold vset. destruct (Nat.eqb_spec h (p a)) as [Q|Q]; [left; apply H2; auto; now left|].
        destruct H4 as [H4|[b [[<-|Hb] Hb']]]; [now left|exfalso; apply Q; symmetry; tauto|right; now exists b].
      * destruct H4 as [H4|[b [[<-|Hb] [Hb' Hb'']]]]; [now left|congruence|right; now exists b].
Qed.

Lemma nlmtp_attrs_lm n_fn maxl tpn a : In a (nlmtp_attrs n_fn maxl tpn) -> lm_l (a_lm a) <= maxl.
Proof.
  intros H. apply In_nth_error in H. destruct H as [g Hg].
  assert (L : g < length (nlmtp_loop n_fn maxl tpn)) by (rewrite <- attrs_length; apply nth_error_Some; congruence).
  destruct (key_inv _ _ _ _ L) as [n [lm [j [Hn [Hlm [Hj E]]]]]].
  destruct (attrs_at n_fn maxl tpn n lm j a Hn Hlm Hj) as [c Hc]. rewrite <- E, (nth_error_nth _ _ _ Hg) in Hc.
  subst a. cbn. assert (I : In (nth lm (lm_attrs maxl) (lm_attr 0 0)) (lm_attrs maxl)) by (apply nth_In; exact Hlm).
  unfold lm_attrs in I at 2. apply in_flat_map in I. destruct I as [l [Hl I]]. apply in_seq in Hl. apply in_map_iff in I.
  destruct I as [k [<- _]]. cbn. lia.
Qed.

Section Params.
  Context {F : Type} {N : Num F} {NO : NumOrd F} {L : RingLaws F}.
  Local Open Scope num_scope.
  Add Ring Fring : (ring_laws (F:=F)).
  Variable tol : F.
  Variable B : basis F.
  Variable fp : fparams F.
  Hypothesis GT : gtinv_table fp.
  Hypothesis BO : basis_ok B (fp_maxl fp).
  Variable types : nat -> nat.
  Let nt := fp_n_type fp.
  Variable t : nat.
  Hypothesis Ht : t < nt.
  Notation locs := (locs fp t).
  Notation att := (att fp t).
  Notation nhl := (nhl fp t).
  Notation cjl := (cjl fp t).
  Notation ccl := (ccl fp t).
  Notation sgl := (sgl fp t).
  Notation nocl := (nocl fp t).
  Notation nc := (nc_attrs fp t).

  Lemma gok : gtinv_ok nt (length (fp_params fp)) (fp_maxl fp) (fp_cond fp) (mp_gt (mapping fp)).
  Proof. rewrite (mp_gt_eq fp GT). apply mapping_gtinv_ok. Qed.
  Lemma nc_eq : nc = filter noconj locs.
  Proof. exact (go_nc _ _ _ _ _ gok t Ht). Qed.
  Lemma att_il h : h < nhl -> a_il (att h) = h.
  Proof. intros H. exact (proj1 (go_loc _ _ _ _ _ gok t h _ Ht (att_nth fp t h H))). Qed.
  Lemma nc_at h : h < nhl -> nocl h = true -> nth_error nc (a_inc (att h)) = Some (att h).
  Proof.
    intros H Hn. assert (Hin : In (att h) nc).
    { rewrite nc_eq. apply filter_In. split; [exact (nth_error_In _ _ (att_nth fp t h H))|exact Hn]. }
    destruct (In_nth_error _ _ Hin) as [k Hk]. now rewrite (go_inc _ _ _ _ _ gok t k _ Ht Hk).
  Qed.
  Lemma nc_In a : In a nc -> exists h, h < nhl /\ nocl h = true /\ a = att h.
  Proof.
    rewrite nc_eq. intros H. apply filter_In in H. destruct H as [H1 H2]. destruct (In_nth_error _ _ H1) as [h Hh].
    assert (E : att h = a) by (unfold GtinvFeatures.att; apply (nth_error_nth _ _ _ Hh)).
    exists h. split; [apply nth_error_Some; rewrite Hh; discriminate|]. split; [|now symmetry].
    unfold GtinvFeatures.nocl. rewrite E. exact H2.
  Qed.
  Lemma inc_inj h h' : h < nhl -> h' < nhl -> nocl h = true -> nocl h' = true -> a_inc (att h) = a_inc (att h') -> h = h'.
  Proof.
    intros H H' Hn Hn' E. pose proof (nc_at h H Hn) as E1. rewrite E, (nc_at h' H' Hn') in E1. injection E1 as E1.
    rewrite <- (att_il h H), <- (att_il h' H'). now rewrite E1.
  Qed.

  Section Pick.
    Context {T : Type} {NT : Num T} {LT : RingLaws T}.
    Add Ring Tring : (ring_laws (F:=T)).
    Lemma nc_sum (g : nlmtpAttr -> T) : nsumf g nc = nsumf (fun h => if nocl h then g (att h) else 0) (seq 0 nhl).
    Proof. rewrite nc_eq, nsumf_filter. symmetry. exact (nsumf_seq_nth (fun a => if noconj a then g a else 0) locs a_dflt). Qed.
    Lemma nc_pick_il h (G : nlmtpAttr -> T) : h < nhl -> nocl h = true -> nsumf (fun a => if a_il a =? h then G a else 0) nc = G (att h).
    Proof.
      intros H Hn. rewrite nc_sum.
      rewrite (nsumf_ext _ (fun k => if h =? k then G (att k) else 0)); [now rewrite (nsumf_delta _ (fun k => G (att k)))|].
      intros k Hk. apply in_seq in Hk. rewrite att_il by lia. rewrite (Nat.eqb_sym h k). destruct (Nat.eqb_spec k h) as [Q|Q]; [subst k; now rewrite Hn|].
      destruct (nocl k); reflexivity.
    Qed.
    Lemma nc_pick_inc h (G : nlmtpAttr -> T) : h < nhl -> nocl h = true -> nsumf (fun a => if a_inc a =? a_inc (att h) then G a else 0) nc = G (att h).
    Proof.
      intros H Hn. rewrite nc_sum.
      rewrite (nsumf_ext _ (fun k => if h =? k then G (att k) else 0)); [now rewrite (nsumf_delta _ (fun k => G (att k)))|].
      intros k Hk. apply in_seq in Hk. rewrite (Nat.eqb_sym h k). destruct (Nat.eqb_spec k h) as [Q|Q]; [subst k; now rewrite Hn, Nat.eqb_refl|].
      destruct (nocl k) eqn:E; [|reflexivity]. destruct (Nat.eqb_spec (a_inc (att k)) (a_inc (att h))) as [C|C]; [|reflexivity].
      exfalso. apply Q. apply (inc_inj k h); auto; lia.
    Qed.
  End Pick.

  (** Values for m <= 0 extended to m > 0. *)
  Definition ext (z : nat -> Cx F) (h : nat) : Cx F := if nocl h then z h else cscale (ccl h) (conj (z (cjl h))).
  Lemma rem_opp m : Z.rem (- m) 2 = Z.opp (Z.rem m 2).
  Proof. apply Z.rem_opp_l. lia. Qed.
  Lemma cc_cj h : h < nhl -> ccl (cjl h) = ccl h :> F.
  Proof.
    intros H. destruct (conj_facts fp GT t Ht h H) as [_ [_ [E [E' _]]]]. unfold GtinvFeatures.ccl. rewrite E.
    transitivity (sgn (lm_cc (lm_attr (lm_l (a_lm (att h))) (lm_m (a_lm (att h))))) : F); [|now rewrite <- E']. cbn [lm_attr lm_cc].
    rewrite rem_opp. destruct (Z.eqb_spec (Z.rem (lm_m (a_lm (att h))) 2) 0) as [Q|Q];
      destruct (Z.eqb_spec (- Z.rem (lm_m (a_lm (att h))) 2) 0) as [R|R]; lia || reflexivity.
  Qed.
  Lemma sg_cj h : h < nhl -> sgl (cjl h) = sgl h :> F.
  Proof.
    intros H. destruct (conj_facts fp GT t Ht h H) as [_ [_ [E [E' _]]]]. unfold GtinvFeatures.sgl. rewrite E.
    transitivity (sgn (lm_sign (lm_attr (lm_l (a_lm (att h))) (lm_m (a_lm (att h))))) : F); [reflexivity|now rewrite <- E'].
  Qed.
  Lemma cc0 h : h < nhl -> lm_m (a_lm (att h)) = 0%Z -> ccl h = 1 :> F.
  Proof.
    intros H Hm. destruct (conj_facts fp GT t Ht h H) as [_ [_ [_ [E' _]]]]. unfold GtinvFeatures.ccl. rewrite E', Hm. reflexivity.
  Qed.
  Lemma noc_cj h : h < nhl -> nocl h = true -> nocl (cjl h) = true -> cjl h = h /\ lm_m (a_lm (att h)) = 0%Z.
  Proof.
    intros H H1 H2. destruct (conj_facts fp GT t Ht h H) as [C1 [_ [E [_ [_ [_ [_ E0]]]]]]].
    rewrite (noc_low fp GT t Ht) in H1 by exact H. rewrite (noc_low fp GT t Ht) in H2 by exact C1. rewrite E in H2. cbn [lm_attr lm_m] in H2.
    apply Z.leb_le in H1, H2. assert (Hm : lm_m (a_lm (att h)) = 0%Z) by lia. split; [now apply E0|exact Hm].
  Qed.
  Lemma noc_cj_false h : h < nhl -> nocl h = false -> nocl (cjl h) = true.
  Proof.
    intros H H1. destruct (conj_facts fp GT t Ht h H) as [C1 [_ [E _]]].
    rewrite (noc_low fp GT t Ht) in H1 by exact H. rewrite (noc_low fp GT t Ht) by exact C1. rewrite E. cbn [lm_attr lm_m].
    apply Z.leb_gt in H1. apply Z.leb_le. lia.
  Qed.
  Definition real0 (z : nat -> Cx F) : Prop := forall h, h < nhl -> lm_m (a_lm (att h)) = 0%Z -> im (z h) = 0.
  Lemma ext_conj z : real0 z -> forall h, h < nhl -> ext z (cjl h) = of_real (ccl h) * conj (ext z h).
  Proof.
    intros Hz h H. destruct (conj_facts fp GT t Ht h H) as [C1 [C2 _]]. unfold ext. destruct (nocl h) eqn:E1.
    - destruct (nocl (cjl h)) eqn:E2.
      + destruct (noc_cj h H E1 E2) as [C3 Hm]. rewrite C3, (cc0 h H Hm). specialize (Hz h H Hm). destruct (z h) as [x y].
        cbn in Hz. subst y. apply cx_eq; cbn; ring.
      + rewrite C2, cc_cj by exact H. destruct (z h) as [x y]. apply cx_eq; cbn; ring.
    - rewrite noc_cj_false by assumption. pose proof (sgn_sq (F:=F) (lm_cc (a_lm (att h)))) as Q. fold (ccl h) in Q.
      destruct (z (cjl h)) as [x y]. apply cx_eq; cbn; [transitivity (ccl h * ccl h * x)|transitivity (ccl h * ccl h * y)]; try ring; rewrite Q; ring.
  Qed.
  Lemma ext_sg z : forall h, h < nhl -> ext (fun k => of_real (sgl k) * z k) h = of_real (sgl h) * ext z h.
  Proof.
    intros h H. unfold ext. destruct (nocl h); [reflexivity|]. rewrite sg_cj by exact H. destruct (z (cjl h)) as [x y]. apply cx_eq; cbn; ring.
  Qed.
  Lemma ext_ext z z' : (forall h, h < nhl -> nocl h = true -> z h = z' h) -> forall h, h < nhl -> ext z h = ext z' h.
  Proof.
    intros Hz h H. unfold ext. destruct (nocl h) eqn:E; [now apply Hz|]. rewrite Hz; [reflexivity| |now apply noc_cj_false].
    apply (conj_facts fp GT t Ht h H).
  Qed.

  Lemma conjugate_spec (r i : nat -> F) : (forall h, h < nhl -> lm_m (a_lm (att h)) = 0%Z -> i (a_inc (att h)) = 0) ->
    forall h, h < nhl -> conjugate fp t r i h = ext (fun k => (r (a_inc (att k)), i (a_inc (att k)))) h.
  Proof.
    intros Hi h H. unfold conjugate.
    transitivity (fold_left (fun v (ka : nat * nlmtpAttr) => vset (vset v (a_il (snd ka)) (r (fst ka), i (fst ka))) (a_icj (snd ka))
       (sgn (lm_cc (a_lm (snd ka))) * r (fst ka), - sgn (lm_cc (a_lm (snd ka))) * i (fst ka)))
       (combine (seq 0 (length nc)) nc) (fun _ => (0, 0)) h).
    { apply (f_equal (fun f => f h)). apply fold_left_ext. intros v [k a] _. reflexivity. }
    assert (Hel : forall k a, In (k, a) (combine (seq 0 (length nc)) nc) -> k = a_inc a /\ In a nc).
    { intros k a Hka. destruct (combine_seq_In nc 0 k a a_dflt Hka) as [K1 K2]. rewrite Nat.sub_0_r in K2.
      assert (E : nth_error nc k = Some a) by (rewrite <- K2; apply nth_error_nth'; lia).
      split; [symmetry; exact (go_inc _ _ _ _ _ gok t k a Ht E)|exact (nth_error_In _ _ E)]. }
    apply vset_fold.
    - intros [k a] Hka Hpq. cbn [fst snd] in *. destruct (Hel k a Hka) as [-> Ha]. destruct (nc_In a Ha) as [h0 [H0 [N0 ->]]].
      rewrite att_il in * by exact H0. fold (cjl h0). fold (ccl h0). destruct (conj_facts fp GT t Ht h0 H0) as [C1 [C2 _]].
      unfold ext. change (a_icj (att h0)) with (cjl h0) in Hpq.
      destruct (Nat.eqb_spec (cjl h0) h) as [Q|Q].
      + destruct (nocl h) eqn:E.
        * rewrite <- Q in E. destruct (noc_cj h0 H0 N0 E) as [C3 Hm]. rewrite <- Q, C3.
          rewrite (cc0 _ H0 Hm). rewrite (Hi h0 H0 Hm). apply cx_eq; cbn; ring.
        * assert (E0 : cjl h = h0) by (rewrite <- Q; exact C2). rewrite E0. assert (Ec : ccl h = ccl h0 :> F) by (rewrite <- Q; now apply cc_cj).
          rewrite Ec. apply cx_eq; cbn; ring.
      + destruct Hpq as [P|P]; [|congruence]. subst h0. now rewrite N0.
    - right. destruct (nocl h) eqn:E.
      + exists (a_inc (att h), att h). split; [|left; cbn [snd]; now apply att_il].
        pose proof (nc_at h H E) as Hk. rewrite (nth_error_nth' _ a_dflt) in Hk by (apply nth_error_Some; rewrite Hk; discriminate).
        injection Hk as Hk. rewrite <- Hk at 2. assert (Hl : a_inc (att h) < length nc) by (apply nth_error_Some; rewrite (nc_at h H E); discriminate).
        revert Hl. generalize (a_inc (att h)) as k. intros k Hl.
        replace (k, nth k nc a_dflt) with (nth k (combine (seq 0 (length nc)) nc) (0%nat, a_dflt)).
        * apply nth_In. rewrite combine_length, seq_length. lia.
        * rewrite combine_nth by (now rewrite seq_length). now rewrite seq_nth.
      + set (h0 := cjl h). destruct (conj_facts fp GT t Ht h H) as [C1 [C2 _]]. pose proof (noc_cj_false h H E) as E0. fold h0 in C1, C2, E0.
        exists (a_inc (att h0), att h0). split; [|right; cbn [snd]; exact C2].
        pose proof (nc_at h0 C1 E0) as Hk. rewrite (nth_error_nth' _ a_dflt) in Hk by (apply nth_error_Some; rewrite Hk; discriminate).
        injection Hk as Hk. rewrite <- Hk at 2. assert (Hl : a_inc (att h0) < length nc) by (apply nth_error_Some; rewrite (nc_at h0 C1 E0); discriminate).
        revert Hl. generalize (a_inc (att h0)) as k. intros k Hl.
        replace (k, nth k nc a_dflt) with (nth k (combine (seq 0 (length nc)) nc) (0%nat, a_dflt)).
        * apply nth_In. rewrite combine_length, seq_length. lia.
        * rewrite combine_nth by (now rewrite seq_length). now rewrite seq_nth.
  Qed.
  Lemma fill_conj_spec (v : nat -> Cx F) h : h < nhl -> fill_conj fp t v h = ext v h.
  Proof.
    intros H. unfold fill_conj.
    assert (Hel : forall a, In a (all_attrs fp t) -> exists k, k < nhl /\ a = att k).
    { intros a Ha. change (all_attrs fp t) with locs in Ha. destruct (In_nth_error _ _ Ha) as [k Hk]. exists k.
      split; [apply nth_error_Some; rewrite Hk; discriminate|]. symmetry. unfold GtinvFeatures.att. apply (nth_error_nth _ _ _ Hk). }
    apply (fill_fold (fun a => lm_conj (a_lm a)) a_il (fun a v => cscale (sgn (lm_cc (a_lm a))) (conj (v (a_icj a))))
      (fun k => k < nhl /\ nocl k = true) _ h _ v v).
    - intros a Ha Hc [_ C]. destruct (Hel a Ha) as [k [Hk ->]]. rewrite att_il in C by exact Hk. unfold GtinvFeatures.nocl in C. rewrite Hc in C. discriminate.
    - intros a v' Ha Hc Hv' E. destruct (Hel a Ha) as [k [Hk ->]]. rewrite att_il in E by exact Hk. subst k.
      unfold ext. unfold GtinvFeatures.nocl at 1. rewrite Hc. cbn [negb]. fold (cjl h). fold (ccl h). rewrite Hv'; [reflexivity|].
      split; [apply (conj_facts fp GT t Ht h H)|]. apply noc_cj_false; [exact H|]. unfold GtinvFeatures.nocl. now rewrite Hc.
    - auto.
    - unfold ext. destruct (nocl h) eqn:E; [now left|right]. exists (att h). split; [exact (nth_error_In _ _ (att_nth fp t h H))|].
      split; [unfold GtinvFeatures.nocl in E; now destruct (lm_conj (a_lm (att h)))|now apply att_il].
  Qed.

  (** Sums over the neighbours for one order parameter with m <= 0. *)
  Definition on (h tp : nat) (d : v3 F) : bool :=
    (a_tp (att h) =? tp)%nat && negb (nltb (fn B fp tp (a_n_id (att h)) (norm d)) tol).
  Definition zsum {T} {NT : Num T} (K : nat * v3 F -> nat -> nat -> nat -> T) (nb : list (nat * v3 F)) (h : nat) : T :=
    nsumf (fun jd => if inside fp (snd jd) && on h (tpair nt t (types (fst jd))) (snd jd)
                     then K jd (tpair nt t (types (fst jd))) (a_n_id (att h)) (lm_key (a_lm (att h))) else 0) nb.
  Lemma loop_sum {T} {NT : Num T} {LT : RingLaws T} (K : nat * v3 F -> nat -> nat -> nat -> T) nb h : h < nhl -> nocl h = true ->
    nsumf (fun e : nlmtpAttr * nat * v3 F * nat => let '(a, j, d, tp) := e in if (a_il a =? h)%nat then K (j, d) tp (a_n_id a) (lm_key (a_lm a)) else 0)
      (gt_loop tol B fp types t nb) = zsum K nb h.
  Proof.
    intros H Hn. unfold gt_loop, pair_loop, zsum. rewrite nsumf_flat_map. apply nsumf_ext'. intros [j d]. cbn [fst snd]. fold nt.
    destruct (inside fp d); cbn [andb]; [|reflexivity]. rewrite nsumf_map, nsumf_filter.
    set (tp := tpair nt t (types j)).
    rewrite (nsumf_ext' _ (fun a => if (a_il a =? h)%nat then
      (if (a_tp a =? tp)%nat && negb (nltb (fn B fp tp (a_n_id a) (norm d)) tol) then K (j, d) tp (a_n_id a) (lm_key (a_lm a)) else 0) else 0)).
    - now rewrite (nc_pick_il h (fun a => if (a_tp a =? tp)%nat && negb (nltb (fn B fp tp (a_n_id a) (norm d)) tol) then K (j, d) tp (a_n_id a) (lm_key (a_lm a)) else 0)).
    - intros a. destruct ((a_tp a =? tp)%nat && negb (nltb (fn B fp tp (a_n_id a) (norm d)) tol)), (a_il a =? h)%nat; reflexivity.
  Qed.
  Lemma zsum_perm {T} {NT : Num T} {LT : RingLaws T} (K : nat * v3 F -> nat -> nat -> nat -> T) nb nb' h : Permutation nb nb' -> zsum K nb h = zsum K nb' h.
  Proof. intros P. unfold zsum. now apply nsumf_perm. Qed.

  (** Slow evaluator. *)
  Definition Kval (jd : nat * v3 F) (tp n key : nat) : Cx F := gt_val B fp tp n key (snd jd).
  Definition Kder (w : nat * v3 F -> F) (c : nat) (jd : nat * v3 F) (tp n key : nat) : Cx F := cscale (w jd) (gt_val_d B fp c tp n key (snd jd)).
  Lemma d0_spec nb h : h < nhl -> anlmtp_d0 tol B fp types t nb h = ext (zsum Kval nb) h.
  Proof.
    intros H. unfold anlmtp_d0. rewrite fill_conj_spec by exact H. apply ext_ext; [|exact H]. intros k Hk Hn.
    rewrite accum_spec, nsumf_map, <- (loop_sum Kval nb k Hk Hn). apply nsumf_ext'. intros [[[a j] d] tp]. reflexivity.
  Qed.
  Definition w_atom (atom1 atom : nat) (jd : nat * v3 F) : F := (if atom1 =? atom then 1 else 0) - (if fst jd =? atom then 1 else 0).
  Lemma df_spec c atom1 nb atom h : h < nhl -> anlmtp_df tol B fp types c t atom1 nb atom h = ext (zsum (Kder (w_atom atom1 atom) c) nb) h.
  Proof.
    intros H. unfold anlmtp_df. rewrite fill_conj_spec by exact H. apply ext_ext; [|exact H]. intros k Hk Hn.
    unfold row_updates. rewrite accum_spec, nsumf_flat_map, nsumf_map, <- (loop_sum _ nb k Hk Hn). apply nsumf_ext'. intros [[[a j] d] tp].
    destruct (a_il a =? k); [|reflexivity]. rewrite !nsumf_cons, nsumf_nil. cbn [fst snd]. unfold Kder, w_atom. cbn [fst snd].
    destruct (gt_val_d B fp c tp (a_n_id a) (lm_key (a_lm a)) d) as [x y].
    destruct (atom1 =? atom), (j =? atom); apply cx_eq; cbn; ring.
  Qed.
  Definition w_stress (c : nat) (jd : nat * v3 F) : F := - vc c (snd jd).
  Lemma ds_spec k nb h : h < nhl -> anlmtp_ds tol B fp types k t nb h =
    ext (zsum (Kder (w_stress (snd (stress_comp k))) (fst (stress_comp k))) nb) h.
  Proof.
    intros H. unfold anlmtp_ds. destruct (stress_comp k) as [c c']. cbn [fst snd]. rewrite fill_conj_spec by exact H. apply ext_ext; [|exact H]. intros q Hq Hn.
    rewrite accum_spec, nsumf_map, <- (loop_sum _ nb q Hq Hn). apply nsumf_ext'. intros [[[a j] d] tp]. cbn [fst snd].
    destruct (a_il a =? q); [|reflexivity]. unfold Kder, w_stress. cbn [snd]. destruct (gt_val_d B fp c tp (a_n_id a) (lm_key (a_lm a)) d) as [x y].
    apply cx_eq; cbn; ring.
  Qed.

  (** Parity. *)
  Lemma norm_neg (d : v3 F) : norm (vneg d) = norm d.
  Proof. unfold norm, norm2, vdot, vneg. cbn [vx vy vz]. f_equal. ring. Qed.
  Lemma inside_neg (d : v3 F) : inside fp (vneg d) = inside fp d.
  Proof. unfold inside. now rewrite norm_neg. Qed.
  Lemma on_neg h tp (d : v3 F) : on h tp (vneg d) = on h tp d.
  Proof. unfold on. now rewrite norm_neg. Qed.
  Lemma key_ylm h : h < nhl -> nocl h = true -> exists k, k <= lm_l (a_lm (att h)) <= fp_maxl fp /\ lm_key (a_lm (att h)) = ylm_index (lm_l (a_lm (att h))) k /\
    (lm_m (a_lm (att h)) = 0%Z -> k = 0%nat).
  Proof.
    intros H Hn. destruct (conj_facts fp GT t Ht h H) as [_ [_ [_ [E' [_ [_ [Hm _]]]]]]].
    rewrite (noc_low fp GT t Ht) in Hn by exact H. apply Z.leb_le in Hn.
    set (l := lm_l (a_lm (att h))) in *. set (m := lm_m (a_lm (att h))) in *. exists (Z.to_nat (- m)).
    assert (Hl : (l <= fp_maxl fp)%nat).
    { destruct (go_loc _ _ _ _ _ gok t h _ Ht (att_nth fp t h H)) as [_ [_ [_ [_ [_ [_ [b [Hb E]]]]]]]].
      rewrite (go_all _ _ _ _ _ gok) in Hb. apply nth_error_In in Hb.
      apply nlmtp_attrs_lm in Hb. unfold l. unfold gcore in E. injection E as _ _ E _ _ _. rewrite <- E. exact Hb. }
    split; [split; [lia|exact Hl]|]. split; [|intros ->; reflexivity].
    rewrite E'. cbn [lm_attr lm_key]. destruct (Z.ltb_spec m 1); [|lia]. unfold ylm_index.
    rewrite Nat.mul_comm.
    assert (D : Z.of_nat ((l + 3) * l / 2) = ((Z.of_nat l + 3) * Z.of_nat l / 2)%Z) by (rewrite Nat2Z.inj_div, Nat2Z.inj_mul, Nat2Z.inj_add; reflexivity).
    rewrite <- D. lia.
  Qed.
  Lemma sg_even h : h < nhl -> sgl h = (if Nat.even (lm_l (a_lm (att h))) then 1 else - (1)) :> F.
  Proof.
    intros H. destruct (conj_facts fp GT t Ht h H) as [_ [_ [_ [E' _]]]]. unfold GtinvFeatures.sgl. rewrite E'. cbn [lm_attr lm_sign lm_l].
    set (l := lm_l (a_lm (att h))). clearbody l.
    destruct (Nat.even l) eqn:E.
    - apply Nat.even_spec in E. destruct E as [q ->]. rewrite Nat.mul_comm, Nat.mod_mul by lia. reflexivity.
    - destruct (Nat.eqb_spec (l mod 2) 0) as [Q|Q]; [|reflexivity]. apply Nat.mod_divides in Q; [|lia]. destruct Q as [q ->].
      assert (C : Nat.even (2 * q) = true) by (apply Nat.even_spec; now exists q). congruence.
  Qed.
  Lemma val_neg h tp (d : v3 F) : h < nhl -> nocl h = true ->
    gt_val B fp tp (a_n_id (att h)) (lm_key (a_lm (att h))) (vneg d) = of_real (sgl h) * gt_val B fp tp (a_n_id (att h)) (lm_key (a_lm (att h))) d.
  Proof.
    intros H Hn. destruct (key_ylm h H Hn) as [k [Hk [-> _]]]. unfold gt_val. rewrite norm_neg, (bo_parity _ _ BO) by exact Hk. rewrite sg_even by exact H.
    destruct (Nat.even _), (b_ylm B _ d) as [x y]; apply cx_eq; cbn; ring.
  Qed.
  Lemma val_d_neg h c tp (d : v3 F) (FL : field_theory (n0 (F:=F)) n1 nadd nmul nsub nopp ndiv ninv eq) : h < nhl -> nocl h = true ->
    gt_val_d B fp c tp (a_n_id (att h)) (lm_key (a_lm (att h))) (vneg d) =
    - (of_real (sgl h) * gt_val_d B fp c tp (a_n_id (att h)) (lm_key (a_lm (att h))) d).
  Proof.
    intros H Hn. destruct (key_ylm h H Hn) as [k [Hk [-> _]]]. unfold gt_val_d. rewrite norm_neg, (bo_parity _ _ BO), (bo_parity_d _ _ BO) by exact Hk.
    rewrite sg_even by exact H. assert (Hc : vc c (vneg d) = - vc c d) by (destruct c as [|[|]]; reflexivity). rewrite Hc.
    unfold cdiv_r. pose proof (Fdiv_def FL) as Hd.
    destruct (Nat.even _), (b_ylm B _ d) as [x y], (b_ylm_d B c _ d) as [x' y']; apply cx_eq; cbn; rewrite !Hd; ring.
  Qed.
  Lemma val_real h tp (d : v3 F) : h < nhl -> lm_m (a_lm (att h)) = 0%Z -> im (gt_val B fp tp (a_n_id (att h)) (lm_key (a_lm (att h))) d) = 0.
  Proof.
    intros H Hm. assert (Hn : nocl h = true) by (rewrite (noc_low fp GT t Ht), Hm by exact H; reflexivity).
    destruct (key_ylm h H Hn) as [k [Hk [-> Hk0]]]. rewrite (Hk0 Hm) in *. unfold gt_val, cscale, im. cbn [snd].
    pose proof (bo_real _ _ BO (lm_l (a_lm (att h))) d ltac:(lia)) as E. unfold im in E. rewrite E. ring.
  Qed.
  Lemma val_d_real h c tp (d : v3 F) (FL : field_theory (n0 (F:=F)) n1 nadd nmul nsub nopp ndiv ninv eq) : h < nhl -> lm_m (a_lm (att h)) = 0%Z ->
    im (gt_val_d B fp c tp (a_n_id (att h)) (lm_key (a_lm (att h))) d) = 0.
  Proof.
    intros H Hm. assert (Hn : nocl h = true) by (rewrite (noc_low fp GT t Ht), Hm by exact H; reflexivity).
    destruct (key_ylm h H Hn) as [k [Hk [-> Hk0]]]. rewrite (Hk0 Hm) in *. unfold gt_val_d.
    pose proof (bo_real _ _ BO (lm_l (a_lm (att h))) d ltac:(lia)) as E. pose proof (bo_real_d _ _ BO c (lm_l (a_lm (att h))) d ltac:(lia)) as E'.
    destruct (b_ylm B _ d) as [x y], (b_ylm_d B c _ d) as [x' y']. cbn in *. subst y y'. pose proof (Fdiv_def FL) as Hd. rewrite !Hd. ring.
  Qed.
  Lemma zsum_real K nb : (forall jd h tp, h < nhl -> lm_m (a_lm (att h)) = 0%Z -> im (K jd tp (a_n_id (att h)) (lm_key (a_lm (att h)))) = 0) -> real0 (zsum K nb).
  Proof.
    intros HK h H Hm. unfold zsum. rewrite im_sum. rewrite (nsumf_ext' _ (fun _ => 0)); [apply nsumf_zero|].
    intros jd. destruct (inside fp (snd jd) && on h (tpair nt t (types (fst jd))) (snd jd)); [now apply HK|reflexivity].
  Qed.
End Params.
