(** The order parameters computed with the forces and without them. *)
From Verif Require Import Base Num Complex Spec.Poly Spec.ModelParams Spec.Gtinv Model.Cxx Model.Mapping Model.ModelParams Model.Features Model.Potential
  Model.Neighbor Model.Compute Proofs.Cxx Proofs.Mapping Proofs.ModelParams Proofs.Sums Proofs.FeatureVals Proofs.PerAtom Proofs.GtinvTables Proofs.GtinvFeatures
  Proofs.OrderParams Proofs.EvalGtinv Proofs.NeighborList.
From Coq Require Import Ring.
Local Open Scope nat_scope.

Section EnergyOnly.
  Context {F} {N : Num F} {NO : NumOrd F} {L : RingLaws F}.
  Local Open Scope num_scope.
  Add Ring Fring : (ring_laws (F:=F)).
  Variable tol : F.
  Variable B : basis F.
  Variable fp : fparams F.
  Hypothesis GT : gtinv_table fp.
  Hypothesis BO : basis_ok B (fp_maxl fp).
  Variable types : nat -> nat.
  (** The two tests on the radial functions differ only where they vanish. *)
  Hypothesis Hkeep : forall tp n d, inside fp d = true -> nltb tol (nabs (fn B fp tp n (norm d))) = negb (nltb (fn B fp tp n (norm d)) tol) \/ fn B fp tp n (norm d) = 0.
  Variable t : nat.
  Hypothesis Ht : (t < fp_n_type fp)%nat.

  Lemma vals_sum nb h : (h < nhl fp t)%nat -> nocl fp t h = true ->
    nsumf (fun e => if (fst e =? a_inc (att fp t h))%nat then snd e else 0) (anlmtp_vals B fp types (fun f => nltb tol (nabs f)) t nb)
    = zsum tol B fp types t (Kval B fp) nb h.
  Proof.
    intros H Hn. unfold anlmtp_vals. rewrite nsumf_map. unfold pair_loop, zsum. rewrite nsumf_flat_map. apply nsumf_ext'. intros [j d]. cbn [fst snd].
    destruct (inside fp d) eqn:I; cbn [andb]; [|reflexivity]. rewrite nsumf_map, nsumf_filter. cbn [fst snd].
    set (tp := tpair (fp_n_type fp) t (types j)).
    rewrite (nsumf_ext' _ (fun a => if (a_inc a =? a_inc (att fp t h))%nat then
      (if (a_tp a =? tp)%nat && negb (nltb (fn B fp tp (a_n_id a) (norm d)) tol) then Kval B fp (j, d) tp (a_n_id a) (lm_key (a_lm a)) else 0) else 0)).
    - exact (nc_pick_inc fp GT types t Ht h (fun a => if (a_tp a =? tp)%nat && negb (nltb (fn B fp tp (a_n_id a) (norm d)) tol) then Kval B fp (j, d) tp (a_n_id a) (lm_key (a_lm a)) else 0) H Hn).
    - intros a. destruct (a_inc a =? a_inc (att fp t h))%nat, (a_tp a =? tp)%nat; cbn [andb];
        try (now destruct (nltb tol (nabs (fn B fp tp (a_n_id a) (norm d))))); try reflexivity.
      destruct (Hkeep tp (a_n_id a) d I) as [->|E]; [reflexivity|]. unfold Kval, gt_val. cbn [snd]. rewrite E.
      destruct (nltb _ _), (negb _); try reflexivity; destruct (b_ylm B (lm_key (a_lm a)) d); apply cx_eq; cbn; ring.
  Qed.
  Theorem anlmtp_same nb h : (h < nhl fp t)%nat -> compute_anlmtp tol B fp types t nb h = anlmtp_d0 tol B fp types t nb h.
  Proof.
    intros H. unfold compute_anlmtp. cbv zeta.
    assert (E : forall k, (k < nhl fp t)%nat -> nocl fp t k = true ->
      (accum (map (fun e => (fst e, re (snd e))) (anlmtp_vals B fp types (fun f => nltb tol (nabs f)) t nb)) (a_inc (att fp t k)),
       accum (map (fun e => (fst e, im (snd e))) (anlmtp_vals B fp types (fun f => nltb tol (nabs f)) t nb)) (a_inc (att fp t k))) =
      zsum tol B fp types t (Kval B fp) nb k).
    { intros k Hk Hn. rewrite <- vals_sum by assumption. rewrite !accum_spec, !nsumf_map. cbn [fst snd].
      apply cx_eq; cbn [re im fst snd]; [change (fst (nsumf ?f ?l)) with (re (nsumf f l)); rewrite re_sum|change (snd (nsumf ?f ?l)) with (im (nsumf f l)); rewrite im_sum];
        apply nsumf_ext'; intros e; destruct (fst e =? _)%nat; reflexivity. }
    rewrite (conjugate_spec fp GT types t Ht); [|intros k Hk Hm|exact H].
    - rewrite (d0_spec tol B fp GT types t Ht) by exact H. apply (ext_ext fp GT types t Ht); [exact E|exact H].
    - assert (Hn : nocl fp t k = true) by (rewrite (noc_low fp GT t Ht), Hm by exact Hk; reflexivity).
      specialize (E k Hk Hn). apply (f_equal im) in E. cbn [im snd] in E. rewrite E.
      assert (R0 : real0 fp t (zsum tol B fp types t (Kval B fp) nb)).
      { apply zsum_real. intros jd h' tp Hh' Hm'. exact (val_real B fp GT BO types t Ht h' tp (snd jd) Hh' Hm'). }
      exact (R0 k Hk Hm).
  Qed.

  Lemma prod_lt p : In p (nonequiv_ids (repsT fp t)) -> forall h, In h p -> (h < nhl fp t)%nat.
  Proof.
    intros Hp h Hh. unfold nonequiv_ids in Hp. apply (proj1 (lexn_In _ _)) in Hp. apply in_flat_map in Hp. destruct Hp as [sf [Hsf Hp]].
    rewrite (repsT_eq fp GT t) in Hsf. apply in_map_iff in Hsf. destruct Hsf as [x [<- Hx]].
    rewrite (feature_tbl fp GT t Ht _ x Hx) in Hp. rewrite map_map in Hp. apply in_map_iff in Hp. destruct Hp as [cl [<- Hcl]]. cbn [snd] in Hh.
    pose proof (tbl_snd fp t x cl Hx Hcl) as Hl.
    destruct (rep_raw fp GT t Ht x Hx _ Hl) as [P|P]; apply (Permutation_in h P) in Hh.
    - exact (raw_lt fp GT t Ht x Hx _ Hl h Hh).
    - apply in_map_iff in Hh. destruct Hh as [k [<- Hk]]. apply (cj_ltT fp GT t Ht). exact (raw_lt fp GT t Ht x Hx _ Hl k Hk).
  Qed.
  Lemma product_ext p (a b : nat -> Cx F) : (forall h, In h p -> a h = b h) -> compute_product_real p a = compute_product_real p b.
  Proof.
    intros H. assert (E : forall rest x, (forall h, In h rest -> a h = b h) -> fold_left (fun v i => nmul v (a i)) rest x = fold_left (fun v i => nmul v (b i)) rest x).
    { induction rest as [|y rest IH]; intros x Hr; [reflexivity|]. cbn [fold_left]. rewrite (Hr y (or_introl eq_refl)). apply IH. intros h Hh. apply Hr. now right. }
    destruct p as [|x [|y [|z [|w [|v p]]]]]; unfold compute_product_real; rewrite ?(H x), ?(H y), ?(H z), ?(H w) by (cbn; tauto); try reflexivity.
    rewrite E; [reflexivity|]. intros h Hh. apply H. right. right. exact Hh.
  Qed.
  Lemma products_same (a b : nat -> Cx F) : (forall h, (h < nhl fp t)%nat -> a h = b h) -> compute_features_gtinv tol (ft fp t) a = compute_features_gtinv tol (ft fp t) b.
  Proof.
    intros H. assert (HP : forall p, In p (f_prod (ft fp t)) -> compute_product_real p a = compute_product_real p b).
    { intros p Hp. apply product_ext. intros h Hh. apply H. rewrite (ft_eq fp GT t Ht) in Hp. exact (prod_lt p Hp h Hh). }
    unfold compute_features_gtinv. destruct (_ <? _)%nat.
    - match goal with |- fold_left _ _ ?x = _ => generalize x end.
      assert (HC : forall pm, In pm (combine (f_prod (ft fp t)) (f_mapped (ft fp t))) -> compute_product_real (fst pm) a = compute_product_real (fst pm) b).
      { intros [p m] Hpm. apply HP. exact (in_combine_l _ _ _ _ Hpm). }
      clear HP. induction (combine _ _) as [|pm l IH]; intros x; [reflexivity|]. cbn [fold_left]. rewrite (HC pm (or_introl eq_refl)).
      apply IH. intros q Hq. apply HC. now right.
    - rewrite (map_ext_in _ (fun p => compute_product_real p b) _ HP). reflexivity.
  Qed.
  Theorem de_same nb : de tol B fp types false t nb = de tol B fp types true t nb.
  Proof. unfold de. rewrite (gt_gtinv _ GT). rewrite (products_same (compute_anlmtp tol B fp types t nb) (anlmtp_d0 tol B fp types t nb)); [reflexivity|]. exact (anlmtp_same nb). Qed.
End EnergyOnly.

Theorem xe_same {F} {N : Num F} {NO : NumOrd F} {L : RingLaws F} (tol : F) (B : basis F) (fp : fparams F) (types : nat -> nat) n neigh :
  gtinv_table fp -> basis_ok B (fp_maxl fp) ->
  (forall tp k d, inside fp d = true -> nltb tol (nabs (fn B fp tp k (norm d))) = negb (nltb (fn B fp tp k (norm d)) tol) \/ fn B fp tp k (norm d) = n0) ->
  (forall i, (i < n)%nat -> (types i < fp_n_type fp)%nat) ->
  forall g, xe_sum tol B fp types n neigh false g = xe_sum tol B fp types n neigh true g.
Proof.
  intros GT BO HK HT g. unfold xe_sum. f_equal. apply flat_map_ext_in. intros i Hi. apply in_seq in Hi. cbv zeta. rewrite (de_same tol B fp GT BO types HK); [reflexivity|]. apply HT. lia.
Qed.
