(** Derivatives of the energy features when the neighbour vectors move along one axis: an atom is displaced (force
    features) or the structure is strained (stress features). *)
From Verif Require Import Base Num NumR Complex Spec.Poly Spec.Gtinv Spec.Deriv Model.Cxx Model.Mapping Model.ModelParams Model.Features Model.Potential
  Model.Neighbor Model.Compute Proofs.Cxx Proofs.Sums Proofs.FeatureVals Proofs.Potential Proofs.PerAtom Proofs.GtinvFeatures Proofs.OrderParams
  Proofs.EvalGtinv Proofs.EvalPair Proofs.Deriv.
From Coq Require Import Reals Lra Ring.
Local Open Scope R_scope.

Section PathDeriv.
  Variable tol : R.
  Variable B : basis R.
  Variable fp : fparams R.
  Variable types : nat -> nat.
  Variable n : nat.
  (** neighbours of atom [i], and the rate at which each of them moves along axis [c] *)
  Variable nb0 : nat -> list (nat * v3 R).
  Variable c : nat.
  Variable wgt : nat -> nat * v3 R -> R.
  Definition inner (f : list R -> R -> R) (p : list R) (r : R) : R := if Rltb r (fp_cutoff fp) then f p r else 0.
  Hypothesis Hpos : forall i jd, (i < n)%nat -> In jd (nb0 i) -> 0 < norm2 (snd jd).
  Hypothesis Hfn : forall i jd p, (i < n)%nat -> In jd (nb0 i) -> has_deriv (inner (b_fn B) p) (norm (snd jd)) (inner (b_fn_d B) p (norm (snd jd))).
  Definition nb (s : R) (i : nat) : list (nat * v3 R) := map (fun jd => (fst jd, along c (wgt i jd * s) (snd jd))) (nb0 i).
  Definition wneg (i : nat) (jd : nat * v3 R) : R := - wgt i jd.
  Lemma along_0 d : along c 0 d = d.
  Proof. destruct d, c as [|[|]]; cbn; f_equal; ring. Qed.
  Lemma nb_0 i : nb 0 i = nb0 i.
  Proof. unfold nb. transitivity (map (fun jd : nat * v3 R => jd) (nb0 i)); [|apply map_id]. apply map_ext. intros [j d]. replace (wgt i (j, d) * 0) with 0 by ring. now rewrite along_0. Qed.
  Lemma norm_pos d : 0 < norm2 d -> 0 < norm d.
  Proof. intros H. unfold norm. cbn. now apply sqrt_lt_R0. Qed.
  Lemma inner_in f p d : inside fp d = true -> inner f p (norm d) = f p (norm d).
  Proof. unfold inside, inner. cbn [nltb R_ord]. now intros ->. Qed.
  Lemma inner_out f p d : inside fp d = false -> inner f p (norm d) = 0.
  Proof. unfold inside, inner. cbn [nltb R_ord]. now intros ->. Qed.
  Lemma fn_along i jd p : (i < n)%nat -> In jd (nb0 i) ->
    has_deriv (fun u => inner (b_fn B) p (norm (along c u (snd jd)))) 0 (inner (b_fn_d B) p (norm (snd jd)) * (vc c (snd jd) / norm (snd jd))).
  Proof.
    intros Hi Hjd. apply (hd_comp (fun u => norm (along c u (snd jd))) (inner (b_fn B) p)); [apply norm_along, (Hpos i); assumption|]. rewrite along_0. now apply (Hfn i).
  Qed.

  Section Pair.
    Hypothesis PM : fp_gtinv fp = false.
    Hypothesis MT : (fp_model_type fp <= 2)%nat.
    Hypothesis Htypes : forall i, (i < n)%nat -> (types i < fp_n_type fp)%nat.
    Let rows : list (list (nat * v3 R)) := repeat [] n.
    Lemma rows_ok : forall i j d, (i < length rows)%nat -> In (j, d) (nth i rows []) -> (j < length rows)%nat.
    Proof. intros i j d _ H. exfalso. unfold rows in H. rewrite nth_repeat_nil in H. destruct H. Qed.
    Lemma types_ok' i : (i < length rows)%nat -> (types i < fp_n_type fp)%nat.
    Proof. unfold rows. rewrite repeat_length. apply Htypes. Qed.
    Lemma dn_psum i nb h : (i < n)%nat -> (h < npl fp (types i))%nat -> pair_dn B fp types (types i) nb h = psum fp types (kfn B fp) (fun _ => 1) i nb h.
    Proof.
      intros Hi Hh. rewrite <- (lp_sum fp PM MT types rows rows_ok types_ok') by (unfold rows; rewrite ?repeat_length; assumption). unfold pair_dn.
      rewrite accum_spec, nsumf_map. apply nsumf_ext'. intros [[[a j] d] tp]. cbn [fst snd]. unfold kfn. destruct (_ =? _); cbn; ring.
    Qed.
    Lemma dnf_psum k i nb h : (i < n)%nat -> (h < npl fp (types i))%nat -> pair_dn_f B fp types c (types i) i nb h k = psum fp types (pair_val B fp c) (w_atom i k) i nb h.
    Proof.
      intros Hi Hh. rewrite <- (lp_sum fp PM MT types rows rows_ok types_ok') by (unfold rows; rewrite ?repeat_length; assumption).
      unfold pair_dn_f, row_updates. rewrite accum_spec, nsumf_flat_map, nsumf_map. apply nsumf_ext'. intros [[[a j] d] tp]. unfold w_atom. cbn [fst].
      destruct (_ =? h); [|reflexivity]. rewrite !nsumf_cons, nsumf_nil. cbn [fst snd]. destruct (i =? k), (j =? k); cbn; ring.
    Qed.
    Lemma dns_psum k c' i nb h : stress_comp k = (c, c') -> (i < n)%nat -> (h < npl fp (types i))%nat ->
      pair_dn_s B fp types k (types i) nb h = psum fp types (pair_val B fp c) (w_stress c') i nb h.
    Proof.
      intros Ek Hi Hh. rewrite <- (lp_sum fp PM MT types rows rows_ok types_ok') by (unfold rows; rewrite ?repeat_length; assumption).
      unfold pair_dn_s. rewrite Ek, accum_spec, nsumf_map. apply nsumf_ext'. intros [[[a j] d] tp]. unfold w_stress. cbn [fst snd].
      destruct (_ =? h); cbn; ring.
    Qed.
    Lemma dn_deriv i h : (i < n)%nat -> (h < npl fp (types i))%nat ->
      has_deriv (fun s => pair_dn B fp types (types i) (nb s i) h) 0 (- psum fp types (pair_val B fp c) (wneg i) i (nb0 i) h).
    Proof.
      intros Hi Hh.
      eapply hd_ext; [| |].
      3:{ apply (hd_sum (fun jd s => if inside fp (along c (wgt i jd * s) (snd jd)) && (p_tp (pat fp (types i) h) =? tpj fp types i (fst jd))%nat
                                     then nmul 1 (kfn B fp (tpj fp types i (fst jd)) (p_n_id (pat fp (types i) h)) (along c (wgt i jd * s) (snd jd))) else 0)
            (fun jd => (if inside fp (snd jd) && (p_tp (pat fp (types i) h) =? tpj fp types i (fst jd))%nat
                        then pair_val B fp c (tpj fp types i (fst jd)) (p_n_id (pat fp (types i) h)) (snd jd) else 0) * wgt i jd) (nb0 i)).
          intros jd Hjd. pose proof (Hpos i jd Hi Hjd) as H1.
          set (b := (p_tp _ =? _)%nat). set (tp := tpj fp types i (fst jd)). set (q := p_n_id _).
          apply (hd_comp (fun s => wgt i jd * s) (fun u => if inside fp (along c u (snd jd)) && b then nmul 1 (kfn B fp tp q (along c u (snd jd))) else 0)).
          - apply (hd_ext _ _ _ (wgt i jd * 1) _ (fun x => eq_refl)); [ring|apply hd_scale, hd_id].
          - replace (wgt i jd * 0) with 0 by ring. destruct b.
            + refine (hd_ext _ _ _ _ _ _ _ (fn_along i jd (tp_params fp tp q) Hi Hjd)).
              * intros u. rewrite andb_true_r. destruct (inside fp (along c u (snd jd))) eqn:E; [rewrite inner_in by exact E; unfold kfn, fn; cbn; ring|now rewrite inner_out].
              * rewrite andb_true_r. destruct (inside fp (snd jd)) eqn:E; [rewrite inner_in by exact E|rewrite inner_out by exact E; ring].
                unfold pair_val, fn_d. pose proof (norm_pos _ H1) as Hq. cbn -[norm]. field. lra.
            + apply (hd_ext (fun _ => 0) _ _ 0); [intros u; now rewrite andb_false_r|now rewrite andb_false_r|apply hd_const]. }
      { intros s. rewrite dn_psum by assumption. unfold psum, nb. rewrite nsumf_map. reflexivity. }
      unfold psum. refine (eq_trans _ (nsumf_opp _ _)). apply nsumf_ext'. intros jd. unfold wneg.
      destruct (_ && _); cbn; ring.
    Qed.
    Theorem pair_path force g (D : nat -> nat -> R) :
      (forall i h, (i < n)%nat -> (h < npl fp (types i))%nat -> D i h = psum fp types (pair_val B fp c) (wneg i) i (nb0 i) h) ->
      has_deriv (fun s => xe_sum tol B fp types n (nb s) force g) 0
        (- accum (flat_map (fun a => map (fun x => (pt_gid x, order_d (de tol B fp types true (types a) (nb0 a)) (D a) (pt_ids x))) (all_terms fp (types a))) (seq 0 n)) g).
    Proof.
      intros HD.
      eapply hd_ext; [| |].
      3:{ apply (hd_sum (fun i s => nsumf (fun e : nat * R => if (fst e =? g)%nat then snd e else n0)
               (map (fun x => (pt_gid x, order_e (de tol B fp types force (types i) (nb s i)) (pt_ids x))) (all_terms fp (types i))))
             (fun i => nsumf (fun x => if (pt_gid x =? g)%nat then - order_d (de tol B fp types true (types i) (nb0 i)) (D i) (pt_ids x) else 0) (all_terms fp (types i))) (seq 0 n)).
          intros i Hi. apply in_seq in Hi. assert (Hi' : (i < n)%nat) by lia. eapply hd_ext; [intros s; symmetry; apply nsumf_map|reflexivity|]. cbn [fst snd].
          apply (hd_sum (fun x s => if (pt_gid x =? g)%nat then order_e (de tol B fp types force (types i) (nb s i)) (pt_ids x) else 0) _ (all_terms fp (types i))).
          intros x Hx. destruct (pt_gid x =? g)%nat; [|apply hd_const].
          assert (Hp : In x (polyP fp (types i))).
          { apply (all_terms_InP fp PM) in Hx; [exact Hx|now apply Htypes]. }
          destruct (polyP_ok fp PM MT (types i) x (Htypes i Hi') Hp) as [_ [Hids Hs]].
          rewrite order_d_spec by exact Hs. unfold de. rewrite PM.
          refine (hd_ext (fun s => mval (pair_dn B fp types (types i) (nb s i)) (pt_ids x)) _ _ _ _ _ _ (mval_deriv (fun s => pair_dn B fp types (types i) (nb s i)) (fun h => - D i h) 0 (pt_ids x) _)).
          - intros s. now rewrite order_e_spec by exact Hs.
          - rewrite nb_0. apply mder_opp.
          - intros h Hh. rewrite HD by (try exact Hi'; now apply Hids). apply dn_deriv; [exact Hi'|now apply Hids]. }
      { intros s. unfold xe_sum. cbv zeta. rewrite accum_spec, nsumf_flat_map. reflexivity. }
      rewrite accum_spec, nsumf_flat_map. refine (eq_trans _ (nsumf_opp _ _)). apply nsumf_ext'. intros i. rewrite nsumf_map. cbn [fst snd].
      refine (eq_trans _ (nsumf_opp _ _)). apply nsumf_ext'. intros x. destruct (_ =? _)%nat; cbn; ring.
    Qed.
  End Pair.

  Section Gtinv.
    Hypothesis GT : gtinv_table fp.
    Hypothesis BO : basis_ok B (fp_maxl fp).
    Hypothesis Htol : forall x, nltb tol (nabs x) = false -> x = 0.
    Hypothesis Hge : forall p r, 0 < r < fp_cutoff fp -> tol <= b_fn B p r.
    Hypothesis Hylm : forall key d, 0 < norm2 d -> has_cderiv (fun u => b_ylm B key (along c u d)) 0 (b_ylm_d B c key d).
    Hypothesis Htypes : forall i, (i < n)%nat -> (types i < fp_n_type fp)%nat.
    Notation a0 i s := (anlmtp_d0 tol B fp types (types i) (nb s i)).
    Notation z0 i s := (zsum tol B fp types (types i) (Kval B fp) (nb s i)).
    Notation zd i := (zsum tol B fp types (types i) (Kder B fp (wneg i) c) (nb0 i)).
    Definition gt_in (f : list R -> R -> R) tp q key d : Cx R := cscale (inner f (tp_params fp tp q) (norm d)) (b_ylm B key d).
    Lemma gt_along i jd tp q key : (i < n)%nat -> In jd (nb0 i) ->
      has_cderiv (fun u => gt_in (b_fn B) tp q key (along c u (snd jd))) 0 (if inside fp (snd jd) then gt_val_d B fp c tp q key (snd jd) else n0).
    Proof.
      intros Hi Hjd. pose proof (Hpos i jd Hi Hjd) as Hd. unfold gt_in. pose proof (cd_scale_f _ _ _ _ _ (fn_along i jd (tp_params fp tp q) Hi Hjd) (Hylm key (snd jd) Hd)) as H. cbv beta in H. rewrite along_0 in H.
      refine (cd_ext _ _ _ _ _ (fun x => eq_refl) _ H). pose proof (norm_pos _ Hd) as Hq. destruct (inside fp (snd jd)) eqn:E.
      - rewrite !inner_in by exact E. unfold gt_val_d, cdiv_r, fn, fn_d. destruct (b_ylm B key (snd jd)), (b_ylm_d B c key (snd jd)). apply cx_eq; cbn -[norm]; field; lra.
      - rewrite !inner_out by exact E. destruct (b_ylm B key (snd jd)), (b_ylm_d B c key (snd jd)). apply cx_eq; cbn -[norm]; ring.
    Qed.
    Lemma on_true i h (jt : nat * v3 R) d : 0 < norm2 d -> inside fp d = true ->
      on tol B fp (types i) h (tpair (fp_n_type fp) (types i) (types (fst jt))) d = (a_tp (att fp (types i) h) =? tpair (fp_n_type fp) (types i) (types (fst jt)))%nat.
    Proof.
      intros Hd Hi. unfold on. apply Rltb_true in Hi. assert (E : nltb (fn B fp (tpair (fp_n_type fp) (types i) (types (fst jt))) (a_n_id (att fp (types i) h)) (norm d)) tol = false).
      { apply Rltb_false. apply Hge. split; [now apply norm_pos|exact Hi]. }
      rewrite E. now rewrite andb_true_r.
    Qed.
    Lemma z_deriv i h : (i < n)%nat -> has_cderiv (fun s => z0 i s h) 0 (nopp (zd i h)).
    Proof.
      intros Hi. set (tp := fun jt : nat * v3 R => tpair (fp_n_type fp) (types i) (types (fst jt))). set (q := a_n_id (att fp (types i) h)). set (key := lm_key (a_lm (att fp (types i) h))).
      eapply cd_ext; [| |].
      3:{ apply (cd_sum (fun jd s => if inside fp (along c (wgt i jd * s) (snd jd)) && on tol B fp (types i) h (tp jd) (along c (wgt i jd * s) (snd jd))
                                     then gt_val B fp (tp jd) q key (along c (wgt i jd * s) (snd jd)) else n0)
            (fun jd => cscale (wgt i jd) (if inside fp (snd jd) && (a_tp (att fp (types i) h) =? tp jd)%nat then gt_val_d B fp c (tp jd) q key (snd jd) else n0)) (nb0 i)).
          intros jd Hjd. pose proof (Hpos i jd Hi Hjd) as H1.
          apply (cd_comp_lin (fun u => if inside fp (along c u (snd jd)) && on tol B fp (types i) h (tp jd) (along c u (snd jd)) then gt_val B fp (tp jd) q key (along c u (snd jd)) else n0)).
          destruct (hd_cont _ 0 _ (norm (snd jd)) (norm_pos _ H1) (norm_along c _ H1)) as [r' [Hr' Hn']].
          apply (cd_near (fun u => if (a_tp (att fp (types i) h) =? tp jd)%nat then gt_in (b_fn B) (tp jd) q key (along c u (snd jd)) else n0) _ _ _ r' Hr').
          + intros u Hu2. specialize (Hn' u Hu2). rewrite along_0 in Hn'. destruct (inside fp (along c u (snd jd))) eqn:Ei; cbn [andb].
            * unfold tp. rewrite on_true; [|apply Rabs_def2 in Hn'; destruct (Rle_lt_dec (norm2 (along c u (snd jd))) 0) as [Hz|Hz]; [|exact Hz]|exact Ei].
              -- destruct (_ =? _)%nat; [|reflexivity]. unfold gt_in, gt_val, fn. now rewrite inner_in by exact Ei.
              -- exfalso. assert (E : norm (along c u (snd jd)) = 0) by (unfold norm; cbn; now apply sqrt_neg_0). lra.
            * destruct (_ =? _)%nat; [|reflexivity]. unfold gt_in. rewrite inner_out by exact Ei. destruct (b_ylm _ _ _). apply cx_eq; cbn; ring.
          + destruct (_ =? _)%nat; [rewrite andb_true_r|rewrite andb_false_r; exact (cd_const n0 0)]. now apply (gt_along i). }
      { intros s. unfold zsum, nb. rewrite nsumf_map. reflexivity. }
      unfold zsum. refine (eq_trans _ (nsumf_opp _ _)). apply nsumf_ext. intros jd Hjd. pose proof (Hpos i jd Hi Hjd) as H1.
      fold (tp jd). unfold Kder, wneg.
      destruct (inside fp (snd jd)) eqn:Ei; cbn [andb].
      - unfold tp. rewrite on_true by assumption. destruct (a_tp _ =? _)%nat.
        + fold q key. destruct (gt_val_d _ _ _ _ _ _ _). apply cx_eq; cbn; ring.
        + apply cx_eq; cbn; ring.
      - apply cx_eq; cbn; ring.
    Qed.
    Lemma a_deriv i h : (i < n)%nat -> (h < nhl fp (types i))%nat ->
      has_cderiv (fun s => a0 i s h) 0 (nopp (ext fp (types i) (zd i) h)).
    Proof.
      intros Hi Hh.
      eapply cd_ext; [intros s; symmetry; apply (d0_spec tol B fp GT types (types i) (Htypes i Hi)); exact Hh|reflexivity|].
      unfold ext. destruct (nocl fp (types i) h).
      - now apply z_deriv.
      - eapply cd_ext; [reflexivity| |apply cd_scale, cd_conj, (z_deriv i (cjl fp (types i) h) Hi)]. apply cx_eq; cbn; ring.
    Qed.
    Lemma a_sym i s : (i < n)%nat -> sym fp (types i) (a0 i s).
    Proof.
      intros Hi h Hh. pose proof (cj_ltT fp GT (types i) (Htypes i Hi) h Hh). rewrite !(d0_spec tol B fp GT types (types i) (Htypes i Hi)) by assumption.
      apply (ext_conj fp GT types (types i) (Htypes i Hi)); [|exact Hh]. apply zsum_real. intros jd h' tp Hh' Hm.
      exact (val_real B fp GT BO types (types i) (Htypes i Hi) h' tp (snd jd) Hh' Hm).
    Qed.
    Theorem gtinv_path g (D : nat -> nat -> R) (A : nat -> nat -> Cx R) :
      (forall i j, (i < n)%nat -> D i j = nth j (compute_features_deriv (ft fp (types i)) (anlmtp_d0 tol B fp types (types i) (nb0 i)) (A i)) 0) ->
      (forall i h, (i < n)%nat -> (h < nhl fp (types i))%nat -> A i h = ext fp (types i) (zd i) h) ->
      has_deriv (fun s => xe_sum tol B fp types n (nb s) true g) 0
        (- accum (flat_map (fun a => map (fun x => (pt_gid x, order_d (de tol B fp types true (types a) (nb0 a)) (D a) (pt_ids x))) (all_terms fp (types a))) (seq 0 n)) g).
    Proof.
      intros HD HA.
      eapply hd_ext; [| |].
      3:{ apply (hd_sum (fun i s => nsumf (fun e : nat * R => if (fst e =? g)%nat then snd e else n0)
               (map (fun x => (pt_gid x, order_e (de tol B fp types true (types i) (nb s i)) (pt_ids x))) (all_terms fp (types i))))
             (fun i => nsumf (fun x => if (pt_gid x =? g)%nat then - order_d (de tol B fp types true (types i) (nb0 i)) (D i) (pt_ids x) else 0) (all_terms fp (types i))) (seq 0 n)).
          intros i Hi. apply in_seq in Hi. assert (Hi' : (i < n)%nat) by lia. eapply hd_ext; [intros s; symmetry; apply nsumf_map|reflexivity|]. cbn [fst snd].
          apply (hd_sum (fun x s => if (pt_gid x =? g)%nat then order_e (de tol B fp types true (types i) (nb s i)) (pt_ids x) else 0) _ (all_terms fp (types i))).
          intros x Hx. destruct (pt_gid x =? g)%nat; [|apply hd_const].
          assert (Ht : (types i < fp_n_type fp)%nat) by (now apply Htypes).
          assert (Hp : In x (polyT fp (types i))) by (now apply (all_terms_In fp GT (types i) Ht) in Hx).
          destruct (polyT_ok fp GT (types i) Ht x Hp) as [_ [Hids Hs]].
          rewrite order_d_spec by exact Hs.
          set (fs := fsT fp (types i)).
          refine (hd_ext (fun s => mval (fun j => fval (nth j fs []) (a0 i s)) (pt_ids x)) _ _ _ _ _ _
            (mval_deriv (fun s j => fval (nth j fs []) (a0 i s)) (fun j => fder (nth j fs []) (a0 i 0) (fun h => nopp (A i h))) 0 (pt_ids x) _)).
          - intros s. rewrite order_e_spec by exact Hs. apply mval_ext. intros j Hj. unfold de. rewrite (gt_gtinv _ GT). symmetry.
            apply (feature_val tol fp GT Htol (types i) Ht); [now apply a_sym|now apply Hids].
          - rewrite <- mder_opp. apply mder_ext'.
            + intros j Hj. unfold de. rewrite (gt_gtinv _ GT), nb_0. symmetry. rewrite <- nb_0.
              apply (feature_val tol fp GT Htol (types i) Ht); [now apply a_sym|now apply Hids].
            + intros j Hj. rewrite HD by exact Hi'. rewrite fder_opp, nb_0. f_equal. symmetry. apply (feature_der fp GT (types i) Ht). now apply Hids.
          - intros j Hj. apply (fval_deriv (nth j fs []) (fun s => a0 i s) (fun h => nopp (A i h)) 0). intros h [st [Hst Hh]].
            assert (Hl : (h < nhl fp (types i))%nat) by (apply (heads_ltT fp GT (types i) Ht j st h); [now apply Hids|exact Hst|exact Hh]).
            rewrite HA by assumption. now apply a_deriv. }
      { intros s. unfold xe_sum. cbv zeta. rewrite accum_spec, nsumf_flat_map. reflexivity. }
      rewrite accum_spec, nsumf_flat_map. refine (eq_trans _ (nsumf_opp _ _)). apply nsumf_ext'. intros i. rewrite nsumf_map. cbn [fst snd].
      refine (eq_trans _ (nsumf_opp _ _)). apply nsumf_ext'. intros x. destruct (_ =? _)%nat; cbn; ring.
    Qed.
  End Gtinv.
End PathDeriv.

(** Away from the cutoff, or when the radial functions vanish there with their derivatives. *)
Lemma inner_away B fp p r : 0 < r -> r <> fp_cutoff fp -> (forall p r, 0 < r < fp_cutoff fp -> has_deriv (b_fn B p) r (b_fn_d B p r)) ->
  has_deriv (inner fp (b_fn B) p) r (inner fp (b_fn_d B) p r).
Proof.
  intros Hr Hc HF. unfold inner. destruct (Rltb r (fp_cutoff fp)) eqn:E.
  - apply Rltb_true in E. apply (hd_near (b_fn B p) _ _ _ (fp_cutoff fp - r)); [lra| |apply HF; lra]. intros x Hx. apply Rabs_def2 in Hx.
    assert (L : x < fp_cutoff fp) by lra. apply Rltb_true in L. now rewrite L.
  - apply Rltb_false in E. apply (hd_near (fun _ => 0) _ _ _ (r - fp_cutoff fp)); [lra| |apply hd_const]. intros x Hx. apply Rabs_def2 in Hx.
    assert (L : fp_cutoff fp <= x) by lra. apply Rltb_false in L. now rewrite L.
Qed.

Section Moves.
  Variable tol : R.
  Variable B : basis R.
  Variable fp : fparams R.
  Variable types : nat -> nat.
  Variable n : nat.
  Variable pos : nat -> v3 R.
  Variable images : nat -> list (nat * v3 R).
  Hypothesis Htypes : forall i, (i < n)%nat -> (types i < fp_n_type fp)%nat.
  Notation sepn i jt := (vadd (vsub (pos (fst jt)) (pos i)) (snd jt)).
  Hypothesis Hsep : forall i jt, (i < n)%nat -> In jt (images i) -> 
    0 < norm2 (sepn i jt) /\ forall p, has_deriv (inner fp (b_fn B) p) (norm (sepn i jt)) (inner fp (b_fn_d B) p (norm (sepn i jt))).
  Notation nb0 := (neighbours pos images).
  Lemma nb0_pos i jd : (i < n)%nat -> In jd (nb0 i) -> 0 < norm2 (snd jd).
  Proof. intros Hi H. apply in_map_iff in H. destruct H as [jt [<- Hjt]]. cbn [snd]. now apply Hsep. Qed.
  Lemma nb0_fn i jd p : (i < n)%nat -> In jd (nb0 i) -> has_deriv (inner fp (b_fn B) p) (norm (snd jd)) (inner fp (b_fn_d B) p (norm (snd jd))).
  Proof. intros Hi H. apply in_map_iff in H. destruct H as [jt [<- Hjt]]. cbn [snd]. now apply Hsep. Qed.

  (** an atom moves *)
  Section Atom.
    Variables k c : nat.
    Hypothesis Hc : (c < 3)%nat.
    Definition ind (i : nat) : R := if i =? k then 1 else 0.
    Definition wgt_atom (i : nat) (jd : nat * v3 R) : R := ind (fst jd) - ind i.
    Lemma nb_moved s i : neighbours (moved pos k c s) images i = nb nb0 c wgt_atom s i.
    Proof.
      unfold nb, neighbours. rewrite map_map. apply map_ext. intros [j t]. cbn [fst snd]. f_equal.
      unfold wgt_atom, ind, moved, along. cbn [fst]. destruct (pos j) as [x y z], (pos i) as [x' y' z'], t as [x2 y2 z2].
      destruct (j =? k), (i =? k), c as [|[|]]; unfold vadd, vsub; cbn; f_equal; ring.
    Qed.
    Lemma xe_moved force g s : xe_sum tol B fp types n (nb nb0 c wgt_atom s) force g = xe_sum tol B fp types n (neighbours (moved pos k c s) images) force g.
    Proof. unfold xe_sum. f_equal. apply flat_map_ext. intros i. now rewrite nb_moved. Qed.
    Lemma wneg_atom i jd : wneg wgt_atom i jd = w_atom i k jd.
    Proof. unfold wneg, wgt_atom, w_atom, ind. destruct (fst jd =? k), (i =? k); cbn; ring. Qed.
    Lemma Ek : ((3 * k + c) / 3 = k /\ (3 * k + c) mod 3 = c)%nat.
    Proof. split; [symmetry; apply (Nat.div_unique _ 3 k c); lia|symmetry; apply (Nat.mod_unique _ 3 k c); lia]. Qed.
    Theorem pair_force force g : fp_gtinv fp = false -> (fp_model_type fp <= 2)%nat ->
      has_deriv (fun s => xe_sum tol B fp types n (neighbours (moved pos k c s) images) force g) 0 (- xf_sum tol B fp types n nb0 (3 * k + c) g).
    Proof.
      intros PM MT. eapply hd_ext; [intros s; apply xe_moved|reflexivity|]. unfold xf_sum. cbv zeta.
      apply (pair_path tol B fp types n nb0 c wgt_atom nb0_pos nb0_fn PM MT Htypes force g (fun a => df tol B fp types (types a) a (nb0 a) (3 * k + c))).
      intros i h Hi Hh. unfold df. destruct Ek as [-> ->]. rewrite PM. rewrite (dnf_psum B fp types n c PM MT Htypes) by assumption.
      unfold psum. apply nsumf_ext'. intros jd. now rewrite wneg_atom.
    Qed.
    Theorem gtinv_force g : gtinv_table fp -> basis_ok B (fp_maxl fp) -> (forall x, nltb tol (nabs x) = false -> x = 0) ->
      (forall p r, 0 < r < fp_cutoff fp -> tol <= b_fn B p r) ->
      (forall key d, 0 < norm2 d -> has_cderiv (fun u => b_ylm B key (along c u d)) 0 (b_ylm_d B c key d)) ->
      has_deriv (fun s => xe_sum tol B fp types n (neighbours (moved pos k c s) images) true g) 0 (- xf_sum tol B fp types n nb0 (3 * k + c) g).
    Proof.
      intros GT BO Htol Hge Hylm. eapply hd_ext; [intros s; apply xe_moved|reflexivity|]. unfold xf_sum. cbv zeta.
      apply (gtinv_path tol B fp types n nb0 c wgt_atom nb0_pos nb0_fn GT BO Htol Hge Hylm Htypes g (fun a => df tol B fp types (types a) a (nb0 a) (3 * k + c))
        (fun a => anlmtp_df tol B fp types c (types a) a (nb0 a) k)).
      - intros i j Hi. unfold df. destruct Ek as [-> ->]. now rewrite (gt_gtinv _ GT).
      - intros i h Hi Hh. rewrite (df_spec tol B fp GT types (types i) (Htypes i Hi)) by exact Hh. unfold ext.
        assert (E : forall h, zsum tol B fp types (types i) (Kder B fp (w_atom i k) c) (nb0 i) h = zsum tol B fp types (types i) (Kder B fp (wneg wgt_atom i) c) (nb0 i) h).
        { intros h'. unfold zsum. apply nsumf_ext'. intros jd. unfold Kder. now rewrite wneg_atom. }
        now rewrite !E.
    Qed.
  End Atom.

  (** the structure is strained *)
  Section Strain.
    Variables k c c' : nat.
    Hypothesis Ek : stress_comp k = (c, c').
    Definition wgt_strain (i : nat) (jd : nat * v3 R) : R := vc c' (snd jd).
    Lemma nb_strained s i : neighbours (fun a => strained c c' s (pos a)) (fun a => map (fun jt => (fst jt, strained c c' s (snd jt))) (images a)) i = nb nb0 c wgt_strain s i.
    Proof.
      clear Ek k. unfold nb, neighbours. rewrite !map_map. apply map_ext. intros [j t]. cbn [fst snd]. f_equal.
      unfold wgt_strain, strained, along. cbn [snd]. destruct (pos j) as [x y z], (pos i) as [x' y' z'], t as [x2 y2 z2].
      destruct c as [|[|]], c' as [|[|]]; unfold vadd, vsub, vc; cbn; f_equal; ring.
    Qed.
    Lemma xe_strained force g s : xe_sum tol B fp types n (nb nb0 c wgt_strain s) force g =
      xe_sum tol B fp types n (neighbours (fun a => strained c c' s (pos a)) (fun a => map (fun jt => (fst jt, strained c c' s (snd jt))) (images a))) force g.
    Proof. unfold xe_sum. f_equal. apply flat_map_ext. intros i. now rewrite nb_strained. Qed.
    Theorem pair_strain force g : fp_gtinv fp = false -> (fp_model_type fp <= 2)%nat ->
      has_deriv (fun s => xe_sum tol B fp types n (neighbours (fun a => strained c c' s (pos a)) (fun a => map (fun jt => (fst jt, strained c c' s (snd jt))) (images a))) force g) 0
        (- xs_sum tol B fp types n nb0 k g).
    Proof.
      intros PM MT. eapply hd_ext; [intros s; apply xe_strained|reflexivity|]. unfold xs_sum. cbv zeta.
      apply (pair_path tol B fp types n nb0 c wgt_strain nb0_pos nb0_fn PM MT Htypes force g (fun a => ds tol B fp types (types a) (nb0 a) k)).
      intros i h Hi Hh. unfold ds. rewrite PM. rewrite (dns_psum B fp types n c PM MT Htypes k c') by assumption. reflexivity.
    Qed.
    Theorem gtinv_strain g : gtinv_table fp -> basis_ok B (fp_maxl fp) -> (forall x, nltb tol (nabs x) = false -> x = 0) ->
      (forall p r, 0 < r < fp_cutoff fp -> tol <= b_fn B p r) ->
      (forall key d, 0 < norm2 d -> has_cderiv (fun u => b_ylm B key (along c u d)) 0 (b_ylm_d B c key d)) ->
      has_deriv (fun s => xe_sum tol B fp types n (neighbours (fun a => strained c c' s (pos a)) (fun a => map (fun jt => (fst jt, strained c c' s (snd jt))) (images a))) true g) 0
        (- xs_sum tol B fp types n nb0 k g).
    Proof.
      intros GT BO Htol Hge Hylm. eapply hd_ext; [intros s; apply xe_strained|reflexivity|]. unfold xs_sum. cbv zeta.
      apply (gtinv_path tol B fp types n nb0 c wgt_strain nb0_pos nb0_fn GT BO Htol Hge Hylm Htypes g (fun a => ds tol B fp types (types a) (nb0 a) k)
        (fun a => anlmtp_ds tol B fp types k (types a) (nb0 a))).
      - intros i j Hi. unfold ds. now rewrite (gt_gtinv _ GT).
      - intros i h Hi Hh. rewrite (ds_spec tol B fp GT types (types i) (Htypes i Hi)) by exact Hh. rewrite Ek. reflexivity.
    Qed.
  End Strain.
End Moves.
