(** The derivative of the energy features when all neighbour vectors move at the same time: it is the
    sum of the derivatives of the elementary motions along one axis ([Proofs/PathDeriv.v]). *)
From Verif Require Import Base Num NumR Complex Spec.Poly Spec.Gtinv Spec.Deriv Spec.Motion Model.Cxx Model.Mapping Model.ModelParams Model.Features Model.Potential
  Model.Neighbor Model.Compute Proofs.Cxx Proofs.Sums Proofs.FeatureVals Proofs.Potential Proofs.PerAtom Proofs.GtinvFeatures Proofs.OrderParams
  Proofs.EvalGtinv Proofs.EvalPair Proofs.Deriv Proofs.PathDeriv.
From Coq Require Import Reals Lra Ring.
Local Open Scope R_scope.

(** Linearity of the directional derivatives. *)
Lemma mder_lin (v d1 d2 : nat -> R) a ids : mder v (fun h => a * d1 h + d2 h) ids = a * mder v d1 ids + mder v d2 ids.
Proof.
  rewrite !mder_expand. refine (eq_trans _ (f_equal2 Rplus (nsumf_scale_l a _ _) eq_refl)). refine (eq_trans _ (nsumf_add _ _ _)).
  apply nsumf_ext'. intros j. cbn. ring.
Qed.
Lemma mder_0 (v : nat -> R) ids : mder v (fun _ => 0) ids = 0.
Proof. rewrite mder_expand. refine (eq_trans _ (nsumf_zero (seq 0 (length ids)))). apply nsumf_ext'. intros j. cbn. ring. Qed.
Lemma mder_sum {X} (v : nat -> R) (a : X -> R) (d : X -> nat -> R) Q ids :
  mder v (fun h => nsumf (fun q => a q * d q h) Q) ids = nsumf (fun q => a q * mder v (d q) ids) Q.
Proof.
  induction Q as [|q Q IH]; [exact (mder_0 v ids)|]. rewrite nsumf_cons, <- IH.
  refine (eq_trans _ (mder_lin v (d q) _ (a q) ids)). apply mder_ext'; [reflexivity|]. intros h _. now rewrite nsumf_cons.
Qed.
Lemma fder_lin (p : list (R * list nat)) a (d1 d2 : nat -> Cx R) x : fder p a (fun h => nadd (cscale x (d1 h)) (d2 h)) = x * fder p a d1 + fder p a d2.
Proof.
  rewrite !fder_expand. refine (eq_trans _ (f_equal2 Rplus (nsumf_scale_l x _ _) eq_refl)). refine (eq_trans _ (nsumf_add _ _ _)).
  apply nsumf_ext'. intros t. refine (eq_trans _ (f_equal2 Rplus (nsumf_scale_l x _ _) eq_refl)). refine (eq_trans _ (nsumf_add _ _ _)).
  apply nsumf_ext'. intros j. unfold prod_real. cbn. ring.
Qed.
Lemma fder_0 (p : list (R * list nat)) a : fder p a (fun _ => n0) = 0.
Proof.
  rewrite fder_expand. refine (eq_trans _ (nsumf_zero p)). apply nsumf_ext'. intros t. refine (eq_trans _ (nsumf_zero (seq 0 (length (snd t))))).
  apply nsumf_ext'. intros j. unfold prod_real. cbn. ring.
Qed.
Lemma fder_sum {X} (p : list (R * list nat)) a (x : X -> R) (d : X -> nat -> Cx R) Q :
  fder p a (fun h => nsumf (fun q => cscale (x q) (d q h)) Q) = nsumf (fun q => x q * fder p a (d q)) Q.
Proof.
  induction Q as [|q Q IH]; [exact (fder_0 p a)|]. rewrite nsumf_cons, <- IH.
  refine (eq_trans _ (fder_lin p a (d q) _ (x q))). apply fder_ext. intros h _. split; [reflexivity|]. now rewrite nsumf_cons.
Qed.
Lemma cscale_sum {X} (x : R) (f : X -> Cx R) Q : cscale x (nsumf f Q) = nsumf (fun q => cscale x (f q)) Q.
Proof. induction Q as [|q Q IH]; [apply cx_eq; cbn; ring|]. rewrite !nsumf_cons, <- IH. destruct (f q), (nsumf f Q). apply cx_eq; cbn; ring. Qed.
Lemma conj_sum' {X} (f : X -> Cx R) Q : conj (nsumf f Q) = nsumf (fun q => conj (f q)) Q.
Proof. induction Q as [|q Q IH]; [apply cx_eq; cbn; ring|]. rewrite !nsumf_cons, <- IH. destruct (f q), (nsumf f Q). apply cx_eq; cbn; ring. Qed.

Lemma shift_0 v d : shift v 0 d = d.
Proof. destruct d. unfold shift. cbn. f_equal; ring. Qed.
Lemma norm2_shift v s d : norm2 (shift v s d) = norm2 d + (2 * vdot v d * s + norm2 v * (s * s)).
Proof. destruct v, d. unfold norm2, vdot, shift. cbn. ring. Qed.
Lemma norm_shift v d : 0 < norm2 d -> has_deriv (fun s => norm (shift v s d)) 0 (vdot v d / norm d).
Proof.
  intros Hd. assert (H : has_deriv (fun s => norm2 d + (2 * vdot v d * s + norm2 v * (s * s))) 0 (0 + (2 * vdot v d * 1 + norm2 v * (1 * 0 + 0 * 1)))).
  { apply hd_add; [apply hd_const|]. apply hd_add; [apply hd_scale, hd_id|]. apply hd_scale. apply (hd_mul (fun x => x) (fun x => x)); apply hd_id. }
  assert (Hs : has_deriv sqrt (norm2 d) (/ (2 * sqrt (norm2 d)))) by (now apply derivable_pt_lim_sqrt).
  assert (Hp : 0 < sqrt (norm2 d)) by (now apply sqrt_lt_R0).
  refine (hd_ext _ _ _ _ _ _ _ (hd_comp _ sqrt 0 _ (/ (2 * sqrt (norm2 d))) H _)).
  - intros s. unfold norm. cbn [nsqrt R_ord]. now rewrite norm2_shift.
  - unfold norm. change (nsqrt (norm2 d)) with (sqrt (norm2 d)). set (x := sqrt (norm2 d)) in *. set (y := vdot v d). set (z := norm2 v). clearbody y z. field. lra.
  - replace (norm2 d + (2 * vdot v d * 0 + norm2 v * (0 * 0))) with (norm2 d) by ring. exact Hs.
Qed.
Definition sum3 {T} {NT : Num T} (f : nat -> T) : T := nadd (nadd (f 0%nat) (f 1%nat)) (f 2%nat).

Section DirDeriv.
  Variable tol : R.
  Variable B : basis R.
  Variable fp : fparams R.
  Variable types : nat -> nat.
  Variable n : nat.
  Variable nb0 : nat -> list (nat * v3 R).
  (** elementary motions: axis, rate of each neighbour, and a common factor *)
  Context {X : Type}.
  Variable Q : list X.
  Variable coef : X -> R.
  Variable ax : X -> nat.
  Variable wgt : X -> nat -> nat * v3 R -> R.
  Hypothesis Hax : forall q, In q Q -> (ax q < 3)%nat.
  Hypothesis Hpos : forall i jd, (i < n)%nat -> In jd (nb0 i) -> 0 < norm2 (snd jd).
  Hypothesis Hfn : forall i jd p, (i < n)%nat -> In jd (nb0 i) -> has_deriv (inner fp (b_fn B) p) (norm (snd jd)) (inner fp (b_fn_d B) p (norm (snd jd))).
  Definition rate (c i : nat) (jd : nat * v3 R) : R := nsumf (fun q => if (ax q =? c)%nat then coef q * wgt q i jd else 0) Q.
  Definition vel (i : nat) (jd : nat * v3 R) : v3 R := V3 (rate 0 i jd) (rate 1 i jd) (rate 2 i jd).
  Definition nbs (s : R) (i : nat) : list (nat * v3 R) := map (fun jd => (fst jd, shift (vel i jd) s (snd jd))) (nb0 i).
  Lemma nbs_0 i : nbs 0 i = nb0 i.
  Proof. unfold nbs. transitivity (map (fun jd : nat * v3 R => jd) (nb0 i)); [|apply map_id]. apply map_ext. intros [j d]. now rewrite shift_0. Qed.
  Lemma vel_sum i jd (f : nat -> R) : sum3 (fun c => vc c (vel i jd) * f c) = nsumf (fun q => coef q * wgt q i jd * f (ax q)) Q.
  Proof.
    unfold sum3, vel, vc. cbn [vx vy vz]. unfold rate. clear Hpos Hfn. revert Hax. induction Q as [|q Q' IH]; intros Hx; [cbn; ring|].
    rewrite !nsumf_cons, <- IH by (intros; apply Hx; now right). pose proof (Hx q (or_introl eq_refl)) as Hq.
    destruct (ax q) as [|[|[|]]]; [| | |lia]; cbn; ring.
  Qed.
  Lemma vel_csum i jd (f : nat -> Cx R) : sum3 (fun c => cscale (vc c (vel i jd)) (f c)) = nsumf (fun q => cscale (coef q * wgt q i jd) (f (ax q))) Q.
  Proof.
    unfold sum3, vel, vc. cbn [vx vy vz]. unfold rate. clear Hpos Hfn. revert Hax. induction Q as [|q Q' IH]; intros Hx; [apply cx_eq; cbn; ring|].
    rewrite !nsumf_cons, <- IH by (intros; apply Hx; now right). pose proof (Hx q (or_introl eq_refl)) as Hq.
    destruct (f 0%nat) as [? ?] eqn:E0, (f 1%nat) as [? ?] eqn:E1, (f 2%nat) as [? ?] eqn:E2. destruct (ax q) as [|[|[|]]]; [| | |lia]; rewrite ?E0, ?E1, ?E2; apply cx_eq; cbn; ring.
  Qed.
  Lemma fn_shift i jd p : (i < n)%nat -> In jd (nb0 i) -> forall v,
    has_deriv (fun u => inner fp (b_fn B) p (norm (shift v u (snd jd)))) 0 (inner fp (b_fn_d B) p (norm (snd jd)) * (vdot v (snd jd) / norm (snd jd))).
  Proof.
    intros Hi Hjd v. apply (hd_comp (fun u => norm (shift v u (snd jd))) (inner fp (b_fn B) p)); [apply norm_shift, (Hpos i); assumption|]. rewrite shift_0. now apply (Hfn i).
  Qed.
  Definition wneg' (q : X) (i : nat) (jd : nat * v3 R) : R := - wgt q i jd.

  Section Pair.
    Hypothesis PM : fp_gtinv fp = false.
    Hypothesis MT : (fp_model_type fp <= 2)%nat.
    Hypothesis Htypes : forall i, (i < n)%nat -> (types i < fp_n_type fp)%nat.
    Lemma dn_dir i h : (i < n)%nat -> (h < npl fp (types i))%nat ->
      has_deriv (fun s => pair_dn B fp types (types i) (nbs s i) h) 0 (nsumf (fun q => - coef q * psum fp types (pair_val B fp (ax q)) (wneg' q i) i (nb0 i) h) Q).
    Proof.
      intros Hi Hh.
      eapply hd_ext; [| |].
      3:{ apply (hd_sum (fun jd s => if inside fp (shift (vel i jd) s (snd jd)) && (p_tp (pat fp (types i) h) =? tpj fp types i (fst jd))%nat
                                     then nmul 1 (kfn B fp (tpj fp types i (fst jd)) (p_n_id (pat fp (types i) h)) (shift (vel i jd) s (snd jd))) else 0)
            (fun jd => if inside fp (snd jd) && (p_tp (pat fp (types i) h) =? tpj fp types i (fst jd))%nat
                       then sum3 (fun c => vc c (vel i jd) * pair_val B fp c (tpj fp types i (fst jd)) (p_n_id (pat fp (types i) h)) (snd jd)) else 0) (nb0 i)).
          intros jd Hjd. pose proof (Hpos i jd Hi Hjd) as H1.
          set (b := (p_tp _ =? _)%nat). set (tp := tpj fp types i (fst jd)). set (k := p_n_id _). set (v := vel i jd). clearbody v. destruct b.
          + refine (hd_ext _ _ _ _ _ _ _ (fn_shift i jd (tp_params fp tp k) Hi Hjd v)).
            * intros u. rewrite andb_true_r. destruct (inside fp (shift v u (snd jd))) eqn:E; [rewrite inner_in by exact E; unfold kfn, fn; cbn; ring|now rewrite inner_out].
            * rewrite andb_true_r. destruct (inside fp (snd jd)) eqn:E; [rewrite inner_in by exact E|rewrite inner_out by exact E; ring].
              unfold sum3, pair_val, fn_d, vdot, vc. pose proof (norm_pos _ H1) as Hq. cbn -[norm]. field. lra.
          + apply (hd_ext (fun _ => 0) _ _ 0); [intros u; now rewrite andb_false_r|now rewrite andb_false_r|apply hd_const]. }
      { intros s. rewrite (dn_psum B fp types n PM MT Htypes) by assumption. unfold psum, nbs. rewrite nsumf_map. reflexivity. }
      unfold psum. transitivity (nsumf (fun q => nsumf (fun jd => if inside fp (snd jd) && (p_tp (pat fp (types i) h) =? tpj fp types i (fst jd))%nat
          then coef q * wgt q i jd * pair_val B fp (ax q) (tpj fp types i (fst jd)) (p_n_id (pat fp (types i) h)) (snd jd) else 0) (nb0 i)) Q).
      - rewrite nsumf_swap. apply nsumf_ext'. intros jd. destruct (_ && _).
        + apply (vel_sum i jd (fun c => pair_val B fp c (tpj fp types i (fst jd)) (p_n_id (pat fp (types i) h)) (snd jd))).
        + symmetry. exact (nsumf_zero Q).
      - apply nsumf_ext'. intros q. refine (eq_trans _ (nsumf_scale_l (- coef q) _ _)). apply nsumf_ext'. intros jd. unfold wneg'. destruct (_ && _); cbn; ring.
    Qed.
    Theorem pair_dir force g (D : X -> nat -> nat -> R) :
      (forall q i h, In q Q -> (i < n)%nat -> (h < npl fp (types i))%nat -> D q i h = psum fp types (pair_val B fp (ax q)) (wneg' q i) i (nb0 i) h) ->
      has_deriv (fun s => xe_sum tol B fp types n (nbs s) force g) 0
        (nsumf (fun q => - coef q * accum (flat_map (fun a => map (fun x => (pt_gid x, order_d (de tol B fp types true (types a) (nb0 a)) (D q a) (pt_ids x))) (all_terms fp (types a))) (seq 0 n)) g) Q).
    Proof.
      intros HD.
      eapply hd_ext; [| |].
      3:{ apply (hd_sum (fun i s => nsumf (fun e : nat * R => if (fst e =? g)%nat then snd e else n0)
               (map (fun x => (pt_gid x, order_e (de tol B fp types force (types i) (nbs s i)) (pt_ids x))) (all_terms fp (types i))))
             (fun i => nsumf (fun x => if (pt_gid x =? g)%nat then nsumf (fun q => - coef q * order_d (de tol B fp types true (types i) (nb0 i)) (D q i) (pt_ids x)) Q else 0) (all_terms fp (types i))) (seq 0 n)).
          intros i Hi. apply in_seq in Hi. assert (Hi' : (i < n)%nat) by lia. eapply hd_ext; [intros s; symmetry; apply nsumf_map|reflexivity|]. cbn [fst snd].
          apply (hd_sum (fun x s => if (pt_gid x =? g)%nat then order_e (de tol B fp types force (types i) (nbs s i)) (pt_ids x) else 0) _ (all_terms fp (types i))).
          intros x Hx. destruct (pt_gid x =? g)%nat; [|apply hd_const].
          assert (Hp : In x (polyP fp (types i))).
          { apply (all_terms_InP fp PM) in Hx; [exact Hx|now apply Htypes]. }
          destruct (polyP_ok fp PM MT (types i) x (Htypes i Hi') Hp) as [_ [Hids Hs]].
          refine (hd_ext (fun s => mval (pair_dn B fp types (types i) (nbs s i)) (pt_ids x)) _ _ _ _ _ _ (mval_deriv (fun s => pair_dn B fp types (types i) (nbs s i))
            (fun h => nsumf (fun q => - coef q * psum fp types (pair_val B fp (ax q)) (wneg' q i) i (nb0 i) h) Q) 0 (pt_ids x) _)).
          - intros s. rewrite order_e_spec by exact Hs. unfold de. now rewrite PM.
          - rewrite nbs_0, mder_sum. apply nsumf_ext. intros q Hq. rewrite order_d_spec by exact Hs. unfold de. rewrite PM. f_equal.
            apply mder_ext'; [reflexivity|]. intros h Hh. symmetry. apply HD; [exact Hq|exact Hi'|now apply Hids].
          - intros h Hh. apply dn_dir; [exact Hi'|now apply Hids]. }
      { intros s. unfold xe_sum. cbv zeta. rewrite accum_spec, nsumf_flat_map. reflexivity. }
      cbv beta. refine (eq_trans _ (eq_sym (nsumf_ext' _ (fun q => nsumf (fun i => nsumf (fun x => if (pt_gid x =? g)%nat then - coef q * order_d (de tol B fp types true (types i) (nb0 i)) (D q i) (pt_ids x) else 0) (all_terms fp (types i))) (seq 0 n)) Q _))).
      - rewrite nsumf_swap. apply nsumf_ext'. intros i. rewrite nsumf_swap. apply nsumf_ext'. intros x. destruct (_ =? _)%nat; [reflexivity|]. symmetry. exact (nsumf_zero Q).
      - intros q. rewrite accum_spec, nsumf_flat_map. refine (eq_trans (eq_sym (nsumf_scale_l _ _ _)) _). apply nsumf_ext'. intros i. rewrite nsumf_map. cbn [fst snd].
        refine (eq_trans (eq_sym (nsumf_scale_l _ _ _)) _). apply nsumf_ext'. intros x. destruct (_ =? _)%nat; cbn; ring.
    Qed.
  End Pair.

  Section Gtinv.
    Hypothesis GT : gtinv_table fp.
    Hypothesis BO : basis_ok B (fp_maxl fp).
    Hypothesis Htol : forall x, nltb tol (nabs x) = false -> x = 0.
    Hypothesis Hge : forall p r, 0 < r < fp_cutoff fp -> tol <= b_fn B p r.
    Hypothesis Hylm : forall key d v, 0 < norm2 d -> has_cderiv (fun u => b_ylm B key (shift v u d)) 0 (sum3 (fun c => cscale (vc c v) (b_ylm_d B c key d))).
    Hypothesis Htypes : forall i, (i < n)%nat -> (types i < fp_n_type fp)%nat.
    Notation a0 i s := (anlmtp_d0 tol B fp types (types i) (nbs s i)).
    Notation z0 i s := (zsum tol B fp types (types i) (Kval B fp) (nbs s i)).
    Notation zd q i := (zsum tol B fp types (types i) (Kder B fp (wneg' q i) (ax q)) (nb0 i)).
    Lemma gt_shift i jd tp q key v : (i < n)%nat -> In jd (nb0 i) ->
      has_cderiv (fun u => gt_in B fp (b_fn B) tp q key (shift v u (snd jd))) 0 (if inside fp (snd jd) then sum3 (fun c => cscale (vc c v) (gt_val_d B fp c tp q key (snd jd))) else n0).
    Proof.
      intros Hi Hjd. pose proof (Hpos i jd Hi Hjd) as Hd. unfold gt_in. pose proof (cd_scale_f _ _ _ _ _ (fn_shift i jd (tp_params fp tp q) Hi Hjd v) (Hylm key (snd jd) v Hd)) as H. cbv beta in H. rewrite shift_0 in H.
      refine (cd_ext _ _ _ _ _ (fun x => eq_refl) _ H). pose proof (norm_pos _ Hd) as Hq. destruct (inside fp (snd jd)) eqn:E.
      - rewrite !inner_in by exact E. unfold sum3, gt_val_d, cdiv_r, fn, fn_d, vdot, vc. destruct (b_ylm B key (snd jd)), (b_ylm_d B 0 key (snd jd)), (b_ylm_d B 1 key (snd jd)), (b_ylm_d B 2 key (snd jd)).
        apply cx_eq; cbn -[norm]; field; lra.
      - rewrite !inner_out by exact E. unfold sum3. destruct (b_ylm B key (snd jd)), (b_ylm_d B 0 key (snd jd)), (b_ylm_d B 1 key (snd jd)), (b_ylm_d B 2 key (snd jd)). apply cx_eq; cbn -[norm]; ring.
    Qed.
    Lemma z_dir i h : (i < n)%nat -> has_cderiv (fun s => z0 i s h) 0 (nsumf (fun q => cscale (- coef q) (zd q i h)) Q).
    Proof.
      intros Hi. set (tp := fun jt : nat * v3 R => tpair (fp_n_type fp) (types i) (types (fst jt))). set (k := a_n_id (att fp (types i) h)). set (key := lm_key (a_lm (att fp (types i) h))).
      eapply cd_ext; [| |].
      3:{ apply (cd_sum (fun jd s => if inside fp (shift (vel i jd) s (snd jd)) && on tol B fp (types i) h (tp jd) (shift (vel i jd) s (snd jd))
                                     then gt_val B fp (tp jd) k key (shift (vel i jd) s (snd jd)) else n0)
            (fun jd => if inside fp (snd jd) && (a_tp (att fp (types i) h) =? tp jd)%nat then sum3 (fun c => cscale (vc c (vel i jd)) (gt_val_d B fp c (tp jd) k key (snd jd))) else n0) (nb0 i)).
          intros jd Hjd. pose proof (Hpos i jd Hi Hjd) as H1. set (v := vel i jd). clearbody v.
          destruct (hd_cont _ 0 _ (norm (snd jd)) (norm_pos _ H1) (norm_shift v _ H1)) as [r' [Hr' Hn']].
          apply (cd_near (fun u => if (a_tp (att fp (types i) h) =? tp jd)%nat then gt_in B fp (b_fn B) (tp jd) k key (shift v u (snd jd)) else n0) _ _ _ r' Hr').
          + intros u Hu2. specialize (Hn' u Hu2). rewrite shift_0 in Hn'. destruct (inside fp (shift v u (snd jd))) eqn:Ei; cbn [andb].
            * unfold tp. rewrite (on_true tol B fp types Hge); [|apply Rabs_def2 in Hn'; destruct (Rle_lt_dec (norm2 (shift v u (snd jd))) 0) as [Hz|Hz]; [|exact Hz]|exact Ei].
              -- destruct (_ =? _)%nat; [|reflexivity]. unfold gt_in, gt_val, fn. now rewrite inner_in by exact Ei.
              -- exfalso. assert (E : norm (shift v u (snd jd)) = 0) by (unfold norm; cbn; now apply sqrt_neg_0). lra.
            * destruct (_ =? _)%nat; [|reflexivity]. unfold gt_in. rewrite inner_out by exact Ei. destruct (b_ylm _ _ _). apply cx_eq; cbn; ring.
          + destruct (_ =? _)%nat; [rewrite andb_true_r|rewrite andb_false_r; exact (cd_const n0 0)]. now apply (gt_shift i). }
      { intros s. unfold zsum, nbs. rewrite nsumf_map. reflexivity. }
      transitivity (nsumf (fun q => nsumf (fun jd => if inside fp (snd jd) && (a_tp (att fp (types i) h) =? tp jd)%nat then cscale (coef q * wgt q i jd) (gt_val_d B fp (ax q) (tp jd) k key (snd jd)) else n0) (nb0 i)) Q).
      - rewrite nsumf_swap. apply nsumf_ext'. intros jd. destruct (_ && _).
        + apply (vel_csum i jd (fun c => gt_val_d B fp c (tp jd) k key (snd jd))).
        + symmetry. exact (nsumf_zero Q).
      - apply nsumf_ext'. intros q. unfold zsum. rewrite cscale_sum. apply nsumf_ext. intros jd Hjd. pose proof (Hpos i jd Hi Hjd) as H1.
        fold (tp jd). unfold Kder, wneg'. destruct (inside fp (snd jd)) eqn:Ei; cbn [andb].
        + unfold tp. rewrite (on_true tol B fp types Hge) by assumption. destruct (a_tp _ =? _)%nat.
          * fold k key. destruct (gt_val_d _ _ _ _ _ _ _). apply cx_eq; cbn; ring.
          * apply cx_eq; cbn; ring.
        + apply cx_eq; cbn; ring.
    Qed.
    Lemma a_dir i h : (i < n)%nat -> (h < nhl fp (types i))%nat ->
      has_cderiv (fun s => a0 i s h) 0 (nsumf (fun q => cscale (- coef q) (ext fp (types i) (zd q i) h)) Q).
    Proof.
      intros Hi Hh.
      eapply cd_ext; [intros s; symmetry; apply (d0_spec tol B fp GT types (types i) (Htypes i Hi)); exact Hh|reflexivity|].
      unfold ext. destruct (nocl fp (types i) h).
      - now apply z_dir.
      - eapply cd_ext; [reflexivity| |apply cd_scale, cd_conj, (z_dir i (cjl fp (types i) h) Hi)]. rewrite conj_sum', cscale_sum. apply nsumf_ext'. intros q. destruct (zsum _ _ _ _ _ _ _ _). apply cx_eq; cbn; ring.
    Qed.
    Lemma a_sym' i s : (i < n)%nat -> sym fp (types i) (a0 i s).
    Proof.
      intros Hi h Hh. pose proof (cj_ltT fp GT (types i) (Htypes i Hi) h Hh). rewrite !(d0_spec tol B fp GT types (types i) (Htypes i Hi)) by assumption.
      apply (ext_conj fp GT types (types i) (Htypes i Hi)); [|exact Hh]. apply zsum_real. intros jd h' tp Hh' Hm.
      exact (val_real B fp GT BO types (types i) (Htypes i Hi) h' tp (snd jd) Hh' Hm).
    Qed.
    Theorem gtinv_dir g (D : X -> nat -> nat -> R) (A : X -> nat -> nat -> Cx R) :
      (forall q i j, In q Q -> (i < n)%nat -> (j < length (fsT fp (types i)))%nat -> D q i j = fder (nth j (fsT fp (types i)) []) (anlmtp_d0 tol B fp types (types i) (nb0 i)) (A q i)) ->
      (forall q i h, In q Q -> (i < n)%nat -> (h < nhl fp (types i))%nat -> A q i h = ext fp (types i) (zd q i) h) ->
      has_deriv (fun s => xe_sum tol B fp types n (nbs s) true g) 0
        (nsumf (fun q => - coef q * accum (flat_map (fun a => map (fun x => (pt_gid x, order_d (de tol B fp types true (types a) (nb0 a)) (D q a) (pt_ids x))) (all_terms fp (types a))) (seq 0 n)) g) Q).
    Proof.
      intros HD HA.
      eapply hd_ext; [| |].
      3:{ apply (hd_sum (fun i s => nsumf (fun e : nat * R => if (fst e =? g)%nat then snd e else n0)
               (map (fun x => (pt_gid x, order_e (de tol B fp types true (types i) (nbs s i)) (pt_ids x))) (all_terms fp (types i))))
             (fun i => nsumf (fun x => if (pt_gid x =? g)%nat then nsumf (fun q => - coef q * order_d (de tol B fp types true (types i) (nb0 i)) (D q i) (pt_ids x)) Q else 0) (all_terms fp (types i))) (seq 0 n)).
          intros i Hi. apply in_seq in Hi. assert (Hi' : (i < n)%nat) by lia. eapply hd_ext; [intros s; symmetry; apply nsumf_map|reflexivity|]. cbn [fst snd].
          apply (hd_sum (fun x s => if (pt_gid x =? g)%nat then order_e (de tol B fp types true (types i) (nbs s i)) (pt_ids x) else 0) _ (all_terms fp (types i))).
          intros x Hx. destruct (pt_gid x =? g)%nat; [|apply hd_const].
          assert (Ht : (types i < fp_n_type fp)%nat) by (now apply Htypes).
          assert (Hp : In x (polyT fp (types i))) by (now apply (all_terms_In fp GT (types i) Ht) in Hx).
          destruct (polyT_ok fp GT (types i) Ht x Hp) as [_ [Hids Hs]].
          set (fs := fsT fp (types i)). set (Ad := fun h => nsumf (fun q => cscale (- coef q) (A q i h)) Q).
          refine (hd_ext (fun s => mval (fun j => fval (nth j fs []) (a0 i s)) (pt_ids x)) _ _ _ _ _ _
            (mval_deriv (fun s j => fval (nth j fs []) (a0 i s)) (fun j => fder (nth j fs []) (a0 i 0) Ad) 0 (pt_ids x) _)).
          - intros s. rewrite order_e_spec by exact Hs. apply mval_ext. intros j Hj. unfold de. rewrite (gt_gtinv _ GT). symmetry.
            apply (feature_val tol fp GT Htol (types i) Ht); [now apply a_sym'|now apply Hids].
          - transitivity (mder (de tol B fp types true (types i) (nb0 i)) (fun j => nsumf (fun q => - coef q * D q i j) Q) (pt_ids x)).
            + apply mder_ext'.
              * intros j Hj. unfold de. rewrite (gt_gtinv _ GT). symmetry. rewrite <- (nbs_0 i).
                apply (feature_val tol fp GT Htol (types i) Ht); [now apply a_sym'|now apply Hids].
              * intros j Hj. unfold Ad. rewrite fder_sum. apply nsumf_ext. intros q Hq. rewrite nbs_0. f_equal. symmetry. apply HD; [exact Hq|exact Hi'|now apply Hids].
            + rewrite mder_sum. apply nsumf_ext'. intros q. now rewrite order_d_spec by exact Hs.
          - intros j Hj. apply (fval_deriv (nth j fs []) (fun s => a0 i s) Ad 0). intros h [st [Hst Hh]].
            assert (Hl : (h < nhl fp (types i))%nat) by (apply (heads_ltT fp GT (types i) Ht j st h); [now apply Hids|exact Hst|exact Hh]).
            refine (cd_ext _ _ _ _ _ (fun s => eq_refl) _ (a_dir i h Hi' Hl)). unfold Ad. apply nsumf_ext. intros q Hq. now rewrite HA. }
      { intros s. unfold xe_sum. cbv zeta. rewrite accum_spec, nsumf_flat_map. reflexivity. }
      cbv beta. refine (eq_trans _ (eq_sym (nsumf_ext' _ (fun q => nsumf (fun i => nsumf (fun x => if (pt_gid x =? g)%nat then - coef q * order_d (de tol B fp types true (types i) (nb0 i)) (D q i) (pt_ids x) else 0) (all_terms fp (types i))) (seq 0 n)) Q _))).
      - rewrite nsumf_swap. apply nsumf_ext'. intros i. rewrite nsumf_swap. apply nsumf_ext'. intros x. destruct (_ =? _)%nat; [reflexivity|]. symmetry. exact (nsumf_zero Q).
      - intros q. rewrite accum_spec, nsumf_flat_map. refine (eq_trans (eq_sym (nsumf_scale_l _ _ _)) _). apply nsumf_ext'. intros i. rewrite nsumf_map. cbn [fst snd].
        refine (eq_trans (eq_sym (nsumf_scale_l _ _ _)) _). apply nsumf_ext'. intros x. destruct (_ =? _)%nat; cbn; ring.
    Qed.
  End Gtinv.
End DirDeriv.
