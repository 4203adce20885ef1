(** The derivative of an invariant under a rotation of the neighbours vanishes: stress components do not depend on the order of their axes. *)
From Verif Require Import Base Num NumR Complex Spec.Poly Spec.ModelParams Spec.Gtinv Spec.Deriv Spec.Harmonics Spec.Rotation Model.Cxx Model.Mapping Model.ModelParams Model.Features
  Model.Potential Model.Neighbor Model.Compute Model.Harmonics Proofs.Cxx Proofs.Mapping Proofs.ModelParams Proofs.Sums Proofs.FeatureVals Proofs.PerAtom Proofs.GtinvTables
  Proofs.GtinvFeatures Proofs.OrderParams Proofs.EvalGtinv Proofs.EvalPair Proofs.Deriv Proofs.PathDeriv Proofs.Legendre Proofs.HarmonicArrays Proofs.Harmonics Proofs.Ladder Proofs.Multilinear
  Proofs.Rotation Proofs.RotationInv.
From Coq Require Import Reals Lra Ring.
Local Open Scope R_scope.
Local Notation positive := RotationInv.positive.

Definition harmonic_basis_d (B : basis R) (maxl : nat) : Prop :=
  forall l k c d, (c < 3)%nat -> (k <= l <= maxl)%nat -> norm d <> 0 -> b_ylm_d B c (ylm_index l k) d = sph_d l k c d.
Lemma dprods_ext_in A (D D' : nat * nat -> nat -> Cx R) slots : forall lms, (forall s i, In (s, i) (combine slots lms) -> D s i = D' s i) -> dprods A D slots lms = dprods A D' slots lms.
Proof.
  induction slots as [|s ss IH]; intros [|i is] H; cbn [dprods]; try reflexivity. rewrite (H s i (or_introl eq_refl)), (IH is); [reflexivity|].
  intros s' i' Hs. apply H. now right.
Qed.
Lemma signed_sub l i f g : signed l i (fun k => nsub (f k) (g k)) = nsub (signed l i f) (signed l i g).
Proof. unfold signed. destruct (_ <=? _)%nat; [reflexivity|]. destruct (f _), (g _). apply cx_eq; cbn; ring. Qed.
Lemma signed_add l i f g : signed l i (fun k => nadd (f k) (g k)) = nadd (signed l i f) (signed l i g).
Proof. unfold signed. destruct (_ <=? _)%nat; [reflexivity|]. destruct (f _), (g _). apply cx_eq; cbn; ring. Qed.

Section Torque.
  Variable tol : R.
  Variable B : basis R.
  Variable fp : fparams R.
  Hypothesis GT : gtinv_table fp.
  Hypothesis HB : harmonic_basis B (fp_maxl fp).
  Hypothesis HD : harmonic_basis_d B (fp_maxl fp).
  Hypothesis IT : invariant_table fp.
  Variable types : nat -> nat.
  Variable t : nat.
  Hypothesis Ht : (t < fp_n_type fp)%nat.
  Notation a0 nb := (anlmtp_d0 tol B fp types t nb).
  Notation fs := (fsT fp t).
  Notation V := (V tol B fp types t).
  Notation shear a b := (Kder B fp (w_stress b) a).
  Lemma plane_lt c : (fst (plane c) < 3)%nat /\ (snd (plane c) < 3)%nat.
  Proof. destruct c as [|[|c]]; cbn; lia. Qed.
  Lemma shear_swap a b jd tp n l k : (a < 3)%nat -> (b < 3)%nat -> (k <= l <= fp_maxl fp)%nat -> 0 < norm2 (snd jd) ->
    shear a b jd tp n (ylm_index l k) = nadd (shear b a jd tp n (ylm_index l k)) (cscale (fn B fp tp n (norm (snd jd))) (sph_rot l k a b (snd jd))).
  Proof.
    intros Ha Hb Hk Hp. pose proof (norm_nz _ Hp) as Hn. rewrite <- (sph_rot_d l k a b (snd jd) Hn Ha Hb). unfold Kder, gt_val_d, w_stress.
    rewrite !HD by assumption. destruct (b_ylm B (ylm_index l k) (snd jd)) as [p q], (sph_d l k a (snd jd)) as [p1 q1], (sph_d l k b (snd jd)) as [p2 q2].
    generalize (fn_d B fp tp n (norm (snd jd))) (fn B fp tp n (norm (snd jd))) (vc a (snd jd)) (vc b (snd jd)). revert Hn. generalize (norm (snd jd)). intros r Hr f1 f x y.
    apply cx_eq; cbn; field; exact Hr.
  Qed.
  Lemma slot_swap c n nb s i : positive nb -> (fst s <= fp_maxl fp)%nat -> (fst s * fst s <= i <= fst s * fst s + 2 * fst s)%nat ->
    let a := fst (plane c) in let b := snd (plane c) in
    slot_sum tol B fp types t n (shear a b) nb s i = nadd (slot_sum tol B fp types t n (shear b a) nb s i) (gen c (fst s) (V n nb s) i).
  Proof.
    intros Hp Hl Hi a b. destruct (plane_lt c) as [Pa Pb]. unfold RotationInv.V. rewrite gen_sum. unfold slot_sum. rewrite <- nsumf_add. apply nsumf_ext. intros jd Hjd.
    rewrite gen_scale, <- sph_gen by (try exact Hi; now apply norm_nz, Hp). unfold amp. destruct (live _ _ _ _ _ _ _ _).
    - set (nid := n_id (tp_to_n (fp_n_type fp) (fp_cond fp)) (snd s) n).
      rewrite (signed_ext (fst s) i (fun k => shear a b jd (snd s) nid (ylm_index (fst s) k))
        (fun k => nadd (shear b a jd (snd s) nid (ylm_index (fst s) k)) (cscale (fn B fp (snd s) nid (norm (snd jd))) (sph_rot (fst s) k a b (snd jd)))) Hi).
      + rewrite signed_add. f_equal. rewrite signed_scale. reflexivity.
      + intros k Hk. apply shear_swap; [exact Pa|exact Pb|lia|now apply Hp].
    - destruct (sph_r _ _ _ _ _). apply cx_eq; cbn; ring.
  Qed.
  Theorem torque c nb j : positive nb -> (j < length fs)%nat ->
    let a := fst (plane c) in let b := snd (plane c) in
    fder (nth j fs []) (a0 nb) (ext fp t (zsum tol B fp types t (shear a b) nb)) = fder (nth j fs []) (a0 nb) (ext fp t (zsum tol B fp types t (shear b a) nb)).
  Proof.
    intros Hp Hj a b. destruct (feature_at fp GT t j Hj) as [x [Hx ->]]. destruct (row_term_ok fp GT t Ht x Hx) as [Ex _].
    assert (Hv : forall e s i, In e (tbl fp x) -> In (s, i) (combine (slots fp x) (snd e)) ->
      a0 nb (lid (fp_n_type fp) (length (fp_params fp)) (fp_maxl fp) (fp_cond fp) t (lt_n x) i (snd s)) = V (lt_n x) nb s i).
    { intros e s i He Hs. destruct (slots_ok fp GT t Ht x Hx e s i He Hs) as [Hok Hi]. rewrite (d0_slot tol B fp GT types t Ht) by assumption.
      apply (value_sum tol B fp HB types t Ht); [exact Hp|apply Hok|exact Hi]. }
    assert (Hd : forall K e s i, In e (tbl fp x) -> In (s, i) (combine (slots fp x) (snd e)) ->
      ext fp t (zsum tol B fp types t K nb) (lid (fp_n_type fp) (length (fp_params fp)) (fp_maxl fp) (fp_cond fp) t (lt_n x) i (snd s)) = slot_sum tol B fp types t (lt_n x) K nb s i).
    { intros K e s i He Hs. destruct (slots_ok fp GT t Ht x Hx e s i He Hs) as [Hok Hi]. exact (proj2 (slot tol B fp GT types t Ht K nb (lt_n x) s i Hok Hi)). }
    rewrite (deriv_is fp GT t Ht x Hx (a0 nb) (V (lt_n x) nb) Hv _ (slot_sum tol B fp types t (lt_n x) (shear a b) nb) (Hd _)).
    rewrite (deriv_is fp GT t Ht x Hx (a0 nb) (V (lt_n x) nb) Hv _ (slot_sum tol B fp types t (lt_n x) (shear b a) nb) (Hd _)).
    f_equal. pose proof (table_gen (V (lt_n x) nb) c (lc_of fp x) (slots fp x) (tbl fp x) (slots_l fp GT t Ht x Hx) (IT _ _ Ex) (tbl_len fp GT t Ht x Hx)) as G.
    match goal with |- _ = ?r => transitivity (nadd r (n0 : Cx R)); [|destruct r; apply cx_eq; cbn; ring] end. rewrite <- G, <- nsumf_add. apply nsumf_ext. intros e He.
    rewrite (dprods_ext_in (V (lt_n x) nb) _ (fun s i => nadd (slot_sum tol B fp types t (lt_n x) (shear b a) nb s i) (gen c (fst s) (V (lt_n x) nb s) i)) (slots fp x) (snd e)).
    - rewrite dprods_add. destruct (dprods _ _ _ _), (dprods _ _ _ _). apply cx_eq; cbn; ring.
    - intros s i Hs. destruct (slots_ok fp GT t Ht x Hx e s i He Hs) as [Hok Hi]. apply slot_swap; [exact Hp|apply Hok|exact Hi].
  Qed.
  Corollary stress_swap nb j k : positive nb -> (j < length fs)%nat ->
    fder (nth j fs []) (a0 nb) (ext fp t (zsum tol B fp types t (shear (fst (stress_comp k)) (snd (stress_comp k))) nb)) =
    fder (nth j fs []) (a0 nb) (ext fp t (zsum tol B fp types t (shear (snd (stress_comp k)) (fst (stress_comp k))) nb)).
  Proof.
    intros Hp Hj. destruct k as [|[|[|[|[|k]]]]]; cbn [stress_comp fst snd]; try reflexivity.
    - exact (torque 2 nb j Hp Hj).
    - exact (torque 0 nb j Hp Hj).
    - exact (torque 1 nb j Hp Hj).
  Qed.
End Torque.

(** Sums over the terms of the polynomials. *)
Lemma terms_ext fp (GT : gtinv_table fp) types n v (D D' : nat -> nat -> R) g : (forall i, (i < n)%nat -> (types i < fp_n_type fp)%nat) ->
  (forall i j, (i < n)%nat -> (j < length (fsT fp (types i)))%nat -> D i j = D' i j) ->
  accum (flat_map (fun a => map (fun x => (pt_gid x, order_d (v a) (D a) (pt_ids x))) (all_terms fp (types a))) (seq 0 n)) g =
  accum (flat_map (fun a => map (fun x => (pt_gid x, order_d (v a) (D' a) (pt_ids x))) (all_terms fp (types a))) (seq 0 n)) g.
Proof.
  intros HT H. rewrite !accum_spec, !nsumf_flat_map. apply nsumf_ext. intros i Hi. apply in_seq in Hi. rewrite !nsumf_map. cbn [fst snd].
  apply nsumf_ext. intros x Hx. destruct (pt_gid x =? g)%nat; [|reflexivity]. assert (Ht : (types i < fp_n_type fp)%nat) by (apply HT; lia).
  apply (all_terms_In fp GT (types i) Ht) in Hx. destruct (polyT_ok fp GT (types i) Ht x Hx) as [_ [Hids Hs]]. rewrite !order_d_spec by exact Hs.
  apply mder_ext'; [reflexivity|]. intros j Hj. apply H; [lia|now apply Hids].
Qed.
Section Strain.
  Variable tol : R.
  Variable B : basis R.
  Variable fp : fparams R.
  Variable types : nat -> nat.
  Variable n : nat.
  Variable pos : nat -> v3 R.
  Variable images : nat -> list (nat * v3 R).
  Hypothesis Htypes : forall i, (i < n)%nat -> (types i < fp_n_type fp)%nat.
  Notation sepn i jt := (vadd (vsub (pos (fst jt)) (pos i)) (snd jt)).
  Hypothesis Hsep : forall i jt, (i < n)%nat -> In jt (images i) ->
    0 < norm2 (sepn i jt) /\ forall p, has_deriv (inner fp (b_fn B) p) (norm (sepn i jt)) (inner fp (b_fn_d B) p (norm (sepn i jt))).
  Notation nb0 := (neighbours pos images).
  Variables k c c' : nat.
  Hypothesis Ek : stress_comp k = (c', c).
  Theorem gtinv_strain' g : gtinv_table fp -> basis_ok B (fp_maxl fp) -> (forall x, nltb tol (nabs x) = false -> x = 0) ->
    (forall p r, 0 < r < fp_cutoff fp -> tol <= b_fn B p r) ->
    (forall key d, 0 < norm2 d -> has_cderiv (fun u => b_ylm B key (along c u d)) 0 (b_ylm_d B c key d)) ->
    harmonic_basis B (fp_maxl fp) -> harmonic_basis_d B (fp_maxl fp) -> invariant_table fp ->
    has_deriv (fun s => xe_sum tol B fp types n (neighbours (fun a => strained c c' s (pos a)) (fun a => map (fun jt => (fst jt, strained c c' s (snd jt))) (images a))) true g) 0
      (- xs_sum tol B fp types n nb0 k g).
  Proof.
    intros GT BO Htol Hge Hylm HB HD IT. eapply hd_ext; [intros s; apply xe_strained| |].
    2:{ apply (gtinv_path tol B fp types n nb0 c (wgt_strain c') (nb0_pos B fp n pos images Hsep) (nb0_fn B fp n pos images Hsep) GT BO Htol Hge Hylm Htypes g
          (fun a j => nth j (compute_features_deriv (ft fp (types a)) (anlmtp_d0 tol B fp types (types a) (nb0 a)) (ext fp (types a) (zsum tol B fp types (types a) (Kder B fp (w_stress c') c) (nb0 a)))) 0)
          (fun a => ext fp (types a) (zsum tol B fp types (types a) (Kder B fp (w_stress c') c) (nb0 a)))); reflexivity. }
    f_equal. unfold xs_sum. cbv zeta. apply (terms_ext fp GT types n (fun a => de tol B fp types true (types a) (nb0 a))); [exact Htypes|].
    intros i j Hi Hj. unfold ds. rewrite (gt_gtinv _ GT). rewrite !(feature_der fp GT (types i) (Htypes i Hi)) by exact Hj.
    assert (Hp : positive (nb0 i)) by (intros jd Hjd; exact (nb0_pos B fp n pos images Hsep i jd Hi Hjd)).
    pose proof (stress_swap tol B fp GT HB HD IT types (types i) (Htypes i Hi) (nb0 i) j k Hp Hj) as S. rewrite Ek in S. cbn [fst snd] in S. rewrite <- S.
    apply fder_ext. intros h [st [Hst Hh]]. pose proof (heads_ltT fp GT (types i) (Htypes i Hi) j st h Hj Hst Hh) as Hl. split; [reflexivity|].
    rewrite (ds_spec tol B fp GT types (types i) (Htypes i Hi)) by exact Hl. now rewrite Ek.
  Qed.
  Theorem pair_strain' force g : fp_gtinv fp = false -> (fp_model_type fp <= 2)%nat ->
    has_deriv (fun s => xe_sum tol B fp types n (neighbours (fun a => strained c c' s (pos a)) (fun a => map (fun jt => (fst jt, strained c c' s (snd jt))) (images a))) force g) 0
      (- xs_sum tol B fp types n nb0 k g).
  Proof.
    intros PM MT. eapply hd_ext; [intros s; apply xe_strained|reflexivity|]. unfold xs_sum. cbv zeta.
    apply (pair_path tol B fp types n nb0 c (wgt_strain c') (nb0_pos B fp n pos images Hsep) (nb0_fn B fp n pos images Hsep) PM MT Htypes force g (fun a => ds tol B fp types (types a) (nb0 a) k)).
    intros i h Hi Hh. unfold ds. rewrite PM. rewrite (dns_psum B fp types n c' PM MT Htypes k c) by assumption. unfold psum. apply nsumf_ext. intros jd Hjd.
    match goal with |- (if ?b then _ else _) = (if ?b' then _ else _) => destruct b; [|reflexivity] end.
    pose proof (PathDeriv.norm_pos _ (nb0_pos B fp n pos images Hsep i jd Hi Hjd)) as Hn. unfold wneg, wgt_strain, w_stress, pair_val. revert Hn. generalize (norm (snd jd)). intros r Hn. cbn. field. lra.
  Qed.
End Strain.
