(** Energy features do not change when the neighbours are rotated or reflected. *)
From Verif Require Import Base Num NumR Complex Spec.Poly Spec.ModelParams Spec.Gtinv Spec.Deriv Spec.Harmonics Spec.Rotation Model.Cxx Model.Mapping Model.ModelParams Model.Features
  Model.Potential Model.Neighbor Model.Compute Model.Harmonics Proofs.Cxx Proofs.Mapping Proofs.ModelParams Proofs.Sums Proofs.FeatureVals Proofs.PerAtom Proofs.GtinvTables
  Proofs.GtinvFeatures Proofs.OrderParams Proofs.EvalGtinv Proofs.EvalPair Proofs.Deriv Proofs.PathDeriv Proofs.Legendre Proofs.HarmonicArrays Proofs.Harmonics Proofs.Ladder Proofs.Multilinear Proofs.Rotation Proofs.Euler.
From Coq Require Import Reals Lra Ring.
Local Open Scope R_scope.

Lemma constant_zero f : (forall s, has_deriv f s 0) -> forall a b, f a = f b.
Proof.
  intros H. assert (pr : derivable f) by (intros s; exists 0; apply H).
  assert (C : constant f) by (apply (null_derivative_1 f pr); intros s; apply derive_pt_eq_0, H). intros a b. apply C.
Qed.
Lemma gen_sum {X} c l (f : X -> nat -> Cx R) (xs : list X) i : gen c l (fun j => nsumf (fun x => f x j) xs) i = nsumf (fun x => gen c l (f x) i) xs.
Proof.
  induction xs as [|x xs IH].
  - unfold nsumf. cbn [map nsum fold_right]. destruct c as [|[|c]]; apply cx_eq; cbn; ring.
  - rewrite nsumf_cons, <- IH. destruct c as [|[|c]]; cbn [gen]; rewrite !nsumf_cons.
    + destruct (f x (S i)), (f x (pred i)), (nsumf (fun x => f x (S i)) xs), (nsumf (fun x => f x (pred i)) xs). apply cx_eq; cbn; ring.
    + destruct (f x (S i)), (f x (pred i)), (nsumf (fun x => f x (S i)) xs), (nsumf (fun x => f x (pred i)) xs). apply cx_eq; cbn; ring.
    + destruct (f x i), (nsumf (fun x => f x i) xs). apply cx_eq; cbn; ring.
Qed.
Lemma gen_scale c l (w : R) f i : gen c l (fun j => cscale w (f j)) i = cscale w (gen c l f i).
Proof. destruct c as [|[|c]]; cbn [gen]; [destruct (f (S i)), (f (pred i))|destruct (f (S i)), (f (pred i))|destruct (f i)]; apply cx_eq; cbn; ring. Qed.
Lemma gen_zero c l i : gen c l (fun _ => n0) i = n0.
Proof. destruct c as [|[|c]]; apply cx_eq; cbn; ring. Qed.
Lemma signed_scale l i (w : R) f : signed l i (fun k => cscale w (f k)) = cscale w (signed l i f).
Proof. unfold signed. destruct (_ <=? _)%nat; [reflexivity|]. destruct (f _). apply cx_eq; cbn; ring. Qed.

(** The spherical harmonics of the basis are the textbook ones. *)
Definition harmonic_basis (B : basis R) (maxl : nat) : Prop := forall l k d, (k <= l <= maxl)%nat -> norm d <> 0 -> b_ylm B (ylm_index l k) d = sph_neg l k d.

Section Atom.
  Variable tol : R.
  Variable B : basis R.
  Variable fp : fparams R.
  Hypothesis GT : gtinv_table fp.
  Hypothesis HB : harmonic_basis B (fp_maxl fp).
  Variable types : nat -> nat.
  Variable t : nat.
  Hypothesis Ht : (t < fp_n_type fp)%nat.
  Definition carried (f : v3 R -> v3 R) (nb : list (nat * v3 R)) : list (nat * v3 R) := map (fun jd => (fst jd, f (snd jd))) nb.
  Definition positive (nb : list (nat * v3 R)) : Prop := forall jd, In jd nb -> 0 < norm2 (snd jd).
  Definition amp (n tp : nat) (jd : nat * v3 R) : R :=
    if live tol B fp types t n tp jd then fn B fp tp (n_id (tp_to_n (fp_n_type fp) (fp_cond fp)) tp n) (norm (snd jd)) else 0.
  Lemma norm_nz d : 0 < norm2 d -> norm d <> 0.
  Proof. intros H. pose proof (Proofs.PathDeriv.norm_pos d H). lra. Qed.
  Lemma value_sum n s i nb : positive nb -> (fst s <= fp_maxl fp)%nat -> (fst s * fst s <= i <= fst s * fst s + 2 * fst s)%nat ->
    slot_sum tol B fp types t n (Kval B fp) nb s i = nsumf (fun jd => cscale (amp n (snd s) jd) (sph (fst s) i (snd jd))) nb.
  Proof.
    intros Hp Hl Hi. unfold slot_sum. apply nsumf_ext. intros jd Hjd. unfold amp. destruct (live _ _ _ _ _ _ _ _).
    - unfold Kval, gt_val. rewrite signed_scale. f_equal. change (sph (fst s) i (snd jd)) with (signed (fst s) i (fun k => sph_neg (fst s) k (snd jd))). apply signed_ext; [exact Hi|]. intros k Hk. apply HB; [lia|]. now apply norm_nz, Hp.
    - destruct (sph (fst s) i (snd jd)). apply cx_eq; cbn; ring.
  Qed.
  Lemma amp_norm n tp j d d' : norm d = norm d' -> amp n tp (j, d) = amp n tp (j, d').
  Proof. intros E. unfold amp, live, inside. cbn [fst snd]. now rewrite E. Qed.
  Notation a0 nb := (anlmtp_d0 tol B fp types t nb).
  Notation fs := (fsT fp t).
  Lemma d0_slot nb n s i : slot_ok fp t n s -> (fst s * fst s <= i <= fst s * fst s + 2 * fst s)%nat ->
    a0 nb (lid (fp_n_type fp) (length (fp_params fp)) (fp_maxl fp) (fp_cond fp) t n i (snd s)) = slot_sum tol B fp types t n (Kval B fp) nb s i.
  Proof.
    intros Hs Hi. destruct (slot tol B fp GT types t Ht (Kval B fp) nb n s i Hs Hi) as [H1 H2]. rewrite <- H2. now apply (d0_spec tol B fp GT types t Ht).
  Qed.
  Lemma feature_at j : (j < length fs)%nat -> exists x, In x (row_terms fp t) /\ nth j fs [] = lin_gtinv_feature (ids_plain (mp_gt (mapping fp)) t) fp x.
  Proof.
    intros H. rewrite (fsT_eq fp GT t) in H. destruct (fs_nth fp t j H) as [x [H1 [H2 _]]]. exists x. split; [exact H1|]. now rewrite (fsT_eq fp GT t).
  Qed.
  Definition V (n : nat) (nb : list (nat * v3 R)) (s : nat * nat) (i : nat) : Cx R := nsumf (fun jd => cscale (amp n (snd s) jd) (sph (fst s) i (snd jd))) nb.
  Lemma feature_is x nb : In x (row_terms fp t) -> positive nb ->
    fval (lin_gtinv_feature (ids_plain (mp_gt (mapping fp)) t) fp x) (a0 nb) = re (nsumf (fun e => cscale (fst e) (prods (V (lt_n x) nb) (slots fp x) (snd e))) (tbl fp x)).
  Proof.
    intros Hx Hp. apply (value_is fp GT t Ht x Hx). intros e s i He Hs. destruct (slots_ok fp GT t Ht x Hx e s i He Hs) as [Hok Hi].
    rewrite d0_slot by assumption. apply value_sum; [exact Hp|apply Hok|exact Hi].
  Qed.

  (** Rotations about the axes. *)
  Hypothesis IT : invariant_table fp.
  Lemma turned_positive c s nb : positive nb -> positive (carried (turn c s) nb).
  Proof. intros H jd Hjd. apply in_map_iff in Hjd. destruct Hjd as [jd' [<- Hjd]]. cbn [snd]. rewrite norm2_turn. now apply H. Qed.
  Lemma V_turn c n nb sl i s : positive nb -> (fst sl * fst sl <= i <= fst sl * fst sl + 2 * fst sl)%nat ->
    has_cderiv (fun u => V n (carried (turn c u) nb) sl i) s (gen c (fst sl) (V n (carried (turn c s) nb) sl) i).
  Proof.
    intros Hp Hi. unfold V.
    assert (E : gen c (fst sl) (fun i => nsumf (fun jd => cscale (amp n (snd sl) jd) (sph (fst sl) i (snd jd))) (carried (turn c s) nb)) i
      = nsumf (fun jd => cscale (amp n (snd sl) jd) (sph_r (fst sl) i (fst (plane c)) (snd (plane c)) (turn c s (snd jd)))) nb).
    { rewrite gen_sum. unfold carried. rewrite nsumf_map. apply nsumf_ext. intros jd Hjd. cbn [fst snd]. rewrite gen_scale.
      rewrite sph_gen; [|rewrite norm_turn; now apply norm_nz, Hp|exact Hi]. f_equal. destruct jd as [j d]. cbn [snd fst]. apply amp_norm, norm_turn. }
    rewrite E. refine (cd_ext _ _ _ _ _ _ eq_refl (cd_sum (fun jd u => cscale (amp n (snd sl) jd) (sph (fst sl) i (turn c u (snd jd)))) _ nb s _)).
    - intros u. unfold carried. rewrite nsumf_map. apply nsumf_ext'. intros [j d]. cbn [fst snd]. f_equal. symmetry. apply amp_norm, norm_turn.
    - intros jd Hjd. apply cd_scale, sph_turn. now apply norm_nz, Hp.
  Qed.
  Lemma turn_0 c d : turn c 0 d = d.
  Proof. destruct d, c as [|[|c]]; unfold turn; cbn; rewrite ?cos_0, ?sin_0; f_equal; ring. Qed.
  Theorem feature_turn c s nb j : positive nb -> (j < length fs)%nat -> fval (nth j fs []) (a0 (carried (turn c s) nb)) = fval (nth j fs []) (a0 nb).
  Proof.
    intros Hp Hj. destruct (feature_at j Hj) as [x [Hx ->]]. destruct (row_term_ok fp GT t Ht x Hx) as [Ex _].
    transitivity (fval (lin_gtinv_feature (ids_plain (mp_gt (mapping fp)) t) fp x) (a0 (carried (turn c 0) nb))).
    - apply (constant_zero (fun u => fval (lin_gtinv_feature (ids_plain (mp_gt (mapping fp)) t) fp x) (a0 (carried (turn c u) nb)))). intros u.
      pose (f := fun e : R * list nat => fun v : R => cscale (fst e) (prods (V (lt_n x) (carried (turn c v) nb)) (slots fp x) (snd e))).
      assert (H : has_cderiv (fun v => nsumf (fun e => f e v) (tbl fp x)) u (nsumf (fun e => cscale (fst e) (dprods (V (lt_n x) (carried (turn c u) nb)) (fun s i => gen c (fst s) (V (lt_n x) (carried (turn c u) nb) s) i) (slots fp x) (snd e))) (tbl fp x))).
      { apply cd_sum. intros e He. unfold f. apply cd_scale. apply (prods_deriv (fun v => V (lt_n x) (carried (turn c v) nb))). intros sl i Hs.
        destruct (slots_ok fp GT t Ht x Hx e sl i He Hs) as [Hok Hi]. now apply V_turn. }
      rewrite (table_gen (V (lt_n x) (carried (turn c u) nb)) c (lc_of fp x) (slots fp x) (tbl fp x)) in H.
      + destruct H as [H _]. refine (hd_ext _ _ _ _ _ _ _ H); [|reflexivity]. intros v. symmetry. apply feature_is; [exact Hx|now apply turned_positive].
      + now apply (slots_l fp GT t Ht x Hx).
      + exact (IT _ _ Ex).
      + intros e He. now apply (tbl_len fp GT t Ht x Hx).
    - f_equal. f_equal. unfold carried. transitivity (map (fun jd : nat * v3 R => jd) nb); [|apply map_id]. apply map_ext. intros [jx d]. cbn [fst snd]. now rewrite turn_0.
  Qed.
  (** Inversion. *)
  Lemma prods_sign A A' (w : nat -> R) sl : forall lms, (forall s i, A' s i = cscale (w (fst s)) (A s i)) -> length lms = length sl ->
    prods A' sl lms = cscale (nprod (map w (map fst sl))) (prods A sl lms).
  Proof.
    induction sl as [|s ss IH]; intros [|i is] H Hl; cbn [length] in Hl; try lia; cbn [prods map].
    - apply cx_eq; cbn; ring.
    - rewrite H, (IH is H) by lia. change (nprod (w (fst s) :: map w (map fst ss))) with (w (fst s) * nprod (map w (map fst ss))).
      destruct (A s i), (prods A ss is). apply cx_eq; cbn; ring.
  Qed.
  Lemma sg_prod lc : nprod (map (fun l => sg (Nat.even l)) lc) = sg (Nat.even (list_sum lc)).
  Proof. induction lc as [|l lc IH]; [reflexivity|]. change (list_sum (l :: lc)) with (l + list_sum lc)%nat. rewrite sg_even, <- IH. reflexivity. Qed.
  Lemma sph_vneg l i d : sph l i (vneg d) = cscale (sg (Nat.even l)) (sph l i d).
  Proof.
    unfold sph. destruct (_ <=? _)%nat; rewrite sph_parity, if_sg; [reflexivity|]. destruct (sph_neg l _ d). apply cx_eq; cbn; ring.
  Qed.
  Theorem feature_vneg nb j : positive nb -> (j < length fs)%nat -> fval (nth j fs []) (a0 (carried vneg nb)) = fval (nth j fs []) (a0 nb).
  Proof.
    intros Hp Hj. destruct (feature_at j Hj) as [x [Hx ->]]. destruct (row_term_ok fp GT t Ht x Hx) as [Ex _].
    assert (Hp' : positive (carried vneg nb)).
    { intros jd Hjd. apply in_map_iff in Hjd. destruct Hjd as [jd' [<- Hjd]]. cbn [snd]. specialize (Hp jd' Hjd). revert Hp. unfold norm2, vdot, vneg. cbn. lra. }
    rewrite !feature_is by assumption. f_equal. apply nsumf_ext. intros e He. f_equal.
    rewrite (prods_sign (V (lt_n x) nb) (V (lt_n x) (carried vneg nb)) (fun l => sg (Nat.even l)) (slots fp x)).
    - rewrite (slots_l fp GT t Ht x Hx), sg_prod. pose proof (gt_even_l _ GT _ _ Ex) as Ev. apply Nat.even_spec in Ev. rewrite Ev. unfold sg. destruct (prods _ _ _). apply cx_eq; cbn; ring.
    - intros s i. unfold V, carried. rewrite nsumf_map. cbn [fst snd]. induction nb as [|jd nb' IH]; [apply cx_eq; cbn; ring|]. rewrite !nsumf_cons.
      assert (Hpn : positive nb') by (intros y Hy; apply Hp; now right).
      assert (Hpn' : positive (carried vneg nb')) by (intros y Hy; apply Hp'; now right). rewrite (IH Hpn Hpn').
      rewrite sph_vneg. assert (Ea : amp (lt_n x) (snd s) (fst jd, vneg (snd jd)) = amp (lt_n x) (snd s) jd) by (destruct jd; apply amp_norm, norm_neg). rewrite Ea.
      destruct (sph (fst s) i (snd jd)), (nsumf _ nb'). apply cx_eq; cbn; ring.
    - rewrite (tbl_len fp GT t Ht x Hx e He), <- (slots_l fp GT t Ht x Hx). now rewrite map_length.
  Qed.
End Atom.

Section Whole.
  Variable tol : R.
  Variable B : basis R.
  Variable fp : fparams R.
  Variable types : nat -> nat.
  Lemma norm2_image a b c d : orthonormal a b c -> norm2 (image a b c d) = norm2 d.
  Proof.
    intros [Haa [Hbb [Hcc [Hab [Hac Hbc]]]]]. destruct d as [x y z]. unfold norm2, image, vdot in *. cbn [vx vy vz nadd nmul R_num] in *.
    transitivity (x * x * (vx a * vx a + vy a * vy a + vz a * vz a) + y * y * (vx b * vx b + vy b * vy b + vz b * vz b) + z * z * (vx c * vx c + vy c * vy c + vz c * vz c)
      + 2 * x * y * (vx a * vx b + vy a * vy b + vz a * vz b) + 2 * x * z * (vx a * vx c + vy a * vy c + vz a * vz c) + 2 * y * z * (vx b * vx c + vy b * vy c + vz b * vz c)); [ring|].
    rewrite Haa, Hbb, Hcc, Hab, Hac, Hbc. ring.
  Qed.
  Section Gt.
    Hypothesis GT : gtinv_table fp.
    Hypothesis HB : harmonic_basis B (fp_maxl fp).
    Hypothesis BO : basis_ok B (fp_maxl fp).
    Hypothesis Htol : forall x, nltb tol (nabs x) = false -> x = 0.
    Hypothesis IT : invariant_table fp.
    Theorem feature_image t nb a b c j : (t < fp_n_type fp)%nat -> positive nb -> orthonormal a b c -> (j < length (fsT fp t))%nat ->
      fval (nth j (fsT fp t) []) (anlmtp_d0 tol B fp types t (carried (image a b c) nb)) = fval (nth j (fsT fp t) []) (anlmtp_d0 tol B fp types t nb).
    Proof.
      intros Ht Hp O Hj.
      assert (CC : forall (f g : v3 R -> v3 R) l, carried f (carried g l) = carried (fun d => f (g d)) l).
      { intros f g l. unfold carried. rewrite map_map. reflexivity. }
      assert (T : forall s1 s2 s3 l, positive l -> fval (nth j (fsT fp t) []) (anlmtp_d0 tol B fp types t (carried (fun d => turn 2 s1 (turn 1 s2 (turn 2 s3 d))) l))
        = fval (nth j (fsT fp t) []) (anlmtp_d0 tol B fp types t l)).
      { intros s1 s2 s3 l Hl. rewrite <- (CC (turn 2 s1) (fun d => turn 1 s2 (turn 2 s3 d))), <- (CC (turn 1 s2) (turn 2 s3)).
        rewrite (feature_turn tol B fp GT HB types t Ht IT) by (repeat apply turned_positive; assumption).
        rewrite (feature_turn tol B fp GT HB types t Ht IT) by (repeat apply turned_positive; assumption).
        now rewrite (feature_turn tol B fp GT HB types t Ht IT) by assumption. }
      destruct (euler a b c O) as [s1 [s2 [s3 [E|E]]]].
      - replace (carried (image a b c) nb) with (carried (fun d => turn 2 s1 (turn 1 s2 (turn 2 s3 d))) nb); [now apply T|]. apply map_ext. intros [k d]. cbn [fst snd]. now rewrite E.
      - replace (carried (image a b c) nb) with (carried (fun d => turn 2 s1 (turn 1 s2 (turn 2 s3 d))) (carried vneg nb)).
        + rewrite T; [now apply (feature_vneg tol B fp GT HB types t Ht)|]. intros jd Hjd. apply in_map_iff in Hjd. destruct Hjd as [jd' [<- Hjd]]. cbn [snd]. specialize (Hp jd' Hjd). revert Hp. unfold norm2, vdot, vneg. cbn. lra.
        + rewrite CC. apply map_ext. intros [k d]. cbn [fst snd]. now rewrite E.
    Qed.
    Lemma d0_sym t nb : (t < fp_n_type fp)%nat -> sym fp t (anlmtp_d0 tol B fp types t nb).
    Proof.
      intros Ht h Hh. pose proof (cj_ltT fp GT t Ht h Hh). rewrite !(d0_spec tol B fp GT types t Ht) by assumption.
      apply (ext_conj fp GT types t Ht); [|exact Hh]. apply zsum_real. intros jd h' tp Hh' Hm.
      exact (val_real B fp GT BO types t Ht h' tp (snd jd) Hh' Hm).
    Qed.
    Lemma de_image t nb a b c j : (t < fp_n_type fp)%nat -> positive nb -> orthonormal a b c -> (j < length (fsT fp t))%nat ->
      de tol B fp types true t (carried (image a b c) nb) j = de tol B fp types true t nb j.
    Proof.
      intros Ht Hp O Hj. unfold de. rewrite (gt_gtinv _ GT). rewrite !(feature_val tol fp GT Htol t Ht) by (try exact Hj; now apply d0_sym).
      now apply feature_image.
    Qed.
    Theorem xe_image n nb a b c g : (forall i, (i < n)%nat -> (types i < fp_n_type fp)%nat) -> (forall i, (i < n)%nat -> positive (nb i)) -> orthonormal a b c ->
      xe_sum tol B fp types n (fun i => carried (image a b c) (nb i)) true g = xe_sum tol B fp types n nb true g.
    Proof.
      intros HT Hp O. unfold xe_sum. cbv zeta. rewrite !accum_spec, !nsumf_flat_map. apply nsumf_ext. intros i Hi. apply in_seq in Hi. rewrite !nsumf_map. cbn [fst snd].
      apply nsumf_ext. intros x Hx. destruct (pt_gid x =? g)%nat; [|reflexivity]. assert (Ht : (types i < fp_n_type fp)%nat) by (apply HT; lia).
      apply (all_terms_In fp GT (types i) Ht) in Hx. destruct (polyT_ok fp GT (types i) Ht x Hx) as [_ [Hids Hs]]. rewrite !order_e_spec by exact Hs.
      apply mval_ext. intros j Hj. apply de_image; [exact Ht|apply Hp; lia|exact O|now apply Hids].
    Qed.
  End Gt.
  (** Pair models depend on the distances only. *)
  Lemma de_pair_image force t nb (f : v3 R -> v3 R) : fp_gtinv fp = false -> (forall d, norm (f d) = norm d) ->
    forall j, de tol B fp types force t (carried f nb) j = de tol B fp types force t nb j.
  Proof.
    intros PM Hf j. unfold de. rewrite PM. unfold pair_dn. f_equal. unfold lp_loop, pair_loop, carried.
    induction nb as [|[k d] nb IH]; [reflexivity|]. cbn [map flat_map fst snd]. rewrite !map_app, IH. f_equal. unfold inside. rewrite Hf.
    destruct (nltb _ _); [|reflexivity]. rewrite !map_map. apply map_ext. intros at_. now rewrite Hf.
  Qed.
  Theorem xe_pair_image force n nb a b c g : fp_gtinv fp = false -> orthonormal a b c ->
    xe_sum tol B fp types n (fun i => carried (image a b c) (nb i)) force g = xe_sum tol B fp types n nb force g.
  Proof.
    intros PM O. unfold xe_sum. f_equal. apply flat_map_ext. intros i. apply map_ext. intros x. f_equal.
    pose proof (de_pair_image force (types i) (nb i) (image a b c) PM (fun d => f_equal nsqrt (norm2_image a b c d O))) as H.
    unfold order_e. destruct (pt_ids x) as [|i1 [|i2 [|i3 [|]]]]; rewrite ?H; reflexivity.
  Qed.
End Whole.
