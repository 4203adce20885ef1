(** The derivative of the energy features when all atoms move and the space is strained. *)
From Verif Require Import Base Num NumR Complex Spec.Poly Spec.Gtinv Spec.Deriv Spec.Motion Spec.Harmonics Spec.Rotation Model.Cxx Model.Mapping Model.ModelParams Model.Features Model.Potential
  Model.Neighbor Model.Compute Model.Harmonics Proofs.Sums Proofs.FeatureVals Proofs.GtinvFeatures Proofs.OrderParams Proofs.EvalGtinv Proofs.EvalPair Proofs.Deriv Proofs.PathDeriv Proofs.DirDeriv
  Proofs.Harmonics Proofs.RotationInv Proofs.StressSym Proofs.NeighborList.
From Coq Require Import Reals Lra Ring.
Local Open Scope R_scope.
Local Notation positive := RotationInv.positive.

Lemma atom_row k c : (c < 3)%nat -> ((3 * k + c) / 3 = k /\ (3 * k + c) mod 3 = c)%nat.
Proof. intros Hc. split; [symmetry; apply (Nat.div_unique _ 3 k c); lia|symmetry; apply (Nat.mod_unique _ 3 k c); lia]. Qed.
Section Motion.
  Variable tol : R.
  Variable B : basis R.
  Variable fp : fparams R.
  Variable types : nat -> nat.
  Variable n : nat.
  Variable pos : nat -> v3 R.
  Variable images : nat -> list (nat * v3 R).
  Variable u : nat -> v3 R.
  Variable M : nat -> nat -> R.
  Hypothesis Htypes : forall i, (i < n)%nat -> (types i < fp_n_type fp)%nat.
  Hypothesis Hind : forall i j t, (i < n)%nat -> In (j, t) (images i) -> (j < n)%nat.
  Notation sepn i jt := (vadd (vsub (pos (fst jt)) (pos i)) (snd jt)).
  Hypothesis Hsep : forall i jt, (i < n)%nat -> In jt (images i) ->
    0 < norm2 (sepn i jt) /\ forall p, has_deriv (inner fp (b_fn B) p) (norm (sepn i jt)) (inner fp (b_fn_d B) p (norm (sepn i jt))).
  Notation nb0 := (neighbours pos images).
  (** elementary motions: (false, (k, c)) atom k along axis c; (true, (c, c')) strain *)
  Definition X : Type := (bool * (nat * nat))%type.
  Definition atoms : list X := flat_map (fun k => [(false, (k, 0)); (false, (k, 1)); (false, (k, 2))]%nat) (seq 0 n).
  Definition strains : list X := [(true, (0, 0)); (true, (0, 1)); (true, (0, 2)); (true, (1, 0)); (true, (1, 1)); (true, (1, 2)); (true, (2, 0)); (true, (2, 1)); (true, (2, 2))]%nat.
  Definition Q : list X := atoms ++ strains.
  Definition coef (q : X) : R := let '(b, (k, c)) := q in if b then M k c else vc c (u k).
  Definition ax (q : X) : nat := let '(b, (k, c)) := q in if b then k else c.
  Definition wgt (q : X) : nat -> nat * v3 R -> R := let '(b, (k, c)) := q in if b then wgt_strain c else wgt_atom k.
  Lemma Q_ax q : In q Q -> (ax q < 3)%nat.
  Proof.
    intros H. apply in_app_or in H. destruct H as [H|H].
    - apply in_flat_map in H. destruct H as [k [_ H]]. cbn in H. repeat (destruct H as [<-|H]; [cbn; lia|]). destruct H.
    - cbn in H. repeat (destruct H as [<-|H]; [cbn; lia|]). destruct H.
  Qed.
  Lemma Q_sum (f : X -> R) : nsumf f Q = sumn n (fun k => f (false, (k, 0%nat)) + f (false, (k, 1%nat)) + f (false, (k, 2%nat))) + sumn 3 (fun c => sumn 3 (fun c' => f (true, (c, c')))).
  Proof.
    unfold Q, atoms, strains. rewrite nsumf_app, nsumf_flat_map. refine (f_equal2 Rplus _ _).
    - unfold sumn. apply nsumf_ext'. intros k. unfold nsumf. cbn. ring.
    - unfold sumn, nsumf. cbn. ring.
  Qed.
  Lemma rate_is c i j d : (c < 3)%nat -> (i < n)%nat -> (j < n)%nat -> rate Q coef ax wgt c i (j, d) = vc c (u j) - vc c (u i) + (M c 0%nat * vc 0 d + M c 1%nat * vc 1 d + M c 2%nat * vc 2 d).
  Proof.
    intros Hc Hi Hj. unfold rate. rewrite Q_sum. f_equal.
    - rewrite <- (nsumf_delta n (fun k => vc c (u k)) j Hj), <- (nsumf_delta n (fun k => vc c (u k)) i Hi). unfold sumn.
      refine (eq_trans _ (nsumf_sub _ _ _)). apply nsumf_ext'. intros k. cbn [ax coef wgt]. unfold wgt_atom, PathDeriv.ind. cbn [fst].
      destruct c as [|[|[|]]]; [| | |lia]; cbn [Nat.eqb]; destruct (j =? k)%nat, (i =? k)%nat; cbn; ring.
    - unfold sumn, nsumf, wgt, wgt_strain. destruct c as [|[|[|]]]; [| | |lia]; cbn; ring.
  Qed.
  Lemma nb_moving s i : (i < n)%nat -> neighbours (moving_pos u M pos s) (moving_images M images s) i = nbs nb0 Q coef ax wgt s i.
  Proof.
    intros Hi. unfold nbs, neighbours, moving_images. rewrite !map_map. apply map_ext_in. intros [j t] Hjt. cbn [fst snd]. f_equal.
    pose proof (Hind i j t Hi Hjt) as Hj. unfold vel. rewrite !rate_is by (try assumption; lia). unfold moving_pos, shift, lin3.
    destruct (pos j) as [x y z], (pos i) as [x' y' z'], t as [x2 y2 z2]. unfold vadd, vsub, vc. cbn. f_equal; ring.
  Qed.
  Lemma xe_moving force g s : xe_sum tol B fp types n (nbs nb0 Q coef ax wgt s) force g = xe_sum tol B fp types n (neighbours (moving_pos u M pos s) (moving_images M images s)) force g.
  Proof. unfold xe_sum. f_equal. apply flat_map_ext_in. intros i Hi. apply in_seq in Hi. now rewrite nb_moving by lia. Qed.
  Definition row (q : X) : nat -> R := let '(b, (k, c)) := q in if b then xs_sum tol B fp types n nb0 (voigt k c) else xf_sum tol B fp types n nb0 (3 * k + c).
  Lemma row_sum g : nsumf (fun q => - coef q * row q g) Q =
    - power n (fun c k => xf_sum tol B fp types n nb0 (3 * k + c) g) (fun k => xs_sum tol B fp types n nb0 k g) u M.
  Proof.
    rewrite Q_sum. unfold power. rewrite Ropp_plus_distr. f_equal.
    - unfold sumn. refine (eq_trans _ (nsumf_opp _ _)). apply nsumf_ext'. intros k. cbn [coef row vc]. cbn [nopp R_num]. ring.
    - unfold sumn, nsumf. cbn [seq map nsum fold_right coef row voigt nadd n0 R_num]. ring.
  Qed.
  Lemma comp_voigt c c' : (c < 3)%nat -> (c' < 3)%nat -> stress_comp (voigt c c') = (c, c') \/ stress_comp (voigt c c') = (c', c).
  Proof. intros Hc Hc'. destruct c as [|[|[|]]], c' as [|[|[|]]]; try lia; cbn; auto. Qed.
  Lemma Q_cases q : In q Q -> exists k c, q = (false, (k, c)) /\ (c < 3)%nat \/ q = (true, (k, c)) /\ (k < 3)%nat /\ (c < 3)%nat.
  Proof.
    intros H. apply in_app_or in H. destruct H as [H|H].
    - apply in_flat_map in H. destruct H as [k [_ H]]. cbn in H. repeat (destruct H as [<-|H]; [do 2 eexists; left; split; [reflexivity|lia]|]). destruct H.
    - cbn in H. repeat (destruct H as [<-|H]; [do 2 eexists; right; split; [reflexivity|lia]|]). destruct H.
  Qed.
  Theorem pair_motion force g : fp_gtinv fp = false -> (fp_model_type fp <= 2)%nat ->
    has_deriv (fun s => xe_sum tol B fp types n (neighbours (moving_pos u M pos s) (moving_images M images s)) force g) 0
      (- power n (fun c k => xf_sum tol B fp types n nb0 (3 * k + c) g) (fun k => xs_sum tol B fp types n nb0 k g) u M).
  Proof.
    intros PM MT. rewrite <- row_sum.
    eapply hd_ext; [intros s; apply xe_moving| |
      apply (pair_dir tol B fp types n nb0 Q coef ax wgt Q_ax (nb0_pos B fp n pos images Hsep) (nb0_fn B fp n pos images Hsep) PM MT Htypes force g
        (fun q a => let '(b, (k, c)) := q in if b then ds tol B fp types (types a) (nb0 a) (voigt k c) else df tol B fp types (types a) a (nb0 a) (3 * k + c)))].
    - apply nsumf_ext'. intros [[|] [k c]]; reflexivity.
    - intros q i h Hq Hi Hh. destruct (Q_cases q Hq) as [k [c [[-> Hc]|[-> [Hk Hc]]]]].
      + unfold df. destruct (atom_row k c Hc) as [-> ->]. rewrite PM. rewrite (dnf_psum B fp types n c PM MT Htypes) by assumption.
        unfold psum. apply nsumf_ext'. intros jd. cbn [ax wgt]. unfold wneg', wgt. now rewrite <- (wneg_atom k i jd).
      + unfold ds. rewrite PM. destruct (comp_voigt k c Hk Hc) as [E|E]; rewrite (dns_psum B fp types n _ PM MT Htypes _ _ _ _ _ E) by assumption; unfold psum; apply nsumf_ext; intros jd Hjd;
          (match goal with |- (if ?b then _ else _) = (if ?b' then _ else _) => destruct b; [|reflexivity] end);
          pose proof (PathDeriv.norm_pos _ (nb0_pos B fp n pos images Hsep i jd Hi Hjd)) as Hn; unfold wneg', wgt, ax, wgt_strain, w_stress, pair_val; revert Hn; generalize (norm (snd jd)); intros r Hn; cbn; field; lra.
  Qed.
  Theorem gtinv_motion g : gtinv_table fp -> basis_ok B (fp_maxl fp) -> (forall x, nltb tol (nabs x) = false -> x = 0) ->
    (forall p r, 0 < r < fp_cutoff fp -> tol <= b_fn B p r) ->
    (forall key d v, 0 < norm2 d -> has_cderiv (fun s => b_ylm B key (shift v s d)) 0 (sum3 (fun c => cscale (vc c v) (b_ylm_d B c key d)))) ->
    harmonic_basis B (fp_maxl fp) -> harmonic_basis_d B (fp_maxl fp) -> invariant_table fp ->
    has_deriv (fun s => xe_sum tol B fp types n (neighbours (moving_pos u M pos s) (moving_images M images s)) true g) 0
      (- power n (fun c k => xf_sum tol B fp types n nb0 (3 * k + c) g) (fun k => xs_sum tol B fp types n nb0 k g) u M).
  Proof.
    intros GT BO Htol Hge Hylm HB HD IT. rewrite <- row_sum.
    eapply hd_ext; [intros s; apply xe_moving| |
      apply (gtinv_dir tol B fp types n nb0 Q coef ax wgt Q_ax (nb0_pos B fp n pos images Hsep) (nb0_fn B fp n pos images Hsep) GT BO Htol Hge Hylm Htypes g
        (fun q a => let '(b, (k, c)) := q in if b then ds tol B fp types (types a) (nb0 a) (voigt k c) else df tol B fp types (types a) a (nb0 a) (3 * k + c))
        (fun q a => ext fp (types a) (zsum tol B fp types (types a) (Kder B fp (wneg' wgt q a) (ax q)) (nb0 a))))]; [apply nsumf_ext'; intros [[|] [k c]]; reflexivity| |reflexivity].
    intros q i j Hq Hi Hj. destruct (Q_cases q Hq) as [k [c [[-> Hc]|[-> [Hk Hc]]]]].
    - unfold df. destruct (atom_row k c Hc) as [-> ->]. rewrite (gt_gtinv _ GT), (feature_der fp GT (types i) (Htypes i Hi)) by exact Hj.
      apply fder_ext. intros h [st [Hst Hh]]. pose proof (heads_ltT fp GT (types i) (Htypes i Hi) j st h Hj Hst Hh) as Hl. split; [reflexivity|].
      rewrite (df_spec tol B fp GT types (types i) (Htypes i Hi)) by exact Hl. unfold ext.
      assert (E : forall h, zsum tol B fp types (types i) (Kder B fp (w_atom i k) c) (nb0 i) h = zsum tol B fp types (types i) (Kder B fp (wneg' wgt (false, (k, c)) i) (ax (false, (k, c)))) (nb0 i) h).
      { intros h'. unfold zsum. apply nsumf_ext'. intros jd. unfold Kder, wneg', wgt, ax. now rewrite <- (wneg_atom k i jd). }
      now rewrite !E.
    - unfold ds. rewrite (gt_gtinv _ GT), (feature_der fp GT (types i) (Htypes i Hi)) by exact Hj.
      assert (Hp : positive (nb0 i)) by (intros jd Hjd; exact (nb0_pos B fp n pos images Hsep i jd Hi Hjd)).
      pose proof (stress_swap tol B fp GT HB HD IT types (types i) (Htypes i Hi) (nb0 i) j (voigt k c) Hp Hj) as S.
      change (wneg' wgt (true, (k, c)) i) with (w_stress (F:=R) c). change (ax (true, (k, c))) with k.
      transitivity (fder (nth j (fsT fp (types i)) []) (anlmtp_d0 tol B fp types (types i) (nb0 i)) (ext fp (types i) (zsum tol B fp types (types i) (Kder B fp (w_stress (snd (stress_comp (voigt k c)))) (fst (stress_comp (voigt k c)))) (nb0 i)))).
      + apply fder_ext. intros h [st [Hst Hh]]. pose proof (heads_ltT fp GT (types i) (Htypes i Hi) j st h Hj Hst Hh) as Hl. split; [reflexivity|].
        rewrite (ds_spec tol B fp GT types (types i) (Htypes i Hi)) by exact Hl. now destruct (stress_comp (voigt k c)).
      + destruct (comp_voigt k c Hk Hc) as [E|E]; rewrite E in *; cbn [fst snd] in *; [reflexivity|exact S].
  Qed.
End Motion.
