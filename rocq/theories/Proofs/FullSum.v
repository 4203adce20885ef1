(** The results of the fast evaluator as sums over full neighbour lists, and their dependence on the surroundings of the atoms. *)
From Verif Require Import Base Num Complex Spec.Poly Spec.ModelParams Spec.Gtinv Model.Cxx Model.Mapping Model.ModelParams Model.Features Model.Potential
  Model.Neighbor Model.Compute Model.Eval Proofs.Cxx Proofs.Mapping Proofs.ModelParams Proofs.Sums Proofs.FeatureVals Proofs.Potential Proofs.PerAtom
  Proofs.GtinvTables Proofs.GtinvFeatures Proofs.OrderParams Proofs.PolyTerms Proofs.NeighborList Proofs.EvalGtinv Proofs.EvalPair.
From Coq Require Import Ring Field FunctionalExtensionality.

Section FullSum.
  Context {F : Type} {N : Num F} {NO : NumOrd F} {FL : FieldLaws F} {C0 : Char0 F}.
  Local Open Scope num_scope.
  Add Field Ffield : (field_laws (F:=F)).
  Variable tol : F.
  Variable B : basis F.
  Variable fp : fparams F.
  Variable coeffs : list F.
  Let nt := fp_n_type fp.
  Notation A := (polymlp_eval fp coeffs).

  Section System.
    Variable types : nat -> nat.
    Variable rows : list (list (nat * v3 F)).
    Let n := length rows.
    Hypothesis Hrows : forall i j d, i < n -> In (j, d) (nth i rows []) -> j < n.
    Hypothesis Htypes : forall i, i < n -> types i < nt.
    Notation H := (csr_of rows).
    Notation FR := (FR rows).
    Notation ctr i j d := (contrib tol B A types (length rows) H i j (tpair nt (types i) (types j)) (vneg d)).
    Definition pairE (i : nat) (jd : nat * v3 F) : F := if inside fp (snd jd) then fst (ctr i (fst jd) (snd jd)) else 0.
    Definition pairF (c i : nat) (jd : nat * v3 F) : F := if inside fp (snd jd) then snd (ctr i (fst jd) (snd jd)) c else 0.
    Lemma vc_neg c (d : v3 F) : vc c (vneg d) = - vc c d.
    Proof. destruct c as [|[|]]; reflexivity. Qed.

    Lemma pairs_total (f : nat -> nat -> v3 F -> F * (nat -> F) -> F) :
      nsumf (fun p => let '(i, j, d, c) := p in f i j d c) (pairs tol B A types (length rows) H) =
      nsumf (fun i => nsumf (fun jd => if inside fp (snd jd) then f i (fst jd) (vneg (snd jd)) (ctr i (fst jd) (snd jd)) else 0) (nth i rows [])) (seq 0 n).
    Proof.
      unfold pairs. rewrite nsumf_flat_map. apply nsumf_ext. intros i Hi. apply in_seq in Hi. unfold row_loop. rewrite nsumf_flat_map, row_csr by (fold n; lia).
      apply nsumf_ext'. intros [j d]. cbn [fst snd]. change (ap_fp A) with fp. rewrite (inside_neg fp). destruct (inside fp d); [|apply nsumf_nil].
      rewrite nsumf_cons, nsumf_nil. cbn [fst snd]. fold nt. ring.
    Qed.
    Lemma energy_half : energy tol B A types (length rows) H = nsumf (fun i => nsumf (pairE i) (nth i rows [])) (seq 0 n).
    Proof.
      unfold energy. rewrite (fold_left_ext _ (fun s p => s + (fun p : nat * nat * v3 F * (F * (nat -> F)) => let '(i, j, d, c) := p in fst c) p)) by (intros s [[[i j] d] c] _; reflexivity).
      rewrite fold_sum, add0l. exact (pairs_total (fun _ _ _ c => fst c)).
    Qed.
    Definition delta (i k : nat) : F := if (i =? k)%nat then 1 else 0.
    Lemma forces_half c k : forces tol B A types (length rows) H c k =
      nsumf (fun i => nsumf (fun jd => (delta i k - delta (fst jd) k) * pairF c i jd) (nth i rows [])) (seq 0 n).
    Proof.
      unfold forces. rewrite accum_spec, nsumf_flat_map.
      rewrite (nsumf_ext' _ (fun p => let '(i, j, d, f) := p in (delta i k - delta j k) * snd f c)).
      - rewrite (pairs_total (fun i j _ f => (delta i k - delta j k) * snd f c)). apply nsumf_ext'. intros i. apply nsumf_ext'. intros jd. unfold pairF.
        destruct (inside fp (snd jd)); ring.
      - intros [[[i j] d] f]. rewrite !nsumf_cons, nsumf_nil. cbn [fst snd]. unfold delta. destruct (i =? k)%nat, (j =? k)%nat; ring.
    Qed.
    Lemma stress_half k : stress tol B A types (length rows) H k =
      nsumf (fun i => nsumf (fun jd => - vc (fst (stress_comp k)) (snd jd) * pairF (snd (stress_comp k)) i jd) (nth i rows [])) (seq 0 n).
    Proof.
      unfold stress. destruct (stress_comp k) as [c c']. cbn [fst snd].
      rewrite (fold_left_ext _ (fun s p => s + (fun p : nat * nat * v3 F * (F * (nat -> F)) => let '(i, j, d, f) := p in vc c d * snd f c') p)) by (intros s [[[i j] d] f] _; reflexivity).
      rewrite fold_sum, add0l, (pairs_total (fun _ _ d f => vc c d * snd f c')). apply nsumf_ext'. intros i. apply nsumf_ext'. intros jd. unfold pairF.
      rewrite vc_neg. destruct (inside fp (snd jd)); ring.
    Qed.

    (** The roles of the two atoms of a pair can be exchanged. *)
    Section Symmetric.
      Hypothesis symE : forall i j d, i < n -> j < n -> pairE j (i, vneg d) = pairE i (j, d).
      Hypothesis symF : forall c i j d, i < n -> j < n -> pairF c j (i, vneg d) = - pairF c i (j, d).
      Lemma energy_full : (1 + 1) * energy tol B A types (length rows) H = nsumf (fun i => nsumf (pairE i) (FR i)) (seq 0 n).
      Proof.
        rewrite energy_half. unfold EvalGtinv.FR, n. rewrite (pair_sum rows pairE Hrows), <- nsumf_scale_l. apply nsumf_ext. intros i Hi. apply in_seq in Hi.
        rewrite <- nsumf_scale_l. apply nsumf_ext. intros [j d] Hj. cbn [fst snd]. rewrite (symE i j d (proj2 Hi) (Hrows i j d (proj2 Hi) Hj)). ring.
      Qed.
      Lemma forces_full c k : k < n -> forces tol B A types (length rows) H c k = nsumf (pairF c k) (FR k).
      Proof.
        intros Hk. rewrite forces_half. transitivity (nsumf (fun i => nsumf (fun jd => delta i k * pairF c i jd) (FR i)) (seq 0 n)).
        - unfold EvalGtinv.FR, n. rewrite (pair_sum rows (fun i jd => delta i k * pairF c i jd) Hrows). apply nsumf_ext. intros i Hi. apply in_seq in Hi.
          apply nsumf_ext. intros [j d] Hj. cbn [fst snd]. rewrite (symF _ i j d (proj2 Hi) (Hrows i j d (proj2 Hi) Hj)). ring.
        - rewrite (nsumf_ext' _ (fun i => if (k =? i)%nat then nsumf (pairF c i) (FR i) else 0)).
          + now rewrite (nsumf_delta n (fun i => nsumf (pairF c i) (FR i))).
          + intros i. rewrite nsumf_scale_l. unfold delta. rewrite (Nat.eqb_sym i k). destruct (k =? i)%nat; ring.
      Qed.
      Lemma stress_full k : (1 + 1) * stress tol B A types (length rows) H k =
        nsumf (fun i => nsumf (fun jd => - vc (fst (stress_comp k)) (snd jd) * pairF (snd (stress_comp k)) i jd) (FR i)) (seq 0 n).
      Proof.
        rewrite stress_half. unfold EvalGtinv.FR, n. rewrite (pair_sum rows _ Hrows), <- nsumf_scale_l. apply nsumf_ext. intros i Hi. apply in_seq in Hi.
        rewrite <- nsumf_scale_l. apply nsumf_ext. intros [j d] Hj. cbn [fst snd]. rewrite (symF _ i j d (proj2 Hi) (Hrows i j d (proj2 Hi) Hj)).
        rewrite vc_neg. ring.
      Qed.
    End Symmetric.
  End System.

  (** Pair models. *)
  Section Pair.
    Hypothesis PM : fp_gtinv fp = false.
    Hypothesis MT : fp_model_type fp <= 2.
    Variable types : nat -> nat.
    Variable rows : list (list (nat * v3 F)).
    Let n := length rows.
    Hypothesis Htypes : forall i, i < n -> types i < nt.
    Notation SP i := (sums_pair B A types (length rows) (csr_of rows) i).
    Definition ones (i : nat) (jd : nat * v3 F) : F := 1.
    Lemma two_p_neg ker eps S i j d : (forall tp k d, ker tp k (vneg d) = eps * ker tp k d) -> i < n -> j < n ->
      two_p fp types ker ones S j (i, vneg d) = eps * two_p fp types ker ones S i (j, d).
    Proof.
      intros Hker Hi Hj. unfold two_p. cbn [fst snd]. rewrite (inside_neg fp). destruct (inside fp d); [|ring].
      assert (E : tpj fp types j i = tpj fp types i j) by (apply tpair_sym; now apply Htypes). rewrite E.
      assert (Es : nth (tpj fp types i j) (nth (types j) (pm_tp (mp_pair (mapping fp))) []) [] = map pswap (nth (tpj fp types i j) (nth (types i) (pm_tp (mp_pair (mapping fp))) []) [])).
      { rewrite <- E. apply (po_swap _ _ _ (pok fp PM)); now apply Htypes. }
      rewrite Es, nsumf_map. unfold ones. rewrite <- !nsumf_scale_l. apply nsumf_ext'. intros a. cbn [pswap pc_n_id pc_il pc_jl]. rewrite Hker. ring.
    Qed.
    Lemma pairE_two i jd : pairE types rows i jd = two_p fp types (kfn B fp) ones (fun i k => nth k (fst (SP i)) 0) i jd.
    Proof.
      destruct jd as [j d]. unfold pairE, two_p. cbn [fst snd]. destruct (inside fp d); [|reflexivity].
      unfold contrib. change (ap_fp A) with fp. rewrite PM. unfold pair_contrib. cbn [fst]. rewrite fold_sum, add0l. unfold ones, pair_tp, kfn. change (ap_fp A) with fp.
      rewrite norm_neg. fold nt. unfold tpj. match goal with |- ?x = 1 * ?y => change y with x end. ring.
    Qed.
    Lemma pairF_two c i jd : pairF types rows c i jd = two_p fp types (pair_val B fp c) ones (fun i k => nth k (snd (SP i)) 0) i jd.
    Proof.
      destruct jd as [j d]. unfold pairF, two_p. cbn [fst snd]. destruct (inside fp d); [|reflexivity].
      unfold contrib. change (ap_fp A) with fp. rewrite PM. unfold pair_contrib. cbn [snd]. rewrite fold_sum, add0l. unfold ones, pair_tp. change (ap_fp A) with fp.
      rewrite norm_neg, vc_neg. fold nt. change (tpair nt (types i) (types j)) with (tpj fp types i j). unfold pair_val.
      rewrite (nsumf_ext' (fun a => fn_d B fp (tpj fp types i j) (pc_n_id a) (norm d) * vc c d / norm d * (nth (pc_il a) (snd (SP i)) 0 + nth (pc_jl a) (snd (SP j)) 0))
        (fun a => (vc c d / norm d) * (fn_d B fp (tpj fp types i j) (pc_n_id a) (norm d) * (nth (pc_il a) (snd (SP i)) 0 + nth (pc_jl a) (snd (SP j)) 0)))) by (intros a; rewrite !(Fdiv_def (field_laws (F:=F))); ring).
      rewrite nsumf_scale_l, !(Fdiv_def (field_laws (F:=F))). ring.
    Qed.
    Lemma symE_pair i j d : i < n -> j < n -> pairE types rows j (i, vneg d) = pairE types rows i (j, d).
    Proof. intros Hi Hj. rewrite !pairE_two, (two_p_neg _ 1) by (try assumption; apply kfn_neg). ring. Qed.
    Lemma symF_pair c i j d : i < n -> j < n -> pairF types rows c j (i, vneg d) = - pairF types rows c i (j, d).
    Proof. intros Hi Hj. rewrite !pairF_two, (two_p_neg _ (- (1))) by (try assumption; apply kval_neg). ring. Qed.
  End Pair.

  (** Models with invariants. *)
  Section Gtinv.
    Hypothesis GT : gtinv_table fp.
    Hypothesis BO : basis_ok B (fp_maxl fp).
    Variable types : nat -> nat.
    Variable rows : list (list (nat * v3 F)).
    Let n := length rows.
    Hypothesis Htypes : forall i, i < n -> types i < nt.
    Notation SG i := (sums_gtinv tol B A types (length rows) (csr_of rows) i).
    Lemma two_neg ker eps S i j d : 
      (forall t h tp d, t < nt -> h < nhl fp t -> nocl fp t h = true ->
        ker tp (a_n_id (att fp t h)) (lm_key (a_lm (att fp t h))) (vneg d) =
        of_real (eps * sgl fp t h) * ker tp (a_n_id (att fp t h)) (lm_key (a_lm (att fp t h))) d) -> i < n -> j < n ->
      two_sides tol B fp types ker one_w S j (i, vneg d) = eps * two_sides tol B fp types ker one_w S i (j, d).
    Proof.
      intros Hker Hi Hj. unfold two_sides. cbn [fst snd]. rewrite (inside_neg fp). destruct (inside fp d); [|ring].
      assert (E : tpi fp types j i = tpi fp types i j) by (apply tpair_sym; now apply Htypes). rewrite E.
      unfold gt_tp. change (ap_fp (set_potential_model fp [])) with fp.
      assert (Es : nth (tpi fp types i j) (nth (types j) (gm_tp (mp_gt (mapping fp))) []) [] = map gswap (nth (tpi fp types i j) (nth (types i) (gm_tp (mp_gt (mapping fp))) []) [])).
      { rewrite <- E. apply (go_swap _ _ _ _ _ (gok fp GT)); now apply Htypes. }
      rewrite Es.
      rewrite (map_filter_comm gswap _ (ok tol B fp (tpi fp types i j) d)) by (intros a; unfold ok; now rewrite (norm_neg d)).
      rewrite nsumf_map. rewrite !nsumf_filter.
      assert (Hlt : tpi fp types i j < length (tp_to_types nt)) by (apply tpair_lt; now apply Htypes).
      rewrite !(gt_tp_sum fp GT _ _ _ (Htypes i Hi) Hlt). unfold one_w. rewrite <- !nsumf_scale_l. apply nsumf_ext. intros h Hh. apply in_seq in Hh.
      destruct (nocl fp (types i) h) eqn:En; [|ring]. destruct (a_tp (att fp (types i) h) =? tpi fp types i j); [|ring].
      destruct (ok tol B fp (tpi fp types i j) d _); [|ring]. cbn [gcmp gswap c_n_id c_key c_m c_sign c_inc c_jnc]. fold (sgl fp (types i) h).
      rewrite (Hker (types i) h (tpi fp types i j) (vneg d)); [|now apply Htypes|lia|exact En].
      pose proof (sg_sqT fp (types i) h) as Q. set (K := ker _ _ _ (vneg d)). set (s := sgl fp (types i) h) in *. set (f := fac _).
      destruct K as [k1 k2], (S i _) as [s1 s2], (S j _) as [s3 s4]. unfold prod_real, cscale. cbn.
      transitivity (eps * f * ((s * s) * (k1 * s1 - k2 * s2) + s * (k1 * s3 - k2 * s4))); [ring|]. rewrite Q. ring.
    Qed.
    Lemma pairE_two' i jd : pairE types rows i jd = two_sides tol B fp types (gt_val B fp) one_w (fun i k => nth k (fst (SG i)) (0, 0)) i jd.
    Proof.
      destruct jd as [j d]. unfold pairE. cbn [fst snd]. destruct (inside fp d) eqn:E; [|unfold two_sides; cbn [fst snd]; now rewrite E].
      unfold contrib. change (ap_fp A) with fp. rewrite (gt_gtinv _ GT). unfold gtinv_contrib. cbn [fst].
      pose proof (pair_value tol B fp types coeffs one_w (gt_val B fp) (fun i k => nth k (fst (SG i)) (0, 0)) i j d) as P. rewrite E in P. rewrite <- P. unfold one_w, tpi.
      change (ap_fp A) with fp. fold nt. match goal with |- ?a = 1 * ?b => change b with a; generalize a end. intros x. ring.
    Qed.
    Lemma pairF_two' c i jd : pairF types rows c i jd = - two_sides tol B fp types (gt_val_d B fp c) one_w (fun i k => nth k (snd (SG i)) (0, 0)) i jd.
    Proof.
      destruct jd as [j d]. unfold pairF. cbn [fst snd]. destruct (inside fp d) eqn:E; [|unfold two_sides; cbn [fst snd]; rewrite E; ring].
      unfold contrib. change (ap_fp A) with fp. rewrite (gt_gtinv _ GT). unfold gtinv_contrib. cbn [snd].
      pose proof (pair_value tol B fp types coeffs one_w (gt_val_d B fp c) (fun i k => nth k (snd (SG i)) (0, 0)) i j d) as P. rewrite E in P. rewrite <- P. unfold one_w, tpi.
      change (ap_fp A) with fp. fold nt. rewrite !fold_sum, !add0l.
      match goal with |- _ = - (1 * ?b) => transitivity (- b); [|generalize b; intros; ring] end.
      rewrite <- nsumf_opp. apply nsumf_ext'. intros a. unfold prod_real. destruct (gt_val_d _ _ _ _ _ _ _) as [x y]. destruct (cscale (if (c_m a =? 0)%Z then _ else _) _) as [z u]. cbn. ring.
    Qed.
    Lemma symE_gtinv i j d : i < n -> j < n -> pairE types rows j (i, vneg d) = pairE types rows i (j, d).
    Proof.
      intros Hi Hj. rewrite !pairE_two', (two_neg _ 1) by (try assumption; intros t h tp d' Ht Hh Hn; rewrite (val_neg B fp GT BO types t Ht h tp d' Hh Hn); apply cx_eq; cbn; ring). ring.
    Qed.
    Lemma symF_gtinv c i j d : i < n -> j < n -> pairF types rows c j (i, vneg d) = - pairF types rows c i (j, d).
    Proof.
      intros Hi Hj. rewrite !pairF_two', (two_neg _ (- (1))); [ring| |assumption|assumption].
      intros t h tp d' Ht Hh Hn. rewrite (val_d_neg B fp GT BO types t Ht h c tp d' (field_laws (F:=F)) Hh Hn). destruct (gt_val_d _ _ _ _ _ _ _). apply cx_eq; cbn; ring.
    Qed.
  End Gtinv.
End FullSum.
