(** Two systems whose atoms have the same surroundings: results of the fast evaluator. *)
From Verif Require Import Base Num Complex Spec.Poly Spec.ModelParams Spec.Gtinv Model.Cxx Model.Mapping Model.ModelParams Model.Features Model.Potential
  Model.Neighbor Model.Compute Model.Eval Proofs.Sums Proofs.NeighborList Proofs.EvalGtinv Proofs.EvalPair Proofs.FullSum.
From Coq Require Import Ring Field FunctionalExtensionality.

Section Count.
  Context {F : Type} {N : Num F} {FL : FieldLaws F}.
  Local Open Scope num_scope.
  Add Field Ffield : (field_laws (F:=F)).
  Lemma sum_count n (e : nat -> F) (l : list nat) : (forall i, In i l -> i < n) ->
    nsumf e l = nsumf (fun i => nnat (count_occ Nat.eq_dec l i) * e i) (seq 0 n).
  Proof.
    induction l as [|a l IH]; intros H.
    - rewrite nsumf_nil. rewrite (nsumf_ext' _ (fun _ => 0)) by (intros i; cbn [count_occ nnat]; ring). now rewrite nsumf_zero.
    - rewrite nsumf_cons, IH by (intros i Hi; apply H; now right).
      rewrite <- (nsumf_delta n e a) by (apply H; now left). rewrite <- nsumf_add. apply nsumf_ext'. intros i. cbn [count_occ].
      destruct (Nat.eq_dec a i) as [->|E]; [rewrite Nat.eqb_refl; cbn [nnat]; ring|]. apply Nat.eqb_neq in E. rewrite E. ring.
  Qed.
  Lemma sum_fibres n n' m (phi : nat -> nat) (e : nat -> F) : (forall i, i < n' -> phi i < n) ->
    (forall i, i < n -> count_occ Nat.eq_dec (map phi (seq 0 n')) i = m) ->
    nsumf (fun i => e (phi i)) (seq 0 n') = nnat m * nsumf e (seq 0 n).
  Proof.
    intros H Hm. rewrite <- (nsumf_map phi e), (sum_count n).
    - rewrite <- nsumf_scale_l. apply nsumf_ext. intros i Hi. apply in_seq in Hi. now rewrite Hm by lia.
    - intros i Hi. apply in_map_iff in Hi. destruct Hi as [k [<- Hk]]. apply in_seq in Hk. apply H. lia.
  Qed.
End Count.

Section Local.
  Context {F : Type} {N : Num F} {NO : NumOrd F} {FL : FieldLaws F} {C0 : Char0 F}.
  Local Open Scope num_scope.
  Add Field Ffield' : (field_laws (F:=F)).
  Variable tol : F.
  Variable B : basis F.
  Variable fp : fparams F.
  Variable coeffs : list F.
  Let nt := fp_n_type fp.
  Notation A := (polymlp_eval fp coeffs).
  Variables types types' : nat -> nat.
  Variables rows rows' : list (list (nat * v3 F)).
  Let n := length rows.
  Let n' := length rows'.
  Variable phi : nat -> nat.
  Hypothesis Hrows : forall i j d, i < n -> In (j, d) (nth i rows []) -> j < n.
  Hypothesis Hrows' : forall i j d, i < n' -> In (j, d) (nth i rows' []) -> j < n'.
  Hypothesis Htypes : forall i, i < n -> types i < nt.
  Hypothesis Hphi : forall i, i < n' -> phi i < n.
  Hypothesis Hty : forall i, i < n' -> types' i = types (phi i).
  Notation to jd := (phi (fst jd), snd jd).
  Hypothesis HFR : forall i, i < n' -> Permutation (map (fun jd => to jd) (FR rows' i)) (FR rows (phi i)).
  Lemma Htypes' i : i < n' -> types' i < nt.
  Proof. intros Hi. rewrite Hty by exact Hi. now apply Htypes, Hphi. Qed.
  Lemma FR_lt' i jd : i < n' -> In jd (FR rows' i) -> fst jd < n'.
  Proof. intros Hi Hj. exact (FR_lt rows' Hrows' i jd Hi Hj). Qed.

  Lemma row_loop_perm {T} t (b : nat -> v3 F -> list T) i : i < n' ->
    Permutation (row_loop A types' t (FR rows' i) (fun _ => b)) (row_loop A types t (FR rows (phi i)) (fun _ => b)).
  Proof.
    intros Hi. unfold row_loop. rewrite <- (Permutation_flat_map _ (HFR i Hi)). rewrite !flat_map_concat_map, map_map, <- !flat_map_concat_map. apply Permutation_refl'. apply flat_map_ext_in. intros [j d] Hj. cbn [fst snd].
    pose proof (FR_lt' i _ Hi Hj) as L. cbn [fst] in L. now rewrite (Hty j L).
  Qed.
  Lemma accum_perm (l l' : list (nat * F)) : Permutation l l' -> accum l = accum l'.
  Proof. intros P. apply functional_extensionality. intros k. rewrite !accum_spec. now apply nsumf_perm. Qed.
  Lemma sums_pair_local i : i < n' -> sums_pair B A types' (length rows') (csr_of rows') i = sums_pair B A types (length rows) (csr_of rows) (phi i).
  Proof.
    intros Hi. unfold sums_pair, antp. rewrite (Hty i Hi). f_equal. apply accum_perm.
    exact (row_loop_perm (types (phi i)) (fun tp d => map (fun a => (pc_il a, fn B fp tp (pc_n_id a) (norm d))) (pair_tp A (types (phi i)) tp)) i Hi).
  Qed.
  Lemma sums_gtinv_local i : i < n' -> sums_gtinv tol B A types' (length rows') (csr_of rows') i = sums_gtinv tol B A types (length rows) (csr_of rows) (phi i).
  Proof.
    intros Hi. unfold sums_gtinv, anlmtp.
    assert (P : Permutation (anlmtp_nc tol B A types' (length rows') (csr_of rows') i) (anlmtp_nc tol B A types (length rows) (csr_of rows) (phi i))).
    { unfold anlmtp_nc. rewrite (Hty i Hi).
      exact (row_loop_perm (types (phi i)) (fun tp d => map (fun a => (c_inc a, cscale (fn B fp tp (c_n_id a) (norm d)) (b_ylm B (c_key a) d)))
        (filter (fun a => negb (nltb (fn B fp tp (c_n_id a) (norm d)) tol)) (gt_tp A (types (phi i)) tp))) i Hi). }
    rewrite (Hty i Hi). f_equal. f_equal; apply accum_perm, Permutation_map, P.
  Qed.
  Lemma contrib_local i j tp d : i < n' -> j < n' ->
    contrib tol B A types' (length rows') (csr_of rows') i j tp d = contrib tol B A types (length rows) (csr_of rows) (phi i) (phi j) tp d.
  Proof.
    intros Hi Hj. unfold contrib. destruct (fp_gtinv (ap_fp A)).
    - unfold gtinv_contrib. rewrite (Hty i Hi), (sums_gtinv_local i Hi), (sums_gtinv_local j Hj). reflexivity.
    - unfold pair_contrib. rewrite (Hty i Hi), (sums_pair_local i Hi), (sums_pair_local j Hj). reflexivity.
  Qed.
  Lemma pairE_local i jd : i < n' -> fst jd < n' -> pairE tol B fp coeffs types' rows' i jd = pairE tol B fp coeffs types rows (phi i) (to jd).
  Proof. intros Hi Hj. unfold pairE. cbn [fst snd]. rewrite contrib_local by assumption. now rewrite !Hty by assumption. Qed.
  Lemma pairF_local c i jd : i < n' -> fst jd < n' -> pairF tol B fp coeffs types' rows' c i jd = pairF tol B fp coeffs types rows c (phi i) (to jd).
  Proof. intros Hi Hj. unfold pairF. cbn [fst snd]. rewrite contrib_local by assumption. now rewrite !Hty by assumption. Qed.
  Lemma row_sum (g g' : nat * v3 F -> F) i : i < n' -> (forall jd, In jd (FR rows' i) -> g' jd = g (to jd)) -> nsumf g' (FR rows' i) = nsumf g (FR rows (phi i)).
  Proof. intros Hi H. rewrite <- (nsumf_perm g _ _ (HFR i Hi)), nsumf_map. now apply nsumf_ext. Qed.

  Section Results.
    Notation pE := (pairE tol B fp coeffs).
    Notation pF := (pairF tol B fp coeffs).
    Hypothesis symE : forall types rows, (forall i, i < length rows -> types i < nt) -> forall i j d, i < length rows -> j < length rows -> pE types rows j (i, vneg d) = pE types rows i (j, d).
    Hypothesis symF : forall types rows, (forall i, i < length rows -> types i < nt) -> forall c i j d, i < length rows -> j < length rows -> pF types rows c j (i, vneg d) = - pF types rows c i (j, d).
    Lemma forces_local c k : k < n' ->
      forces tol B A types' n' (csr_of rows') c k = forces tol B A types n (csr_of rows) c (phi k).
    Proof.
      intros Hk. unfold n', n. rewrite (forces_full tol B fp coeffs types' rows' Hrows' Htypes' (symF _ _ Htypes') c k Hk).
      rewrite (forces_full tol B fp coeffs types rows Hrows Htypes (symF _ _ Htypes) c (phi k) (Hphi k Hk)).
      apply row_sum; [exact Hk|]. intros jd Hj. apply pairF_local; [exact Hk|]. now apply (FR_lt' k).
    Qed.
    Variable m : nat.
    Hypothesis Hm : forall i, i < n -> count_occ Nat.eq_dec (map phi (seq 0 n')) i = m.
    Lemma two_nz : (1 + 1 : F) <> 0.
    Proof. intros E. apply (char0 (F:=F) 1). transitivity (1 + 1 : F); [cbn [nnat]; ring|exact E]. Qed.
    Lemma half_cancel (x y : F) : (1 + 1) * x = (1 + 1) * y -> x = y.
    Proof. intros E. pose proof two_nz as Z. transitivity ((1 + 1) * x / (1 + 1)); [field; exact Z|]. rewrite E. field. exact Z. Qed.
    Lemma energy_local : energy tol B A types' n' (csr_of rows') = nnat m * energy tol B A types n (csr_of rows).
    Proof.
      apply half_cancel. transitivity (nnat m * ((1 + 1) * energy tol B A types n (csr_of rows))); [|ring]. unfold n', n.
      rewrite (energy_full tol B fp coeffs types' rows' Hrows' Htypes' (symE _ _ Htypes')), (energy_full tol B fp coeffs types rows Hrows Htypes (symE _ _ Htypes)).
      rewrite <- (sum_fibres n n' m phi _ Hphi Hm). apply nsumf_ext. intros i Hi. apply in_seq in Hi. apply row_sum; [apply Hi|].
      intros jd Hj. apply pairE_local; [apply Hi|]. apply (FR_lt' i); [apply Hi|exact Hj].
    Qed.
    Lemma stress_local k : stress tol B A types' n' (csr_of rows') k = nnat m * stress tol B A types n (csr_of rows) k.
    Proof.
      apply half_cancel. transitivity (nnat m * ((1 + 1) * stress tol B A types n (csr_of rows) k)); [|ring]. unfold n', n.
      rewrite (stress_full tol B fp coeffs types' rows' Hrows' Htypes' (symF _ _ Htypes')), (stress_full tol B fp coeffs types rows Hrows Htypes (symF _ _ Htypes)).
      rewrite <- (sum_fibres n n' m phi _ Hphi Hm). apply nsumf_ext. intros i Hi. apply in_seq in Hi. apply row_sum; [apply Hi|].
      intros jd Hj. cbn [snd]. f_equal. apply pairF_local; [apply Hi|]. apply (FR_lt' i); [apply Hi|exact Hj].
    Qed.
  End Results.
End Local.
