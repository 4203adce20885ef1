(** C59: the stress is symmetric and both evaluators agree on all its components. *)
From Verif Require Import Base Num NumR Complex Spec.Neighbor Spec.Gtinv Spec.Deriv Spec.Rotation Model.Cxx Model.Mapping Model.ModelParams Model.Features Model.Potential
  Model.Neighbor Model.Compute Model.Eval Model.Harmonics Proofs.Deriv Proofs.PathDeriv Proofs.Mirrored Proofs.EvalGtinv Proofs.NeighborList Proofs.Harmonics Proofs.RotationInv Proofs.StressSym.
From Verif Require Props.C18 Props.C53 Props.C54 Props.C55 Props.C56 Props.C57.
From Coq Require Import Reals Lra.
Local Open Scope R_scope.

(** Models with invariants whose tables have L = 0, or pair models. *)
Definition invariant_model (fp : fparams R) : Prop :=
  gtinv_table fp /\ invariant_table fp \/ fp_gtinv fp = false /\ (fp_model_type fp <= 2)%nat.
Lemma real_harmonic_d cutoff lmax : harmonic_basis_d (real_basis cutoff lmax) lmax.
Proof. intros l k c d Hc H Hd. cbn [b_ylm_d real_basis]. rewrite index_same. now apply get_ylm_d_closed. Qed.

(** The stress of the fast evaluation is the dot product of the stress features and the coefficients, for all six
    components, although the two pair the axes in opposite orders (C18 covers the diagonal). *)
Theorem C59_evaluators (fp : fparams R) (types : nat -> nat) rows neigh (coeffs : list R) :
  let B := real_basis (fp_cutoff fp) (fp_maxl fp) in
  invariant_model fp ->
  let n := length rows in
  half_list rows -> (forall i, (i < n)%nat -> (types i < fp_n_type fp)%nat) ->
  (forall i, (i < n)%nat -> Permutation (neigh i) (mirrored rows i)) -> (forall i, (i < n)%nat -> C57.separate (neigh i)) ->
  forall k, stress 0 B (polymlp_eval fp coeffs) types n (csr_of rows) k = C18.times_coeffs fp (xs_sum 0 B fp types n neigh k) (fun g => nth g coeffs 0).
Proof.
  intros B M n HR HT HN HS k. destruct M as [[GT IT]|[PM MT]]; [|exact (proj2 (proj2 (C18.C18_pair 0 B fp types rows neigh coeffs PM MT HR HT HN)) k)].
  assert (HN' : forall i, (i < n)%nat -> Permutation (neigh i) (FR rows i)).
  { intros i Hi. rewrite (HN i Hi). symmetry. now apply mirrored_perm. }
  apply (stress_either 0 B fp GT (C53.C53_parity _ _ _ (le_n _)) C54.tol0 types rows HR HT coeffs neigh HN' k).
  intros i q Hi Hq. apply (stress_swap 0 B fp GT (C57.real_harmonic _ _) (real_harmonic_d _ _) IT types (types i) (HT i Hi)); [exact (HS i Hi)|exact Hq].
Qed.
Print Assumptions C59_evaluators.

Definition strained_at (c c' : nat) (pos : nat -> v3 R) (images : nat -> list (nat * v3 R)) (s : R) : nat -> list (nat * v3 R) :=
  neighbours (fun a => strained c c' s (pos a)) (fun a => map (fun jt => (fst jt, strained c c' s (snd jt))) (images a)).
(** The stress features are minus the derivatives for both shears. *)
Theorem C59_features (fp : fparams R) (types : nat -> nat) (n : nat) (pos : nat -> v3 R) (images : nat -> list (nat * v3 R)) (g k : nat) :
  let B := real_basis (fp_cutoff fp) (fp_maxl fp) in
  invariant_model fp -> 0 < fp_cutoff fp ->
  (forall i, (i < n)%nat -> (types i < fp_n_type fp)%nat) -> C54.apart n pos images -> (k < 6)%nat ->
  let (c, c') := C55.axes k in
  has_deriv (fun s => xe_sum 0 B fp types n (strained_at c c' pos images s) true g) 0 (- xs_sum 0 B fp types n (neighbours pos images) k g) /\
  has_deriv (fun s => xe_sum 0 B fp types n (strained_at c' c pos images s) true g) 0 (- xs_sum 0 B fp types n (neighbours pos images) k g).
Proof.
  intros B M Hc HT HA Hk. pose proof (C54.seps fp n pos images Hc HA) as HS. pose proof (C55.axes_comp k Hk) as E.
  assert (Hb : (fst (C55.axes k) < 3 /\ snd (C55.axes k) < 3)%nat) by (destruct k as [|[|[|[|[|[|]]]]]]; cbn; lia). destruct (C55.axes k) as [c c']. cbn [fst snd] in Hb.
  unfold strained_at. destruct M as [[GT IT]|[PM MT]]; [|split; [now apply pair_strain|now apply pair_strain']].
  assert (BO : basis_ok B (fp_maxl fp)) by (apply C53.C53_parity; lia).
  assert (Hge : forall p r, 0 < r < fp_cutoff fp -> 0 <= b_fn B p r) by (intros p r; now apply C54.radial_pos).
  split.
  - apply gtinv_strain; try assumption; [exact C54.tol0|]. intros key d. now apply C53.C53_derivative.
  - apply gtinv_strain'; try assumption; [exact C54.tol0| |apply C57.real_harmonic|apply real_harmonic_d]. intros key d. now apply C53.C53_derivative.
Qed.
Print Assumptions C59_features.

(** The returned stress is minus the derivative of the returned energy, for both shears (C56 covers the diagonal). *)
Definition strained_half (c c' : nat) (pos : nat -> v3 R) (images : nat -> list (nat * v3 R)) (n : nat) (s : R) : list (list (nat * v3 R)) :=
  map (strained_at c c' pos images s) (seq 0 n).
Lemma strained_both c c' pos images n s i : (i < n)%nat ->
  strained_at c c' pos (C56.both images n) s i = neighbours (fun a => strained c c' s (pos a)) (C56.both (fun a => map (fun jt => (fst jt, strained c c' s (snd jt))) (images a)) n) i.
Proof.
  intros Hi. unfold strained_at, neighbours. f_equal. unfold C56.both. rewrite map_app. f_equal.
  rewrite flat_map_concat_map, concat_map, map_map, <- flat_map_concat_map. apply flat_map_ext_in. intros a Ha.
  induction (images a) as [|[j t] l IH]; [reflexivity|]. cbn [flat_map map]. rewrite map_app, IH. cbn [fst snd].
  destruct (j =? i)%nat; [|reflexivity]. cbn [map app fst snd]. do 2 f_equal. unfold strained, along, vneg.
  destruct t, c as [|[|]], c' as [|[|]]; cbn; f_equal; ring.
Qed.
Theorem C59_stress (fp : fparams R) (types : nat -> nat) (n : nat) (pos : nat -> v3 R) (images : nat -> list (nat * v3 R)) (coeffs : list R) (k : nat) :
  let B := real_basis (fp_cutoff fp) (fp_maxl fp) in
  let A := polymlp_eval fp coeffs in
  invariant_model fp -> 0 < fp_cutoff fp ->
  (forall i, (i < n)%nat -> (types i < fp_n_type fp)%nat) -> C56.indices_ok n images -> C54.apart n pos images -> (k < 6)%nat ->
  let (c, c') := C55.axes k in
  has_deriv (fun s => energy 0 B A types n (csr_of (strained_half c c' pos images n s))) 0 (- stress 0 B A types n (csr_of (C56.half_rows_at pos images n)) k) /\
  has_deriv (fun s => energy 0 B A types n (csr_of (strained_half c' c pos images n s))) 0 (- stress 0 B A types n (csr_of (C56.half_rows_at pos images n)) k).
Proof.
  intros B A M Hc HT HI HA Hk.
  assert (HE : forall pos' images', C56.indices_ok n images' ->
    energy 0 B A types n (csr_of (C56.half_rows_at pos' images' n)) = C18.times_coeffs fp (xe_sum 0 B fp types n (neighbours pos' (C56.both images' n)) true) (fun g => nth g coeffs 0)).
  { intros pos' images' HI'. pose proof (C56.rows_len pos' images' n) as EN.
    assert (HL : half_list (C56.half_rows_at pos' images' n)) by now apply C56.listed.
    assert (HT' : forall i, (i < length (C56.half_rows_at pos' images' n))%nat -> (types i < fp_n_type fp)%nat) by (rewrite EN; exact HT).
    assert (HP : forall i, (i < length (C56.half_rows_at pos' images' n))%nat -> Permutation (neighbours pos' (C56.both images' n) i) (mirrored (C56.half_rows_at pos' images' n) i)).
    { rewrite EN. intros i Hi. now rewrite C56.both_mirrored. }
    destruct M as [[GT IT]|[PM MT]].
    - pose proof (proj1 (C54.C54_evaluators fp types _ _ coeffs GT HL HT' HP)) as E. rewrite EN in E. exact E.
    - pose proof (proj1 (C18.C18_pair 0 B fp types _ _ coeffs PM MT HL HT' HP) true) as E. rewrite EN in E. exact E. }
  pose proof (C56.rows_len pos images n) as EN. pose proof (C56.both_apart n pos images HI HA) as HA'.
  assert (HSt : stress 0 B A types n (csr_of (C56.half_rows_at pos images n)) k = C18.times_coeffs fp (xs_sum 0 B fp types n (neighbours pos (C56.both images n)) k) (fun g => nth g coeffs 0)).
  { assert (HL : half_list (C56.half_rows_at pos images n)) by now apply C56.listed.
    pose proof (C59_evaluators fp types (C56.half_rows_at pos images n) (neighbours pos (C56.both images n)) coeffs M HL) as E. cbv zeta in E. rewrite EN in E. apply E.
    - exact HT.
    - intros i Hi. now rewrite C56.both_mirrored.
    - intros i Hi jd H. unfold neighbours in H. apply in_map_iff in H. destruct H as [[j t] [<- H]]. exact (HA' i j t Hi H). }
  rewrite HSt.
  assert (HX : forall g, let (c, c') := C55.axes k in
    has_deriv (fun s => xe_sum 0 B fp types n (strained_at c c' pos (C56.both images n) s) true g) 0 (- xs_sum 0 B fp types n (neighbours pos (C56.both images n)) k g) /\
    has_deriv (fun s => xe_sum 0 B fp types n (strained_at c' c pos (C56.both images n) s) true g) 0 (- xs_sum 0 B fp types n (neighbours pos (C56.both images n)) k g)).
  { intros g. now apply C59_features. }
  destruct (C55.axes k) as [c c'].
  assert (HF : forall e e' s, energy 0 B A types n (csr_of (strained_half e e' pos images n s)) =
    C18.times_coeffs fp (xe_sum 0 B fp types n (strained_at e e' pos (C56.both images n) s) true) (fun g => nth g coeffs 0)).
  { intros e e' s. refine (eq_trans (HE (fun a => strained e e' s (pos a)) (fun a => map (fun jt => (fst jt, strained e e' s (snd jt))) (images a)) _) _).
    - intros i j t Hi H. apply in_map_iff in H. destruct H as [[j' t'] [E H]]. injection E as <- _. exact (HI i j' t' Hi H).
    - unfold C18.times_coeffs. apply nsumf_ext. intros g _. f_equal. apply C56.xe_neigh. intros i Hi. symmetry. now apply strained_both. }
  split.
  - refine (hd_ext _ _ _ _ _ (fun s => eq_sym (HF c c' s)) eq_refl _).
    apply (C56.dot_deriv fp (fun s => xe_sum 0 B fp types n (strained_at c c' pos (C56.both images n) s) true)). intros g. exact (proj1 (HX g)).
  - refine (hd_ext _ _ _ _ _ (fun s => eq_sym (HF c' c s)) eq_refl _).
    apply (C56.dot_deriv fp (fun s => xe_sum 0 B fp types n (strained_at c' c pos (C56.both images n) s) true)). intros g. exact (proj2 (HX g)).
Qed.
Print Assumptions C59_stress.

(** The model of C57 on the atoms of C56. *)
Module Example.
  Lemma meets : invariant_model C57.Example.fp /\ C56.indices_ok 3 C56.Example.images /\ C54.apart 3 C54.Example.pos C56.Example.images.
  Proof. destruct C56.Example.meets as [H1 [H2 _]]. split; [left; exact (Logic.conj C57.Example.table_ok C57.Example.invariant)|]. split; assumption. Qed.
  Lemma shears coeffs :
    has_deriv (fun s => energy 0 (real_basis 6 1) (polymlp_eval C57.Example.fp coeffs) (fun _ => 0%nat) 3 (csr_of (strained_half 1 2 C54.Example.pos C56.Example.images 3 s))) 0
      (- stress 0 (real_basis 6 1) (polymlp_eval C57.Example.fp coeffs) (fun _ => 0%nat) 3 (csr_of (C56.half_rows_at C54.Example.pos C56.Example.images 3)) 4) /\
    has_deriv (fun s => energy 0 (real_basis 6 1) (polymlp_eval C57.Example.fp coeffs) (fun _ => 0%nat) 3 (csr_of (strained_half 2 1 C54.Example.pos C56.Example.images 3 s))) 0
      (- stress 0 (real_basis 6 1) (polymlp_eval C57.Example.fp coeffs) (fun _ => 0%nat) 3 (csr_of (C56.half_rows_at C54.Example.pos C56.Example.images 3)) 4).
  Proof.
    destruct meets as [M [H1 H2]]. refine (C59_stress C57.Example.fp (fun _ => 0%nat) 3 C54.Example.pos C56.Example.images coeffs 4 M _ _ H1 H2 _); try lia.
    - cbn. lra.
    - intros i _. cbn. lia.
  Qed.
End Example.
