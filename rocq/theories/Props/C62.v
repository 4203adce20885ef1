(** C62: forces and stress together give the change of the energy for every simultaneous motion of the atoms and strain of the space. *)
From Verif Require Import Base Num NumR Complex Spec.Neighbor Spec.Gtinv Spec.Deriv Spec.Motion Spec.Rotation Model.Cxx Model.Mapping Model.ModelParams Model.Features Model.Potential
  Model.Neighbor Model.Compute Model.Eval Model.Harmonics Proofs.Sums Proofs.Deriv Proofs.PathDeriv Proofs.DirDeriv Proofs.YlmDir Proofs.Motion Proofs.NeighborList Proofs.Harmonics.
From Verif Require Props.C18 Props.C53 Props.C54 Props.C55 Props.C56 Props.C57 Props.C59.
From Coq Require Import Reals Lra.
Local Open Scope R_scope.

(** Energy, force and stress features. *)
Theorem C62_features (fp : fparams R) (types : nat -> nat) (n : nat) (pos : nat -> v3 R) (images : nat -> list (nat * v3 R)) (u : nat -> v3 R) (M : nat -> nat -> R) (g : nat) :
  let B := real_basis (fp_cutoff fp) (fp_maxl fp) in
  let nb := neighbours pos images in
  C59.invariant_model fp -> 0 < fp_cutoff fp ->
  (forall i, (i < n)%nat -> (types i < fp_n_type fp)%nat) -> C56.indices_ok n images -> C54.apart n pos images ->
  has_deriv (fun s => xe_sum 0 B fp types n (neighbours (moving_pos u M pos s) (moving_images M images s)) true g) 0
    (- power n (fun c k => xf_sum 0 B fp types n nb (3 * k + c) g) (fun k => xs_sum 0 B fp types n nb k g) u M).
Proof.
  intros B nb I Hc HT HI HA. pose proof (C54.seps fp n pos images Hc HA) as HS. destruct I as [[GT IT]|[PM MT]]; [|now apply pair_motion].
  apply gtinv_motion; try assumption.
  - apply C53.C53_parity; lia.
  - exact C54.tol0.
  - intros p r. now apply C54.radial_pos.
  - intros key d v Hd. apply (ylm_shift (fp_maxl fp) key d v Hd).
  - apply C57.real_harmonic.
  - apply C59.real_harmonic_d.
Qed.
Print Assumptions C62_features.

(** Linearity of the power in forces and stress. *)
Lemma power_ext n F F' S S' u M : (forall c k, (c < 3)%nat -> (k < n)%nat -> F c k = F' c k) -> (forall k, (k < 6)%nat -> S k = S' k) -> power n F S u M = power n F' S' u M.
Proof.
  intros H1 H2. unfold power. f_equal.
  - unfold sumn. apply nsumf_ext. intros k Hk. apply in_seq in Hk. now rewrite !H1 by lia.
  - unfold sumn, nsumf. cbn [seq map nsum fold_right voigt]. now rewrite !H2 by lia.
Qed.
Lemma power_sum n (F : nat -> nat -> nat -> R) (S : nat -> nat -> R) u M (w : nat -> R) l :
  nsumf (fun g => nmul (power n (F g) (S g) u M) (w g)) l = power n (fun c k => nsumf (fun g => nmul (F g c k) (w g)) l) (fun k => nsumf (fun g => nmul (S g k) (w g)) l) u M.
Proof.
  assert (Z : power n (fun _ _ => 0) (fun _ => 0) u M = 0).
  { unfold power. replace (sumn n _) with 0; [unfold sumn, nsumf; cbn; ring|]. unfold sumn. symmetry. refine (eq_trans _ (nsumf_zero (seq 0 n))). apply nsumf_ext'. intros k. cbn. ring. }
  assert (A : forall x F1 S1 F2 S2, power n (fun c k => F1 c k * x + F2 c k) (fun k => S1 k * x + S2 k) u M = power n F1 S1 u M * x + power n F2 S2 u M).
  { intros x F1 S1 F2 S2. unfold power.
    assert (E : sumn n (fun k => (F1 0%nat k * x + F2 0%nat k) * vx (u k) + (F1 1%nat k * x + F2 1%nat k) * vy (u k) + (F1 2%nat k * x + F2 2%nat k) * vz (u k)) =
      sumn n (fun k => F1 0%nat k * vx (u k) + F1 1%nat k * vy (u k) + F1 2%nat k * vz (u k)) * x + sumn n (fun k => F2 0%nat k * vx (u k) + F2 1%nat k * vy (u k) + F2 2%nat k * vz (u k))).
    { unfold sumn. refine (eq_trans _ (f_equal2 Rplus (nsumf_scale_r x _ _) eq_refl)). refine (eq_trans _ (nsumf_add _ _ _)). apply nsumf_ext'. intros k. cbn. ring. }
    rewrite E. match goal with |- ?a * x + ?b + _ = _ => generalize a b end. intros a b. unfold sumn, nsumf. cbn [seq map nsum fold_right nadd n0 R_num]. ring. }
  induction l as [|g l IH]; [now symmetry|]. rewrite nsumf_cons, IH. exact (eq_sym (A (w g) (F g) (S g) _ _)).
Qed.

(** The evaluation in terms of the features. *)
Lemma evaluated (fp : fparams R) (types : nat -> nat) (n : nat) (pos : nat -> v3 R) (images : nat -> list (nat * v3 R)) (coeffs : list R) :
  let B := real_basis (fp_cutoff fp) (fp_maxl fp) in
  let A := polymlp_eval fp coeffs in
  let nb := neighbours pos (C56.both images n) in
  let dot v := C18.times_coeffs fp v (fun g => nth g coeffs 0) in
  C59.invariant_model fp -> (forall i, (i < n)%nat -> (types i < fp_n_type fp)%nat) -> C56.indices_ok n images ->
  energy 0 B A types n (csr_of (C56.half_rows_at pos images n)) = dot (xe_sum 0 B fp types n nb true) /\
  (forall c k, (c < 3)%nat -> forces 0 B A types n (csr_of (C56.half_rows_at pos images n)) c k = dot (xf_sum 0 B fp types n nb (3 * k + c))) /\
  (C54.apart n pos images -> forall k, stress 0 B A types n (csr_of (C56.half_rows_at pos images n)) k = dot (xs_sum 0 B fp types n nb k)).
Proof.
  intros B A nb dot I HT HI. pose proof (C56.rows_len pos images n) as EN.
  assert (HL : half_list (C56.half_rows_at pos images n)) by now apply C56.listed.
  assert (HT' : forall i, (i < length (C56.half_rows_at pos images n))%nat -> (types i < fp_n_type fp)%nat) by (rewrite EN; exact HT).
  assert (HP : forall i, (i < length (C56.half_rows_at pos images n))%nat -> Permutation (nb i) (mirrored (C56.half_rows_at pos images n) i)).
  { rewrite EN. intros i Hi. unfold nb. now rewrite C56.both_mirrored. }
  assert (HSt : C54.apart n pos images -> forall k, stress 0 B A types n (csr_of (C56.half_rows_at pos images n)) k = dot (xs_sum 0 B fp types n nb k)).
  { intros HA k. pose proof (C56.both_apart n pos images HI HA) as HA'.
    pose proof (C59.C59_evaluators fp types (C56.half_rows_at pos images n) nb coeffs I HL) as E. cbv zeta in E. rewrite EN in *. apply E; [exact HT|exact HP|].
    intros i Hi jd H. unfold nb, neighbours in H. apply in_map_iff in H. destruct H as [[j t] [<- H]]. exact (HA' i j t Hi H). }
  split; [|split; [|exact HSt]]; destruct I as [[GT IT]|[PM MT]].
  - pose proof (proj1 (C54.C54_evaluators fp types _ _ coeffs GT HL HT' HP)) as E. rewrite EN in E. exact E.
  - pose proof (proj1 (C18.C18_pair 0 B fp types _ _ coeffs PM MT HL HT' HP) true) as E. rewrite EN in E. exact E.
  - intros c k Hc. pose proof (proj1 (proj2 (C54.C54_evaluators fp types _ _ coeffs GT HL HT' HP)) c k Hc) as E. rewrite EN in E. exact E.
  - intros c k Hc. pose proof (proj1 (proj2 (C18.C18_pair 0 B fp types _ _ coeffs PM MT HL HT' HP)) c k Hc) as E. rewrite EN in E. exact E.
Qed.
Lemma moving_both u M pos images n s i : (i < n)%nat ->
  neighbours (moving_pos u M pos s) (moving_images M (C56.both images n) s) i = neighbours (moving_pos u M pos s) (C56.both (moving_images M images s) n) i.
Proof.
  intros Hi. unfold neighbours. f_equal. unfold moving_images, C56.both. rewrite map_app. f_equal.
  rewrite flat_map_concat_map, concat_map, map_map, <- flat_map_concat_map. apply flat_map_ext_in. intros a Ha.
  induction (images a) as [|[j t] l IH]; [reflexivity|]. cbn [flat_map map]. rewrite map_app, IH. cbn [fst snd].
  destruct (j =? i)%nat; [|reflexivity]. cbn [map app fst snd]. do 2 f_equal. destruct t. unfold shift, lin3, vneg. cbn. f_equal; ring.
Qed.
Lemma moving_ok M images n s : C56.indices_ok n images -> C56.indices_ok n (moving_images M images s).
Proof. intros HI i j t Hi H. apply in_map_iff in H. destruct H as [[j' t'] [E H]]. injection E as <- _. exact (HI i j' t' Hi H). Qed.
Lemma both_ok images n : C56.indices_ok n images -> C56.indices_ok n (C56.both images n).
Proof.
  intros HI i j t Hi H. unfold C56.both in H. apply in_app_or in H. destruct H as [H|H]; [exact (HI i j t Hi H)|].
  apply in_flat_map in H. destruct H as [k [Hk H]]. apply in_seq in Hk. apply in_flat_map in H. destruct H as [[i' t'] [_ H2]].
  destruct (fst (i', t') =? i)%nat; [|destruct H2]. destruct H2 as [H2|[]]. injection H2 as <- _. lia.
Qed.

(** The rows of the half neighbour list at time [s]. *)
Definition moving_rows (u : nat -> v3 R) (M : nat -> nat -> R) (pos : nat -> v3 R) (images : nat -> list (nat * v3 R)) (n : nat) (s : R) : list (list (nat * v3 R)) :=
  C56.half_rows_at (moving_pos u M pos s) (moving_images M images s) n.
(** The returned energy changes at the rate minus the power of the returned forces and stress. *)
Theorem C62_energy (fp : fparams R) (types : nat -> nat) (n : nat) (pos : nat -> v3 R) (images : nat -> list (nat * v3 R)) (coeffs : list R) (u : nat -> v3 R) (M : nat -> nat -> R) :
  let B := real_basis (fp_cutoff fp) (fp_maxl fp) in
  let A := polymlp_eval fp coeffs in
  let rows := csr_of (C56.half_rows_at pos images n) in
  C59.invariant_model fp -> 0 < fp_cutoff fp ->
  (forall i, (i < n)%nat -> (types i < fp_n_type fp)%nat) -> C56.indices_ok n images -> C54.apart n pos images ->
  has_deriv (fun s => energy 0 B A types n (csr_of (moving_rows u M pos images n s))) 0
    (- power n (forces 0 B A types n rows) (stress 0 B A types n rows) u M).
Proof.
  intros B A rows I Hc HT HI HA. set (dot := fun v => C18.times_coeffs fp v (fun g => nth g coeffs 0)).
  destruct (evaluated fp types n pos images coeffs I HT HI) as [_ [E2 E3]]. specialize (E3 HA). cbv zeta in E2, E3. set (nb := neighbours pos (C56.both images n)) in *.
  assert (EP : power n (forces 0 B A types n rows) (stress 0 B A types n rows) u M =
    dot (fun g => power n (fun c k => xf_sum 0 B fp types n nb (3 * k + c) g) (fun k => xs_sum 0 B fp types n nb k g) u M)).
  { unfold dot, C18.times_coeffs. rewrite power_sum. apply power_ext; [intros c k H _; now apply E2|intros k _; apply E3]. }
  rewrite EP.
  refine (hd_ext (fun s => dot (xe_sum 0 B fp types n (neighbours (moving_pos u M pos s) (moving_images M (C56.both images n) s)) true)) _ _ _ _ _ eq_refl _).
  - intros s. unfold moving_rows, A, B. rewrite (proj1 (evaluated fp types n (moving_pos u M pos s) (moving_images M images s) coeffs I HT (moving_ok M images n s HI))).
    unfold dot, C18.times_coeffs. apply nsumf_ext. intros g _. f_equal. apply C56.xe_neigh. intros i Hi. now apply moving_both.
  - apply (C56.dot_deriv fp (fun s => xe_sum 0 B fp types n (neighbours (moving_pos u M pos s) (moving_images M (C56.both images n) s)) true)). intros g.
    apply C62_features; try assumption; [now apply both_ok|now apply C56.both_apart].
Qed.
Print Assumptions C62_energy.

(** Without translations (an isolated cluster) the stress is the virial of the forces, and the forces exert no torque. *)
Definition isolated (n : nat) (images : nat -> list (nat * v3 R)) : Prop := forall i j t, (i < n)%nat -> In (j, t) (images i) -> t = V3 0 0 0.
Definition unit_matrix (c c' a b : nat) : R := if ((a =? c) && (b =? c'))%nat then 1 else 0.
Theorem C62_virial (fp : fparams R) (types : nat -> nat) (n : nat) (pos : nat -> v3 R) (images : nat -> list (nat * v3 R)) (coeffs : list R) (c c' : nat) :
  let B := real_basis (fp_cutoff fp) (fp_maxl fp) in
  let A := polymlp_eval fp coeffs in
  let rows := csr_of (C56.half_rows_at pos images n) in
  let F := forces 0 B A types n rows in
  C59.invariant_model fp -> 0 < fp_cutoff fp ->
  (forall i, (i < n)%nat -> (types i < fp_n_type fp)%nat) -> C56.indices_ok n images -> C54.apart n pos images -> isolated n images -> (c < 3)%nat -> (c' < 3)%nat ->
  stress 0 B A types n rows (voigt c c') = sumn n (fun k => F c k * component c' (pos k)) /\
  sumn n (fun k => F c k * component c' (pos k)) = sumn n (fun k => F c' k * component c (pos k)).
Proof.
  intros B A rows F I Hc HT HI HA HO Hb Hb'.
  assert (V : forall c c', (c < 3)%nat -> (c' < 3)%nat -> stress 0 B A types n rows (voigt c c') = sumn n (fun k => F c k * component c' (pos k))).
  { clear c c' Hb Hb'. intros c c' Hb Hb'. set (M := unit_matrix c c'). set (u := fun k => vneg (lin3 M (pos k))).
    pose proof (C62_energy fp types n pos images coeffs u M I Hc HT HI HA) as D. cbv zeta in D.
    assert (E : forall s, moving_rows u M pos images n s = C56.half_rows_at pos images n).
    { intros s. unfold moving_rows, C56.half_rows_at. apply map_ext_in. intros i Hi. apply in_seq in Hi. unfold neighbours, moving_images. rewrite map_map. apply map_ext_in.
      intros [j t] Hjt. cbn [fst snd]. rewrite (HO i j t ltac:(lia) Hjt). f_equal. unfold moving_pos, u, shift, lin3, vneg. destruct (pos i), (pos j). unfold vadd, vsub. cbn. f_equal; ring. }
    assert (P : - power n F (stress 0 B A types n rows) u M = 0).
    { eapply uniqueness_limite; [exact D|]. refine (hd_ext _ _ _ _ _ (fun s => eq_sym (f_equal (fun r => energy 0 B A types n (csr_of r)) (E s))) eq_refl (hd_const _ 0)). }
    assert (Q : power n F (stress 0 B A types n rows) u M = stress 0 B A types n rows (voigt c c') - sumn n (fun k => F c k * component c' (pos k))).
    { unfold power. set (G := stress 0 B A types n rows). clearbody G F. clear - Hb Hb'.
      assert (X : sumn n (fun k => F 0%nat k * vx (u k) + F 1%nat k * vy (u k) + F 2%nat k * vz (u k)) = - sumn n (fun k => F c k * component c' (pos k))).
      { unfold sumn. refine (eq_trans _ (nsumf_opp _ _)). apply nsumf_ext'. intros k. unfold u, M, unit_matrix, lin3, vneg. destruct c as [|[|[|]]], c' as [|[|[|]]]; try lia; cbn; ring. }
      rewrite X. match goal with |- - ?a + _ = _ => generalize a end. intros a. unfold M, unit_matrix, sumn, nsumf. cbn [seq map nsum fold_right]. destruct c as [|[|[|]]], c' as [|[|[|]]]; try lia; cbn; ring. }
    lra. }
  split; [now apply V|]. rewrite <- !V by assumption. f_equal. destruct c as [|[|[|]]], c' as [|[|[|]]]; try lia; reflexivity.
Qed.
Print Assumptions C62_virial.

(** The atoms of C56 (with a periodic image) for every motion, and the cluster of C54 without images. *)
Module Example.
  Definition velocity (k : nat) : v3 R := V3 (INR k) 1 (- 2).
  Definition gradient (c c' : nat) : R := INR (c + 2 * c').
  Lemma change coeffs :
    has_deriv (fun s => energy 0 (real_basis 6 1) (polymlp_eval C57.Example.fp coeffs) (fun _ => 0%nat) 3 (csr_of (moving_rows velocity gradient C54.Example.pos C56.Example.images 3 s))) 0
      (- power 3 (forces 0 (real_basis 6 1) (polymlp_eval C57.Example.fp coeffs) (fun _ => 0%nat) 3 (csr_of (C56.half_rows_at C54.Example.pos C56.Example.images 3)))
          (stress 0 (real_basis 6 1) (polymlp_eval C57.Example.fp coeffs) (fun _ => 0%nat) 3 (csr_of (C56.half_rows_at C54.Example.pos C56.Example.images 3))) velocity gradient).
  Proof.
    destruct C59.Example.meets as [I [H1 H2]]. refine (C62_energy C57.Example.fp (fun _ => 0%nat) 3 C54.Example.pos C56.Example.images coeffs velocity gradient I _ _ H1 H2).
    - cbn. lra.
    - intros i _. cbn. lia.
  Qed.
  Definition cluster (i : nat) : list (nat * v3 R) := match i with 0%nat => [(1%nat, V3 0 0 0); (2%nat, V3 0 0 0)] | 1%nat => [(2%nat, V3 0 0 0)] | _ => [] end.
  Lemma meets : C56.indices_ok 3 cluster /\ C54.apart 3 C54.Example.pos cluster /\ isolated 3 cluster.
  Proof.
    split; [|split]; intros i j t Hi H; destruct i as [|[|[|]]]; try lia; cbn in H; repeat (destruct H as [H|H]; [injection H as <- <-|]); try destruct H; try lia; try reflexivity;
      unfold norm2, vdot; cbn; lra.
  Qed.
  Lemma virial coeffs :
    stress 0 (real_basis 6 1) (polymlp_eval C57.Example.fp coeffs) (fun _ => 0%nat) 3 (csr_of (C56.half_rows_at C54.Example.pos cluster 3)) 4 =
    sumn 3 (fun k => forces 0 (real_basis 6 1) (polymlp_eval C57.Example.fp coeffs) (fun _ => 0%nat) 3 (csr_of (C56.half_rows_at C54.Example.pos cluster 3)) 1 k * vz (C54.Example.pos k)).
  Proof.
    destruct meets as [H1 [H2 H3]]. destruct C59.Example.meets as [I _].
    refine (proj1 (C62_virial C57.Example.fp (fun _ => 0%nat) 3 C54.Example.pos cluster coeffs 1 2 I _ _ H1 H2 H3 _ _)); try lia.
    - cbn. lra.
    - intros i _. cbn. lia.
  Qed.
End Example.
