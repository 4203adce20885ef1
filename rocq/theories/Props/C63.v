(** C63: forces rotate with the structure, and the stress as a tensor. *)
From Verif Require Import Base Num NumR Complex Spec.Neighbor Spec.Gtinv Spec.Deriv Spec.Motion Spec.Rotation Model.Cxx Model.Mapping Model.ModelParams Model.Features Model.Potential
  Model.Neighbor Model.Compute Model.Eval Model.Harmonics Proofs.Sums Proofs.Deriv Proofs.DirDeriv Proofs.RotationInv Proofs.Equivariance.
From Verif Require Props.C18 Props.C54 Props.C56 Props.C57 Props.C59 Props.C62.
From Coq Require Import Reals Lra.
Local Open Scope R_scope.

(** The rotated structure. *)
Definition rot_pos (a b c : v3 R) (pos : nat -> v3 R) (i : nat) : v3 R := image a b c (pos i).
Definition rot_images (a b c : v3 R) (images : nat -> list (nat * v3 R)) (i : nat) : list (nat * v3 R) := map (fun jt => (fst jt, image a b c (snd jt))) (images i).
Lemma rot_rows a b c pos images n : C56.half_rows_at (rot_pos a b c pos) (rot_images a b c images) n = map (C57.rotated a b c) (C56.half_rows_at pos images n).
Proof.
  unfold C56.half_rows_at. rewrite map_map. apply map_ext. intros i. unfold neighbours, rot_images, C57.rotated. rewrite !map_map. apply map_ext. intros [j t]. cbn [fst snd].
  now rewrite image_add, image_sub.
Qed.
Lemma rot_moving a b c u M pos images n s : orthonormal a b c ->
  C62.moving_rows (fun k => image a b c (u k)) (turned a b c M) (rot_pos a b c pos) (rot_images a b c images) n s = map (C57.rotated a b c) (C62.moving_rows u M pos images n s).
Proof.
  intros O. unfold C62.moving_rows. rewrite <- rot_rows. unfold C56.half_rows_at. apply map_ext. intros i. unfold neighbours, moving_images, rot_images. rewrite !map_map. apply map_ext. intros [j t]. cbn [fst snd].
  unfold moving_pos, rot_pos. now rewrite !shift_image, !image_add, !turned_lin by exact O.
Qed.
Lemma rot_apart a b c n pos images : orthonormal a b c -> C54.apart n pos images -> C54.apart n (rot_pos a b c pos) (rot_images a b c images).
Proof.
  intros O H i j t Hi Hj. apply in_map_iff in Hj. destruct Hj as [[j' t'] [E Hj]]. injection E as <- <-. cbn [fst snd]. unfold rot_pos. rewrite <- image_sub, <- image_add.
  rewrite norm2_image by exact O. exact (H i j' t' Hi Hj).
Qed.
Lemma rot_ok a b c n images : C56.indices_ok n images -> C56.indices_ok n (rot_images a b c images).
Proof. intros H i j t Hi Hj. apply in_map_iff in Hj. destruct Hj as [[j' t'] [E Hj]]. injection E as <- _. exact (H i j' t' Hi Hj). Qed.
Lemma near_separate u M pos images n : C54.apart n pos images -> exists r, 0 < r /\ forall s, Rabs s < r -> Forall C57.separate (C62.moving_rows u M pos images n s).
Proof.
  intros H.
  destruct (stays_all (fun ijt : nat * (nat * v3 R) => fun s => let '(i, (j, t)) := ijt in
      norm2 (vadd (vsub (moving_pos u M pos s j) (moving_pos u M pos s i)) (shift (lin3 M t) s t))) (flat_map (fun i => map (fun jt => (i, jt)) (images i)) (seq 0 n))) as [r [P R]].
  - intros [i [j t]] Hx. apply in_flat_map in Hx. destruct Hx as [i' [Hi Hx]]. apply in_seq in Hi. apply in_map_iff in Hx. destruct Hx as [jt [E Hx]]. injection E as -> ->.
    destruct (stays (vadd (vsub (vadd (u j) (lin3 M (pos j))) (vadd (u i) (lin3 M (pos i)))) (lin3 M t)) _ (H i j t ltac:(lia) Hx)) as [r [P R]]. exists r. split; [exact P|]. intros s Hs.
    specialize (R s Hs). refine (eq_rect _ (fun x => 0 < norm2 x) R _ _). unfold moving_pos, shift, vadd, vsub. destruct (u i), (u j), (lin3 M t), (lin3 M (pos i)), (lin3 M (pos j)), (pos i), (pos j), t. cbn. f_equal; ring.
  - exists r. split; [exact P|]. intros s Hs. apply Forall_forall. intros rw Hrw. unfold C62.moving_rows, C56.half_rows_at in Hrw. apply in_map_iff in Hrw. destruct Hrw as [i [<- Hi]].
    intros jd Hjd. unfold neighbours, moving_images in Hjd. rewrite map_map in Hjd. apply in_map_iff in Hjd. destruct Hjd as [[j t] [<- Hjt]]. cbn [fst snd].
    apply (R s Hs (i, (j, t))). apply in_flat_map. exists i. split; [exact Hi|]. apply in_map_iff. now exists (j, t).
Qed.

Section Rotated.
  Variables (fp : fparams R) (types : nat -> nat) (n : nat) (pos : nat -> v3 R) (images : nat -> list (nat * v3 R)) (coeffs : list R) (a b c : v3 R).
  Let B := real_basis (fp_cutoff fp) (fp_maxl fp).
  Let A := polymlp_eval fp coeffs.
  Let rows := csr_of (C56.half_rows_at pos images n).
  Let rows' := csr_of (C56.half_rows_at (rot_pos a b c pos) (rot_images a b c images) n).
  Hypothesis I : C59.invariant_model fp.
  Hypothesis Hc : 0 < fp_cutoff fp.
  Hypothesis HT : forall i, (i < n)%nat -> (types i < fp_n_type fp)%nat.
  Hypothesis HI : C56.indices_ok n images.
  Hypothesis HA : C54.apart n pos images.
  Hypothesis O : orthonormal a b c.
  Notation F := (forces 0 B A types n rows).
  Notation F' := (forces 0 B A types n rows').
  Notation S := (stress 0 B A types n rows).
  Notation S' := (stress 0 B A types n rows').
  Lemma same_power u M : power n F' S' (fun k => image a b c (u k)) (turned a b c M) = power n F S u M.
  Proof.
    pose proof (C62.C62_energy fp types n pos images coeffs u M I Hc HT HI HA) as D1.
    pose proof (C62.C62_energy fp types n (rot_pos a b c pos) (rot_images a b c images) coeffs (fun k => image a b c (u k)) (turned a b c M) I Hc HT (rot_ok a b c n images HI) (rot_apart a b c n pos images O HA)) as D2.
    cbv zeta in D1, D2. fold B A rows in D1. fold B A rows' in D2.
    destruct (near_separate u M pos images n HA) as [r [Pr Hr]].
    assert (E : - power n F' S' (fun k => image a b c (u k)) (turned a b c M) = - power n F S u M).
    { eapply uniqueness_limite; [exact D2|]. refine (hd_near _ _ _ _ r Pr _ D1). intros s Hs. rewrite rot_moving by exact O. symmetry.
      assert (L : length (C62.moving_rows u M pos images n s) = n) by apply C56.rows_len.
      assert (HL : half_list (C62.moving_rows u M pos images n s)) by (apply C56.listed; now apply C62.moving_ok).
      pose proof (C57.C57_energy fp types (C62.moving_rows u M pos images n s) coeffs a b c I Hc HL) as E. cbv zeta in E. rewrite L in E. apply E; [exact HT| |exact O].
      apply Hr. now replace (s - 0) with s in Hs by ring. }
    lra.
  Qed.
  Lemma rot_force i k : (i < 3)%nat -> (k < n)%nat -> F' i k = component i (image a b c (V3 (F 0%nat k) (F 1%nat k) (F 2%nat k))).
  Proof.
    intros Hi Hk. set (w := V3 (component i a) (component i b) (component i c)).
    pose proof (same_power (fun j => if (k =? j)%nat then w else V3 0 0 0) (fun _ _ => 0)) as P. unfold power in P.
    assert (Z : forall G : nat -> R, sumn 3 (fun e => sumn 3 (fun e' => turned a b c (fun _ _ => 0) e e' * G (voigt e e'))) = 0).
    { intros G. unfold turned, sumn, nsumf. cbn. ring. }
    assert (Z' : forall G : nat -> R, sumn 3 (fun e => sumn 3 (fun e' => 0 * G (voigt e e'))) = 0).
    { intros G. unfold sumn, nsumf. cbn. ring. }
    rewrite Z, Z' in P. rewrite !Rplus_0_r in P.
    assert (D : forall (G : nat -> nat -> R) (z : nat -> v3 R), (forall j, j <> k -> z j = V3 0 0 0) ->
      sumn n (fun j => G 0%nat j * vx (z j) + G 1%nat j * vy (z j) + G 2%nat j * vz (z j)) = G 0%nat k * vx (z k) + G 1%nat k * vy (z k) + G 2%nat k * vz (z k)).
    { intros G z Hz. unfold sumn. rewrite <- (nsumf_delta n (fun j => G 0%nat j * vx (z j) + G 1%nat j * vy (z j) + G 2%nat j * vz (z j)) k Hk).
      apply nsumf_ext'. intros j. destruct (Nat.eqb_spec k j) as [->|N]; [reflexivity|]. rewrite (Hz j) by congruence. cbn. ring. }
    rewrite !D in P.
    2:{ intros j Hj. destruct (Nat.eqb_spec k j); [congruence|reflexivity]. }
    2:{ intros j Hj. destruct (Nat.eqb_spec k j); [congruence|]. unfold image. cbn. f_equal; ring. }
    rewrite Nat.eqb_refl in P. destruct (rows_orthonormal a b c O) as [[R1 [R2 R3]] [R4 [R5 R6]]].
    assert (W : image a b c w = V3 (if (i =? 0)%nat then 1 else 0) (if (i =? 1)%nat then 1 else 0) (if (i =? 2)%nat then 1 else 0)).
    { unfold image, w. destruct i as [|[|[|]]]; [| | |lia]; cbn; f_equal; lra. }
    rewrite W in P. unfold w in P. destruct i as [|[|[|]]]; [| | |lia]; cbn in *; lra.
  Qed.
  Definition tensor (G : nat -> R) (i j : nat) : R := G (voigt i j).
  Lemma rot_stress i j : (i < 3)%nat -> (j < 3)%nat -> tensor S' i j = turned a b c (tensor S) i j.
  Proof.
    intros Hi Hj. set (M := fun e f : nat => col a b c i e * col a b c j f).
    pose proof (same_power (fun _ => V3 0 0 0) M) as P. unfold power in P.
    assert (Z : forall (G : nat -> nat -> R) (z : nat -> v3 R), (forall j, z j = V3 0 0 0) -> sumn n (fun j => G 0%nat j * vx (z j) + G 1%nat j * vy (z j) + G 2%nat j * vz (z j)) = 0).
    { intros G z Hz. unfold sumn. refine (eq_trans _ (nsumf_zero (seq 0 n))). apply nsumf_ext'. intros k. rewrite Hz. cbn. ring. }
    rewrite !Z, !Rplus_0_l in P by (intros k; try reflexivity; unfold image; cbn; f_equal; ring).
    destruct (rows_orthonormal a b c O) as [[R1 [R2 R3]] [R4 [R5 R6]]].
    assert (U : forall e f, (e < 3)%nat -> (f < 3)%nat -> turned a b c M e f = (if (e =? i)%nat then 1 else 0) * (if (f =? j)%nat then 1 else 0)).
    { intros e f He Hf. transitivity ((col a b c e 0 * col a b c i 0 + col a b c e 1 * col a b c i 1 + col a b c e 2 * col a b c i 2) * (col a b c f 0 * col a b c j 0 + col a b c f 1 * col a b c j 1 + col a b c f 2 * col a b c j 2)).
      - unfold turned, M, sumn, nsumf. cbn [seq map nsum fold_right nadd n0 R_num]. ring.
      - f_equal; unfold col, component; [destruct e as [|[|[|]]], i as [|[|[|]]]|destruct f as [|[|[|]]], j as [|[|[|]]]]; try lia; cbn; lra. }
    transitivity (sumn 3 (fun e => sumn 3 (fun f => turned a b c M e f * S' (voigt e f)))).
    - unfold sumn, nsumf. cbn [seq map nsum fold_right nadd n0 R_num]. rewrite !U by lia. unfold tensor. destruct i as [|[|[|]]], j as [|[|[|]]]; try lia; cbn; ring.
    - rewrite P. reflexivity.
  Qed.
End Rotated.

(** The forces returned for the rotated structure are the rotated forces. *)
Theorem C63_forces (fp : fparams R) (types : nat -> nat) (n : nat) (pos : nat -> v3 R) (images : nat -> list (nat * v3 R)) (coeffs : list R) (a b c : v3 R) (i k : nat) :
  let B := real_basis (fp_cutoff fp) (fp_maxl fp) in
  let A := polymlp_eval fp coeffs in
  let F := forces 0 B A types n (csr_of (C56.half_rows_at pos images n)) in
  let F' := forces 0 B A types n (csr_of (C56.half_rows_at (rot_pos a b c pos) (rot_images a b c images) n)) in
  C59.invariant_model fp -> 0 < fp_cutoff fp ->
  (forall i, (i < n)%nat -> (types i < fp_n_type fp)%nat) -> C56.indices_ok n images -> C54.apart n pos images -> orthonormal a b c ->
  (i < 3)%nat -> (k < n)%nat ->
  F' i k = component i (image a b c (V3 (F 0%nat k) (F 1%nat k) (F 2%nat k))).
Proof. intros B A F F' I Hc HT HI HA O. now apply rot_force. Qed.
Print Assumptions C63_forces.

(** The stress is O sigma O^T. *)
Theorem C63_stress (fp : fparams R) (types : nat -> nat) (n : nat) (pos : nat -> v3 R) (images : nat -> list (nat * v3 R)) (coeffs : list R) (a b c : v3 R) (i j : nat) :
  let B := real_basis (fp_cutoff fp) (fp_maxl fp) in
  let A := polymlp_eval fp coeffs in
  let S := stress 0 B A types n (csr_of (C56.half_rows_at pos images n)) in
  let S' := stress 0 B A types n (csr_of (C56.half_rows_at (rot_pos a b c pos) (rot_images a b c images) n)) in
  let O i e := component i (match e with 0%nat => a | 1%nat => b | _ => c end) in
  C59.invariant_model fp -> 0 < fp_cutoff fp ->
  (forall i, (i < n)%nat -> (types i < fp_n_type fp)%nat) -> C56.indices_ok n images -> C54.apart n pos images -> orthonormal a b c ->
  (i < 3)%nat -> (j < 3)%nat ->
  S' (voigt i j) = sumn 3 (fun e => sumn 3 (fun f => O i e * O j f * S (voigt e f))).
Proof. intros B A S S' M I Hc HT HI HA O Hi Hj. exact (rot_stress fp types n pos images coeffs a b c I Hc HT HI HA O i j Hi Hj). Qed.
Print Assumptions C63_stress.

(** The atoms of C56 under the map of C57. *)
Module Example.
  Import C57.Example.
  Definition at_rest := C56.half_rows_at C54.Example.pos C56.Example.images 3.
  Definition turned_over := C56.half_rows_at (rot_pos a b c C54.Example.pos) (rot_images a b c C56.Example.images) 3.
  Lemma force_x coeffs : forces 0 (real_basis 6 1) (polymlp_eval fp coeffs) (fun _ => 0%nat) 3 (csr_of turned_over) 0 1 = - forces 0 (real_basis 6 1) (polymlp_eval fp coeffs) (fun _ => 0%nat) 3 (csr_of at_rest) 2 1.
  Proof.
    destruct C59.Example.meets as [I [H1 H2]]. destruct meets as [O _].
    refine (eq_trans (C63_forces fp (fun _ => 0%nat) 3 C54.Example.pos C56.Example.images coeffs a b c 0 1 I _ _ H1 H2 O _ _) _); try lia.
    - cbn. lra.
    - intros i _. cbn. lia.
    - unfold image, a, b, c. cbn [component vx vy vz]. change (fp_cutoff fp) with 6. change (fp_maxl fp) with 1%nat. unfold at_rest. ring.
  Qed.
  Lemma stress_xy coeffs : stress 0 (real_basis 6 1) (polymlp_eval fp coeffs) (fun _ => 0%nat) 3 (csr_of turned_over) 3 = - stress 0 (real_basis 6 1) (polymlp_eval fp coeffs) (fun _ => 0%nat) 3 (csr_of at_rest) 5.
  Proof.
    destruct C59.Example.meets as [I [H1 H2]]. destruct meets as [O _].
    refine (eq_trans (C63_stress fp (fun _ => 0%nat) 3 C54.Example.pos C56.Example.images coeffs a b c 0 1 I _ _ H1 H2 O _ _) _); try lia.
    - cbn. lra.
    - intros i _. cbn. lia.
    - change (fp_cutoff fp) with 6. change (fp_maxl fp) with 1%nat. fold at_rest. generalize (stress 0 (real_basis 6 1) (polymlp_eval fp coeffs) (fun _ => 0%nat) 3 (csr_of at_rest)). intros s.
      unfold sumn, nsumf, a, b, c. cbn. ring.
  Qed.
End Example.
