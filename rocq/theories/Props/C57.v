(** C57: energies do not change when a structure is rotated or reflected. *)
From Verif Require Import Base Num NumR Complex Spec.Neighbor Spec.Gtinv Spec.Deriv Spec.Harmonics Spec.Rotation Model.Cxx Model.Mapping Model.ModelParams Model.Features Model.Potential
  Model.Neighbor Model.Compute Model.Eval Model.Harmonics Proofs.Deriv Proofs.Harmonics Proofs.EnergyOnly Proofs.RotationInv.
From Verif Require Props.C18 Props.C22 Props.C53 Props.C54 Props.C56.
From Coq Require Import Reals Lra.
Local Open Scope R_scope.

(** All displacements of a list of neighbours carried by the map. *)
Definition rotated (a b c : v3 R) (nb : list (nat * v3 R)) : list (nat * v3 R) := map (fun jd => (fst jd, image a b c (snd jd))) nb.
Definition separate (nb : list (nat * v3 R)) : Prop := forall jd, In jd nb -> 0 < norm2 (snd jd).

Lemma real_harmonic cutoff lmax : harmonic_basis (real_basis cutoff lmax) lmax.
Proof. intros l k d H Hd. cbn [b_ylm real_basis]. rewrite index_same. now apply get_ylm_closed. Qed.
Lemma real_keep fp tp k (d : v3 R) : 0 < fp_cutoff fp -> inside fp d = true ->
  let f := fn (real_basis (fp_cutoff fp) (fp_maxl fp)) fp tp k (norm d) in nltb 0 (nabs f) = negb (nltb f 0).
Proof.
  intros Hc I f. unfold inside in I. cbn in I. apply Rltb_true in I.
  assert (Hf : 0 < f).
  { apply (Radial.fn_range (fp_cutoff fp) Hc). rewrite Rabs_right; [exact I|]. rewrite norm_R. apply Rle_ge, sqrt_pos. }
  clearbody f. cbn. rewrite Rabs_right by lra. destruct (Rltb 0 f) eqn:E1, (Rltb f 0) eqn:E2; try reflexivity; try (apply Rltb_true in E2; lra); apply Rltb_false in E1; lra.
Qed.

(** Energy features; models with invariants whose tables have L = 0 (Spec/Rotation.v). *)
Theorem C57_gtinv (fp : fparams R) (types : nat -> nat) (n : nat) (nb : nat -> list (nat * v3 R)) (a b c : v3 R) (force : bool) (g : nat) :
  let B := real_basis (fp_cutoff fp) (fp_maxl fp) in
  gtinv_table fp -> invariant_table fp -> 0 < fp_cutoff fp ->
  (forall i, (i < n)%nat -> (types i < fp_n_type fp)%nat) -> (forall i, (i < n)%nat -> separate (nb i)) ->
  orthonormal a b c ->
  xe_sum 0 B fp types n (fun i => rotated a b c (nb i)) force g = xe_sum 0 B fp types n nb force g.
Proof.
  intros B GT IT Hc HT HS O. assert (BO : basis_ok B (fp_maxl fp)) by (apply C53.C53_parity; lia).
  assert (E : forall nb', xe_sum 0 B fp types n nb' force g = xe_sum 0 B fp types n nb' true g).
  { intros nb'. destruct force; [reflexivity|]. apply xe_same; try assumption. intros tp k d I. left. now apply real_keep. }
  rewrite !E. apply (xe_image 0 B fp types GT); try assumption; [apply real_harmonic|exact C54.tol0].
Qed.
Print Assumptions C57_gtinv.

(** Pair models: any radial functions. *)
Theorem C57_pair (tol : R) (B : basis R) (fp : fparams R) (types : nat -> nat) (n : nat) (nb : nat -> list (nat * v3 R)) (a b c : v3 R) (force : bool) (g : nat) :
  fp_gtinv fp = false -> orthonormal a b c ->
  xe_sum tol B fp types n (fun i => rotated a b c (nb i)) force g = xe_sum tol B fp types n nb force g.
Proof. intros PM O. now apply (xe_pair_image tol B fp types force n nb a b c g PM). Qed.
Print Assumptions C57_pair.

Lemma image_neg a b c d : image a b c (vneg d) = vneg (image a b c d).
Proof. destruct d. unfold image, vneg. cbn. f_equal; ring. Qed.
Lemma mirrored_rotated a b c rows i : mirrored (map (rotated a b c) rows) i = rotated a b c (mirrored rows i).
Proof.
  assert (E : forall k, nth k (map (rotated a b c) rows) [] = rotated a b c (nth k rows [])) by (intros k; apply (map_nth (rotated a b c) rows [])).
  unfold mirrored. rewrite map_length, E. match goal with |- _ = rotated a b c ?l => change (rotated a b c l) with (map (fun jd : nat * v3 R => (fst jd, image a b c (snd jd))) l) end. rewrite map_app. f_equal.
  rewrite flat_map_concat_map, (flat_map_concat_map _ (seq 0 (length rows))), concat_map, map_map. f_equal. apply map_ext. intros k. rewrite E.
  induction (nth k rows []) as [|[j d] l IH]; [reflexivity|]. cbn [rotated map flat_map fst snd]. fold (rotated a b c l). rewrite IH, map_app. f_equal.
  destruct (j =? i)%nat; [|reflexivity]. cbn [map fst snd]. now rewrite image_neg.
Qed.
Lemma half_rotated a b c rows : half_list rows -> half_list (map (rotated a b c) rows).
Proof.
  intros H i j d Hi Hj. rewrite map_length in *. rewrite (map_nth (rotated a b c) rows []) in Hj. unfold rotated in Hj. apply in_map_iff in Hj.
  destruct Hj as [[j' d'] [E Hj]]. injection E as <- _. exact (H i j' d' Hi Hj).
Qed.

(** The energy evaluated from a half neighbour list. *)
Theorem C57_energy (fp : fparams R) (types : nat -> nat) rows (coeffs : list R) (a b c : v3 R) :
  let B := real_basis (fp_cutoff fp) (fp_maxl fp) in
  (gtinv_table fp /\ invariant_table fp \/ fp_gtinv fp = false /\ (fp_model_type fp <= 2)%nat) -> 0 < fp_cutoff fp ->
  let n := length rows in
  half_list rows -> (forall i, (i < n)%nat -> (types i < fp_n_type fp)%nat) -> Forall separate rows -> orthonormal a b c ->
  let A := polymlp_eval fp coeffs in
  energy 0 B A types n (csr_of (map (rotated a b c) rows)) = energy 0 B A types n (csr_of rows).
Proof.
  intros B M Hc n HR HT HS O A.
  assert (Hlen : length (map (rotated a b c) rows) = n) by apply map_length.
  assert (Hsep : forall i, (i < n)%nat -> separate (mirrored rows i)).
  { rewrite Forall_forall in HS. intros i Hi [j d] H. unfold mirrored in H. apply in_app_or in H. destruct H as [H|H].
    - exact (HS _ (nth_In _ _ Hi) _ H).
    - apply in_flat_map in H. destruct H as [k [Hk H]]. apply in_seq in Hk. apply in_flat_map in H. destruct H as [[j' d'] [H1 H2]]. cbn [fst snd] in H2.
      destruct (j' =? i)%nat; [|destruct H2]. destruct H2 as [H2|[]]. injection H2 as <- <-. cbn [snd].
      pose proof (HS _ (nth_In _ [] (proj2 Hk)) _ H1) as P. cbn [snd] in P. revert P. destruct d'. unfold norm2, vdot, vneg. cbn. lra. }
  pose proof (half_rotated a b c rows HR) as HR'.
  assert (P1 : forall i, (i < n)%nat -> Permutation (mirrored rows i) (mirrored rows i)) by reflexivity.
  assert (P2 : forall i, (i < length (map (rotated a b c) rows))%nat -> Permutation (rotated a b c (mirrored rows i)) (mirrored (map (rotated a b c) rows) i)).
  { intros i _. now rewrite mirrored_rotated. }
  assert (HT' : forall i, (i < length (map (rotated a b c) rows))%nat -> (types i < fp_n_type fp)%nat) by (rewrite Hlen; exact HT).
  destruct M as [[GT IT]|[PM MT]].
  - pose proof (proj1 (C54.C54_evaluators fp types rows (mirrored rows) coeffs GT HR HT P1)) as E1.
    pose proof (proj1 (C54.C54_evaluators fp types _ (fun i => rotated a b c (mirrored rows i)) coeffs GT HR' HT' P2)) as E2.
    rewrite Hlen in E2. unfold A, B, n. rewrite E1. unfold n in E2. rewrite E2. unfold C18.times_coeffs. apply nsumf_ext. intros g _. f_equal. now apply C57_gtinv.
  - pose proof (proj1 (C18.C18_pair 0 B fp types rows (mirrored rows) coeffs PM MT HR HT P1) true) as E1.
    pose proof (proj1 (C18.C18_pair 0 B fp types _ (fun i => rotated a b c (mirrored rows i)) coeffs PM MT HR' HT' P2) true) as E2.
    rewrite Hlen in E2. unfold A, n. rewrite E1. unfold n in E2. rewrite E2. unfold C18.times_coeffs. apply nsumf_ext. intros g _. f_equal. now apply C57_pair.
Qed.
Print Assumptions C57_energy.

(** One type, features Y_0 and sum_m (-1)^m a_{1m} a_{1,-m}; a rotation about the axis (1, 1, 1) composed with a reflection. *)
Module Example.
  Definition fp : fparams R :=
    FP 1 true [[1; 0]] (fun _ _ => [0%nat]) 6 2 2 1 [[0%nat]; [1; 1]%nat] [[[0%nat]]; [[1; 3]; [2; 2]; [3; 1]]%nat] [[1]; [1; -1; 1]].
  Definition rows : list (list (nat * v3 R)) := [[(1%nat, V3 1 2 3); (2%nat, V3 0 0 1)]; [(2%nat, V3 (-1) (-2) (-2))]; []].
  Definition a : v3 R := V3 0 1 0.
  Definition b : v3 R := V3 0 0 1.
  Definition c : v3 R := V3 (-1) 0 0.
  Lemma table_ok : gtinv_table fp.
  Proof.
    split; cbn [fp_gtinv fp_model_type fp_params fp_cond fp_l_comb fp_lm_array fp_lm_coeffs fp_maxl fp].
    - reflexivity.
    - lia.
    - intros i j. split; repeat constructor; cbn; intuition lia.
    - intros lc H. cbn in H. destruct H as [<-|[<-|[]]]; (split; [discriminate|split; [repeat constructor|cbn; lia]]).
    - intros il lc H. destruct il as [|[|[|]]]; cbn in *; discriminate.
    - intros il lc lms H H'. destruct il as [|[|[|]]]; cbn in *; try discriminate; injection H as <-.
      + destruct H' as [<-|[]]. repeat constructor.
      + destruct H' as [<-|[<-|[<-|[]]]]; repeat constructor; cbn; lia.
    - intros il lc H. destruct il as [|[|[|]]]; cbn in *; try discriminate; injection H as <-; [exists 0%nat|exists 1%nat]; reflexivity.
    - intros il lc lms H H'. destruct il as [|[|[|]]]; cbn in *; try discriminate; injection H as <-.
      + destruct H' as [<-|[]]. exists 0%nat. reflexivity.
      + destruct H' as [<-|[<-|[<-|[]]]]; exists 2%nat; reflexivity.
    - intros il lc H. destruct il as [|[|[|]]]; cbn in *; try discriminate; reflexivity.
    - intros il lc H. destruct il as [|[|[|]]]; cbn in *; try discriminate; injection H as <-; cbn.
      + reflexivity.
      + apply (Permutation_rev [(1, [1; 3]%nat); (-1, [2; 2]%nat); (1, [3; 1]%nat)]).
  Qed.
  Lemma weights : (weight true 0 0 = 0 /\ weight false 0 0 = 0) /\
    weight true 1 1 = sqrt 2 /\ weight true 1 2 = sqrt 2 /\ weight true 1 3 = 0 /\ weight false 1 1 = 0 /\ weight false 1 2 = sqrt 2 /\ weight false 1 3 = sqrt 2.
  Proof.
    unfold weight, m_of. cbn [INR Nat.mul Nat.add].
    repeat split; try (f_equal; ring); (transitivity (sqrt 0); [f_equal; ring|apply sqrt_0]).
  Qed.
  Lemma invariant : invariant_table fp.
  Proof.
    destruct weights as [[W0 W0'] [W1 [W2 [W3 [V1 [V2 V3]]]]]].
    intros il lc H. destruct il as [|[|[|]]]; cbn in H; try discriminate; injection H as <-; split.
    - intros e He. cbn in He. destruct He as [<-|[]]. reflexivity.
    - intros [|] target; cbn [fp fp_lm_coeffs fp_lm_array nth combine shifts fst snd map bump]; unfold nsumf; cbn [map nsum fold_right fst snd];
        rewrite ?W0, ?W0'; destruct (same _ _); cbn; ring.
    - intros e He. cbn in He. destruct He as [<-|[<-|[<-|[]]]]; reflexivity.
    - intros [|] target; cbn [fp fp_lm_coeffs fp_lm_array nth combine shifts fst snd map bump pred]; unfold nsumf; cbn [map nsum fold_right fst snd];
        rewrite ?W1, ?W2, ?W3, ?V1, ?V2, ?V3; repeat (destruct (same _ _)); cbn; ring.
  Qed.
  Lemma meets : orthonormal a b c /\ image a b c (V3 1 2 3) = V3 (-3) 1 2 /\ half_list rows /\ Forall separate rows.
  Proof.
    split; [|split; [|split]].
    - unfold orthonormal, vdot, a, b, c. cbn. repeat split; ring.
    - unfold image, a, b, c. cbn. f_equal; ring.
    - intros i j d Hi H. destruct i as [|[|[|]]]; cbn in *; repeat (destruct H as [H|H]; [injection H as <- <-; lia|]); try destruct H; lia.
    - repeat constructor; intros jd H; cbn in H; repeat (destruct H as [<-|H]; [unfold norm2, vdot; cbn; lra|]); destruct H.
  Qed.
  Lemma same_energy coeffs :
    energy 0 (real_basis 6 1) (polymlp_eval fp coeffs) (fun _ => 0%nat) 3 (csr_of (map (rotated a b c) rows)) =
    energy 0 (real_basis 6 1) (polymlp_eval fp coeffs) (fun _ => 0%nat) 3 (csr_of rows).
  Proof.
    destruct meets as [O [_ [HR HS]]]. refine (C57_energy fp (fun _ => 0%nat) rows coeffs a b c (or_introl (Logic.conj table_ok invariant)) _ HR _ HS O).
    - cbn. lra.
    - intros i _. cbn. lia.
  Qed.
End Example.
