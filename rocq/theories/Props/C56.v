(** C56: the forces and stresses returned by the evaluation are minus the derivatives of the energy it returns. *)
From Verif Require Import Base Num NumR Complex Spec.Neighbor Spec.Gtinv Spec.Deriv Model.Cxx Model.Mapping Model.ModelParams Model.Features Model.Potential
  Model.Neighbor Model.Compute Model.Eval Model.Harmonics Proofs.Deriv Proofs.NeighborList.
From Verif Require Props.C18 Props.C54 Props.C55.
From Coq Require Import Reals Lra.
Local Open Scope R_scope.

(** A half neighbour list given by (atom, translation) pairs, for [n] atoms at the positions [pos]. *)
Definition half_rows_at (pos : nat -> v3 R) (images : nat -> list (nat * v3 R)) (n : nat) : list (list (nat * v3 R)) :=
  map (neighbours pos images) (seq 0 n).
Definition strained_rows (pos : nat -> v3 R) (images : nat -> list (nat * v3 R)) (n k : nat) (s : R) : list (list (nat * v3 R)) :=
  map (C55.strained_neighbours pos images k s) (seq 0 n).
(** Both atoms of every pair. *)
Definition both (images : nat -> list (nat * v3 R)) (n i : nat) : list (nat * v3 R) :=
  images i ++ flat_map (fun k => flat_map (fun jt => if (fst jt =? i)%nat then [(k, vneg (snd jt))] else []) (images k)) (seq 0 n).

Lemma rows_len pos images n : length (half_rows_at pos images n) = n.
Proof. unfold half_rows_at. now rewrite map_length, seq_length. Qed.
Lemma rows_nth pos images n i : (i < n)%nat -> nth i (half_rows_at pos images n) [] = neighbours pos images i.
Proof. intros H. unfold half_rows_at. rewrite (nth_indep _ _ (neighbours pos images n)) by now rewrite map_length, seq_length. rewrite map_nth, seq_nth by exact H. reflexivity. Qed.
Lemma both_mirrored pos images n i : (i < n)%nat -> neighbours pos (both images n) i = mirrored (half_rows_at pos images n) i.
Proof.
  intros Hi. unfold mirrored, both, neighbours at 1. rewrite map_app, rows_nth, rows_len by exact Hi. unfold neighbours at 1. f_equal.
  rewrite flat_map_concat_map, concat_map, map_map, <- flat_map_concat_map. apply flat_map_ext_in. intros k Hk. apply in_seq in Hk. rewrite rows_nth by lia.
  unfold neighbours. induction (images k) as [|[j t] l IH]; [reflexivity|]. cbn [flat_map map fst snd]. rewrite map_app, IH.
  destruct (j =? i)%nat eqn:E; [|reflexivity]. apply Nat.eqb_eq in E. subst j. cbn [map fst snd app]. do 2 f_equal. destruct (pos i), (pos k), t. unfold vneg, vsub, vadd. cbn. f_equal; ring.
Qed.
Lemma listed pos images n : (forall i j t, (i < n)%nat -> In (j, t) (images i) -> (j < n)%nat) -> half_list (half_rows_at pos images n).
Proof.
  intros H i j d Hi Hj. rewrite rows_len in *. rewrite rows_nth in Hj by exact Hi. unfold neighbours in Hj. apply in_map_iff in Hj. destruct Hj as [[j' t] [E Hj]]. cbn in E. injection E as <- _. exact (H i j' t Hi Hj).
Qed.
Lemma both_apart n pos images : (forall i j t, (i < n)%nat -> In (j, t) (images i) -> (j < n)%nat) -> C54.apart n pos images -> C54.apart n pos (both images n).
Proof.
  intros HI HA i j t Hi H. unfold both in H. apply in_app_or in H. destruct H as [H|H]; [exact (HA i j t Hi H)|].
  apply in_flat_map in H. destruct H as [k [Hk H]]. apply in_seq in Hk. apply in_flat_map in H. destruct H as [[i' t'] [H1 H2]]. cbn [fst snd] in H2.
  destruct (i' =? i)%nat eqn:E; [|destruct H2]. apply Nat.eqb_eq in E. subst i'. destruct H2 as [H2|[]]. injection H2 as <- <-.
  pose proof (HA k i t' ltac:(lia) H1) as P. revert P. destruct (pos i), (pos k), t'. unfold norm2, vdot, vneg, vsub, vadd. cbn. nra.
Qed.
Lemma strained_is pos images n k s : exists pos' images', strained_rows pos images n k s = half_rows_at pos' images' n /\
  (forall i, (i < n)%nat -> C55.strained_neighbours pos (both images n) k s i = neighbours pos' (both images' n) i) /\
  ((forall i j t, (i < n)%nat -> In (j, t) (images i) -> (j < n)%nat) -> forall i j t, (i < n)%nat -> In (j, t) (images' i) -> (j < n)%nat).
Proof.
  unfold strained_rows, C55.strained_neighbours. destruct (C55.axes k) as [c c'].
  set (str := fun jt : nat * v3 R => (fst jt, strained c c' s (snd jt))).
  exists (fun a => strained c c' s (pos a)), (fun a => map str (images a)). split; [reflexivity|]. split.
  - intros i Hi. unfold neighbours. f_equal. unfold both. rewrite map_app. f_equal.
    rewrite flat_map_concat_map, concat_map, map_map, <- flat_map_concat_map. apply flat_map_ext_in. intros a Ha.
    induction (images a) as [|[j t] l IH]; [reflexivity|]. cbn [flat_map map]. rewrite map_app, IH. unfold str at 3. cbn [fst snd].
    destruct (j =? i)%nat; [|reflexivity]. cbn [map app]. do 2 f_equal. unfold str. cbn [fst snd]. f_equal. unfold strained, along, vneg.
    destruct t, c as [|[|]], c' as [|[|]]; cbn; f_equal; ring.
  - intros HI i j t Hi H. apply in_map_iff in H. destruct H as [[j' t'] [E H]]. injection E as <- _. exact (HI i j' t' Hi H).
Qed.
Lemma dot_deriv fp (f : R -> nat -> R) (d : nat -> R) c : (forall g, has_deriv (fun s => f s g) 0 (- d g)) ->
  has_deriv (fun s => C18.times_coeffs fp (f s) c) 0 (- C18.times_coeffs fp d c).
Proof.
  intros H. unfold C18.times_coeffs. replace (- nsumf (fun g => nmul (d g) (c g)) (seq 0 (C18.n_columns fp))) with (nsumf (fun g => - d g * c g) (seq 0 (C18.n_columns fp))).
  - apply hd_sum. intros g _. refine (hd_ext _ _ _ _ _ (fun _ => eq_refl) _ (hd_mul (fun s => f s g) (fun _ => c g) _ _ _ (H g) (hd_const (c g) 0))). ring.
  - generalize (seq 0 (C18.n_columns fp)). induction l as [|g l IH]; [unfold nsumf; cbn; ring|]. rewrite !nsumf_cons, IH. cbn [nadd nmul R_num]. ring.
Qed.

Lemma xe_neigh tol B fp types n neigh neigh' force g : (forall i, (i < n)%nat -> neigh i = neigh' i) ->
  xe_sum tol B fp types n neigh force g = xe_sum tol B fp types n neigh' force g.
Proof. intros H. unfold xe_sum. f_equal. apply flat_map_ext_in. intros i Hi. apply in_seq in Hi. now rewrite H by lia. Qed.

Section Evaluation.
  Variables (tol : R) (fp : fparams R) (types : nat -> nat) (n : nat) (pos : nat -> v3 R) (images : nat -> list (nat * v3 R)) (coeffs : list R).
  Let B := real_basis (fp_cutoff fp) (fp_maxl fp).
  Let A := polymlp_eval fp coeffs.
  Let w (g : nat) : R := nth g coeffs 0.
  Definition indices_ok (im : nat -> list (nat * v3 R)) : Prop := forall i j t, (i < n)%nat -> In (j, t) (im i) -> (j < n)%nat.
  Lemma assemble (top : nat) : (top <= 6)%nat -> indices_ok images ->
    (forall pos' images', indices_ok images' ->
      let rows := half_rows_at pos' images' n in let neigh := neighbours pos' (both images' n) in
      energy tol B A types n (csr_of rows) = C18.times_coeffs fp (xe_sum tol B fp types n neigh true) w /\
      (forall a k, (a < 3)%nat -> forces tol B A types n (csr_of rows) a k = C18.times_coeffs fp (xf_sum tol B fp types n neigh (3 * k + a)) w) /\
      (forall k, (k < top)%nat -> stress tol B A types n (csr_of rows) k = C18.times_coeffs fp (xs_sum tol B fp types n neigh k) w)) ->
    (forall g, (forall k c, (c < 3)%nat -> has_deriv (fun s => xe_sum tol B fp types n (neighbours (moved pos k c s) (both images n)) true g) 0
        (- xf_sum tol B fp types n (neighbours pos (both images n)) (3 * k + c) g)) /\
      (forall k, (k < 6)%nat -> has_deriv (fun s => xe_sum tol B fp types n (C55.strained_neighbours pos (both images n) k s) true g) 0
        (- xs_sum tol B fp types n (neighbours pos (both images n)) k g))) ->
    (forall k c, (c < 3)%nat ->
       has_deriv (fun s => energy tol B A types n (csr_of (half_rows_at (moved pos k c s) images n))) 0
         (- forces tol B A types n (csr_of (half_rows_at pos images n)) c k)) /\
    (forall k, (k < top)%nat ->
       has_deriv (fun s => energy tol B A types n (csr_of (strained_rows pos images n k s))) 0
         (- stress tol B A types n (csr_of (half_rows_at pos images n)) k)).
  Proof.
    intros HTop HI E D. split.
    - intros k c H. destruct (E pos images HI) as [_ [E2 _]]. rewrite E2 by exact H.
      refine (hd_ext _ _ _ _ _ (fun s => eq_sym (proj1 (E (moved pos k c s) images HI))) eq_refl _).
      apply (dot_deriv fp (fun s => xe_sum tol B fp types n (neighbours (moved pos k c s) (both images n)) true)). intros g. exact (proj1 (D g) k c H).
    - intros k Hk. destruct (E pos images HI) as [_ [_ E3]]. rewrite E3 by exact Hk.
      refine (hd_ext (fun s => C18.times_coeffs fp (xe_sum tol B fp types n (C55.strained_neighbours pos (both images n) k s) true) w) _ _ _ _ _ eq_refl _).
      + intros s. destruct (strained_is pos images n k s) as [pos' [images' [E1 [E2 HI']]]]. rewrite E1, (proj1 (E pos' images' (HI' HI))).
        unfold C18.times_coeffs. apply nsumf_ext. intros g _. f_equal. now apply xe_neigh.
      + apply (dot_deriv fp (fun s => xe_sum tol B fp types n (C55.strained_neighbours pos (both images n) k s) true)). intros g. exact (proj2 (D g) k ltac:(lia)).
  Qed.
End Evaluation.

(** Pair models. *)
Theorem C56_pair (tol : R) (fp : fparams R) (types : nat -> nat) (n : nat) (pos : nat -> v3 R) (images : nat -> list (nat * v3 R)) (coeffs : list R) :
  let B := real_basis (fp_cutoff fp) (fp_maxl fp) in
  let A := polymlp_eval fp coeffs in
  fp_gtinv fp = false -> (fp_model_type fp <= 2)%nat -> 0 < fp_cutoff fp ->
  (forall i, (i < n)%nat -> (types i < fp_n_type fp)%nat) -> indices_ok n images -> C54.apart n pos images ->
  (forall k c, (c < 3)%nat ->
     has_deriv (fun s => energy tol B A types n (csr_of (half_rows_at (moved pos k c s) images n))) 0
       (- forces tol B A types n (csr_of (half_rows_at pos images n)) c k)) /\
  (forall k, (k < 6)%nat ->
     has_deriv (fun s => energy tol B A types n (csr_of (strained_rows pos images n k s))) 0
       (- stress tol B A types n (csr_of (half_rows_at pos images n)) k)).
Proof.
  intros B A PM MT Hc HT HI HA. apply assemble; [lia|exact HI| |].
  - intros pos' images' HI' rows neigh. pose proof (rows_len pos' images' n) as EN.
    destruct (C18.C18_pair tol B fp types rows neigh coeffs PM MT) as [H1 [H2 H3]].
    + now apply listed.
    + unfold rows. rewrite EN. exact HT.
    + unfold rows. rewrite EN. intros i Hi. unfold neigh. now rewrite both_mirrored.
    + unfold rows in *. rewrite EN in *. split; [apply H1|]. split; [exact H2|]. intros k _. apply H3.
  - intros g. apply C54.C54_pair; try assumption. now apply both_apart.
Qed.
Print Assumptions C56_pair.

(** Models with invariants: forces, and the three diagonal components of the stress. *)
Theorem C56_gtinv (fp : fparams R) (types : nat -> nat) (n : nat) (pos : nat -> v3 R) (images : nat -> list (nat * v3 R)) (coeffs : list R) :
  let B := real_basis (fp_cutoff fp) (fp_maxl fp) in
  let A := polymlp_eval fp coeffs in
  gtinv_table fp -> 0 < fp_cutoff fp ->
  (forall i, (i < n)%nat -> (types i < fp_n_type fp)%nat) -> indices_ok n images -> C54.apart n pos images ->
  (forall k c, (c < 3)%nat ->
     has_deriv (fun s => energy 0 B A types n (csr_of (half_rows_at (moved pos k c s) images n))) 0
       (- forces 0 B A types n (csr_of (half_rows_at pos images n)) c k)) /\
  (forall k, (k < 3)%nat ->
     has_deriv (fun s => energy 0 B A types n (csr_of (strained_rows pos images n k s))) 0
       (- stress 0 B A types n (csr_of (half_rows_at pos images n)) k)).
Proof.
  intros B A GT Hc HT HI HA. apply assemble; [lia|exact HI| |].
  - intros pos' images' HI' rows neigh. pose proof (rows_len pos' images' n) as EN.
    destruct (C54.C54_evaluators fp types rows neigh coeffs GT) as [H1 [H2 H3]].
    + now apply listed.
    + unfold rows. rewrite EN. exact HT.
    + unfold rows. rewrite EN. intros i Hi. unfold neigh. now rewrite both_mirrored.
    + unfold rows in *. rewrite EN in *. split; [exact H1|]. split; [exact H2|exact H3].
  - intros g. apply C54.C54_gtinv; try assumption. now apply both_apart.
Qed.
Print Assumptions C56_gtinv.

(** The atoms of C54 with every pair listed once, and a periodic image of atom 0. *)
Module Example.
  Definition images (i : nat) : list (nat * v3 R) :=
    match i with 0%nat => [(1%nat, V3 0 0 0); (2%nat, V3 0 0 0); (0%nat, V3 0 5 0)] | 1%nat => [(2%nat, V3 0 0 0)] | _ => [] end.
  Lemma meets : indices_ok 3 images /\ C54.apart 3 C54.Example.pos images /\ both images 3 0 = images 0 ++ [(0%nat, V3 (- 0) (- 5) (- 0))].
  Proof.
    split; [|split; [|reflexivity]].
    - intros i j t Hi H. destruct i as [|[|[|]]]; [| | |lia]; cbn in H; repeat (destruct H as [H|H]; [injection H as <- <-; lia|]); destruct H.
    - intros i j t Hi H. destruct i as [|[|[|]]]; [| | |lia]; cbn in H; repeat (destruct H as [H|H]; [injection H as <- <-; unfold norm2, vdot; cbn; lra|]); destruct H.
  Qed.
  Lemma forces_ok coeffs k c : (c < 3)%nat ->
    has_deriv (fun s => energy 0 (real_basis 6 1) (polymlp_eval C54.Example.fp coeffs) (fun _ => 0%nat) 3 (csr_of (half_rows_at (moved C54.Example.pos k c s) images 3))) 0
      (- forces 0 (real_basis 6 1) (polymlp_eval C54.Example.fp coeffs) (fun _ => 0%nat) 3 (csr_of (half_rows_at C54.Example.pos images 3)) c k).
  Proof.
    destruct meets as [H1 [H2 _]]. destruct C54.Example.meets as [GT [E _]].
    apply (C56_gtinv C54.Example.fp (fun _ => 0%nat) 3 C54.Example.pos images coeffs); try assumption.
    - rewrite E. lra.
    - intros i _. cbn. lia.
  Qed.
End Example.
