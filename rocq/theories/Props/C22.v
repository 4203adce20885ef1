(** C22: the derivatives of the features are their derivatives. *)
From Verif Require Import Base Num NumR Complex Spec.Poly Spec.Gtinv Spec.Deriv Model.Cxx Model.Mapping Model.ModelParams Model.Features
  Model.Neighbor Model.Compute Proofs.Sums Proofs.FeatureVals Proofs.GtinvFeatures Proofs.EvalGtinv Proofs.Deriv.
From Coq Require Import Reals Lra.
Local Open Scope nat_scope.

(** Polynomial features of order 1, 2, 3: value and derivative are those of the product of the linear features, computed
    with dual numbers, in any ring. *)
Theorem C22_formal {F} {N : Num F} {L : RingLaws F} (v d : nat -> F) (ids : list nat) :
  1 <= length ids <= 3 ->
  order_e v ids = mval v ids /\ order_d v d ids = mder v d ids.
Proof. intros H. split; [exact (order_e_spec v ids H)|exact (order_d_spec v d ids H)]. Qed.
Print Assumptions C22_formal.

(** The same with real derivatives. *)
Theorem C22_polynomial (v : R -> nat -> R) (d : nat -> R) (s : R) (ids : list nat) :
  1 <= length ids <= 3 -> (forall h, In h ids -> has_deriv (fun x => v x h) s (d h)) ->
  has_deriv (fun x => order_e (v x) ids) s (order_d (v s) d ids).
Proof.
  intros H Hd. rewrite order_d_spec by exact H. apply (hd_ext (fun x => mval (v x) ids) _ _ (mder (v s) d ids)); [|reflexivity|now apply mval_deriv].
  intros x. now rewrite order_e_spec.
Qed.
Print Assumptions C22_polynomial.

(** Linear features of invariant models, along a curve of order parameters on which the entries of m and -m stay conjugate. *)
Theorem C22_linear (tol : R) (fp : fparams R) (t i : nat) (a : R -> nat -> Cx R) (d : nat -> Cx R) (s : R) :
  gtinv_table fp -> (forall x, nltb tol (nabs x) = false -> x = 0%R) -> t < fp_n_type fp -> i < length (f_features (ft fp t)) ->
  let attrs := nth t (gm_loc (mp_gt (mapping fp))) [] in
  (forall x h b, nth_error attrs h = Some b -> a x (a_icj b) = cscale (sgn (lm_cc (a_lm b))) (conj (a x h))) ->
  (forall h, h < length attrs -> has_cderiv (fun x => a x h) s (d h)) ->
  has_deriv (fun x => nth i (compute_features_gtinv tol (ft fp t) (a x)) 0%R) s (nth i (compute_features_deriv (ft fp t) (a s) d) 0%R).
Proof.
  intros GT TL Ht Hi attrs Ha Hd. assert (Hi' : i < length (fsT fp t)) by (rewrite (ft_eq fp GT t Ht) in Hi; exact Hi).
  assert (HS : forall x, sym fp t (a x)).
  { intros x h Hh. unfold nhl in Hh. unfold cjl. rewrite (Ha x h (att fp t h)).
    - unfold ccl, sgn, cscale, of_real, conj. cbn. destruct (a x h). apply cx_eq; cbn; ring.
    - apply nth_error_nth'. exact Hh. }
  apply (hd_ext (fun x => fval (nth i (fsT fp t) []) (a x)) _ _ (fder (nth i (fsT fp t) []) (a s) d)).
  - intros x. symmetry. exact (feature_val tol fp GT TL t Ht (a x) i (HS x) Hi').
  - symmetry. exact (feature_der fp GT t Ht (a s) d i Hi').
  - apply fval_deriv. intros h [st [Hst Hh]]. apply Hd. exact (heads_ltT fp GT t Ht i st h Hi' Hst Hh).
Qed.
Print Assumptions C22_linear.

(** A feature with a repeated factor: values s and s^2 at s = 2, feature x_0 x_0 x_1 = s^4 with derivative 32. *)
Example C22_example :
  let v (s : R) (h : nat) := if h =? 0 then s else (s * s)%R in
  let d (h : nat) := if h =? 0 then 1%R else 4%R in
  (forall h, In h [0; 0; 1] -> has_deriv (fun x => v x h) 2%R (d h)) /\
  order_e (v 2%R) [0; 0; 1] = 16%R /\ order_d (v 2%R) d [0; 0; 1] = 32%R.
Proof.
  intros v d. split; [|split; cbn; lra]. intros h H.
  assert (H0 : has_deriv (fun x : R => x) 2%R 1%R) by apply hd_id.
  destruct H as [<-|[<-|[<-|[]]]]; try exact H0. unfold v, d. cbn.
  refine (hd_ext _ _ _ _ _ (fun x => eq_refl) _ (hd_mul (fun x => x) (fun x => x) _ _ _ H0 H0)). lra.
Qed.

(** An invariant model with l <= 1, one type and one radial function, along a line of order parameters. *)
Module Example.
  Definition fp : fparams R :=
    FP 1 true [[1; 0]%R] (fun _ _ => [0]) 6%R 2 2 1 [[0]; [1; 1]] [[[0]]; [[1; 3]; [2; 2]; [3; 1]]] [[1%R]; [2; 5; 2]%R].
  Definition attrs := nth 0 (gm_loc (mp_gt (mapping fp))) [].
  Definition a (s : R) (h : nat) : Cx R := if (h =? 0) || (h =? 2) then (s, 0%R) else (0%R, s).
  Definition d (h : nat) : Cx R := if (h =? 0) || (h =? 2) then (1%R, 0%R) else (0%R, 1%R).
  Lemma table_ok : gtinv_table fp.
  Proof.
    split; cbn [fp_gtinv fp_model_type fp_params fp_cond fp_l_comb fp_lm_array fp_lm_coeffs fp_maxl fp].
    - reflexivity.
    - lia.
    - intros i j. split; repeat constructor; cbn; intuition lia.
    - intros lc H. cbn in H. destruct H as [<-|[<-|[]]]; (split; [discriminate|split; [repeat constructor|cbn; lia]]).
    - intros il lc H. destruct il as [|[|[|]]]; cbn in *; discriminate.
    - intros il lc lms H H'. destruct il as [|[|[|]]]; cbn in *; try discriminate; injection H as <-.
      + destruct H' as [<-|[]]. repeat constructor.
      + destruct H' as [<-|[<-|[<-|[]]]]; repeat constructor; cbn; lia.
    - intros il lc H. destruct il as [|[|[|]]]; cbn in *; try discriminate; injection H as <-; [exists 0|exists 1]; reflexivity.
    - intros il lc lms H H'. destruct il as [|[|[|]]]; cbn in *; try discriminate; injection H as <-.
      + destruct H' as [<-|[]]. exists 0. reflexivity.
      + destruct H' as [<-|[<-|[<-|[]]]]; exists 2; reflexivity.
    - intros il lc H. destruct il as [|[|[|]]]; cbn in *; try discriminate; reflexivity.
    - intros il lc H. destruct il as [|[|[|]]]; cbn in *; try discriminate; injection H as <-; cbn.
      + reflexivity.
      + apply (Permutation_rev [(2%R, [1; 3]); (5%R, [2; 2]); (2%R, [3; 1])]).
  Qed.
  Lemma meets :
    gtinv_table fp /\ (forall x : R, nltb 0%R (nabs x) = false -> x = 0%R) /\ 0 < fp_n_type fp /\ 1 < length (f_features (ft fp 0)) /\
    (forall x h b, nth_error attrs h = Some b -> a x (a_icj b) = cscale (sgn (lm_cc (a_lm b))) (conj (a x h))) /\
    (forall h, h < length attrs -> has_cderiv (fun x => a x h) 3%R (d h)).
  Proof.
    split; [exact table_ok|]. split; [|split; [cbn; lia|split; [vm_compute; lia|split]]].
    - intros x H. apply Rltb_false in H. cbn in H. pose proof (Rabs_pos x). destruct (Req_dec x 0) as [E|E]; [exact E|]. pose proof (Rabs_pos_lt x E). lra.
    - intros x h b H. destruct h as [|[|[|[|]]]]; vm_compute in H; try discriminate; try (destruct n; discriminate); injection H as <-; apply cx_eq; cbn; lra.
    - intros h H. unfold a, d. destruct ((h =? 0) || (h =? 2)); split; cbn; first [apply hd_id|apply hd_const].
  Qed.
  (** The feature of l = 1 is 2 a1 a3 + 5 a2 a2 + 2 a3 a1 = s^2; its derivative at 3 is 6. *)
  Lemma value : nth 1 (compute_features_deriv (ft fp 0) (a 3%R) d) 0%R = 6%R.
  Proof.
    rewrite (feature_der fp table_ok 0 ltac:(cbn; lia)) by (vm_compute; lia).
    assert (E : nth 1 (fsT fp 0) [] = [(2%R, [1; 3]); (5%R, [2; 2]); (2%R, [1; 3])]) by (vm_compute; reflexivity). rewrite E. clear E. cbn. lra.
  Qed.
End Example.
