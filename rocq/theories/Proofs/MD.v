From Verif Require Import Base Num NumR Model.MD Spec.MD.
From Coq Require Import Reals Lra Psatz.
Local Open Scope R_scope.

Lemma nsum_nsumf (l : list R) : nsum l = nsumf (fun x => x) l.
Proof. unfold nsumf. now rewrite map_id. Qed.
Lemma average_mean (l : list R) : average (F:=R) l = mean l.
Proof. unfold average, mean. now rewrite nsum_nsumf, nnat_INR. Qed.
Lemma len_pos {A} (l : list A) : l <> [] -> 0 < INR (length l).
Proof. intros H. apply lt_0_INR. destruct l; [congruence|cbn; lia]. Qed.
Lemma mean_map {A} (f : A -> R) (l : list A) : mean (map f l) = nsumf f l / INR (length l).
Proof. unfold mean. now rewrite nsumf_map, map_length. Qed.
Lemma nsumf_const_R {A} (c : R) (l : list A) : nsumf (F:=R) (fun _ => c) l = INR (length l) * c.
Proof. rewrite (nsumf_const (F:=R)), nnat_INR. reflexivity. Qed.
Lemma nsumf_plus {A} (f g : A -> R) l : nsumf (F:=R) (fun x => f x + g x) l = nsumf f l + nsumf g l.
Proof. exact (nsumf_add (F:=R) f g l). Qed.
Lemma nsumf_mult {A} c (f : A -> R) l : nsumf (F:=R) (fun x => c * f x) l = c * nsumf f l.
Proof. exact (nsumf_scale_l (F:=R) c f l). Qed.
Lemma nsumf_le {A} (f g : A -> R) l : (forall x, In x l -> f x <= g x) -> nsumf (F:=R) f l <= nsumf g l.
Proof.
  induction l as [|x l IH]; intros H; [rewrite !nsumf_nil; lra|]. rewrite !nsumf_cons. cbn [nadd R_num].
  pose proof (H x (or_introl eq_refl)). assert (nsumf (F:=R) f l <= nsumf g l) by (apply IH; intros; apply H; now right). lra.
Qed.
Lemma mean_le {A} (f g : A -> R) l : (forall x, In x l -> f x <= g x) -> mean (map f l) <= mean (map g l).
Proof.
  intros H. rewrite !mean_map. destruct l as [|x l]; [rewrite !nsumf_nil; lra|].
  apply Rmult_le_compat_r; [apply Rlt_le, Rinv_0_lt_compat, len_pos; discriminate|]. now apply nsumf_le.
Qed.
Lemma mean_const {A} c (l : list A) : l <> [] -> mean (map (fun _ => c) l) = c.
Proof. intros H. rewrite mean_map, nsumf_const_R. field. pose proof (len_pos l H). lra. Qed.
Lemma mean_affine {A} a b (f : A -> R) l : l <> [] -> mean (map (fun x => a + b * f x) l) = a + b * mean (map f l).
Proof.
  intros H. rewrite !mean_map. rewrite (nsumf_plus (fun _ => a) (fun x => b * f x)), nsumf_mult, nsumf_const_R. field. pose proof (len_pos l H). lra.
Qed.
Lemma mean_id (l : list R) : mean (map (fun x => x) l) = mean l.
Proof. now rewrite map_id. Qed.

(** ** Variance *)
Lemma variance_formula (l : list R) : l <> [] -> variance l = mean (map (fun x => x * x) l) - mean l * mean l.
Proof.
  intros H. unfold variance. set (m := mean l).
  assert (E : nsumf (F:=R) (fun x => (x - m) ^ 2) l = nsumf (F:=R) (fun x => x * x) l + (- 2 * m) * nsumf (F:=R) (fun x => x) l + INR (length l) * (m * m)).
  { rewrite <- nsumf_mult, <- nsumf_plus, <- nsumf_const_R, <- nsumf_plus. apply nsumf_ext'. intros. ring. }
  rewrite !mean_map, E. pose proof (len_pos l H). unfold m, mean. field. lra.
Qed.
Lemma variance_nonneg l : 0 <= variance l.
Proof.
  unfold variance. rewrite mean_map. destruct l as [|x l]; [rewrite nsumf_nil; cbn [n0 R_num]; lra|].
  apply Rmult_le_pos; [apply nsumf_nonneg; intros; apply pow2_ge_0|apply Rlt_le, Rinv_0_lt_compat, len_pos; discriminate].
Qed.
Lemma nsumf_zero_each {A} (f : A -> R) l : (forall x, In x l -> 0 <= f x) -> nsumf (F:=R) f l = 0 -> forall x, In x l -> f x = 0.
Proof.
  induction l as [|y l IH]; intros H E x Hx; [contradiction|]. rewrite nsumf_cons in E. cbn [nadd R_num] in E.
  pose proof (H y (or_introl eq_refl)). assert (0 <= nsumf (F:=R) f l) by (apply nsumf_nonneg; intros; apply H; now right).
  destruct Hx as [->|Hx]; [lra|]. apply IH; [intros; apply H; now right|lra|exact Hx].
Qed.
Lemma variance_zero l : l <> [] -> (variance l = 0 <-> forall x y, In x l -> In y l -> x = y).
Proof.
  intros H. split.
  - unfold variance. rewrite mean_map. intros E.
    assert (E' : nsumf (F:=R) (fun x => (x - mean l) ^ 2) l = 0).
    { pose proof (len_pos l H) as P. apply Rmult_integral in E. destruct E as [E|E]; [exact E|]. pose proof (Rinv_0_lt_compat _ P). lra. }
    assert (A : forall x, In x l -> x = mean l).
    { intros x Hx. pose proof (nsumf_zero_each _ l (fun y _ => pow2_ge_0 (y - mean l)) E' x Hx) as Z. cbn beta in Z.
      assert (x - mean l = 0); [|lra]. apply Rsqr_0_uniq. unfold Rsqr. lra. }
    intros x y Hx Hy. now rewrite (A x Hx), (A y Hy).
  - intros A. destruct l as [|x l]; [congruence|].
    assert (M : mean (x :: l) = x).
    { rewrite <- mean_id. transitivity (mean (map (fun _ => x) (x :: l))); [|apply mean_const; discriminate]. f_equal.
      apply map_ext_in. intros y Hy. apply A; [exact Hy|now left]. }
    unfold variance. rewrite M. transitivity (mean (map (fun _ => 0) (x :: l))); [|apply mean_const; discriminate]. f_equal.
    apply map_ext_in. intros y Hy. rewrite (A y x Hy (or_introl eq_refl)). ring.
Qed.

(** ** Free energy perturbation *)
Lemma exp_pow p u : 1 <= p -> 1 + p * (exp u - 1) <= exp (p * u).
Proof.
  intros Hp. pose proof (exp_ineq1_le (p * u - u)) as A. pose proof (exp_ineq1_le (- u)) as B.
  assert (E1 : exp (p * u) = exp u * exp (p * u - u)) by (rewrite <- exp_plus; f_equal; ring).
  assert (E2 : 1 = exp u * exp (- u)) by (rewrite <- exp_plus, <- exp_0; f_equal; ring).
  pose proof (exp_pos u) as P.
  (* exp(pu) + (p-1) >= p exp u *)
  assert (K1 : exp u * (1 + (p * u - u)) <= exp (p * u)) by (rewrite E1; apply Rmult_le_compat_l; lra).
  assert (K2 : exp u * (1 + - u) <= 1) by (rewrite E2; apply Rmult_le_compat_l; lra).
  assert (K3 : (p - 1) * (exp u * (1 + - u)) <= (p - 1) * 1) by (apply Rmult_le_compat_l; lra).
  lra.
Qed.
Lemma mean_exp_pos {A} (f : A -> R) l : l <> [] -> 0 < mean (map (fun x => exp (f x)) l).
Proof.
  intros H. rewrite mean_map. apply Rdiv_lt_0_compat; [|now apply len_pos]. destruct l as [|x l]; [congruence|].
  rewrite nsumf_cons. cbn [nadd R_num]. pose proof (exp_pos (f x)).
  assert (0 <= nsumf (F:=R) (fun x => exp (f x)) l) by (apply nsumf_nonneg; intros; apply Rlt_le, exp_pos). lra.
Qed.
Lemma ln_le' x y : 0 < x -> x <= y -> ln x <= ln y.
Proof. intros H [H'|<-]; [apply Rlt_le, ln_increasing; assumption|lra]. Qed.
(** Larger inverse temperatures give smaller free energies. *)
Lemma free_decreasing b c l : l <> [] -> 0 < b <= c -> free_difference c l <= free_difference b l.
Proof.
  intros H [Hb Hc]. unfold free_difference. set (M := mean (map (fun x => exp (- (b * x))) l)).
  assert (HM : 0 < M) by (apply (mean_exp_pos (fun x => - (b * x))), H).
  set (p := c / b). assert (Hp : 1 <= p). { unfold p. apply Rmult_le_reg_r with b; [exact Hb|]. field_simplify; lra. }
  assert (K : exp (p * ln M) <= mean (map (fun x => exp (- (c * x))) l)).
  { assert (E : forall x, exp (- (c * x)) = exp (p * ln M) * exp (p * (- (b * x) - ln M))).
    { intros x. rewrite <- exp_plus. f_equal. unfold p. field. lra. }
    assert (T : mean (map (fun x => exp (p * ln M) * (1 + p * (exp (- (b * x) - ln M) - 1))) l) <= mean (map (fun x => exp (- (c * x))) l)).
    { apply mean_le. intros x _. rewrite E. apply Rmult_le_compat_l; [apply Rlt_le, exp_pos|]. now apply exp_pow. }
    replace (mean (map (fun x => exp (p * ln M) * (1 + p * (exp (- (b * x) - ln M) - 1))) l)) with (exp (p * ln M)) in T; [exact T|].
    transitivity (mean (map (fun x => exp (p * ln M) * (1 - p) + (exp (p * ln M) * p / M) * exp (- (b * x))) l)).
    - rewrite mean_affine by exact H. fold M. field. lra.
    - f_equal. apply map_ext. intros x. assert (EX : exp (- (b * x) - ln M) = exp (- (b * x)) / M).
      { unfold Rminus. rewrite exp_plus, (exp_Ropp (ln M)), (exp_ln M HM). reflexivity. }
      rewrite EX. field. lra. }
  assert (L : p * ln M <= ln (mean (map (fun x => exp (- (c * x))) l))).
  { rewrite <- (ln_exp (p * ln M)). apply ln_le'; [apply exp_pos|exact K]. }
  assert (S : (1 / c) * (p * ln M) <= 1 / c * ln (mean (map (fun x => exp (- (c * x))) l))).
  { apply Rmult_le_compat_l; [|exact L]. apply Rlt_le, Rdiv_lt_0_compat; lra. }
  replace (1 / c * (p * ln M)) with (1 / b * ln M) in S by (unfold p; field; lra). lra.
Qed.
(** The first order is an upper bound. *)
Lemma free_below_mean b l : l <> [] -> 0 < b -> free_difference b l <= mean l.
Proof.
  intros H Hb. unfold free_difference. set (M := mean (map (fun x => exp (- (b * x))) l)).
  assert (K : exp (- (b * mean l)) <= M).
  { set (m := mean l).
    assert (T : mean (map (fun x => exp (- (b * m)) * (1 + (- (b * x) + b * m))) l) <= M).
    { apply mean_le. intros x _. replace (exp (- (b * x))) with (exp (- (b * m)) * exp (- (b * x) + b * m)) by (rewrite <- exp_plus; f_equal; ring).
      apply Rmult_le_compat_l; [apply Rlt_le, exp_pos|apply exp_ineq1_le]. }
    replace (mean (map (fun x => exp (- (b * m)) * (1 + (- (b * x) + b * m))) l)) with (exp (- (b * m))) in T; [exact T|].
    transitivity (mean (map (fun x => exp (- (b * m)) * (1 + b * m) + (- exp (- (b * m)) * b) * x) l)).
    - rewrite mean_affine, mean_id by exact H. fold m. ring.
    - f_equal. apply map_ext. intros. ring. }
  assert (L : - (b * mean l) <= ln M). { rewrite <- (ln_exp (- (b * mean l))). apply ln_le'; [apply exp_pos|exact K]. }
  assert (S : (1 / b) * - (b * mean l) <= 1 / b * ln M) by (apply Rmult_le_compat_l; [apply Rlt_le, Rdiv_lt_0_compat; lra|exact L]).
  replace (1 / b * - (b * mean l)) with (- mean l) in S by (field; lra). lra.
Qed.
Lemma free_constant b c l : l <> [] -> b <> 0 -> (forall x, In x l -> x = c) -> free_difference b l = c.
Proof.
  intros H Hb A. unfold free_difference.
  replace (map (fun x => exp (- (b * x))) l) with (map (fun _ : R => exp (- (b * c))) l) by (apply map_ext_in; intros x Hx; now rewrite (A x Hx)).
  rewrite mean_const, ln_exp by exact H. field. exact Hb.
Qed.
Lemma perturb_free (kb T : R) l : perturb (F:=R) exp ln kb T l = free_difference (kb * T) l.
Proof.
  unfold perturb, free_difference. rewrite average_mean. cbn [nmul nopp ndiv R_num].
  replace (map (fun e => exp (- (kb * T) * e)) l) with (map (fun x => exp (- (kb * T * x))) l) by (apply map_ext; intros; f_equal; ring).
  unfold Rdiv. ring.
Qed.
