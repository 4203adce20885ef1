(** Derivative, continuity, range and scaling of the radial functions. *)
From Verif Require Import Base Num NumR Model.Neighbor Spec.Deriv Proofs.Deriv Model.Features Model.Potential Model.Radial.
From Coq Require Import Reals Lra.
Local Open Scope R_scope.

(** A function continued by zero from [c] on. *)
Definition cut (c : R) (g : R -> R) (x : R) : R := if Rltb x c then g x else 0.
Lemma cut_below c g x : x < c -> cut c g x = g x.
Proof. intros H. unfold cut. apply Rltb_true in H. now rewrite H. Qed.
Lemma cut_above c g x : c <= x -> cut c g x = 0.
Proof. intros H. unfold cut. apply Rltb_false in H. now rewrite H. Qed.
Lemma cut_deriv c g g' x : g c = 0 -> g' c = 0 -> (forall y, has_deriv g y (g' y)) -> has_deriv (cut c g) x (cut c g' x).
Proof.
  intros E E' H. destruct (Rtotal_order x c) as [L|[->|L]].
  - rewrite cut_below by exact L. apply (hd_near g _ _ _ (c - x)); [lra| |apply H]. intros y Hy. symmetry. apply cut_below. apply Rabs_def2 in Hy. lra.
  - rewrite (cut_above c g' c) by lra. intros eps He. pose proof (H c) as Hc. rewrite E' in Hc. destruct (Hc eps He) as [del Hd]. exists del. intros h H1 H2.
    rewrite (cut_above c g c) by lra. destruct (Rlt_le_dec (c + h) c) as [Hh|Hh].
    + rewrite cut_below by exact Hh. pose proof (Hd h H1 H2) as D. now rewrite E in D.
    + rewrite cut_above by exact Hh. replace ((0 - 0) / h - 0) with 0 by (field; exact H1). now rewrite Rabs_R0.
  - rewrite (cut_above c g' x) by lra. apply (hd_near (fun _ => 0) _ _ _ (x - c)); [lra| |apply hd_const]. intros y Hy. symmetry. apply cut_above. apply Rabs_def2 in Hy. lra.
Qed.

Section Radial.
  Variable cutoff : R.
  Hypothesis Hc : 0 < cutoff.
  Definition wave (x : R) : R := 1 / 2 * (cos (PI / cutoff * x) + 1).
  Definition wave_d (x : R) : R := - (1 / 2) * (PI / cutoff) * sin (PI / cutoff * x).
  Lemma turn : PI / cutoff * cutoff = PI.
  Proof. field. lra. Qed.
  Lemma lin_deriv a x : has_deriv (fun y => a * y) x a.
  Proof. apply (hd_ext _ _ _ (a * 1) _ (fun _ => eq_refl)); [ring|]. apply hd_scale, hd_id. Qed.
  Lemma wave_deriv x : has_deriv wave x (wave_d x).
  Proof.
    unfold wave, wave_d. apply (hd_ext _ _ _ (1 / 2 * (- sin (PI / cutoff * x) * (PI / cutoff) + 0)) _ (fun _ => eq_refl)); [ring|].
    apply hd_scale, hd_add; [|apply hd_const]. apply (hd_comp (fun y => PI / cutoff * y) cos); [apply lin_deriv|apply derivable_pt_lim_cos].
  Qed.
  Lemma wave_d_deriv x : has_deriv wave_d x (- (1 / 2) * (PI / cutoff) * (cos (PI / cutoff * x) * (PI / cutoff))).
  Proof.
    unfold wave_d. apply hd_scale. apply (hd_comp (fun y => PI / cutoff * y) sin); [apply lin_deriv|apply derivable_pt_lim_sin].
  Qed.
  Lemma cutoff_is x : cosine_cutoff x cutoff = cut cutoff wave x.
  Proof. unfold cosine_cutoff, cut, wave. destruct (Rltb x cutoff); [|reflexivity]. do 3 f_equal. field. lra. Qed.
  Lemma cutoff_d_is x : cosine_cutoff_d x cutoff = (cut cutoff wave x, cut cutoff wave_d x).
  Proof. unfold cosine_cutoff_d, cut, wave, wave_d. now destruct (Rltb x cutoff). Qed.
  Lemma cutoff_deriv x : has_deriv (cut cutoff wave) x (cut cutoff wave_d x).
  Proof.
    apply cut_deriv; [| |apply wave_deriv].
    - unfold wave. rewrite turn, cos_PI. lra.
    - unfold wave_d. rewrite turn, sin_PI. ring.
  Qed.
  Lemma gauss_deriv b m x : has_deriv (fun y => gauss y b m) x (snd (gauss_d x b m)).
  Proof.
    unfold gauss, gauss_d. cbn. assert (H : has_deriv (fun y => - b * (y - m)) x (- b * (1 - 0))) by (apply hd_scale, hd_sub; [apply hd_id|apply hd_const]).
    assert (H' : has_deriv (fun y => y - m) x (1 - 0)) by (apply hd_sub; [apply hd_id|apply hd_const]).
    apply (hd_ext _ _ _ (exp (- b * (x - m) * (x - m)) * (- b * (1 - 0) * (x - m) + - b * (x - m) * (1 - 0))) _ (fun _ => eq_refl)); [ring|].
    apply (hd_comp (fun y => - b * (y - m) * (y - m)) exp); [exact (hd_mul _ _ _ _ _ H H')|apply derivable_pt_lim_exp].
  Qed.
  Lemma fn_value p x : fst (get_fn_d cutoff p x) = get_fn cutoff p x.
  Proof. unfold get_fn_d, get_fn. now rewrite cutoff_d_is, cutoff_is. Qed.
  Lemma fn_deriv p x : has_deriv (get_fn cutoff p) x (snd (get_fn_d cutoff p x)).
  Proof.
    unfold get_fn_d. rewrite cutoff_d_is. cbn. apply (hd_ext (fun y => gauss y (nth 0 p 0) (nth 1 p 0) * cut cutoff wave y) _ _ _ _ (fun y => f_equal _ (eq_sym (cutoff_is y))) eq_refl).
    apply (hd_mul (fun y => gauss y (nth 0 p 0) (nth 1 p 0)) (cut cutoff wave)); [apply gauss_deriv|apply cutoff_deriv].
  Qed.
  Lemma fn_beyond p x : cutoff <= x -> get_fn_d cutoff p x = (0, 0).
  Proof. intros H. unfold get_fn_d. rewrite cutoff_d_is, !cut_above by exact H. cbn. f_equal; ring. Qed.

  Lemma cut_cont g x : continuity g -> g cutoff = 0 -> continuity_pt (cut cutoff g) x.
  Proof.
    intros C E eps He. destruct (Rtotal_order x cutoff) as [L|[->|L]].
    - destruct (C x eps He) as [d [Hd H]]. exists (Rmin d (cutoff - x)). split; [apply Rmin_glb_lt; lra|]. intros y [D Hy]. cbn in *.
      assert (y < cutoff). { pose proof (Rmin_r d (cutoff - x)). unfold R_dist in Hy. apply Rabs_def2 in Hy. lra. }
      rewrite !cut_below by assumption. apply H. split; [exact D|]. pose proof (Rmin_l d (cutoff - x)). lra.
    - destruct (C cutoff eps He) as [d [Hd H]]. exists d. split; [exact Hd|]. intros y [D Hy]. cbn in *. rewrite (cut_above _ _ cutoff) by lra. rewrite <- E at 1.
      destruct (Rlt_le_dec y cutoff) as [Hh|Hh]; [rewrite cut_below by exact Hh; now apply H|]. rewrite cut_above by exact Hh. unfold R_dist. rewrite E, Rminus_0_r, Rabs_R0. exact He.
    - exists (x - cutoff). split; [lra|]. intros y [D Hy]. cbn in *. unfold R_dist in *. apply Rabs_def2 in Hy. rewrite !cut_above by lra. rewrite Rminus_0_r, Rabs_R0. exact He.
  Qed.
  Lemma deriv_cont f f' : (forall x, has_deriv f x (f' x)) -> continuity f.
  Proof. intros H x. apply derivable_continuous_pt. exists (f' x). apply H. Qed.
  Lemma gauss_d_cont b m : continuity (fun x => snd (gauss_d x b m)).
  Proof.
    intros x. unfold gauss_d. cbn. apply (continuity_pt_mult (fun x => - 2 * b * (x - m)) (fun x => exp (- b * (x - m) * (x - m)))).
    - apply derivable_continuous_pt. exists (- 2 * b * (1 - 0)). apply (hd_scale (- 2 * b) (fun y => y - m)), hd_sub; [apply hd_id|apply hd_const].
    - apply derivable_continuous_pt. eexists. exact (gauss_deriv b m x).
  Qed.
  Lemma fn_d_cont p : continuity (fun x => snd (get_fn_d cutoff p x)).
  Proof.
    intros x. assert (E : forall y, snd (get_fn_d cutoff p y) = snd (gauss_d y (nth 0 p 0) (nth 1 p 0)) * cut cutoff wave y + gauss y (nth 0 p 0) (nth 1 p 0) * cut cutoff wave_d y).
    { intros y. unfold get_fn_d. now rewrite cutoff_d_is. }
    intros eps He. pose proof (continuity_pt_plus (fun y => snd (gauss_d y (nth 0 p 0) (nth 1 p 0)) * cut cutoff wave y) (fun y => gauss y (nth 0 p 0) (nth 1 p 0) * cut cutoff wave_d y) x) as P.
    destruct (P ltac:(apply continuity_pt_mult; [apply gauss_d_cont|apply cut_cont; [exact (deriv_cont _ _ wave_deriv)|unfold wave; rewrite turn, cos_PI; lra]])
               ltac:(apply continuity_pt_mult; [exact (deriv_cont _ _ (gauss_deriv _ _) x)|apply cut_cont; [exact (deriv_cont _ _ wave_d_deriv)|unfold wave_d; rewrite turn, sin_PI; ring]])
               eps He) as [d [Hd H]].
    exists d. split; [exact Hd|]. intros y Hy. rewrite !E. now apply H.
  Qed.
  Lemma wave_range x : Rabs x < cutoff -> 0 < wave x <= 1.
  Proof.
    intros H. unfold wave. pose proof (COS_bound (PI / cutoff * x)) as [_ B]. split; [|lra].
    assert (P : 0 < PI / cutoff) by (apply Rdiv_lt_0_compat; [apply PI_RGT_0|exact Hc]).
    assert (E : cos (PI / cutoff * x) = cos (PI / cutoff * Rabs x)). { unfold Rabs. destruct (Rcase_abs x); [|reflexivity]. rewrite <- (cos_neg (PI / cutoff * x)). f_equal. ring. }
    assert (C : cos PI < cos (PI / cutoff * Rabs x)).
    { pose proof (Rabs_pos x) as A. assert (PI / cutoff * Rabs x < PI). { pose proof turn as T. rewrite <- T at 2. now apply Rmult_lt_compat_l. }
      assert (0 <= PI / cutoff * Rabs x) by (apply Rmult_le_pos; lra). pose proof PI_RGT_0. apply cos_decreasing_1; lra. }
    rewrite cos_PI in C. lra.
  Qed.
  Lemma fn_range p x : Rabs x < cutoff -> 0 < get_fn cutoff p x /\ (0 <= nth 0 p 0 -> get_fn cutoff p x <= 1).
  Proof.
    intros H. unfold get_fn. rewrite cutoff_is, cut_below by (apply Rabs_def2 in H; lra). pose proof (wave_range x H) as [W1 W2].
    split; [apply Rmult_lt_0_compat; [apply exp_pos|exact W1]|]. intros B.
    assert (G : gauss x (nth 0 p 0) (nth 1 p 0) <= 1).
    { unfold gauss. rewrite <- exp_0. set (a := nth 0 p 0) in *. set (t := x - nth 1 p 0). assert (0 <= a * (t * t)) by (apply Rmult_le_pos; [exact B|apply Rle_0_sqr]).
      destruct (Req_dec (- a * t * t) 0) as [->|Hn]; [lra|]. left. apply exp_increasing. lra. }
    rewrite <- (Rmult_1_l 1). apply Rmult_le_compat; try lra. left. apply exp_pos.
  Qed.
End Radial.

(** Converted lengths. *)
Lemma convert_nth (len inv : R) p : nth 0 (convert_param len inv p) 0 = nth 0 p 0 * (inv * inv) /\ nth 1 (convert_param len inv p) 0 = nth 1 p 0 * len.
Proof. unfold convert_param. destruct p as [|a [|b p]]; cbn; split; try reflexivity; ring. Qed.
Lemma fn_scaled (cutoff len inv : R) p x : 0 < cutoff -> 0 < len -> len * inv = 1 ->
  let p' := [nth 0 p 0 * (inv * inv); nth 1 p 0 * len] in
  get_fn (cutoff * len) p' (len * x) = get_fn cutoff p x /\ snd (get_fn_d (cutoff * len) p' (len * x)) = inv * snd (get_fn_d cutoff p x).
Proof.
  intros Hc Hl E p'. assert (Hi : inv = / len) by (apply (Rmult_eq_reg_l len); [rewrite E; field; lra|lra]). subst inv.
  assert (Hc' : 0 < cutoff * len) by now apply Rmult_lt_0_compat.
  assert (G : forall y, gauss (len * y) (nth 0 p' 0) (nth 1 p' 0) = gauss y (nth 0 p 0) (nth 1 p 0)). { intros y. unfold gauss. cbn. f_equal. field. lra. }
  assert (B : forall g g' : R -> R, g' (len * x) = g x -> cut (cutoff * len) g' (len * x) = cut cutoff g x).
  { intros g g' Eg. unfold cut. replace (Rltb (len * x) (cutoff * len)) with (Rltb x cutoff); [destruct (Rltb x cutoff); [exact Eg|reflexivity]|].
    destruct (Rltb x cutoff) eqn:T; symmetry; [apply Rltb_true in T; apply Rltb_true; rewrite (Rmult_comm cutoff); now apply Rmult_lt_compat_l|].
    apply Rltb_false in T. apply Rltb_false. rewrite (Rmult_comm cutoff). apply Rmult_le_compat_l; lra. }
  split.
  - unfold get_fn. rewrite G, !cutoff_is by assumption. f_equal. apply B. unfold wave. do 3 f_equal. field. lra.
  - unfold get_fn_d. rewrite !cutoff_d_is by assumption. cbn [snd]. rewrite (B (wave cutoff) (wave (cutoff * len))) by (unfold wave; do 3 f_equal; field; lra).
    assert (W : cut (cutoff * len) (wave_d (cutoff * len)) (len * x) = / len * cut cutoff (wave_d cutoff) x).
    { rewrite (B (fun y => / len * wave_d cutoff y)); [unfold cut; destruct (Rltb x cutoff); ring|]. unfold wave_d. replace (PI / (cutoff * len) * (len * x)) with (PI / cutoff * x) by (field; lra). field. lra. }
    rewrite W. pose proof (G x) as Gx. unfold gauss in Gx. unfold gauss_d. rewrite Gx. cbn. field. lra.
Qed.
Lemma fn_converted (cutoff len inv : R) p x : 0 < cutoff -> 0 < len -> len * inv = 1 ->
  get_fn (cutoff * len) (convert_param len inv p) (len * x) = get_fn cutoff p x /\
  snd (get_fn_d (cutoff * len) (convert_param len inv p) (len * x)) = inv * snd (get_fn_d cutoff p x).
Proof.
  intros Hc Hl E. destruct (fn_scaled cutoff len inv p x Hc Hl E) as [H1 H2]. destruct (convert_nth len inv p) as [E1 E2].
  rewrite <- H1, <- H2. unfold get_fn, get_fn_d. now rewrite E1, E2.
Qed.
