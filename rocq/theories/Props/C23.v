(** C23: the radial functions and their derivatives. *)
From Verif Require Import Base Num NumR Spec.Deriv Proofs.Deriv Model.Radial Proofs.Radial.
From Coq Require Import Reals Lra.
Local Open Scope R_scope.

(** The number returned with the value is the derivative of the function returned alone, at every distance including the
    cutoff itself; both calls return the same value. *)
Theorem C23_derivative (cutoff : R) (p : list R) (dis : R) : 0 < cutoff ->
  fst (get_fn_d cutoff p dis) = get_fn cutoff p dis /\ has_deriv (get_fn cutoff p) dis (snd (get_fn_d cutoff p dis)).
Proof. intros H. split; [now apply fn_value|now apply fn_deriv]. Qed.
Print Assumptions C23_derivative.

(** Value and derivative are zero from the cutoff on and are continuous there, so they tend to zero. *)
Theorem C23_smooth (cutoff : R) (p : list R) : 0 < cutoff ->
  (forall dis, cutoff <= dis -> get_fn_d cutoff p dis = (0, 0)) /\
  continuity (get_fn cutoff p) /\ continuity (fun dis => snd (get_fn_d cutoff p dis)) /\
  limit1_in (get_fn cutoff p) (fun _ => True) 0 cutoff /\ limit1_in (fun dis => snd (get_fn_d cutoff p dis)) (fun _ => True) 0 cutoff.
Proof.
  intros H. assert (Z : forall dis, cutoff <= dis -> get_fn_d cutoff p dis = (0, 0)) by (intros dis; now apply fn_beyond).
  assert (C1 : continuity (get_fn cutoff p)) by (apply (deriv_cont _ _ (fn_deriv cutoff H p))).
  assert (C2 : continuity (fun dis => snd (get_fn_d cutoff p dis))) by now apply fn_d_cont.
  repeat split; try assumption.
  - intros eps He. destruct (C1 cutoff eps He) as [d [Hd B]]. exists d. split; [exact Hd|]. intros x [_ Hx]. pose proof (fn_value cutoff H p cutoff) as V. rewrite (Z cutoff (Rle_refl _)) in V. cbn in V.
    destruct (Req_dec x cutoff) as [->|Hn]; [rewrite <- V; cbn; unfold R_dist; rewrite Rminus_0_r, Rabs_R0; exact He|]. rewrite V. apply B. split; [|exact Hx]. split; [exact I|congruence].
  - intros eps He. destruct (C2 cutoff eps He) as [d [Hd B]]. exists d. split; [exact Hd|]. intros x [_ Hx]. assert (V : snd (get_fn_d cutoff p cutoff) = 0) by (now rewrite Z by apply Rle_refl).
    destruct (Req_dec x cutoff) as [->|Hn]; [rewrite V; cbn; unfold R_dist; rewrite Rminus_0_r, Rabs_R0; exact He|]. rewrite <- V. apply B. split; [|exact Hx]. split; [exact I|congruence].
Qed.
Print Assumptions C23_smooth.

(** Inside the cutoff the functions are positive, and at most one for a non-negative width parameter. *)
Theorem C23_range (cutoff : R) (p : list R) (dis : R) : 0 < cutoff -> 0 <= dis < cutoff ->
  0 < get_fn cutoff p dis /\ (0 <= nth 0 p 0 -> get_fn cutoff p dis <= 1).
Proof. intros H D. apply fn_range; [exact H|]. rewrite Rabs_pos_eq; lra. Qed.
Print Assumptions C23_range.

(** Cutoff 6, width 2, centre 1, distance 3: half of the Gaussian; the derivative has both contributions. *)
Example C23_example : 0 < 6 /\ 0 <= 3 < 6 /\ get_fn 6 [2; 1] 3 = exp (-8) / 2 /\
  snd (get_fn_d 6 [2; 1] 3) = - (4 + PI / 12) * exp (-8).
Proof.
  split; [lra|]. split; [lra|].
  assert (T : Rltb 3 6 = true) by (apply Rltb_true; lra).
  unfold get_fn, get_fn_d, cosine_cutoff, cosine_cutoff_d, gauss, gauss_d. rewrite T. cbn [nth fst snd].
  replace (- (2) * (3 - 1) * (3 - 1)) with (-8) by ring. replace (PI * 3 / 6) with (PI / 2) by field. replace (PI / 6 * 3) with (PI / 2) by field.
  rewrite cos_PI2, sin_PI2. split; field.
Qed.
