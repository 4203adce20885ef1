(** Rotating a moving structure; structures stay separated for small motions. *)
From Verif Require Import Base Num NumR Spec.Deriv Spec.Motion Spec.Rotation Model.Neighbor Proofs.Deriv Proofs.DirDeriv.
From Coq Require Import Reals Lra Nsatz.
Local Open Scope R_scope.

(** The rows of an orthonormal matrix are orthonormal as well. *)
Lemma rows_orthonormal a b c : orthonormal a b c ->
  (vx a * vx a + vx b * vx b + vx c * vx c = 1 /\ vy a * vy a + vy b * vy b + vy c * vy c = 1 /\ vz a * vz a + vz b * vz b + vz c * vz c = 1) /\
  (vx a * vy a + vx b * vy b + vx c * vy c = 0 /\ vy a * vz a + vy b * vz b + vy c * vz c = 0 /\ vx a * vz a + vx b * vz b + vx c * vz c = 0).
Proof. destruct a as [a0 a1 a2], b as [b0 b1 b2], c as [c0 c1 c2]. intros [H1 [H2 [H3 [H4 [H5 H6]]]]]. unfold vdot in *. cbn in *. repeat split; nsatz. Qed.
(** The matrix O M O^T, for O with columns a, b, c. *)
Definition col (a b c : v3 R) (i e : nat) : R := component i (match e with 0%nat => a | 1%nat => b | _ => c end).
Definition turned (a b c : v3 R) (M : nat -> nat -> R) (i j : nat) : R := sumn 3 (fun e => sumn 3 (fun f => col a b c i e * col a b c j f * M e f)).
Lemma turned_lin a b c M d : orthonormal a b c -> lin3 (turned a b c M) (image a b c d) = image a b c (lin3 M d).
Proof.
  intros [H1 [H2 [H3 [H4 [H5 H6]]]]]. unfold lin3, image, turned, sumn, nsumf, col.
  destruct a as [a0 a1 a2], b as [b0 b1 b2], c as [c0 c1 c2], d as [x y z]. unfold vdot in *. cbn in *.
  assert (X : a0 * (a0 * x + b0 * y + c0 * z) + a1 * (a1 * x + b1 * y + c1 * z) + a2 * (a2 * x + b2 * y + c2 * z) = x) by nsatz.
  assert (Y : b0 * (a0 * x + b0 * y + c0 * z) + b1 * (a1 * x + b1 * y + c1 * z) + b2 * (a2 * x + b2 * y + c2 * z) = y) by nsatz.
  assert (Z : c0 * (a0 * x + b0 * y + c0 * z) + c1 * (a1 * x + b1 * y + c1 * z) + c2 * (a2 * x + b2 * y + c2 * z) = z) by nsatz.
  revert X Y Z. generalize (a0 * x + b0 * y + c0 * z) (a1 * x + b1 * y + c1 * z) (a2 * x + b2 * y + c2 * z). intros p q r <- <- <-. clear. f_equal; ring.
Qed.
Lemma shift_image a b c v s d : image a b c (shift v s d) = shift (image a b c v) s (image a b c d).
Proof. unfold image, shift. destruct v, d. cbn. f_equal; ring. Qed.
Lemma image_add a b c v w : image a b c (vadd v w) = vadd (image a b c v) (image a b c w).
Proof. unfold image, vadd. destruct v, w. cbn. f_equal; ring. Qed.
Lemma image_sub a b c v w : image a b c (vsub v w) = vsub (image a b c v) (image a b c w).
Proof. unfold image, vsub. destruct v, w. cbn. f_equal; ring. Qed.

(** A positive distance stays positive for a while; so do finitely many. *)
Lemma stays v d : 0 < norm2 d -> exists r, 0 < r /\ forall s, Rabs s < r -> 0 < norm2 (shift v s d).
Proof.
  intros Hd. set (B := 2 * Rabs (vdot v d) + 1). assert (HB : 0 < B) by (unfold B; pose proof (Rabs_pos (vdot v d)); lra).
  exists (norm2 d / B). split; [apply Rdiv_lt_0_compat; assumption|]. intros s Hs. rewrite norm2_shift.
  assert (Hv : 0 <= norm2 v).
  { unfold norm2, vdot. destruct v as [x y z]. cbn. pose proof (Rle_0_sqr x). pose proof (Rle_0_sqr y). pose proof (Rle_0_sqr z). unfold Rsqr in *. lra. }
  assert (H1 : 0 <= norm2 v * (s * s)) by (apply Rmult_le_pos; [exact Hv|apply Rle_0_sqr]).
  assert (H2 : Rabs s * B < norm2 d).
  { apply (Rmult_lt_compat_r B) in Hs; [|exact HB]. replace (norm2 d / B * B) with (norm2 d) in Hs; [exact Hs|]. field. lra. }
  assert (H3 : Rabs (2 * vdot v d * s) <= Rabs s * B).
  { rewrite !Rabs_mult, (Rabs_right 2) by lra. unfold B. pose proof (Rabs_pos s). pose proof (Rabs_pos (vdot v d)). nra. }
  pose proof (Rle_abs (- (2 * vdot v d * s))) as H4. rewrite Rabs_Ropp in H4. lra.
Qed.
Lemma stays_all {A} (f : A -> R -> R) (l : list A) : (forall x, In x l -> exists r, 0 < r /\ forall s, Rabs s < r -> 0 < f x s) ->
  exists r, 0 < r /\ forall s, Rabs s < r -> forall x, In x l -> 0 < f x s.
Proof.
  induction l as [|x l IH]; intros H; [exists 1; split; [lra|intros s _ x []]|].
  destruct (H x (or_introl eq_refl)) as [r1 [P1 H1]]. destruct IH as [r2 [P2 H2]]; [intros y Hy; apply H; now right|].
  exists (Rmin r1 r2). split; [now apply Rmin_glb_lt|]. intros s Hs y [<-|Hy]; [apply H1|apply H2; [|exact Hy]]; eapply Rlt_le_trans; [exact Hs|apply Rmin_l|exact Hs|apply Rmin_r].
Qed.
