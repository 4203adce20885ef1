(** Refinement of the axes: the replaced axis is the shortest one in its class, no axis gets longer. *)
From Verif Require Import Base Num NumR Model.Neighbor Spec.Lattice Proofs.HalfFull Proofs.NeighborCell.
From Coq Require Import Reals Lra Lia.
Local Open Scope R_scope.

Lemma floor_bounds (x : R) : IZR (nfloor x) <= x < IZR (nfloor x) + 1.
Proof. unfold nfloor, R_int. destruct (base_Int_part x) as [H1 H2]. lra. Qed.
Lemma nround_near (x : R) : -(1/2) <= x - IZR (nround x) <= 1/2.
Proof.
  unfold nround, nhalf, two. cbn [nltb nabs n0 n1 nadd ndiv R_num R_ord]. destruct (Rltb x 0) eqn:E.
  - apply Rltb_true in E. rewrite Rabs_left by exact E. rewrite opp_IZR. pose proof (floor_bounds (- x + 1 / (1 + 1))). lra.
  - apply Rltb_false in E. rewrite Rabs_right by lra. pose proof (floor_bounds (x + 1 / (1 + 1))). lra.
Qed.
Lemma nround_best (x : R) (k : Z) : (x - IZR (nround x)) * (x - IZR (nround x)) <= (x - IZR k) * (x - IZR k).
Proof.
  pose proof (nround_near x) as H. set (r := nround x) in *. destruct (Z.eq_dec k r) as [->|D]; [lra|].
  assert (G : (k <= r - 1 \/ r + 1 <= k)%Z) by lia. destruct G as [G|G]; apply IZR_le in G; [rewrite minus_IZR in G|rewrite plus_IZR in G]; nra.
Qed.
Lemma line_best (a b : v3 R) (x : R) (k : Z) : norm2 b <> 0 -> x = - vdot a b / norm2 b ->
  norm2 (vadd a (vscale (IZR (nround x)) b)) <= norm2 (vadd a (vscale (IZR k) b)).
Proof.
  intros Hb E. pose proof (norm2_nonneg b) as P. pose proof (nround_best x k) as Q. set (r := IZR (nround x)) in *. clearbody r.
  assert (G : forall t, norm2 (vadd a (vscale t b)) = norm2 b * ((x - t) * (x - t)) + (norm2 a - norm2 b * (x * x))).
  { intros t. assert (E' : vdot a b = - x * norm2 b) by (rewrite E; field; exact Hb).
    replace (norm2 (vadd a (vscale t b))) with (norm2 a + 2 * t * vdot a b + t * t * norm2 b) by (unfold norm2, vdot, vadd, vscale; cbn; ring). rewrite E'. ring. }
  rewrite !G. apply Rplus_le_compat_r, Rmult_le_compat_l; assumption.
Qed.
Definition len2 (A : cell R) : R := norm2 (ax0 A) + norm2 (ax1 A) + norm2 (ax2 A).
Definition no_longer (A A' : cell R) : Prop :=
  norm2 (ax0 A') <= norm2 (ax0 A) /\ norm2 (ax1 A') <= norm2 (ax1 A) /\ norm2 (ax2 A') <= norm2 (ax2 A).
Lemma line_shorter (a b : v3 R) (x : R) : norm2 b <> 0 -> x = - vdot a b / norm2 b ->
  norm2 (vadd a (vscale (IZR (nround x)) b)) <= norm2 a.
Proof.
  intros Hb E. eapply Rle_trans; [apply (line_best a b x 0 Hb E)|]. right. unfold norm2, vdot, vadd, vscale. cbn. ring.
Qed.
Lemma line_strict (a b : v3 R) (x : R) : norm2 b <> 0 -> x = - vdot a b / norm2 b -> norm2 b < 2 * Rabs (vdot a b) ->
  norm2 (vadd a (vscale (IZR (nround x)) b)) < norm2 a.
Proof.
  intros Hb E H. pose proof (norm2_nonneg b) as P.
  assert (K : exists k, norm2 (vadd a (vscale (IZR k) b)) < norm2 a).
  { assert (G : forall t, norm2 (vadd a (vscale t b)) = norm2 a + 2 * t * vdot a b + t * t * norm2 b) by (intros t; unfold norm2, vdot, vadd, vscale; cbn; ring).
    destruct (Rle_lt_dec 0 (vdot a b)) as [L|L].
    - exists (-1)%Z. rewrite G. rewrite Rabs_right in H by lra. lra.
    - exists 1%Z. rewrite G. rewrite Rabs_left in H by lra. lra. }
  destruct K as [k K]. eapply Rle_lt_trans; [apply (line_best a b x k Hb E)|exact K].
Qed.
Lemma need_min (a b : v3 R) : need_ref a b = true -> norm2 b <= norm2 a -> norm2 b < 2 * Rabs (vdot a b).
Proof.
  unfold need_ref, nhalf, two. fold (norm2 a) (norm2 b). cbn [nabs R_ord]. intros H L. apply orb_true_iff in H. destruct H as [H|H]; apply Rltb_true in H; cbn [nmul ndiv nadd n1 R_num] in H; lra.
Qed.
Lemma dot_comm (a b : v3 R) : vdot a b = vdot b a.
Proof. unfold vdot. cbn. ring. Qed.
Lemma need_comm (a b : v3 R) : need_ref a b = need_ref b a.
Proof. unfold need_ref. now rewrite (dot_comm a b), orb_comm. Qed.
Lemma axes_nonzero A : volume A <> 0 -> norm2 (ax0 A) <> 0 /\ norm2 (ax1 A) <> 0 /\ norm2 (ax2 A) <> 0.
Proof.
  intros HV. assert (Z : forall a : v3 R, norm2 a = 0 -> vx a = 0 /\ vy a = 0 /\ vz a = 0) by (intros a H; unfold norm2, vdot in H; cbn in H; nra).
  repeat split; intros H; apply HV; apply Z in H; destruct H as [H1 [H2 H3]]; unfold volume, vdot, cross; cbn [vx vy vz]; rewrite H1, H2, H3; cbn; ring.
Qed.
Lemma replaced (a b : v3 R) (x : R) (need : bool) : norm2 b <> 0 -> x = - vdot a b / norm2 b -> norm2 b <= norm2 a -> (need = true -> need_ref a b = true) ->
  let a' := vadd a (vscale (IZR (nround x)) b) in norm2 a' <= norm2 a /\ (need = true -> norm2 a' < norm2 a).
Proof.
  intros Hb E L N a'. split; [now apply line_shorter|]. intros H. apply line_strict; [exact Hb|exact E|]. apply need_min; [now apply N|exact L].
Qed.

Lemma step_in (A : cell R) (a b w : v3 R) (k : Z) (x : R) (need : bool) : norm2 b <> 0 -> norm2 b <= norm2 a -> (need = true -> need_ref a b = true) ->
  k = nround x -> x = - vdot a b / norm2 b -> w = vadd a (vscale (IZR k) b) -> norm2 w <= norm2 a /\ (need = true -> norm2 w < norm2 a).
Proof. intros Hb L N -> E ->. now apply replaced. Qed.
Ltac found := unfold opt0, opt1, opt2; rewrite !nz_IZR; reflexivity.
Ltac quot := unfold norm2; cbn [nadd nmul nopp ndiv R_num]; f_equal; rewrite ?(dot_comm (ax1 _) (ax0 _)), ?(dot_comm (ax2 _) (ax0 _)), ?(dot_comm (ax2 _) (ax1 _)); cbn; ring.
Ltac vect := rewrite cart_comb; v3ring.
Ltac lens := unfold no_longer, len2; cbn [ax0 ax1 ax2 replace0 replace1 replace2].
Lemma good01 A : volume A <> 0 -> no_longer A (refine01 A) /\ (ref01 A = true -> len2 (refine01 A) < len2 A).
Proof.
  intros HV. destruct (axes_nonzero A HV) as [N0 [N1 N2]]. unfold refine01. destruct (ref01 A) eqn:E; [|split; [unfold no_longer; lra|discriminate]].
  fold (norm2 (ax0 A)) (norm2 (ax1 A)). destruct (nltb (norm2 (ax1 A)) (norm2 (ax0 A))) eqn:L.
  - apply Rltb_true in L. destruct (step_in A (ax0 A) (ax1 A) (cart_z A 1 (opt1 A 1 0) 0) (opt1 A 1 0) _ true N1 (Rlt_le _ _ L) (fun _ => E) ltac:(found) ltac:(quot) ltac:(vect)) as [H1 H2].
    lens. specialize (H2 eq_refl). split; [repeat split; lra|lra].
  - apply Rltb_false in L. destruct (step_in A (ax1 A) (ax0 A) (cart_z A (opt0 A 1 0) 1 0) (opt0 A 1 0) _ true N0 L (fun _ => eq_trans (need_comm _ _) E) ltac:(found) ltac:(quot) ltac:(vect)) as [H1 H2].
    lens. specialize (H2 eq_refl). split; [repeat split; lra|lra].
Qed.
Lemma good02 A : volume A <> 0 -> no_longer A (refine02 A) /\ (ref02 A = true -> len2 (refine02 A) < len2 A).
Proof.
  intros HV. destruct (axes_nonzero A HV) as [N0 [N1 N2]]. unfold refine02. destruct (ref02 A) eqn:E; [|split; [unfold no_longer; lra|discriminate]].
  fold (norm2 (ax0 A)) (norm2 (ax2 A)). destruct (nltb (norm2 (ax2 A)) (norm2 (ax0 A))) eqn:L.
  - apply Rltb_true in L. destruct (step_in A (ax0 A) (ax2 A) (cart_z A 1 0 (opt2 A 1 0)) (opt2 A 1 0) _ true N2 (Rlt_le _ _ L) (fun _ => E) ltac:(found) ltac:(quot) ltac:(vect)) as [H1 H2].
    lens. specialize (H2 eq_refl). split; [repeat split; lra|lra].
  - apply Rltb_false in L. destruct (step_in A (ax2 A) (ax0 A) (cart_z A (opt0 A 0 1) 0 1) (opt0 A 0 1) _ true N0 L (fun _ => eq_trans (need_comm _ _) E) ltac:(found) ltac:(quot) ltac:(vect)) as [H1 H2].
    lens. specialize (H2 eq_refl). split; [repeat split; lra|lra].
Qed.
Lemma good12 A : volume A <> 0 -> no_longer A (refine12 A) /\ (ref12 A = true -> len2 (refine12 A) < len2 A).
Proof.
  intros HV. destruct (axes_nonzero A HV) as [N0 [N1 N2]]. unfold refine12. destruct (ref12 A) eqn:E; [|split; [unfold no_longer; lra|discriminate]].
  fold (norm2 (ax1 A)) (norm2 (ax2 A)). destruct (nltb (norm2 (ax2 A)) (norm2 (ax1 A))) eqn:L.
  - apply Rltb_true in L. destruct (step_in A (ax1 A) (ax2 A) (cart_z A 0 1 (opt2 A 0 1)) (opt2 A 0 1) _ true N2 (Rlt_le _ _ L) (fun _ => E) ltac:(found) ltac:(quot) ltac:(vect)) as [H1 H2].
    lens. specialize (H2 eq_refl). split; [repeat split; lra|lra].
  - apply Rltb_false in L. destruct (step_in A (ax2 A) (ax1 A) (cart_z A 0 (opt1 A 0 1) 1) (opt1 A 0 1) _ true N1 L (fun _ => eq_trans (need_comm _ _) E) ltac:(found) ltac:(quot) ltac:(vect)) as [H1 H2].
    lens. specialize (H2 eq_refl). split; [repeat split; lra|lra].
Qed.
Lemma volume01 A : volume (refine01 A) = volume A.
Proof. unfold refine01. destruct (ref01 A); [|reflexivity]. destruct (nltb _ _); [apply same0|apply same1]. Qed.
Lemma volume02 A : volume (refine02 A) = volume A.
Proof. unfold refine02. destruct (ref02 A); [|reflexivity]. destruct (nltb _ _); [apply same0|apply same2]. Qed.
Lemma volume12 A : volume (refine12 A) = volume A.
Proof. unfold refine12. destruct (ref12 A); [|reflexivity]. destruct (nltb _ _); [apply same1|apply same2]. Qed.
Lemma round_good A : volume A <> 0 -> no_longer A (refine12 (refine02 (refine01 A))) /\ (ref_any A = true -> len2 (refine12 (refine02 (refine01 A))) < len2 A).
Proof.
  intros HV. destruct (good01 A HV) as [P0 Q0]. set (A1 := refine01 A) in *. assert (V1 : volume A1 <> 0) by (unfold A1; now rewrite volume01).
  destruct (good02 A1 V1) as [P1 Q1]. set (A2 := refine02 A1) in *. assert (V2 : volume A2 <> 0) by (unfold A2; now rewrite volume02).
  destruct (good12 A2 V2) as [P2 Q2]. set (A3 := refine12 A2) in *. unfold no_longer, len2 in *. split; [lra|]. intros H. unfold ref_any in H.
  destruct (ref01 A) eqn:E0; [specialize (Q0 eq_refl); lra|]. assert (S1 : A1 = A) by (unfold A1, refine01; now rewrite E0). rewrite S1 in *.
  destruct (ref02 A) eqn:E1; [specialize (Q1 eq_refl); lra|]. assert (S2 : A2 = A) by (unfold A2, refine02; rewrite S1, E1; reflexivity). rewrite S2 in *.
  cbn in H. specialize (Q2 H). lra.
Qed.
Lemma refine_shorter A : volume A <> 0 -> no_longer A (refine_axis A) /\ (ref_any A = true -> len2 (refine_axis A) < len2 A).
Proof.
  unfold refine_axis. assert (G : forall n A, volume A <> 0 -> no_longer A (refine_loop n A) /\ (n <> 0%nat -> ref_any A = true -> len2 (refine_loop n A) < len2 A)).
  { induction n as [|n IH]; intros B HV; [split; [unfold no_longer; cbn; lra|congruence]|]. cbn [refine_loop]. destruct (ref_any B) eqn:E; [|split; [unfold no_longer; lra|discriminate]].
    destruct (round_good B HV) as [P Q]. destruct (IH (refine12 (refine02 (refine01 B))) ltac:(now rewrite volume12, volume02, volume01)) as [P' _].
    specialize (Q E). unfold no_longer, len2 in *. split; [lra|]. intros _ _. lra. }
  intros HV. destruct (G 100%nat A HV) as [P Q]. split; [exact P|]. apply Q. discriminate.
Qed.
