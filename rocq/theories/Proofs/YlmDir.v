(** Derivatives of the spherical harmonics along any direction. *)
From Verif Require Import Base Num NumR Complex Spec.Deriv Spec.Motion Spec.Harmonics Model.Neighbor Model.Mapping Model.Harmonics Proofs.Deriv Proofs.PathDeriv Proofs.Legendre
  Proofs.HarmonicArrays Proofs.Harmonics Proofs.DirDeriv.
From Coq Require Import Reals Lra Ring.
Local Open Scope R_scope.

Lemma vc_shift a v s d : vc a (shift v s d) = vc a d + s * vc a v.
Proof. destruct a as [|[|a]]; reflexivity. Qed.
Lemma ratio_dir a v d : 0 < norm2 d ->
  has_deriv (fun t => vc a (shift v t d) / norm (shift v t d)) 0 ((vc a v - (vc a d / norm d) * (vdot v d / norm d)) / norm d).
Proof.
  intros Hd. pose proof (PathDeriv.norm_pos d Hd) as Hn. pose proof (norm_shift v d Hd) as N.
  assert (V : has_deriv (fun t => vc a (shift v t d)) 0 (vc a v)).
  { refine (hd_ext _ _ _ _ _ (fun s => eq_sym (vc_shift a v s d)) _ (hd_add (fun _ => vc a d) (fun u => u * vc a v) _ _ _ (hd_const _ 0) (hd_mul (fun u => u) (fun _ => vc a v) _ _ _ (hd_id 0) (hd_const _ 0)))). ring. }
  assert (Hn0 : norm (shift v 0 d) <> 0) by (rewrite shift_0; lra).
  pose proof (derivable_pt_lim_div _ _ 0 _ _ V N Hn0) as Q.
  refine (hd_ext _ _ _ _ _ (fun _ => eq_refl) _ Q). rewrite shift_0. unfold Rsqr. revert Hn. generalize (norm d) (vdot v d). intros r y Hr. field. lra.
Qed.
Lemma sph_dir l m v d : 0 < norm2 d -> has_cderiv (fun t => sph_neg l m (shift v t d)) 0 (sum3 (fun c => cscale (vc c v) (sph_d l m c d))).
Proof.
  intros Hd. pose proof (PathDeriv.norm_pos d Hd) as Hn.
  pose proof (ratio_dir 0 v d Hd) as X. pose proof (ratio_dir 1 v d Hd) as Y. pose proof (ratio_dir 2 v d Hd) as Z.
  set (gx := fun t => vc 0 (shift v t d) / norm (shift v t d)) in *. set (gy := fun t => vc 1 (shift v t d) / norm (shift v t d)) in *. set (gz := fun t => vc 2 (shift v t d) / norm (shift v t d)) in *.
  assert (W : has_cderiv (fun t => (gx t, - gy t)) 0 ((vc 0 v - (vc 0 d / norm d) * (vdot v d / norm d)) / norm d, - ((vc 1 v - (vc 1 d / norm d) * (vdot v d / norm d)) / norm d))).
  { split; [exact X|]. apply (hd_opp gy). exact Y. }
  pose proof (cd_pow _ _ _ m W) as P.
  assert (T : has_deriv (fun t => ynorm l m * U l m (gz t)) 0 (ynorm l m * (U l (S m) (gz 0) * ((vc 2 v - (vc 2 d / norm d) * (vdot v d / norm d)) / norm d)))).
  { apply hd_scale. apply (hd_comp gz (U l m)); [exact Z|apply U_deriv]. }
  pose proof (cd_scale_f _ _ _ _ _ T P) as Q. refine (cd_ext _ _ _ _ _ _ _ Q).
  - intros t. unfold sph_neg. rewrite U_derive. reflexivity.
  - unfold sph_d. cbv beta. assert (Gx : gx 0 = vc 0 d / norm d) by (unfold gx; now rewrite shift_0). assert (Gy : gy 0 = vc 1 d / norm d) by (unfold gy; now rewrite shift_0). assert (Gz : gz 0 = vc 2 d / norm d) by (unfold gz; now rewrite shift_0).
    rewrite Gx, Gy, Gz. cbv zeta. replace (vdot v d) with (vc 0 v * vc 0 d + vc 1 v * vc 1 d + vc 2 v * vc 2 d) by reflexivity.
    set (A := cpow _ m). set (A' := cpow _ (m - 1)). generalize (U l (S m) (vc 2 d / norm d)) (U l m (vc 2 d / norm d)) (INR m) (ynorm l m). clearbody A A'. intros U1 U0 mm y. destruct A as [p q], A' as [p' q']. revert Hn. generalize (norm d). clear. intros r Hr.
    unfold sum3. cbn [Nat.eqb]. apply cx_eq; cbn [re im of_real cscale conj fst snd n1 n0 nopp nadd nmul nsub cadd cmul csub copp Cx_num R_num]; field; lra.
Qed.
Lemma sum3_0 : sum3 (fun _ : nat => (0, 0) : Cx R) = n0.
Proof. apply cx_eq; cbn; ring. Qed.
Lemma ylm_shift lmax key d v : 0 < norm2 d -> has_cderiv (fun t => get_ylm lmax key (shift v t d)) 0 (sum3 (fun c => cscale (vc c v) (get_ylm_d lmax c key d))).
Proof.
  intros Hd. pose proof (PathDeriv.norm_pos d Hd) as Hn. destruct (key_dec lmax key) as [[l [m [H <-]]]|H].
  - unfold sum3. rewrite !get_ylm_d_closed by (try assumption; try lia; lra). destruct (hd_cont _ _ _ (norm d) Hn (norm_shift v d Hd)) as [r [Hr E]].
    apply (cd_near (fun t => sph_neg l m (shift v t d)) _ _ _ r Hr); [|now apply sph_dir]. intros t Ht. symmetry. apply get_ylm_closed; [exact H|]. intros E'. specialize (E t Ht).
    rewrite E', shift_0 in E. rewrite Rabs_left in E; lra.
  - unfold sum3. rewrite !(proj2 (get_ylm_out lmax key d H)). apply (cd_ext (fun _ => n0) _ _ n0); [intros t; now rewrite (proj1 (get_ylm_out lmax key _ H))|apply cx_eq; cbn; ring|apply cd_const].
Qed.
