(** The derivative arrays are derivatives. *)
From Verif Require Import Base Num NumR Complex Spec.Poly Spec.Gtinv Spec.Deriv Model.Cxx Model.Mapping Model.ModelParams Model.Features Model.Potential
  Model.Neighbor Model.Compute Proofs.Cxx Proofs.Sums Proofs.FeatureVals Proofs.Potential Proofs.PerAtom Proofs.GtinvFeatures Proofs.OrderParams
  Proofs.EvalGtinv Proofs.EvalPair.
From Coq Require Import Reals Lra Ring.
Local Open Scope R_scope.

Lemma hd_ext f g s l l' : (forall x, f x = g x) -> l = l' -> has_deriv f s l -> has_deriv g s l'.
Proof.
  intros E <- H eps He. destruct (H eps He) as [del Hd]. exists del. intros h H1 H2. rewrite <- !E. now apply Hd.
Qed.
(** Only the values near the point count. *)
Lemma hd_near f g s l r : 0 < r -> (forall x, Rabs (x - s) < r -> f x = g x) -> has_deriv f s l -> has_deriv g s l.
Proof.
  intros Hr E H eps He. destruct (H eps He) as [del Hd]. assert (Hm : 0 < Rmin del r) by (apply Rmin_glb_lt; [apply cond_pos|exact Hr]).
  exists (mkposreal _ Hm). cbn. intros h H1 H2. rewrite <- !E.
  - apply Hd; [exact H1|]. eapply Rlt_le_trans; [exact H2|apply Rmin_l].
  - replace (s - s) with 0 by ring. rewrite Rabs_R0. exact Hr.
  - replace (s + h - s) with h by ring. eapply Rlt_le_trans; [exact H2|apply Rmin_r].
Qed.
Lemma hd_const c s : has_deriv (fun _ => c) s 0.
Proof. apply derivable_pt_lim_const. Qed.
Lemma hd_id s : has_deriv (fun x => x) s 1.
Proof. apply derivable_pt_lim_id. Qed.
Lemma hd_add f g s l l' : has_deriv f s l -> has_deriv g s l' -> has_deriv (fun x => f x + g x) s (l + l').
Proof. apply derivable_pt_lim_plus. Qed.
Lemma hd_opp f s l : has_deriv f s l -> has_deriv (fun x => - f x) s (- l).
Proof. apply derivable_pt_lim_opp. Qed.
Lemma hd_sub f g s l l' : has_deriv f s l -> has_deriv g s l' -> has_deriv (fun x => f x - g x) s (l - l').
Proof. apply derivable_pt_lim_minus. Qed.
Lemma hd_mul f g s l l' : has_deriv f s l -> has_deriv g s l' -> has_deriv (fun x => f x * g x) s (l * g s + f s * l').
Proof. apply derivable_pt_lim_mult. Qed.
Lemma hd_scale c f s l : has_deriv f s l -> has_deriv (fun x => c * f x) s (c * l).
Proof. intros H. apply (hd_ext _ _ _ (0 * f s + c * l) _ (fun x => eq_refl)); [ring|]. apply (hd_mul (fun _ => c)); [apply hd_const|exact H]. Qed.
Lemma hd_comp f g s l l' : has_deriv f s l -> has_deriv g (f s) l' -> has_deriv (fun x => g (f x)) s (l' * l).
Proof. apply derivable_pt_lim_comp. Qed.
Lemma hd_sum {X} (f : X -> R -> R) (d : X -> R) l s : (forall x, In x l -> has_deriv (f x) s (d x)) -> has_deriv (fun y => nsumf (fun x => f x y) l) s (nsumf d l).
Proof.
  induction l as [|x l IH]; intros H; [exact (hd_const 0 s)|].
  apply (hd_ext (fun y => f x y + nsumf (fun x => f x y) l) _ _ (d x + nsumf d l)); [intros y; now rewrite nsumf_cons|now rewrite nsumf_cons|].
  apply hd_add; [apply H; now left|apply IH; intros; apply H; now right].
Qed.
Lemma cd_const z s : has_cderiv (fun _ => z) s n0.
Proof. split; apply hd_const. Qed.
Lemma cd_ext f g s l l' : (forall x, f x = g x) -> l = l' -> has_cderiv f s l -> has_cderiv g s l'.
Proof. intros E <- [H1 H2]. split; [apply (hd_ext _ _ _ _ _ (fun x => f_equal re (E x)) eq_refl H1)|apply (hd_ext _ _ _ _ _ (fun x => f_equal im (E x)) eq_refl H2)]. Qed.
Lemma cd_near f g s l r : 0 < r -> (forall x, Rabs (x - s) < r -> f x = g x) -> has_cderiv f s l -> has_cderiv g s l.
Proof. intros Hr E [H1 H2]. split; eapply hd_near; try exact Hr; try eassumption; cbn; intros x Hx; now rewrite (E x Hx). Qed.
Lemma cd_add f g s l l' : has_cderiv f s l -> has_cderiv g s l' -> has_cderiv (fun x => nadd (f x) (g x)) s (nadd l l').
Proof. intros [H1 H2] [H3 H4]. split; cbn; now apply hd_add. Qed.
Lemma cd_mul f g s l l' : has_cderiv f s l -> has_cderiv g s l' -> has_cderiv (fun x => nmul (f x) (g x)) s (nadd (nmul l (g s)) (nmul (f s) l')).
Proof.
  intros [H1 H2] [H3 H4]. split.
  - apply (hd_ext (fun x => re (f x) * re (g x) - im (f x) * im (g x)) _ _ ((re l * re (g s) + re (f s) * re l') - (im l * im (g s) + im (f s) * im l'))); [reflexivity|cbn; ring|].
    apply hd_sub; now apply hd_mul.
  - apply (hd_ext (fun x => re (f x) * im (g x) + im (f x) * re (g x)) _ _ ((re l * im (g s) + re (f s) * im l') + (im l * re (g s) + im (f s) * re l'))); [reflexivity|cbn; ring|].
    apply hd_add; now apply hd_mul.
Qed.
Lemma cd_scale_f (c : R -> R) f s l l' : has_deriv c s l -> has_cderiv f s l' -> has_cderiv (fun x => cscale (c x) (f x)) s (nadd (cscale l (f s)) (cscale (c s) l')).
Proof. intros H [H1 H2]. split; cbn; now apply hd_mul. Qed.
Lemma cd_scale (c : R) f s l : has_cderiv f s l -> has_cderiv (fun x => cscale c (f x)) s (cscale c l).
Proof. intros [H1 H2]. split; cbn; now apply hd_scale. Qed.
Lemma cd_conj f s l : has_cderiv f s l -> has_cderiv (fun x => conj (f x)) s (conj l).
Proof. intros [H1 H2]. split; cbn; [exact H1|now apply hd_opp]. Qed.
Lemma cd_sum {X} (f : X -> R -> Cx R) (d : X -> Cx R) l s : (forall x, In x l -> has_cderiv (f x) s (d x)) -> has_cderiv (fun y => nsumf (fun x => f x y) l) s (nsumf d l).
Proof.
  induction l as [|x l IH]; intros H; [exact (cd_const n0 s)|].
  apply (cd_ext (fun y => nadd (f x y) (nsumf (fun x => f x y) l)) _ _ (nadd (d x) (nsumf d l))); [intros y; now rewrite nsumf_cons|now rewrite nsumf_cons|].
  apply cd_add; [apply H; now left|apply IH; intros; apply H; now right].
Qed.
Lemma cd_comp_lin f w l : has_cderiv f 0 l -> has_cderiv (fun x => f (w * x)) 0 (cscale w l).
Proof.
  intros [H1 H2]. assert (Hw : has_deriv (fun x => w * x) 0 w) by (apply (hd_ext _ _ _ (w * 1) _ (fun x => eq_refl)); [ring|apply hd_scale, hd_id]).
  assert (E : w * 0 = 0) by ring.
  split; cbn.
  - apply (hd_ext _ _ _ (re l * w) _ (fun x => eq_refl)); [ring|]. apply (hd_comp (fun x => w * x) (fun x => re (f x))); [exact Hw|]. rewrite E. exact H1.
  - apply (hd_ext _ _ _ (im l * w) _ (fun x => eq_refl)); [ring|]. apply (hd_comp (fun x => w * x) (fun x => im (f x))); [exact Hw|]. rewrite E. exact H2.
Qed.

(** Products and polynomials. *)
Lemma cd_prod (a : R -> nat -> Cx R) (d : nat -> Cx R) s ids : (forall h, In h ids -> has_cderiv (fun x => a x h) s (d h)) ->
  dval (nprod (map (fun h => D (a s h) (d h)) ids)) = nprod (map (a s) ids) /\
  has_cderiv (fun x => nprod (map (a x) ids)) s (dder (nprod (map (fun h => D (a s h) (d h)) ids))).
Proof.
  induction ids as [|h ids IH]; intros H; [split; [reflexivity|exact (cd_const n1 s)]|].
  destruct IH as [E IH]; [intros; apply H; now right|]. cbn [map nprod fold_right]. fold (nprod (map (fun h => D (a s h) (d h)) ids)). fold (nprod (map (a s) ids)).
  cbn [nmul dual_num dval dder]. rewrite E. split; [reflexivity|].
  refine (cd_ext _ _ _ _ _ (fun x => eq_refl) _ (cd_mul (fun x => a x h) (fun x => nprod (map (a x) ids)) s (d h) _ (H h (or_introl eq_refl)) IH)).
  destruct (d h), (a s h), (nprod (map (a s) ids)), (dder (nprod (map (fun h => D (a s h) (d h)) ids))). apply cx_eq; cbn; ring.
Qed.
Lemma hd_prod (v : R -> nat -> R) (d : nat -> R) s ids : (forall h, In h ids -> has_deriv (fun x => v x h) s (d h)) ->
  dval (nprod (map (fun h => D (v s h) (d h)) ids)) = nprod (map (v s) ids) /\
  has_deriv (fun x => nprod (map (v x) ids)) s (dder (nprod (map (fun h => D (v s h) (d h)) ids))).
Proof.
  induction ids as [|h ids IH]; intros H; [split; [reflexivity|exact (hd_const 1 s)]|].
  destruct IH as [E IH]; [intros; apply H; now right|]. cbn [map nprod fold_right]. fold (nprod (map (fun h => D (v s h) (d h)) ids)). fold (nprod (map (v s) ids)).
  cbn [nmul dual_num dval dder]. rewrite E. split; [reflexivity|].
  refine (hd_ext _ _ _ _ _ (fun x => eq_refl) _ (hd_mul (fun x => v x h) (fun x => nprod (map (v x) ids)) s (d h) _ (H h (or_introl eq_refl)) IH)).
  cbn. ring.
Qed.
Lemma mval_deriv v d s ids : (forall h, In h ids -> has_deriv (fun x => v x h) s (d h)) -> has_deriv (fun x => mval (v x) ids) s (mder (v s) d ids).
Proof. intros H. apply (hd_prod v d s ids H). Qed.
Lemma fval_deriv (p : list (R * list nat)) a d s : (forall h, (exists t, In t p /\ In h (snd t)) -> has_cderiv (fun x => a x h) s (d h)) ->
  has_deriv (fun x => fval p (a x)) s (fder p (a s) d).
Proof.
  intros H. assert (G : has_cderiv (fun x => pval of_real p (a x)) s (dder (pval (fun c => D (of_real c) n0) p (fun h => D (a s h) (d h))))); [|apply G].
  unfold pval. induction p as [|t p IH]; [exact (cd_const n0 s)|].
  apply (cd_ext (fun x => nadd (nmul (of_real (fst t)) (nprod (map (a x) (snd t)))) (nsumf (fun t => nmul (of_real (fst t)) (nprod (map (a x) (snd t)))) p)) _ _
    (nadd (nmul (of_real (fst t)) (dder (nprod (map (fun h => D (a s h) (d h)) (snd t)))))
          (dder (nsumf (fun t => nmul (D (of_real (fst t)) n0) (nprod (map (fun h => D (a s h) (d h)) (snd t)))) p)))).
  - intros x. now rewrite nsumf_cons.
  - rewrite nsumf_cons. cbn [nadd nmul dual_num dder dval]. destruct (dder (nprod (map (fun h => D (a s h) (d h)) (snd t)))), (dder (nsumf _ p)), (dval (nprod (map (fun h => D (a s h) (d h)) (snd t)))).
    apply cx_eq; cbn; ring.
  - apply cd_add.
    + refine (cd_ext _ _ _ _ _ (fun x => eq_refl) _ (cd_mul (fun _ => of_real (fst t)) (fun x => nprod (map (a x) (snd t))) s n0 _ (cd_const _ s) (proj2 (cd_prod a d s (snd t) _)))).
      * destruct (nprod (map (a s) (snd t))), (dder _). apply cx_eq; cbn; ring.
      * intros h Hh. apply H. exists t. split; [now left|exact Hh].
    + apply IH. intros h [t' [Ht Hh]]. apply H. exists t'. split; [now right|exact Hh].
Qed.

(** Sign of the direction. *)
Lemma mder_opp (v d : nat -> R) ids : mder v (fun h => - d h) ids = - mder v d ids.
Proof. rewrite !mder_expand. symmetry. refine (eq_trans (eq_sym (nsumf_opp _ _)) _). apply nsumf_ext'. intros j. cbn. ring. Qed.
Lemma mder_ext' (v d v' d' : nat -> R) ids : (forall i, In i ids -> v i = v' i) -> (forall i, In i ids -> d i = d' i) -> mder v d ids = mder v' d' ids.
Proof. intros H1 H2. unfold mder. do 2 f_equal. apply map_ext_in. intros i Hi. now rewrite H1, H2. Qed.
Lemma fder_opp (p : list (R * list nat)) a (d : nat -> Cx R) : fder p a (fun h => nopp (d h)) = - fder p a d.
Proof.
  rewrite !fder_expand. symmetry. refine (eq_trans (eq_sym (nsumf_opp _ _)) _). apply nsumf_ext'. intros t. refine (eq_trans (eq_sym (nsumf_opp _ _)) _). apply nsumf_ext'. intros j. unfold prod_real. cbn. ring.
Qed.
Lemma fder_ext (p : list (R * list nat)) (a a' d d' : nat -> Cx R) : (forall h, (exists t, In t p /\ In h (snd t)) -> a h = a' h /\ d h = d' h) -> fder p a d = fder p a' d'.
Proof.
  intros H. unfold fder. f_equal. f_equal. unfold pval. apply nsumf_ext. intros t Ht. f_equal. f_equal. apply map_ext_in. intros h Hh.
  destruct (H h) as [-> ->]; [now exists t|reflexivity].
Qed.

(** Distance along an axis. *)
Lemma norm2_along c s d : norm2 (along c s d) = norm2 d + (2 * vc c d * s + s * s).
Proof. destruct c as [|[|c]]; unfold norm2, vdot, along, vc; cbn; ring. Qed.
Lemma norm_along c d : 0 < norm2 d -> has_deriv (fun s => norm (along c s d)) 0 (vc c d / norm d).
Proof.
  intros Hd. assert (H : has_deriv (fun s => norm2 d + (2 * vc c d * s + s * s)) 0 (0 + (2 * vc c d * 1 + (1 * 0 + 0 * 1)))).
  { apply hd_add; [apply hd_const|]. apply hd_add; [apply hd_scale, hd_id|]. apply (hd_mul (fun x => x) (fun x => x)); apply hd_id. }
  assert (Hs : has_deriv sqrt (norm2 d) (/ (2 * sqrt (norm2 d)))) by (now apply derivable_pt_lim_sqrt).
  assert (Hp : 0 < sqrt (norm2 d)) by (now apply sqrt_lt_R0).
  refine (hd_ext _ _ _ _ _ _ _ (hd_comp _ sqrt 0 _ (/ (2 * sqrt (norm2 d))) H _)).
  - intros s. unfold norm. cbn [nsqrt R_ord]. now rewrite norm2_along.
  - unfold norm. change (nsqrt (norm2 d)) with (sqrt (norm2 d)). set (x := sqrt (norm2 d)) in *. set (y := vc c d). field. lra.
  - replace (norm2 d + (2 * vc c d * 0 + 0 * 0)) with (norm2 d) by ring. exact Hs.
Qed.
Lemma hd_cont f s l eps : 0 < eps -> has_deriv f s l -> exists r, 0 < r /\ forall x, Rabs (x - s) < r -> Rabs (f x - f s) < eps.
Proof.
  intros He H. assert (C : continuity_pt f s) by (apply derivable_continuous_pt; exists l; exact H).
  destruct (C eps He) as [r [Hr Hx]]. exists r. split; [exact Hr|]. intros x Hxs. destruct (Req_dec x s) as [->|Hne].
  - replace (f s - f s) with 0 by ring. rewrite Rabs_R0. exact He.
  - apply Hx. split; [|exact Hxs]. split; [exact I|]. intros E. apply Hne. now symmetry.
Qed.
