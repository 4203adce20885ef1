(** Closed form of the spherical harmonics, their derivatives, parity and scaling. *)
From Verif Require Import Base Num NumR Complex Spec.Deriv Spec.Gtinv Model.Neighbor Model.Compute Model.Harmonics Spec.Harmonics Proofs.Deriv Proofs.Legendre Proofs.HarmonicArrays.
From Coq Require Import Reals Lra Factorial.
Local Open Scope R_scope.

(** Initial values *)
Lemma two_sqrt2 : sqrt 2 * (1 / 2 * sqrt 2) = 1.
Proof. replace (sqrt 2 * (1 / 2 * sqrt 2)) with (1 / 2 * (sqrt 2 * sqrt 2)) by ring. rewrite sqrt_sqrt; lra. Qed.
Lemma y00 : sqrt_inv_2pi = sqrt 2 * ynorm 0 0.
Proof.
  unfold sqrt_inv_2pi, ynorm. pose proof PI_RGT_0. rewrite <- sqrt_mult_alt by lra. f_equal. change (INR (fact (0 - 0))) with 1. change (INR (fact (0 + 0))) with 1. cbn [INR]. field. lra.
Qed.
Lemma y10 : sqrt 3 * sqrt_inv_2pi = sqrt 2 * ynorm 1 0.
Proof.
  unfold sqrt_inv_2pi, ynorm. pose proof PI_RGT_0. rewrite <- !sqrt_mult_alt by lra. f_equal. change (INR (fact (1 - 0))) with 1. change (INR (fact (1 + 0))) with 1. cbn [INR]. field. lra.
Qed.
Lemma y11 : sqrt (3 / 2) * sqrt_inv_2pi = sqrt 2 * ynorm 1 1.
Proof.
  unfold sqrt_inv_2pi, ynorm. pose proof PI_RGT_0. rewrite <- !sqrt_mult_alt by lra. f_equal. change (INR (fact (1 - 1))) with 1. change (INR (fact (1 + 1))) with 2. cbn [INR]. field. lra.
Qed.

Section Lmax.
  Variable lmax : nat.
  Lemma p_ok u l m : (m <= l <= lmax)%nat -> legendre_p lmax u (lm2i l m) = sqrt 2 * (- sqrt (1 - u * u)) ^ m * ynorm l m * U l m u.
  Proof.
    intros H. apply (array_ok lmax u (fun m => sqrt 2 * (- sqrt (1 - u * u)) ^ m)); try lia; unfold V; rewrite ?U_00, ?U_1; cbn [pow].
    - intros k _. cbn [pow]. ring.
    - rewrite y00. ring.
    - rewrite Rmult_assoc, y10. ring.
    - rewrite Rmult_assoc, y11. ring.
  Qed.
  Definition gq (u : R) (m : nat) : R := match m with 0%nat => 0 | S m => - sqrt 2 * (- sqrt (1 - u * u)) ^ m end.
  Lemma q_ok u l m : (m <= l <= lmax)%nat -> legendre_q lmax u (lm2i l m) = gq u m * ynorm l m * U l m u.
  Proof.
    intros H. apply (array_ok lmax u (gq u)); try lia; unfold V; rewrite ?U_00, ?U_1; cbn [gq pow].
    - intros [|k] Hk; [lia|]. cbn [gq pow]. ring.
    - ring.
    - ring.
    - transitivity (- (sqrt (3 / 2) * sqrt_inv_2pi)); [ring|]. rewrite y11. ring.
  Qed.

  Lemma conj_cpow z m : conj (cpow z m) = cpow (conj z) m.
  Proof. induction m as [|m IH]; [apply cx_eq; cbn; ring|]. now rewrite !cpow_S, conj_mul, IH. Qed.
  Lemma cpow_scale s z m : cpow (cscale s z) m = cscale (s ^ m) (cpow z m).
  Proof. induction m as [|m IH]; [apply cx_eq; cbn; ring|]. rewrite !cpow_S, IH. destruct (cpow z m). apply cx_eq; cbn; ring. Qed.
  Lemma sgn_pow s m : sgn_m m * (- s) ^ m = s ^ m.
  Proof. unfold sgn_m. rewrite <- Rpow_mult_distr. f_equal. ring. Qed.

  Section Angles.
    Variables u s ca sa : R.
    Hypothesis Hs : sqrt (1 - u * u) = s.
    Hypothesis Hu : u * u + s * s = 1.
    Hypothesis Ha : ca * ca + sa * sa = 1.
    Let w : Cx R := (s * ca, - (s * sa)).
    Lemma w_scale : w = cscale s (conj (ca, sa)).
    Proof. apply cx_eq; cbn; ring. Qed.
    Lemma ylm_closed l m : (m <= l <= lmax)%nat -> compute_ylm lmax u ca sa (lm2i_negm l m) = cscale (ynorm l m * U l m u) (cpow w m).
    Proof.
      intros H. unfold compute_ylm. rewrite fill_in by assumption. rewrite w_scale, cpow_scale, <- conj_cpow. unfold half_sqrt2. destruct m as [|m].
      - cbn [entry]. rewrite p_ok by lia. pose proof two_sqrt2 as E. set (t := sqrt 2) in *. clearbody t. apply cx_eq; cbn [re im of_real cscale conj fst snd pow cpow n1 n0 nopp nmul Cx_num R_num]; [|ring].
        transitivity (t * (1 / 2 * t) * (ynorm l 0 * U l 0 u)); [ring|]. rewrite E. ring.
      - cbn [entry]. rewrite p_ok, Hs by lia. pose proof two_sqrt2 as E. set (t := sqrt 2) in *. clearbody t.
        assert (F : sgn_m (S m) * (t * (- s) ^ S m * ynorm l (S m) * U l (S m) u) * (1 / 2 * t) = ynorm l (S m) * U l (S m) u * s ^ S m).
        { transitivity ((t * (1 / 2 * t)) * (sgn_m (S m) * (- s) ^ S m) * (ynorm l (S m) * U l (S m) u)); [ring|]. rewrite E, sgn_pow. ring. }
        rewrite F. destruct (cpow (ca, sa) (S m)) as [a b]. apply cx_eq; cbn; ring.
    Qed.
    (** derivative of the direction (X, Y, u) times the length, along axis c; then of w *)
    Definition dir (c : nat) : R := match c with 0%nat => s * ca | 1%nat => s * sa | _ => u end.
    Definition du (c : nat) : R := (match c with 0%nat | 1%nat => 0 | _ => 1 end) - u * dir c.
    Definition dw (c : nat) : Cx R := ((match c with 0%nat => 1 | _ => 0 end) - s * ca * dir c, - ((match c with 1%nat => 1 | _ => 0 end) - s * sa * dir c)).
    Definition ylm_dir (l m c : nat) : Cx R :=
      nadd (cscale (ynorm l m * U l (S m) u * du c) (cpow w m))
           (cscale (ynorm l m * U l m u * INR m) (nmul (cpow w (m - 1)) (dw c))).
    Lemma up l m : (m <= l)%nat -> ynorm l m * U l (S m) u = if (m =? l)%nat then 0 else sqrt (INR ((l - m) * (l + m + 1))) * ynorm l (S m) * U l (S m) u.
    Proof.
      intros H. destruct (Nat.eqb_spec m l) as [->|N]; [rewrite U_above by lia; ring|]. rewrite <- ynorm_up by lia. reflexivity.
    Qed.
    Lemma ylm_d_closed l m c r : (m <= l <= lmax)%nat -> compute_ylm_d lmax u ca sa r c (lm2i_negm l m) = cscale (1 / r) (ylm_dir l m c).
    Proof.
      intros H. unfold compute_ylm_d. rewrite fill_in by assumption. rewrite Hs. set (i := 1 / r). clearbody i. unfold half_sqrt2. destruct m as [|m].
      - cbn [entry]. assert (E : legendre_q lmax u (lm2i l 1) * s * i * sqrt (1 / 2 * INR l * INR (l + 1)) = - (ynorm l 0 * U l 1 u) * s * i).
        { rewrite up by lia. destruct (Nat.eqb_spec 0 l) as [<-|N].
          - replace (1 / 2 * INR 0 * INR (0 + 1)) with 0 by (cbn; ring). rewrite sqrt_0. ring.
          - rewrite q_ok by lia. cbn [gq pow].
            assert (F : sqrt (INR ((l - 0) * (l + 0 + 1))) = sqrt 2 * sqrt (1 / 2 * INR l * INR (l + 1))).
            { rewrite <- sqrt_mult_alt by lra. f_equal. rewrite Nat.sub_0_r, Nat.add_0_r, mult_INR. field. }
            rewrite F. ring. }
        rewrite E. unfold ylm_dir, du, dw, dir. destruct c as [|[|c]]; (apply cx_eq; cbn [re im of_real cscale conj fst snd pow cpow n1 n0 nopp nadd nmul nsub cadd cmul Cx_num R_num INR]; [|ring]).
        + ring.
        + ring.
        + transitivity (ynorm l 0 * U l 1 u * i * (s * s)); [ring|]. replace (s * s) with (1 - u * u) by lra. ring.
      - cbn [entry]. set (M := S m). set (k := sqrt (INR ((l - M) * (l + M + 1)))).
        assert (Q : legendre_q lmax u (lm2i l M) = - sqrt 2 * (- s) ^ m * (ynorm l M * U l M u)) by (rewrite q_ok by lia; unfold M; cbn [gq]; rewrite Hs; ring).
        assert (Q' : (if (M =? l)%nat then 0 else k * legendre_q lmax u (lm2i l (M + 1)) * s) = - sqrt 2 * (- s) ^ m * (- (s * s)) * (ynorm l M * U l (S M) u)).
        { rewrite up by lia. destruct (Nat.eqb_spec M l) as [_|N]; [ring|]. rewrite q_ok by lia. replace (M + 1)%nat with (S M) by lia. unfold M at 2. cbn [gq]. rewrite Hs.
          fold M k. unfold M at 1. cbn [pow]. ring. }
        rewrite Q, Q'. unfold ylm_dir. replace (M - 1)%nat with m by lia.
        assert (W0 : cpow w m = cscale (s ^ m) (conj (cpow (ca, sa) m))) by (rewrite w_scale, cpow_scale, <- conj_cpow; reflexivity).
        assert (W1 : cpow w M = nmul w (cpow w m)) by reflexivity. rewrite W1, W0. clear W0 W1.
        set (T := ynorm l M * U l M u). set (T' := ynorm l M * U l (S M) u). clearbody T T'.
        pose proof two_sqrt2 as E2. set (t := sqrt 2) in *. clearbody t k.
        assert (G : sgn_m M * (- s) ^ m = - s ^ m) by (unfold M, sgn_m; cbn [pow]; rewrite Rmult_assoc; fold (sgn_m m); rewrite sgn_pow; ring).
        set (S0 := (- s) ^ m) in *. set (S1 := s ^ m) in *. clearbody S0 S1. set (sg := sgn_m M) in *. clearbody sg. set (n := INR M). clearbody n.
        set (zm := cpow (ca, sa) m). assert (Z : cpow (ca, sa) M = nmul (ca, sa) zm) by reflexivity. rewrite Z. clear Z. destruct zm as [a b].
        assert (E3 : forall x, sg * (t * (1 / 2 * t) * S0 * x) = - S1 * x) by (intros x; rewrite E2; transitivity (sg * S0 * x); [ring|rewrite G; ring]).
        clear E2 G Q Q' Hs.
        assert (Uu : u * u = 1 - s * s) by lra. assert (Ss : sa * sa = 1 - ca * ca) by lra.
        set (D := n * u * T - s * s * T').
        assert (E4 : forall x y z, x = t * (1 / 2 * t) * S0 * y -> - S1 * y = z -> sg * x = z) by (intros x y z -> <-; apply E3).
        destruct c as [|[|c]]; unfold du, dw, dir, w; (apply cx_eq; cbn [re im of_real cscale conj fst snd n1 n0 nopp nadd nmul nsub cadd cmul csub copp Cx_num R_num]).
        + apply (E4 _ (- i * ((ca * a - sa * b) * (D * u * ca) + (ca * b + sa * a) * (n * T * sa)))); unfold D; [ring|ring [Uu Ss]].
        + apply (E4 _ (i * ((ca * b + sa * a) * (D * u * ca) - (ca * a - sa * b) * (n * T * sa)))); unfold D; [ring|ring [Uu Ss]].
        + apply (E4 _ (- i * ((ca * a - sa * b) * (D * u * sa) - (ca * b + sa * a) * (n * T * ca)))); unfold D; [ring|ring [Uu Ss]].
        + apply (E4 _ (i * ((ca * b + sa * a) * (D * u * sa) + (ca * a - sa * b) * (n * T * ca)))); unfold D; [ring|ring [Uu Ss]].
        + apply (E4 _ (i * s * D * (ca * a - sa * b))); unfold D; [ring|ring [Uu Ss]].
        + apply (E4 _ (- i * s * D * (ca * b + sa * a))); unfold D; [ring|ring [Uu Ss]].
    Qed.
  End Angles.
End Lmax.

(** Angles of a vector *)
Lemma norm_R d : norm d = sqrt (vx d * vx d + vy d * vy d + vz d * vz d).
Proof. reflexivity. Qed.
Lemma sq_nonneg a : 0 <= a * a.
Proof. apply Rle_0_sqr. Qed.
Lemma norm_sq_R d : norm d * norm d = vx d * vx d + vy d * vy d + vz d * vz d.
Proof. rewrite norm_R. apply sqrt_sqrt. pose proof (sq_nonneg (vx d)). pose proof (sq_nonneg (vy d)). pose proof (sq_nonneg (vz d)). lra. Qed.
Lemma norm_nonneg d : 0 <= norm d.
Proof. rewrite norm_R. apply sqrt_pos. Qed.
Lemma norm_pos d : 0 < norm2 d -> 0 < norm d.
Proof. intros H. rewrite norm_R. now apply sqrt_lt_R0. Qed.
Lemma angles d : norm d <> 0 ->
  let u := vz d / norm d in let s := sqrt (1 - u * u) in
  s * fst (azimuth d) = vx d / norm d /\ s * snd (azimuth d) = vy d / norm d /\ u * u + s * s = 1 /\
  fst (azimuth d) * fst (azimuth d) + snd (azimuth d) * snd (azimuth d) = 1.
Proof.
  intros Hr u s. pose proof (norm_nonneg d) as Hn. pose proof (norm_sq_R d) as E. set (r := norm d) in *.
  pose proof (sq_nonneg (vx d)) as X. pose proof (sq_nonneg (vy d)) as Y. set (rho := sqrt (vx d * vx d + vy d * vy d)).
  assert (R2 : rho * rho = vx d * vx d + vy d * vy d) by (apply sqrt_sqrt; lra). assert (R0 : 0 <= rho) by apply sqrt_pos.
  assert (Es : s = rho / r).
  { unfold s. replace (1 - u * u) with ((rho / r) * (rho / r)).
    - apply sqrt_square. apply Rmult_le_pos; [exact R0|]. apply Rlt_le, Rinv_0_lt_compat. lra.
    - unfold u. apply Rmult_eq_reg_r with (r * r); [|apply Rmult_integral_contrapositive; split; exact Hr].
      transitivity (rho * rho); [field; exact Hr|]. transitivity (r * r - vz d * vz d); [rewrite E, R2; ring|field; exact Hr]. }
  assert (Hu : u * u + s * s = 1).
  { rewrite Es. unfold u. apply Rmult_eq_reg_r with (r * r); [|apply Rmult_integral_contrapositive; split; exact Hr].
    transitivity (vz d * vz d + rho * rho); [field; exact Hr|]. rewrite R2. lra. }
  unfold azimuth. fold rho. destruct (Rltb 0 rho) eqn:L.
  - apply Rltb_true in L. cbn [fst snd]. rewrite Es. repeat split; try (field; lra); [rewrite Es in Hu; exact Hu|].
    apply Rmult_eq_reg_r with (rho * rho); [|apply Rmult_integral_contrapositive; lra]. transitivity (vx d * vx d + vy d * vy d); [field; lra|lra].
  - apply Rltb_false in L. assert (Z : rho = 0) by lra. rewrite Z in R2, Es. cbn [fst snd].
    assert (X0 : vx d = 0) by (apply Rsqr_0_uniq; unfold Rsqr; lra). assert (Y0 : vy d = 0) by (apply Rsqr_0_uniq; unfold Rsqr; lra).
    rewrite Es, X0, Y0. unfold Rdiv. rewrite Es in Hu. repeat split; try ring. exact Hu.
Qed.

Section Values.
  Variable lmax : nat.
  Lemma ylm_is d key : norm d <> 0 -> get_ylm lmax key d = compute_ylm lmax (vz d / norm d) (fst (azimuth d)) (snd (azimuth d)) key.
  Proof. intros H. unfold get_ylm. destruct (Req_EM_T (norm d) 0); [contradiction|]. now destruct (azimuth d). Qed.
  Lemma ylm_d_is c d key : norm d <> 0 -> get_ylm_d lmax c key d = compute_ylm_d lmax (vz d / norm d) (fst (azimuth d)) (snd (azimuth d)) (norm d) c key.
  Proof. intros H. unfold get_ylm_d. destruct (Req_EM_T (norm d) 0); [contradiction|]. now destruct (azimuth d). Qed.
  Lemma get_ylm_closed l k d : (k <= l <= lmax)%nat -> norm d <> 0 -> get_ylm lmax (lm2i_negm l k) d = sph_neg l k d.
  Proof.
    intros H Hd. destruct (angles d Hd) as [A [B [C D]]]. rewrite ylm_is by exact Hd.
    rewrite (ylm_closed lmax _ (sqrt (1 - vz d / norm d * (vz d / norm d))) _ _ eq_refl D l k H). rewrite A, B. unfold sph_neg. rewrite U_derive. reflexivity.
  Qed.
  Lemma get_ylm_out key d : (forall l m, (m <= l <= lmax)%nat -> lm2i_negm l m <> key) -> get_ylm lmax key d = (0, 0) /\ forall c, get_ylm_d lmax c key d = (0, 0).
  Proof.
    intros H. unfold get_ylm, get_ylm_d. destruct (Req_EM_T (norm d) 0) as [E|E]; [now split|]. destruct (angles d E) as [_ [_ [_ D]]]. destruct (azimuth d) as [ca sa]. cbn [fst snd] in D.
    split; [|intros c]; [unfold compute_ylm|unfold compute_ylm_d]; now apply fill_out.
  Qed.
  Definition sph_d (l m c : nat) (d : v3 R) : Cx R :=
    let r := norm d in let x a := vc a d / r in
    let dirx c a := ((if (a =? c)%nat then 1 else 0) - x a * x c) in
    let w : Cx R := (x 0%nat, - x 1%nat) in
    cscale (1 / r) (nadd (cscale (ynorm l m * U l (S m) (x 2%nat) * dirx c 2%nat) (cpow w m))
      (cscale (ynorm l m * U l m (x 2%nat) * INR m) (nmul (cpow w (m - 1)) (dirx c 0%nat, - dirx c 1%nat)))).
  Lemma get_ylm_d_closed l k c d : (c < 3)%nat -> (k <= l <= lmax)%nat -> norm d <> 0 -> get_ylm_d lmax c (lm2i_negm l k) d = sph_d l k c d.
  Proof.
    intros Hc H Hd. destruct (angles d Hd) as [A [B [C D]]]. rewrite ylm_d_is by exact Hd.
    rewrite (ylm_d_closed lmax _ (sqrt (1 - vz d / norm d * (vz d / norm d))) _ _ eq_refl C D l k c (norm d) H). unfold sph_d, ylm_dir. do 2 f_equal.
    - f_equal; [|now rewrite A, B]. f_equal. unfold du, dir. rewrite A, B. destruct c as [|[|[|]]]; [| | |lia]; cbn [vc Nat.eqb]; reflexivity.
    - f_equal. f_equal; [now rewrite A, B|]. unfold dw, dir. rewrite A, B. destruct c as [|[|[|]]]; [| | |lia]; cbn [vc Nat.eqb]; reflexivity.
  Qed.
  Lemma get_ylm_d_axis c key d : get_ylm_d lmax (S (S c)) key d = get_ylm_d lmax 2 key d.
  Proof. reflexivity. Qed.

  Lemma cd_pow f s l m : has_cderiv f s l -> has_cderiv (fun x => cpow (f x) m) s (cscale (INR m) (nmul (cpow (f s) (m - 1)) l)).
  Proof.
    intros H. induction m as [|m IH].
    - apply (cd_ext (fun _ => n1) _ _ n0); [reflexivity|apply cx_eq; cbn; ring|]. apply cd_const.
    - apply (cd_ext (fun x => nmul (f x) (cpow (f x) m)) _ _ _ _ (fun _ => eq_refl)) with (2 := cd_mul _ _ _ _ _ H IH).
      rewrite S_INR. replace (S m - 1)%nat with m by lia. destruct m as [|m]; [cbn [INR cpow Nat.sub]; apply cx_eq; cbn; ring|].
      replace (S m - 1)%nat with m by lia. rewrite !cpow_S. set (n := INR (S m)). clearbody n. destruct (cpow (f s) m) as [a b], (f s) as [x y], l as [p q]. apply cx_eq; cbn; ring.
  Qed.
  Lemma hd_ratio c a d : (c < 3)%nat -> (a < 3)%nat -> 0 < norm2 d ->
    has_deriv (fun t => vc a (along c t d) / norm (along c t d)) 0 (((if (a =? c)%nat then 1 else 0) - (vc a d / norm d) * (vc c d / norm d)) / norm d).
  Proof.
    intros Hc Ha Hd. pose proof (norm_pos d Hd) as Hn. pose proof (norm_along c d Hd) as N.
    assert (E0 : norm (along c 0 d) = norm d) by (unfold norm; rewrite norm2_along; f_equal; cbn; ring).
    assert (V : has_deriv (fun t => vc a (along c t d)) 0 (if (a =? c)%nat then 1 else 0)).
    { assert (L : forall x : R, has_deriv (fun u => x + u) 0 1).
      { intros x. refine (hd_ext _ _ _ _ _ (fun _ => eq_refl) _ (hd_add (fun _ => x) (fun u => u) _ _ _ (hd_const x 0) (hd_id 0))). lra. }
      destruct c as [|[|[|]]]; [| | |lia]; (destruct a as [|[|[|]]]; [| | |lia]); cbn; first [apply L|apply hd_const]. }
    assert (V0 : vc a (along c 0 d) = vc a d) by (destruct c as [|[|c]]; destruct a as [|[|a]]; cbn; ring).
    assert (Hn0 : norm (along c 0 d) <> 0) by (rewrite E0; lra).
    pose proof (derivable_pt_lim_div _ _ 0 _ _ V N Hn0) as Q.
    refine (hd_ext _ _ _ _ _ (fun _ => eq_refl) _ Q). rewrite E0, V0. unfold Rsqr. field. lra.
  Qed.
  Lemma sph_deriv l m c d : (c < 3)%nat -> 0 < norm2 d -> has_cderiv (fun t => sph_neg l m (along c t d)) 0 (sph_d l m c d).
  Proof.
    intros Hc Hd. pose proof (norm_pos d Hd) as Hn.
    assert (E0 : norm (along c 0 d) = norm d) by (unfold norm; rewrite norm2_along; f_equal; cbn; ring).
    assert (V0 : forall a, vc a (along c 0 d) = vc a d) by (intros a; destruct c as [|[|c]]; destruct a as [|[|a]]; cbn; ring).
    pose proof (hd_ratio c 0 d Hc ltac:(lia) Hd) as X. pose proof (hd_ratio c 1 d Hc ltac:(lia) Hd) as Y. pose proof (hd_ratio c 2 d Hc ltac:(lia) Hd) as Z.
    set (gx := fun t => vc 0 (along c t d) / norm (along c t d)) in *. set (gy := fun t => vc 1 (along c t d) / norm (along c t d)) in *. set (gz := fun t => vc 2 (along c t d) / norm (along c t d)) in *.
    assert (W : has_cderiv (fun t => (gx t, - gy t)) 0 ((((if (0 =? c)%nat then 1 else 0) - (vc 0 d / norm d) * (vc c d / norm d)) / norm d), - (((if (1 =? c)%nat then 1 else 0) - (vc 1 d / norm d) * (vc c d / norm d)) / norm d))).
    { split; [exact X|]. apply (hd_opp gy). exact Y. }
    pose proof (cd_pow _ _ _ m W) as P.
    assert (T : has_deriv (fun t => ynorm l m * U l m (gz t)) 0 (ynorm l m * (U l (S m) (gz 0) * (((if (2 =? c)%nat then 1 else 0) - (vc 2 d / norm d) * (vc c d / norm d)) / norm d)))).
    { apply hd_scale. apply (hd_comp gz (U l m)); [exact Z|apply U_deriv]. }
    pose proof (cd_scale_f _ _ _ _ _ T P) as Q. refine (cd_ext _ _ _ _ _ _ _ Q).
    - intros t. unfold sph_neg. rewrite U_derive. reflexivity.
    - unfold sph_d. cbv beta. assert (Gx : gx 0 = vc 0 d / norm d) by (unfold gx; now rewrite V0, E0). assert (Gy : gy 0 = vc 1 d / norm d) by (unfold gy; now rewrite V0, E0). assert (Gz : gz 0 = vc 2 d / norm d) by (unfold gz; now rewrite V0, E0).
      rewrite Gx, Gy, Gz. set (A := cpow _ m). set (A' := cpow _ (m - 1)). clearbody A A'. destruct A as [p q], A' as [p' q'].
      apply cx_eq; cbn [re im of_real cscale conj fst snd n1 n0 nopp nadd nmul nsub cadd cmul csub copp Cx_num R_num]; field; lra.
  Qed.
  Lemma sum_sq_zero a b c : a * a + b * b + c * c = 0 -> a = 0 /\ b = 0 /\ c = 0.
  Proof. intros H. pose proof (sq_nonneg a). pose proof (sq_nonneg b). pose proof (sq_nonneg c). repeat split; apply Rsqr_0_uniq; unfold Rsqr; lra. Qed.
  Lemma near_nonzero c d : 0 < norm2 d -> exists r, 0 < r /\ forall t, Rabs (t - 0) < r -> norm (along c t d) <> 0.
  Proof.
    intros Hd. pose proof (norm_pos d Hd) as Hn. destruct (hd_cont _ _ _ (norm d) Hn (norm_along c d Hd)) as [r [Hr H]]. exists r. split; [exact Hr|].
    intros t Ht E. specialize (H t Ht). rewrite E in H. assert (E0 : norm (along c 0 d) = norm d) by (unfold norm; rewrite norm2_along; f_equal; cbn; ring).
    rewrite E0 in H. rewrite Rabs_left in H; lra.
  Qed.
  Lemma key_dec key : (exists l m, (m <= l <= lmax)%nat /\ lm2i_negm l m = key) \/ (forall l m, (m <= l <= lmax)%nat -> lm2i_negm l m <> key).
  Proof.
    assert (G : forall n, (exists l m, (m <= l)%nat /\ (l < n)%nat /\ lm2i_negm l m = key) \/ (forall l m, (m <= l)%nat -> (l < n)%nat -> lm2i_negm l m <> key)).
    { induction n as [|n [[l [m H]]|IH]]; [right; intros; lia|left; exists l, m; lia|].
      destruct (le_lt_dec (n * (n + 1) / 2) key) as [A|A]; [|right; intros l m H1 H2; destruct (Nat.eq_dec l n) as [->|]; [unfold lm2i_negm; lia|apply IH; lia]].
      destruct (le_lt_dec key (n * (n + 1) / 2 + n)) as [B|B]; [|right; intros l m H1 H2; destruct (Nat.eq_dec l n) as [->|]; [unfold lm2i_negm; lia|apply IH; lia]].
      left. exists n, (n * (n + 1) / 2 + n - key)%nat. unfold lm2i_negm. lia. }
    destruct (G (S lmax)) as [[l [m H]]|H]; [left; exists l, m; lia|right; intros; apply H; lia].
  Qed.
  Lemma ylm_deriv c key d : (c < 3)%nat -> 0 < norm2 d -> has_cderiv (fun t => get_ylm lmax key (along c t d)) 0 (get_ylm_d lmax c key d).
  Proof.
    intros Hc Hd. pose proof (norm_pos d Hd) as Hn. destruct (key_dec key) as [[l [m [H <-]]]|H].
    - rewrite get_ylm_d_closed by (try assumption; lra). destruct (near_nonzero c d Hd) as [r [Hr E]].
      apply (cd_near (fun t => sph_neg l m (along c t d)) _ _ _ r Hr); [intros t Ht; symmetry; apply get_ylm_closed; [exact H|now apply E]|]. now apply sph_deriv.
    - rewrite (proj2 (get_ylm_out key d H)). apply (cd_ext (fun _ => n0) _ _ n0); [intros t; now rewrite (proj1 (get_ylm_out key _ H))|reflexivity|apply cd_const].
  Qed.

  (** Parity *)
  Lemma norm_neg d : norm (vneg d) = norm d.
  Proof. rewrite !norm_R. f_equal. cbn. ring. Qed.
  Lemma cpow_neg (a b : R) m : cpow (- a, - b) m = if Nat.even m then cpow (a, b) m else nopp (cpow (a, b) m).
  Proof.
    induction m as [|m IH]; [reflexivity|]. rewrite !cpow_S, IH, Nat.even_succ, <- Nat.negb_even. destruct (Nat.even m); cbn [negb]; destruct (cpow (a, b) m); apply cx_eq; cbn; ring.
  Qed.
  Definition sg (b : bool) : R := if b then 1 else -1.
  Lemma if_sg (b : bool) (z : Cx R) : (if b then z else nopp z) = cscale (sg b) z.
  Proof. destruct b, z; apply cx_eq; cbn; ring. Qed.
  Lemma if_sg' (b : bool) (z : Cx R) : (if b then nopp z else z) = cscale (- sg b) z.
  Proof. destruct b, z; apply cx_eq; cbn; ring. Qed.
  Lemma if_sgR (b : bool) (x : R) : (if b then x else - x) = sg b * x.
  Proof. destruct b; cbn; ring. Qed.
  Lemma sg_even a b : sg (Nat.even (a + b)) = sg (Nat.even a) * sg (Nat.even b).
  Proof. rewrite Nat.even_add. destruct (Nat.even a), (Nat.even b); cbn; ring. Qed.
  Lemma sg_S a : sg (Nat.even (S a)) = - sg (Nat.even a).
  Proof. rewrite Nat.even_succ, <- Nat.negb_even. destruct (Nat.even a); cbn; ring. Qed.
  Lemma sg_sq b : sg b * sg b = 1.
  Proof. destruct b; cbn; ring. Qed.
  Lemma vc_neg a d : vc a (vneg d) = - vc a d.
  Proof. destruct a as [|[|a]]; reflexivity. Qed.
  Lemma U_neg l m x : U l m (- x) = sg (Nat.even l) * sg (Nat.even m) * U l m x.
  Proof. rewrite U_parity, if_sgR, sg_even. ring. Qed.
  Lemma cpow_neg' (a b : R) m : cpow (- a, - b) m = cscale (sg (Nat.even m)) (cpow (a, b) m).
  Proof. now rewrite cpow_neg, if_sg. Qed.
  Lemma ratio_neg (x r : R) : - x / r = - (x / r).
  Proof. unfold Rdiv. ring. Qed.
  Lemma sph_parity l m d : sph_neg l m (vneg d) = if Nat.even l then sph_neg l m d else nopp (sph_neg l m d).
  Proof.
    rewrite if_sg. assert (E : forall e, sph_neg l m e = cscale (ynorm l m * U l m (vc 2 e / norm e)) (cpow (vc 0 e / norm e, - (vc 1 e / norm e)) m)) by (intros e; unfold sph_neg; rewrite U_derive; reflexivity).
    rewrite !E, norm_neg, !vc_neg, !ratio_neg, U_neg. rewrite cpow_neg'. pose proof (sg_sq (Nat.even m)) as Q. set (b := sg (Nat.even m)) in *. clearbody b.
    destruct (cpow _ m) as [p q]. apply cx_eq; cbn [re im cscale fst snd nmul R_num].
    - transitivity (b * b * (sg (Nat.even l) * (ynorm l m * U l m (vc 2 d / norm d) * p))); [ring|rewrite Q; ring].
    - transitivity (b * b * (sg (Nat.even l) * (ynorm l m * U l m (vc 2 d / norm d) * q))); [ring|rewrite Q; ring].
  Qed.
  Lemma sph_d_parity l m c d : sph_d l m c (vneg d) = if Nat.even l then nopp (sph_d l m c d) else sph_d l m c d.
  Proof.
    rewrite if_sg'. unfold sph_d. rewrite norm_neg, !vc_neg, !ratio_neg, !U_neg, !cpow_neg', sg_S.
    pose proof (sg_sq (Nat.even m)) as Q.
    assert (Q' : INR m * (sg (Nat.even m) * sg (Nat.even (m - 1))) = INR m * -1).
    { destruct m as [|m]; [cbn; ring|]. replace (S m - 1)%nat with m by lia. rewrite sg_S. f_equal. transitivity (- (sg (Nat.even m) * sg (Nat.even m))); [ring|rewrite sg_sq; ring]. }
    set (b := sg (Nat.even m)) in *. set (b' := sg (Nat.even (m - 1))) in *. set (a := sg (Nat.even l)). clearbody a b b'. set (n := INR m) in *. clearbody n. set (i := 1 / norm d). clearbody i.
    set (x := vc 0 d / norm d). set (y := vc 1 d / norm d). set (z := vc 2 d / norm d). set (xc := vc c d / norm d). clearbody x y z xc. set (T := U l m z). set (T' := U l (S m) z). clearbody T T'.
    set (dx := if (0 =? c)%nat then 1 else 0). set (dy := if (1 =? c)%nat then 1 else 0). set (dz := if (2 =? c)%nat then 1 else 0). clearbody dx dy dz.
    destruct (cpow (x, - y) m) as [p q], (cpow (x, - y) (m - 1)) as [p' q']. set (K := ynorm l m). clearbody K.
    apply cx_eq; cbn [re im cscale fst snd nmul nadd nopp nsub cadd cmul copp Cx_num R_num].
    - transitivity (- (i * ((b * b) * (a * K * T' * (dz - z * xc) * p)) - i * (a * K * T * ((n * (b * b')) * (p' * (dx - x * xc) - q' * - (dy - y * xc)))))); [ring|]. rewrite Q, Q'. ring.
    - transitivity (- (i * ((b * b) * (a * K * T' * (dz - z * xc) * q)) - i * (a * K * T * ((n * (b * b')) * (p' * - (dy - y * xc) + q' * (dx - x * xc)))))); [ring|]. rewrite Q, Q'. ring.
  Qed.
  Lemma index_same l k : ylm_index l k = lm2i_negm l k.
  Proof. unfold ylm_index, lm2i_negm. replace (l * (l + 3))%nat with (l * (l + 1) + l * 2)%nat by lia. rewrite Nat.div_add by lia. reflexivity. Qed.
  Lemma zero_norm_neg d : norm d = 0 -> norm (vneg d) = 0.
  Proof. now rewrite norm_neg. Qed.
  Lemma get_ylm_zero key d : norm d = 0 -> get_ylm lmax key d = (0, 0) /\ forall c, get_ylm_d lmax c key d = (0, 0).
  Proof. intros H. unfold get_ylm, get_ylm_d. destruct (Req_EM_T (norm d) 0); [now split|contradiction]. Qed.

  (** Real for m = 0 *)
  Lemma sph_real l d : im (sph_neg l 0 d) = 0.
  Proof. unfold sph_neg. cbn. ring. Qed.
  Lemma sph_d_real l c d : im (sph_d l 0 c d) = 0.
  Proof. unfold sph_d. cbn [cpow INR]. cbn. ring. Qed.

  (** Scaling *)
  Lemma norm_vscale len d : 0 < len -> norm (vscale len d) = len * norm d.
  Proof.
    intros H. rewrite !norm_R. cbn. replace (len * vx d * (len * vx d) + len * vy d * (len * vy d) + len * vz d * (len * vz d)) with ((len * len) * (vx d * vx d + vy d * vy d + vz d * vz d)) by ring.
    rewrite sqrt_mult_alt by (apply sq_nonneg). rewrite sqrt_square by lra. reflexivity.
  Qed.
  Lemma vc_vscale len a d : vc a (vscale len d) = len * vc a d.
  Proof. destruct a as [|[|a]]; reflexivity. Qed.
  Lemma ratio_scale len x r : 0 < len -> r <> 0 -> len * x / (len * r) = x / r.
  Proof. intros. field. lra. Qed.
  Lemma sph_scale len l m d : 0 < len -> norm d <> 0 -> sph_neg l m (vscale len d) = sph_neg l m d.
  Proof.
    intros H Hd. assert (E : forall e, sph_neg l m e = cscale (ynorm l m * U l m (vc 2 e / norm e)) (cpow (vc 0 e / norm e, - (vc 1 e / norm e)) m)) by (intros e; unfold sph_neg; rewrite U_derive; reflexivity).
    rewrite !E, norm_vscale, !vc_vscale, !ratio_scale by assumption. reflexivity.
  Qed.
  Lemma sph_d_scale len inv l m c d : 0 < len -> len * inv = 1 -> norm d <> 0 -> sph_d l m c (vscale len d) = cscale inv (sph_d l m c d).
  Proof.
    intros H Hi Hd. unfold sph_d. rewrite norm_vscale, !vc_vscale, !ratio_scale by assumption.
    replace (1 / (len * norm d)) with (inv * (1 / norm d)) by (replace inv with (/ len) by (apply Rmult_eq_reg_l with len; [rewrite Hi; field; lra|lra]); field; lra).
    match goal with |- cscale _ ?z = _ => destruct z end. apply cx_eq; cbn; ring.
  Qed.
End Values.
