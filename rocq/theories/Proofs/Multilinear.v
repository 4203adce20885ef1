(** Sums of products of states with L = 0 do not change under infinitesimal rotations. *)
From Verif Require Import Base Num NumR Complex Spec.Deriv Spec.Rotation Proofs.Sums Proofs.Deriv Proofs.Ladder.
From Coq Require Import Reals Lra Ring.
Local Open Scope R_scope.

(** Sums grouped by key. *)
Lemma same_refl x : same x x = true.
Proof. unfold same. now destruct (list_eq_dec Nat.eq_dec x x). Qed.
Lemma same_eq x y : same x y = true <-> x = y.
Proof. unfold same. destruct (list_eq_dec Nat.eq_dec x y); split; congruence. Qed.
Lemma keyed_zero (L : list (R * list nat)) (g : list nat -> Cx R) :
  (forall target, nsumf (fun e => if same (snd e) target then fst e else 0) L = 0) ->
  nsumf (fun e => cscale (fst e) (g (snd e))) L = n0.
Proof.
  intros H.
  assert (G : forall keys, NoDup keys -> nsumf (fun e => if existsb (same (snd e)) keys then cscale (fst e) (g (snd e)) else n0) L = n0).
  { induction keys as [|k keys IH]; intros Hn.
    - cbn [existsb]. apply nsumf_zero.
    - inversion Hn; subst. rewrite (nsumf_ext' _ (fun e => nadd (nmul (of_real (if same (snd e) k then fst e else 0)) (g k)) (if existsb (same (snd e)) keys then cscale (fst e) (g (snd e)) else n0))).
      + rewrite nsumf_add, IH by assumption. rewrite nsumf_scale_r.
        assert (E : nsumf (fun e : R * list nat => of_real (if same (snd e) k then fst e else 0)) L = of_real (nsumf (fun e => if same (snd e) k then fst e else 0) L)).
        { generalize L. induction L0 as [|e L0 IHL]; [reflexivity|]. rewrite !nsumf_cons, IHL. apply cx_eq; cbn; ring. }
        rewrite E, H. destruct (g k). apply cx_eq; cbn; ring.
      + intros e. cbn [existsb]. destruct (same (snd e) k) eqn:S.
        * apply same_eq in S. assert (E : existsb (same (snd e)) keys = false).
          { destruct (existsb (same (snd e)) keys) eqn:X; [|reflexivity]. apply existsb_exists in X. destruct X as [y [Hy X]]. apply same_eq in X. congruence. }
          rewrite E. cbn [orb]. rewrite S. destruct (g k). apply cx_eq; cbn; ring.
        * cbn [orb]. destruct (g k), (existsb _ keys), (g (snd e)); apply cx_eq; cbn; ring. }
  rewrite <- (G (nodup (list_eq_dec Nat.eq_dec) (map snd L)) (NoDup_nodup _ _)). apply nsumf_ext. intros e He.
  assert (X : existsb (same (snd e)) (nodup (list_eq_dec Nat.eq_dec) (map snd L)) = true).
  { apply existsb_exists. exists (snd e). split; [apply nodup_In, in_map, He|apply same_refl]. }
  now rewrite X.
Qed.

Section Products.
  Variable A : nat * nat -> nat -> Cx R.
  Fixpoint prods (slots : list (nat * nat)) (lms : list nat) : Cx R :=
    match slots, lms with s :: ss, i :: is => nmul (A s i) (prods ss is) | _, _ => n1 end.
  Fixpoint dprods (D : nat * nat -> nat -> Cx R) (slots : list (nat * nat)) (lms : list nat) : Cx R :=
    match slots, lms with s :: ss, i :: is => nadd (nmul (D s i) (prods ss is)) (nmul (A s i) (dprods D ss is)) | _, _ => n0 end.
  Lemma dprods_add D D' slots : forall lms, dprods (fun s i => nadd (D s i) (D' s i)) slots lms = nadd (dprods D slots lms) (dprods D' slots lms).
  Proof.
    induction slots as [|s ss IH]; intros [|i is]; cbn [dprods]; try (apply cx_eq; cbn; ring). rewrite IH.
    destruct (D s i), (D' s i), (A s i), (prods ss is), (dprods D ss is), (dprods D' ss is). apply cx_eq; cbn; ring.
  Qed.
  Lemma dprods_scale (z : Cx R) D slots : forall lms, dprods (fun s i => nmul z (D s i)) slots lms = nmul z (dprods D slots lms).
  Proof.
    induction slots as [|s ss IH]; intros [|i is]; cbn [dprods]; try (destruct z; apply cx_eq; cbn; ring). rewrite IH.
    destruct z, (D s i), (A s i), (prods ss is), (dprods D ss is). apply cx_eq; cbn; ring.
  Qed.
  Lemma dprods_ext D D' slots : (forall s i, D s i = D' s i) -> forall lms, dprods D slots lms = dprods D' slots lms.
  Proof. intros H. induction slots as [|s ss IH]; intros [|i is]; cbn [dprods]; try reflexivity. now rewrite IH, H. Qed.
  Lemma dprods_shift up slots : forall lms,
    dprods (fun s i => cscale (weight up (fst s) i) (A s (bump up i))) slots lms = nsumf (fun e => cscale (fst e) (prods slots (snd e))) (shifts up (map fst slots) lms).
  Proof.
    induction slots as [|s ss IH]; intros [|i is]; cbn [dprods map shifts]; try reflexivity.
    rewrite nsumf_cons, nsumf_map. cbn [fst snd prods]. rewrite IH.
    rewrite (nsumf_ext' (fun x : R * list nat => cscale (fst x) (nmul (A s i) (prods ss (snd x)))) (fun x => nmul (A s i) (cscale (fst x) (prods ss (snd x))))).
    - rewrite nsumf_scale_l. f_equal. destruct (A s (bump up i)), (prods ss is). apply cx_eq; cbn; ring.
    - intros x. destruct (A s i), (prods ss (snd x)). apply cx_eq; cbn; ring.
  Qed.
  Lemma dprods_z slots : forall lms, length lms = length slots ->
    dprods (fun s i => nmul (0, m_of (fst s) i) (A s i)) slots lms = nmul (0, INR (list_sum lms) - INR (list_sum (map (fun l => l * l + l)%nat (map fst slots)))) (prods slots lms).
  Proof.
    induction slots as [|s ss IH]; intros [|i is] Hl; cbn [length] in Hl; try lia; cbn [dprods prods map].
    - apply cx_eq; cbn; ring.
    - rewrite IH by lia. unfold m_of. change (list_sum (i :: is)) with (i + list_sum is)%nat. set (q := (fst s * fst s + fst s)%nat).
      change (list_sum (q :: map (fun l => (l * l + l)%nat) (map fst ss))) with (q + list_sum (map (fun l => (l * l + l)%nat) (map fst ss)))%nat.
      rewrite !plus_INR. destruct (A s i), (prods ss is). apply cx_eq; cbn; ring.
  Qed.
  Lemma table_shift up lc slots (table : list (R * list nat)) : map fst slots = lc -> annihilated lc table ->
    nsumf (fun e => cscale (fst e) (dprods (fun s i => cscale (weight up (fst s) i) (A s (bump up i))) slots (snd e))) table = n0.
  Proof.
    intros <- [_ H]. specialize (H up).
    rewrite <- (keyed_zero (flat_map (fun e => map (fun s => (fst e * fst s, snd s)) (shifts up (map fst slots) (snd e))) table) (prods slots)).
    - rewrite nsumf_flat_map. apply nsumf_ext'. intros e. rewrite dprods_shift, nsumf_map. cbn [fst snd].
      generalize (shifts up (map fst slots) (snd e)). intros l. induction l as [|x l IHl]; [apply cx_eq; cbn; ring|]. rewrite !nsumf_cons, <- IHl.
      destruct (prods slots (snd x)), (nsumf (fun e0 => cscale (fst e0) (prods slots (snd e0))) l). apply cx_eq; cbn; ring.
    - intros target. refine (eq_trans _ (H target)). rewrite nsumf_flat_map. apply nsumf_ext'. intros e. exact (nsumf_map _ _ _).
  Qed.
  (** The generators. *)
  Theorem table_gen c lc slots (table : list (R * list nat)) : map fst slots = lc -> annihilated lc table -> (forall e, In e table -> length (snd e) = length lc) ->
    nsumf (fun e => cscale (fst e) (dprods (fun s i => gen c (fst s) (A s) i) slots (snd e))) table = n0.
  Proof.
    intros E H Hlen. pose proof (table_shift true lc slots table E H) as Hu. pose proof (table_shift false lc slots table E H) as Hd.
    set (du := dprods (fun s i => cscale (weight true (fst s) i) (A s (bump true i))) slots) in *.
    set (dd := dprods (fun s i => cscale (weight false (fst s) i) (A s (bump false i))) slots) in *.
    assert (G : forall z z' : Cx R, nsumf (fun e : R * list nat => cscale (fst e) (nadd (nmul z (du (snd e))) (nmul z' (dd (snd e))))) table = n0).
    { intros z z'. rewrite (nsumf_ext' _ (fun e => nadd (nmul z (cscale (fst e) (du (snd e)))) (nmul z' (cscale (fst e) (dd (snd e)))))).
      - rewrite nsumf_add, !nsumf_scale_l, Hu, Hd. destruct z, z'. apply cx_eq; cbn; ring.
      - intros e. destruct z, z', (du (snd e)), (dd (snd e)). apply cx_eq; cbn; ring. }
    assert (T : forall z z' lms, dprods (fun s i => nadd (nmul z (cscale (weight true (fst s) i) (A s (S i)))) (nmul z' (cscale (weight false (fst s) i) (A s (pred i))))) slots lms
      = nadd (nmul z (du lms)) (nmul z' (dd lms))).
    { intros z z' lms. rewrite dprods_add, !dprods_scale. reflexivity. }
    destruct c as [|[|c]]; cbn [gen].
    - rewrite <- (G (0, 1 / 2) (0, 1 / 2)). apply nsumf_ext'. intros e. f_equal. rewrite <- T. apply dprods_ext. intros s i.
      destruct (A s (S i)), (A s (pred i)). apply cx_eq; cbn; ring.
    - rewrite <- (G (1 / 2, 0) (- (1 / 2), 0)). apply nsumf_ext'. intros e. f_equal. rewrite <- T. apply dprods_ext. intros s i.
      destruct (A s (S i)), (A s (pred i)). apply cx_eq; cbn; ring.
    - rewrite (nsumf_ext _ (fun _ => n0)); [apply nsumf_zero|]. intros e He. rewrite dprods_z by (rewrite (Hlen e He), <- E; now rewrite map_length).
      rewrite E. destruct H as [Hz _]. rewrite (Hz e He). destruct (prods slots (snd e)). apply cx_eq; cbn; ring.
  Qed.
End Products.

Lemma prods_deriv (A : R -> nat * nat -> nat -> Cx R) D s slots : forall lms, (forall sl i, In (sl, i) (combine slots lms) -> has_cderiv (fun x => A x sl i) s (D sl i)) ->
  has_cderiv (fun x => prods (A x) slots lms) s (dprods (A s) D slots lms).
Proof.
  induction slots as [|sl ss IH]; intros [|i is] H; cbn [prods dprods]; try (exact (cd_const n1 s)).
  apply (cd_mul (fun x => A x sl i) (fun x => prods (A x) ss is)); [apply H; now left|]. apply IH. intros sl' i' Hi. apply H. now right.
Qed.
