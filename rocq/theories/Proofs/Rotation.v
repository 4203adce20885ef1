(** Rotations of the neighbours of an atom and the linear features of a model with invariants. *)
From Verif Require Import Base Num NumR Complex Spec.Poly Spec.ModelParams Spec.Gtinv Spec.Deriv Spec.Harmonics Spec.Rotation Model.Cxx Model.Mapping Model.ModelParams Model.Features
  Model.Potential Model.Neighbor Model.Compute Model.Harmonics Proofs.Cxx Proofs.Mapping Proofs.ModelParams Proofs.Sums Proofs.FeatureVals Proofs.PerAtom Proofs.GtinvTables
  Proofs.GtinvFeatures Proofs.OrderParams Proofs.EvalGtinv Proofs.Deriv Proofs.Legendre Proofs.HarmonicArrays Proofs.Harmonics Proofs.Ladder Proofs.Multilinear.
From Coq Require Import Reals Lra Ring.
Local Open Scope R_scope.

(** Rotation by an angle about a coordinate axis. *)
Definition turn (c : nat) (s : R) (d : v3 R) : v3 R :=
  match c with
  | 0%nat => V3 (vx d) (vy d * cos s - vz d * sin s) (vy d * sin s + vz d * cos s)
  | 1%nat => V3 (vx d * cos s + vz d * sin s) (vy d) (vz d * cos s - vx d * sin s)
  | _ => V3 (vx d * cos s - vy d * sin s) (vx d * sin s + vy d * cos s) (vz d)
  end.
Lemma norm2_turn c s d : norm2 (turn c s d) = norm2 d.
Proof.
  pose proof (sin2_cos2 s) as H. unfold Rsqr in H. destruct c as [|[|c]]; unfold norm2, vdot, turn; cbn [vx vy vz nadd nmul R_num].
  - transitivity (vx d * vx d + (sin s * sin s + cos s * cos s) * (vy d * vy d + vz d * vz d)); [ring|rewrite H; ring].
  - transitivity (vy d * vy d + (sin s * sin s + cos s * cos s) * (vx d * vx d + vz d * vz d)); [ring|rewrite H; ring].
  - transitivity (vz d * vz d + (sin s * sin s + cos s * cos s) * (vy d * vy d + vx d * vx d)); [ring|rewrite H; ring].
Qed.
Lemma norm_turn c s d : norm (turn c s d) = norm d.
Proof. unfold norm. now rewrite norm2_turn. Qed.
Lemma hd_cos s : has_deriv cos s (- sin s).
Proof. apply derivable_pt_lim_cos. Qed.
Lemma hd_sin s : has_deriv sin s (cos s).
Proof. apply derivable_pt_lim_sin. Qed.
Lemma turn_deriv c e d s : (e < 3)%nat -> has_deriv (fun x => vc e (turn c x d)) s (rate (fst (plane c)) (snd (plane c)) e (turn c s d)).
Proof.
  intros He.
  assert (L : forall a b, has_deriv (fun x => a * cos x + b * sin x) s (a * - sin s + b * cos s)).
  { intros a b. apply (hd_add (fun x => a * cos x) (fun x => b * sin x)); [apply hd_scale, hd_cos|apply hd_scale, hd_sin]. }
  destruct c as [|[|c]], e as [|[|[|e]]]; try lia; unfold rate; cbn [plane fst snd vc turn vx vy vz Nat.eqb].
  - refine (hd_ext _ _ _ _ _ (fun _ => eq_refl) _ (hd_const (vx d) s)). ring.
  - refine (hd_ext _ _ _ _ _ _ _ (L (vy d) (- vz d))); [intros; ring|ring].
  - refine (hd_ext _ _ _ _ _ _ _ (L (vz d) (vy d))); [intros; ring|ring].
  - refine (hd_ext _ _ _ _ _ _ _ (L (vx d) (vz d))); [intros; ring|ring].
  - refine (hd_ext _ _ _ _ _ (fun _ => eq_refl) _ (hd_const (vy d) s)). ring.
  - refine (hd_ext _ _ _ _ _ _ _ (L (vz d) (- vx d))); [intros; ring|ring].
  - refine (hd_ext _ _ _ _ _ _ _ (L (vx d) (- vy d))); [intros; ring|ring].
  - refine (hd_ext _ _ _ _ _ _ _ (L (vy d) (vx d))); [intros; ring|ring].
  - refine (hd_ext _ _ _ _ _ (fun _ => eq_refl) _ (hd_const (vz d) s)). ring.
Qed.
Lemma sph_neg_turn c l m d s : norm d <> 0 -> has_cderiv (fun x => sph_neg l m (turn c x d)) s (sph_rot l m (fst (plane c)) (snd (plane c)) (turn c s d)).
Proof.
  intros Hd. set (a := fst (plane c)). set (b := snd (plane c)). set (r := norm d) in *.
  assert (G : forall e, (e < 3)%nat -> has_deriv (fun x => vc e (turn c x d) / r) s (rate a b e (turn c s d) / r)).
  { intros e He. refine (hd_ext _ _ _ _ _ _ _ (hd_scale (/ r) _ _ _ (turn_deriv c e d s He))); [intros x; unfold Rdiv; ring|unfold Rdiv; fold a b; ring]. }
  pose proof (G 0%nat ltac:(lia)) as X. pose proof (G 1%nat ltac:(lia)) as Y. pose proof (G 2%nat ltac:(lia)) as Z.
  assert (W : has_cderiv (fun x => (vc 0 (turn c x d) / r, - (vc 1 (turn c x d) / r))) s (rate a b 0 (turn c s d) / r, - (rate a b 1 (turn c s d) / r))).
  { split; [exact X|]. exact (hd_opp _ _ _ Y). }
  pose proof (cd_pow _ _ _ m W) as P.
  assert (T : has_deriv (fun x => ynorm l m * U l m (vc 2 (turn c x d) / r)) s (ynorm l m * (U l (S m) (vc 2 (turn c s d) / r) * (rate a b 2 (turn c s d) / r)))).
  { apply hd_scale. exact (hd_comp (fun x => vc 2 (turn c x d) / r) (U l m) _ _ _ Z (U_deriv l m _)). }
  pose proof (cd_scale_f _ _ _ _ _ T P) as Q. refine (cd_ext _ _ _ _ _ _ _ Q).
  - intros x. rewrite sph_neg_U, norm_turn. reflexivity.
  - unfold sph_rot. rewrite norm_turn. fold r. set (A := cpow _ m). set (A' := cpow _ (m - 1)). clearbody A A'. destruct A as [p q], A' as [p' q'].
    apply cx_eq; cbn [re im of_real cscale conj fst snd n1 n0 nopp nadd nmul nsub cadd cmul csub copp Cx_num R_num]; ring.
Qed.
Lemma sph_turn c l i d s : norm d <> 0 -> has_cderiv (fun x => sph l i (turn c x d)) s (sph_r l i (fst (plane c)) (snd (plane c)) (turn c s d)).
Proof.
  intros Hd. unfold sph, sph_r. destruct (i <=? l * l + l)%nat; [now apply sph_neg_turn|]. apply cd_scale, cd_conj. now apply sph_neg_turn.
Qed.

(** Values for both signs of m from the values for m <= 0. *)
Definition signed (l i : nat) (f : nat -> Cx R) : Cx R :=
  if (i <=? l * l + l)%nat then f (l * l + l - i)%nat else cscale ((-1) ^ (i - (l * l + l))) (conj (f (i - (l * l + l))%nat)).
Lemma signed_ext l i f g : (l * l <= i <= l * l + 2 * l)%nat -> (forall k, (k <= l)%nat -> f k = g k) -> signed l i f = signed l i g.
Proof. intros Hi H. unfold signed. destruct (i <=? l * l + l)%nat eqn:E; [apply Nat.leb_le in E|apply Nat.leb_gt in E]; rewrite H by lia; reflexivity. Qed.
Lemma pow_m1 k : (-1) ^ k = if Nat.even k then 1 else -1.
Proof. induction k as [|k IH]; [reflexivity|]. cbn [pow]. rewrite IH, Nat.even_succ, <- Nat.negb_even. destruct (Nat.even k); cbn; ring. Qed.

Section NId.
  Variables (nt n_fn maxl : nat) (cond : nat -> nat -> list nat).
  Hypothesis Hcond : cond_ok n_fn cond.
  Let tpn := tp_to_n nt cond.
  Let M := mapping_gtinv nt n_fn maxl cond.
  Lemma lid_n_id t n i tp : (t < nt)%nat -> (n < n_fn)%nat -> (i < length (lm_attrs maxl))%nat -> (tp < length (tp_to_types nt))%nat ->
    In n (nth tp tpn []) -> touch nt t tp = true ->
    a_n_id (nth (lid nt n_fn maxl cond t n i tp) (nth t (gm_loc M) []) a_dflt) = n_id tpn tp n.
  Proof.
    intros Ht Hn Hi Htp Hin Hto. destruct (global_at nt n_fn maxl cond Hcond n i tp Hn Hi Htp Hin) as [j [Hj [Ej G]]].
    destruct (G i Hi) as [E1 [c Ec]]. clear G. set (g := (_ + (i * _ + j))%nat) in *.
    pose proof (mapping_gtinv_ok nt n_fn maxl cond) as OK. fold M in OK.
    destruct (go_glob _ _ _ _ _ OK t g _ Ht Ec Hto) as [h0 [a0 [A1 [A2 [A3 A4]]]]].
    assert (Eh : lid nt n_fn maxl cond t n i tp = h0) by (unfold lid; now rewrite E1).
    rewrite Eh, (nth_error_nth _ _ _ A1). unfold gcore in A2. cbn [key_attr a_n a_n_id a_lm a_tp a_gid a_gcj] in A2. injection A2 as B1 B2 B3 B4 B5 B6. exact B2.
  Qed.
End NId.

Section Slots.
  Variable tol : R.
  Variable B : basis R.
  Variable fp : fparams R.
  Hypothesis GT : gtinv_table fp.
  Variable types : nat -> nat.
  Variable t : nat.
  Hypothesis Ht : (t < fp_n_type fp)%nat.
  Let nt := fp_n_type fp.
  Let n_fn := length (fp_params fp).
  Let tpn := tp_to_n nt (fp_cond fp).
  Definition live (n tp : nat) (jd : nat * v3 R) : bool :=
    let tpj := tpair nt t (types (fst jd)) in
    inside fp (snd jd) && ((tp =? tpj)%nat && negb (nltb (fn B fp tp (n_id tpn tp n) (norm (snd jd))) tol)).
  Definition slot_sum (n : nat) (K : nat * v3 R -> nat -> nat -> nat -> Cx R) (nb : list (nat * v3 R)) (s : nat * nat) (i : nat) : Cx R :=
    nsumf (fun jd => if live n (snd s) jd then signed (fst s) i (fun k => K jd (snd s) (n_id tpn (snd s) n) (ylm_index (fst s) k)) else n0) nb.
  Definition slot_ok (n : nat) (s : nat * nat) : Prop :=
    (n < n_fn)%nat /\ (fst s <= fp_maxl fp)%nat /\ (snd s < length (tp_to_types nt))%nat /\ In n (nth (snd s) tpn []) /\ touch nt t (snd s) = true.
  Lemma key_is l k : (k <= l)%nat -> lm_key (lm_attr l (- Z.of_nat k)) = ylm_index l k.
  Proof.
    intros H. unfold lm_attr, ylm_index. cbn [lm_key]. destruct (- Z.of_nat k <? 1)%Z eqn:E; [|apply Z.ltb_ge in E; lia].
    assert (Hq : (2 * (l * (l + 3) / 2) = l * (l + 3))%nat).
    { assert (Ev : exists q, (l * (l + 3) = q * 2)%nat).
      { destruct (Nat.Even_or_Odd l) as [[q Q]|[q Q]]; [exists (q * (l + 3))%nat|exists (l * (q + 2))%nat]; subst l; lia. }
      destruct Ev as [q Hq]. rewrite Hq, Nat.div_mul by lia. lia. }
    set (h := (l * (l + 3) / 2)%nat) in *. replace ((Z.of_nat l + 3) * Z.of_nat l)%Z with (Z.of_nat h * 2)%Z by nia. rewrite Z.div_mul by lia. lia.
  Qed.
  Lemma slot K nb n s i : slot_ok n s -> (fst s * fst s <= i <= fst s * fst s + 2 * fst s)%nat ->
    let h := lid nt n_fn (fp_maxl fp) (fp_cond fp) t n i (snd s) in
    (h < nhl fp t)%nat /\ ext fp t (zsum tol B fp types t K nb) h = slot_sum n K nb s i.
  Proof.
    destruct s as [l tp]. intros [Hn [Hl [Htp [Hin Hto]]]] Hi h. cbn [fst snd] in Hi, Hn, Hl, Htp, Hin, Hto, h |- *.
    assert (MG : mapping_gtinv nt n_fn (fp_maxl fp) (fp_cond fp) = mp_gt (mapping fp)) by (symmetry; apply (mp_gt_eq fp GT)).
    pose proof (lid_spec nt n_fn (fp_maxl fp) (fp_cond fp) (gt_cond _ GT) t n l i tp Ht Hn Hl Hi Htp Hin Hto) as S. cbv zeta in S. rewrite MG in S.
    fold h in S. fold (locs fp t) in S. fold (att fp t h) in S. fold (nhl fp t) in S. destruct S as [H1 [H2 [H3 [H4 [H5 [H6 H7]]]]]].
    assert (Hlen : (i < length (lm_attrs (fp_maxl fp)))%nat) by (rewrite lm_attrs_length; nia).
    pose proof (lid_n_id nt n_fn (fp_maxl fp) (fp_cond fp) (gt_cond _ GT) t n i tp Ht Hn Hlen Htp Hin Hto) as H8. rewrite MG in H8.
    fold h in H8. fold (locs fp t) in H8. fold (att fp t h) in H8. fold tpn in H8.
    split; [exact H1|]. destruct (conj_facts fp GT t Ht h H1) as [C1 [C2 [C3 [C4 [C5 [C6 [C7 C8]]]]]]].
    assert (Em : lm_m (a_lm (att fp t h)) = (Z.of_nat i - Z.of_nat (l * l + l))%Z) by now rewrite H4.
    assert (El : lm_l (a_lm (att fp t h)) = l) by now rewrite H4.
    unfold ext. rewrite (noc_low fp GT t Ht h H1), Em. unfold slot_sum, signed. cbn [fst snd]. destruct (i <=? l * l + l)%nat eqn:E.
    - apply Nat.leb_le in E. assert (L : (Z.of_nat i - Z.of_nat (l * l + l) <=? 0)%Z = true) by (apply Z.leb_le; lia). rewrite L.
      unfold zsum. apply nsumf_ext'. intros jd. unfold on, live. rewrite H2, H8, H4. replace (Z.of_nat i - Z.of_nat (l * l + l))%Z with (- Z.of_nat (l * l + l - i))%Z by lia.
      rewrite key_is by lia. fold nt. destruct (Nat.eqb_spec tp (tpair nt t (types (fst jd)))) as [<-|N]; [reflexivity|]. cbn [andb]. now rewrite andb_false_r.
    - apply Nat.leb_gt in E. assert (L : (Z.of_nat i - Z.of_nat (l * l + l) <=? 0)%Z = false) by (apply Z.leb_gt; lia). rewrite L.
      unfold ccl. rewrite H4. cbn [lm_attr lm_cc]. set (k := (i - (l * l + l))%nat). replace (Z.of_nat i - Z.of_nat (l * l + l))%Z with (Z.of_nat k) by lia.
      assert (Es : sgn (if (Z.rem (Z.of_nat k) 2 =? 0)%Z then 1%Z else (-1)%Z) = (-1) ^ k).
      { rewrite pow_m1. destruct (Nat.even k) eqn:Ev.
        - apply Nat.even_spec in Ev. destruct Ev as [q Q]. replace (Z.of_nat k) with (Z.of_nat q * 2)%Z by lia. rewrite Z.rem_mul by lia. reflexivity.
        - assert (Od : Nat.odd k = true) by (now rewrite <- Nat.negb_even, Ev). apply Nat.odd_spec in Od. destruct Od as [q Q].
          replace (Z.of_nat k) with (1 + Z.of_nat q * 2)%Z by lia. rewrite Z.rem_add by lia. change (Z.rem 1 2 =? 0)%Z with false. unfold sgn. cbn. ring. }
      assert (Ek : forall z, cscale (sgn (if (Z.rem (Z.of_nat k) 2 =? 0)%Z then 1%Z else (-1)%Z)) z = cscale ((-1) ^ k) z) by (intros z; now rewrite Es). rewrite Ek. clear Ek Es.
      unfold zsum. transitivity (nsumf (fun jd => cscale ((-1) ^ k) (conj (if inside fp (snd jd) && on tol B fp t (cjl fp t h) (tpair nt t (types (fst jd))) (snd jd)
        then K jd (tpair nt t (types (fst jd))) (a_n_id (att fp t (cjl fp t h))) (lm_key (a_lm (att fp t (cjl fp t h)))) else n0))) nb).
      { induction nb as [|jd nb' IH]; [apply cx_eq; cbn; ring|]. rewrite !nsumf_cons, <- IH. fold nt.
        destruct (nsumf _ nb'), (if inside fp (snd jd) && _ then _ else _). apply cx_eq; cbn; ring. }
      apply nsumf_ext'. intros jd. unfold on, live. rewrite C6, H2, C5, H8, C3, El, Em. replace (- (Z.of_nat i - Z.of_nat (l * l + l)))%Z with (- Z.of_nat k)%Z by lia.
      rewrite key_is by lia. fold nt. destruct (Nat.eqb_spec tp (tpair nt t (types (fst jd)))) as [<-|N].
      + destruct (_ && _); [reflexivity|]. apply cx_eq; cbn; ring.
      + cbn [andb]. rewrite andb_false_r. apply cx_eq; cbn; ring.
  Qed.
End Slots.

(** Products over the factors. *)
Lemma raw_values {T} (L : nat -> nat -> nat) (a : nat -> T) (A : nat * nat -> nat -> T) : forall lc tps lms, length tps = length lc -> length lms = length lc ->
  (forall s i, In (s, i) (combine (combine lc tps) lms) -> a (L i (snd s)) = A s i) ->
  map a (map (fun k => L (nth k lms 0%nat) (nth k tps 0%nat)) (seq 0 (length lms))) = map (fun si => A (fst si) (snd si)) (combine (combine lc tps) lms).
Proof.
  induction lc as [|l lc IH]; intros [|tp tps] [|i lms] H1 H2 H; cbn [length] in *; try lia; [reflexivity|].
  cbn [seq map combine nth fst snd]. f_equal; [exact (H (l, tp) i (or_introl eq_refl))|].
  rewrite <- seq_shift, (map_map S). rewrite <- (IH tps lms); [reflexivity|lia|lia|]. intros s j Hs. apply H. now right.
Qed.
Lemma prods_nprod A slots : forall lms, nprod (map (fun si => A (fst si) (snd si)) (combine slots lms)) = prods A slots lms.
Proof. induction slots as [|s ss IH]; intros [|i is]; cbn [combine map prods fst snd]; try reflexivity. change (nprod (?x :: ?l)) with (nmul x (nprod l)). now rewrite IH. Qed.
Lemma dprods_nprod A (E : nat * nat -> nat -> Cx R) slots : forall lms, nprod (map (fun si => D (A (fst si) (snd si)) (E (fst si) (snd si))) (combine slots lms)) = D (prods A slots lms) (dprods A E slots lms).
Proof.
  induction slots as [|s ss IH]; intros [|i is]; cbn [combine map prods dprods fst snd]; try reflexivity. change (nprod (?x :: ?l)) with (nmul x (nprod l)). now rewrite IH.
Qed.

Section Feature.
  Variable fp : fparams R.
  Hypothesis GT : gtinv_table fp.
  Variable t : nat.
  Hypothesis Ht : (t < fp_n_type fp)%nat.
  Notation L n i tp := (lid (fp_n_type fp) (length (fp_params fp)) (fp_maxl fp) (fp_cond fp) t n i tp).
  Variable x : linearTerm.
  Hypothesis Hx : In x (row_terms fp t).
  Definition slots : list (nat * nat) := combine (lc_of fp x) (tps_of fp x).
  Lemma slots_l : map fst slots = lc_of fp x.
  Proof. destruct (row_term_ok fp GT t Ht x Hx) as [_ [E _]]. unfold slots. now apply Proofs.ModelParams.combine_fst. Qed.
  Lemma tbl_len e : In e (tbl fp x) -> length (snd e) = length (lc_of fp x).
  Proof. intros He. apply (lms_ok fp GT t Ht x Hx (snd e)). now apply (tbl_snd fp t x). Qed.
  Lemma slots_ok e s i : In e (tbl fp x) -> In (s, i) (combine slots (snd e)) ->
    slot_ok fp t (lt_n x) s /\ (fst s * fst s <= i <= fst s * fst s + 2 * fst s)%nat.
  Proof.
    intros He Hs. destruct (row_term_ok fp GT t Ht x Hx) as [E [E2 [E3 [E4 E5]]]]. pose proof (tbl_snd fp t x e Hx He) as Hl.
    pose proof (gt_lms _ GT _ _ _ E Hl) as F. unfold slots in Hs. unfold slot_ok. revert E2 E5 F Hs. clear - E4.
    generalize (lc_of fp x) (tps_of fp x) (snd e). intros lc. induction lc as [|l lc IH]; intros [|tp tps] [|j lms] H1 H2 H3 H; cbn [length combine] in *; try lia; try destruct H.
    - injection H as <- <-. inversion H2; subst. inversion H3; subst. cbn [fst snd]. tauto.
    - inversion H2; subst. inversion H3; subst. apply (IH tps lms); [lia|assumption|assumption|exact H].
  Qed.
  Section Values.
    Variables (a : nat -> Cx R) (A : nat * nat -> nat -> Cx R).
    Hypothesis Ha : forall e s i, In e (tbl fp x) -> In (s, i) (combine slots (snd e)) -> a (L (lt_n x) i (snd s)) = A s i.
    Lemma value_is : fval (lin_gtinv_feature (ids_plain (mp_gt (mapping fp)) t) fp x) a = re (nsumf (fun e => cscale (fst e) (prods A slots (snd e))) (tbl fp x)).
    Proof.
      unfold fval. f_equal. rewrite (feature_tbl fp GT t Ht) by exact Hx. unfold pval. rewrite nsumf_map. apply nsumf_ext. intros e He. cbn [fst snd].
      rewrite (nprod_perm _ _ (Permutation_map a (plain_raw fp GT t (lt_n x) (snd e) (tps_of fp x)))). unfold raw.
      destruct (row_term_ok fp GT t Ht x Hx) as [_ [E2 _]].
      rewrite (raw_values (fun i tp => L (lt_n x) i tp) a A (lc_of fp x) (tps_of fp x) (snd e) E2 (tbl_len e He)) by (intros s i; exact (Ha e s i He)).
      fold slots. rewrite prods_nprod. destruct (prods A slots (snd e)). apply cx_eq; cbn; ring.
    Qed.
    Variables (d : nat -> Cx R) (E : nat * nat -> nat -> Cx R).
    Hypothesis Hd : forall e s i, In e (tbl fp x) -> In (s, i) (combine slots (snd e)) -> d (L (lt_n x) i (snd s)) = E s i.
    Lemma deriv_is : fder (lin_gtinv_feature (ids_plain (mp_gt (mapping fp)) t) fp x) a d = re (nsumf (fun e => cscale (fst e) (dprods A E slots (snd e))) (tbl fp x)).
    Proof.
      unfold fder. f_equal. rewrite (feature_tbl fp GT t Ht) by exact Hx. unfold pval. rewrite nsumf_map.
      rewrite (dder_sum (fun e : R * list nat => nmul (D (of_real (fst (fst e, ids_plain (mp_gt (mapping fp)) t (lt_n x) (snd e) (tps_of fp x)))) n0) (nprod (map (fun h => D (a h) (d h)) (snd (fst e, ids_plain (mp_gt (mapping fp)) t (lt_n x) (snd e) (tps_of fp x))))))).
      apply nsumf_ext. intros e He. cbn [fst snd].
      rewrite (nprod_perm _ _ (Permutation_map (fun h => D (a h) (d h)) (plain_raw fp GT t (lt_n x) (snd e) (tps_of fp x)))). unfold raw.
      destruct (row_term_ok fp GT t Ht x Hx) as [_ [E2 _]].
      rewrite (raw_values (fun i tp => L (lt_n x) i tp) (fun h => D (a h) (d h)) (fun s i => D (A s i) (E s i)) (lc_of fp x) (tps_of fp x) (snd e) E2 (tbl_len e He)).
      - fold slots. rewrite dprods_nprod. cbn [nmul dual_num dval dder]. destruct (prods A slots (snd e)), (dprods A E slots (snd e)). apply cx_eq; cbn; ring.
      - intros s i Hs. fold slots in Hs. now rewrite (Ha e s i He Hs), (Hd e s i He Hs).
    Qed.
  End Values.
End Feature.
