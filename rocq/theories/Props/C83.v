(** C83: the matrix of [build_projector] is the projector on coupled states; the tensors [solve] gives from it are annihilated by the ladder operators. *)
From Coq Require Import Reals Lra Permutation.
From Verif Require Import Base Num NumR Proofs.Projector Model.Projector.
Local Open Scope R_scope.

(** Every entry, whichever order the threads write in. *)
Theorem C83_core tj ls ws ws' : (forall l q q' m1 m2 m3, ~ triangle l q q' -> tj l q q' m1 m2 m3 = 0) -> all_parity tj ls -> Forall (fun l => 0 <= l)%Z ls ->
  build tj ls = Ok ws -> Permutation ws ws' -> forall i j,
  core ws' i j = match nth_error (states ls) i, nth_error (states ls) j with
                 | Some ms, Some ms' => rsum (fun qs => amps tj ls ms qs * amps tj ls ms' qs) (paths_of ls) * (sgn (zsum ms) * sgn (zsum ms') / IZR (2 * last ls 0%Z + 1))
                 | _, _ => 0
                 end.
Proof.
  intros HT HP HN E P i j. assert (HL : (2 <= length ls)%nat /\ Z.even (zsum ls) = true).
  { unfold build in E. rewrite Z.even_opp in E. destruct (Z.even (zsum ls)); cbn in E; [|discriminate]. split; [|reflexivity]. destruct (length ls) as [|[|n]]; [discriminate|discriminate|lia]. }
  destruct HL as [HL HE]. rewrite (core_value tj HT ls HN HL HE HP ws ws' E P). destruct (nth_error (states ls) i); [|reflexivity]. destruct (nth_error (states ls) j); [|reflexivity]. unfold value, coupled. now rewrite factor_sgn by now apply last_nonneg.
Qed.
Print Assumptions C83_core.

(** Which lists are built. *)
Theorem C83_build tj ls : (exists ws, build (F := R) tj ls = Ok ws) <-> Z.even (zsum ls) = true /\ (2 <= length ls <= 8)%nat.
Proof.
  unfold build. rewrite Z.even_opp. destruct (Z.even (zsum ls)); cbn [negb]; [|split; [intros [ws W]; discriminate|intros [W _]; discriminate]].
  destruct (length ls) as [|[|[|[|[|[|[|[|[|n]]]]]]]]]; split; intros H; try (split; [reflexivity|lia]); try (eexists; reflexivity); try (destruct H; discriminate); exfalso; lia.
Qed.
Print Assumptions C83_build.

(** It is symmetric, its square is itself and its trace is the number of paths. *)
Theorem C83_projector tj ls ws ws' : (forall l q q' m1 m2 m3, ~ triangle l q q' -> tj l q q' m1 m2 m3 = 0) -> all_parity tj ls -> all_unitary tj ls -> Forall (fun l => 0 <= l)%Z ls ->
  build tj ls = Ok ws -> Permutation ws ws' -> let n := length (states ls) in
  (forall i j, core ws' i j = core ws' j i) /\ (forall i j, sumn n (fun k => core ws' i k * core ws' k j) = core ws' i j) /\ sumn n (fun k => core ws' k k) = INR (length (paths_of ls)).
Proof.
  intros HT HP HU HN E P n. assert (HL : (2 <= length ls)%nat /\ Z.even (zsum ls) = true).
  { destruct (proj1 (C83_build tj ls)) as [H1 H2]; [now exists ws|]. split; [lia|exact H1]. }
  destruct HL as [HL HE]. pose proof (core_value tj HT ls HN HL HE HP ws ws' E P) as C.
  assert (NS : forall k, In k (seq 0 n) -> nth_error (states ls) k = Some (nth k (states ls) [])) by (intros k Hk; apply nth_error_nth'; apply in_seq in Hk; unfold n in Hk; lia).
  split; [|split].
  - intros i j. rewrite !C. destruct (nth_error (states ls) i), (nth_error (states ls) j); try reflexivity. now apply value_sym.
  - intros i j. rewrite rsum_sumn, C. destruct (nth_error (states ls) i) as [ms|] eqn:Ei.
    + destruct (nth_error (states ls) j) as [ms'|] eqn:Ej.
      * rewrite <- (value_mul tj ls ms ms') by assumption. rewrite (rsum_seq _ [] (states ls)). apply rsum_ext. intros k Hk. rewrite !C, Ei, Ej, (NS k Hk). reflexivity.
      * apply rsum_zero. intros k Hk. rewrite !C, Ej, (NS k Hk). ring.
    + apply rsum_zero. intros k _. rewrite !C, Ei. ring.
  - rewrite rsum_sumn. rewrite <- (value_trace tj ls) by assumption. rewrite (rsum_seq _ [] (states ls)). apply rsum_ext. intros k Hk. now rewrite C, (NS k Hk).
Qed.
Print Assumptions C83_projector.

(** Indices: the two languages agree, and one index is one tuple of (l, m). *)
Theorem C83_index ls ms : Forall2 within ls ms -> lm_to_matrix_index ls ms = py_index ls ms /\ matrix_index_to_lm (lm_to_matrix_index ls ms) ls = combine ls ms.
Proof.
  intros W. assert (E : lm_to_matrix_index ls ms = py_index ls ms) by (unfold lm_to_matrix_index; rewrite index_py by (symmetry; eapply Forall2_length; eauto); reflexivity). split; [exact E|]. rewrite E. now apply index_back.
Qed.
Print Assumptions C83_index.

Section Solve.
  Variable tj : Z -> Z -> Z -> Z -> Z -> Z -> R.
  Variable eigh : nat -> mat R -> list (list R).
  Variable order : list (write (F := R)) -> list (write (F := R)).
  (** The vectors of [eigh] are kept by the matrix. *)
  Hypothesis H_eigh : forall n (A : mat R) v i, In v (eigh n A) -> (i < n)%nat -> sumn n (fun j => A i j * nth j v 0) = nth i v 0.
  Hypothesis H_order : forall ws, Permutation ws (order ws).
  Hypothesis H_tri : forall l q q' m1 m2 m3, ~ triangle l q q' -> tj l q q' m1 m2 m3 = 0.

  (** The indices of the result are all (l, m) with sum of m zero, once each. *)
  Theorem C83_indices ls vs lms : Forall (fun l => 0 <= l)%Z ls -> solve tj eigh order ls = Ok (vs, lms) ->
    NoDup lms /\ forall x, length x = length ls -> (In (combine ls x) lms <-> Forall2 within ls x /\ zsum x = 0%Z).
  Proof.
    intros HN E. unfold solve in E. destruct (build tj ls) as [ws|] eqn:EB; [|discriminate]. cbn [bind] in E. assert (EL : lms = map (fun i => matrix_index_to_lm i ls) (row ls)) by congruence.
    assert (NE : ls <> []). { intros ->. cbn in EB. discriminate. }
    rewrite row_back in EL by exact NE. subst lms. assert (L : forall ms, In ms (states ls) -> length (ms ++ [- zsum ms])%Z = length ls) by (intros ms I; apply (state_full ls ms NE) in I; symmetry; eapply Forall2_length; eauto). split.
    - pose proof (NoDup_states ls) as ND. clear E EB. assert (G : forall l, NoDup l -> (forall ms, In ms l -> In ms (states ls)) -> NoDup (map (fun ms => combine ls (ms ++ [- zsum ms])%Z) l)).
      { induction 1 as [|a l Ha N IH]; intros H; cbn; constructor; [|apply IH; intros; apply H; now right]. intros C. apply in_map_iff in C. destruct C as [b [Eb Ib]]. apply combine_inj in Eb; [|apply L, H; now right|apply L, H; now left]. apply app_inj_tail in Eb. destruct Eb as [-> _]. contradiction. }
      apply G; auto.
    - intros x Lx. rewrite in_map_iff. split.
      + intros [ms [Em I]]. apply combine_inj in Em; [|now apply L|exact Lx]. subst x. apply (state_full ls ms NE) in I. split; [exact I|]. rewrite zsum_app. cbn. lia.
      + intros [W Z0]. destruct (full_split ls x NE W Z0) as [ms [I ->]]. now exists ms.
  Qed.

  (** Each vector, as a tensor over m of the indices beside it, is annihilated by J+ and J-. *)
  Theorem C83_invariant ls vs lms v (f : list Z -> R) : Forall (fun l => 0 <= l)%Z ls -> all_parity tj ls -> all_invariant3 tj ls ->
    solve tj eigh order ls = Ok (vs, lms) -> In v vs ->
    (forall x i, nth_error lms i = Some (combine ls x) -> f x = nth i v 0) -> (forall x, ~ In (combine ls x) lms -> f x = 0) ->
    forall x, Forall2 within ls x -> raise ls f x = 0 /\ lower ls f x = 0.
  Proof.
    intros HN HP HI ES Iv F1 F0. assert (NE : ls <> []) by (intros ->; cbn in ES; discriminate). destruct (C83_indices _ _ _ HN ES) as [_ HX].
    unfold solve in ES. destruct (build tj ls) as [ws|] eqn:EB; [|discriminate]. cbn [bind] in ES. assert (EV : vs = eigh (length (states ls)) (core (order ws))) by congruence. assert (EL : lms = map (fun i => matrix_index_to_lm i ls) (row ls)) by congruence. clear ES. rewrite row_back in EL by exact NE.
    destruct (proj1 (C83_build tj ls)) as [HE HL]; [now exists ws|]. assert (HL2 : (2 <= length ls)%nat) by lia. pose proof (core_value tj H_tri ls HN HL2 HE HP ws (order ws) EB (H_order ws)) as C. set (n := length (states ls)) in *.
    set (g := fun ms => rsum (fun k => nth k v 0 * value tj ls ms (nth k (states ls) [])) (seq 0 n)).
    assert (FG : forall z, Forall2 within ls z -> f z = tensor ls g z).
    { intros z W. unfold tensor. destruct (Z.eqb_spec (zsum z) 0) as [Z0|Z0].
      - destruct (full_split ls z NE W Z0) as [ms [I ->]]. rewrite removelast_last. pose proof (map_m_spec ls ms I) as M. assert (Hi : (map_m ls ms < n)%nat) by (unfold n; apply nth_error_Some; congruence).
        rewrite (F1 _ (map_m ls ms)) by (rewrite EL; now apply (map_nth_error (fun ms => combine ls (ms ++ [- zsum ms])%Z))). subst vs. rewrite <- (H_eigh _ _ _ _ Iv Hi). rewrite rsum_sumn. unfold g. apply rsum_ext. intros k Hk. rewrite C, M. rewrite (nth_error_nth' (states ls) []) by (apply in_seq in Hk; unfold n in Hk; lia). ring.
      - apply F0. intros I. apply HX in I; [now destruct I|]. symmetry. eapply Forall2_length; eauto. }
    assert (GN : forall ms, g (neg ms) = g ms) by (intros ms; unfold g; apply rsum_ext; intros k _; now rewrite value_neg_l).
    assert (RZ : forall x, Forall2 within ls x -> raise ls (tensor ls g) x = 0).
    { intros x W. rewrite (raise_ext_in ls _ (fun z => rsum (fun k => nth k v 0 * tensor ls (fun ms => value tj ls ms (nth k (states ls) [])) z) (seq 0 n)) x W).
      - rewrite raise_sum. apply rsum_zero. intros k _. rewrite raise_scal, value_raise by assumption. ring.
      - intros z _. unfold tensor, g. destruct (zsum z =? 0)%Z; [reflexivity|]. symmetry. apply rsum_zero. intros. ring. }
    intros x W. split.
    - rewrite (raise_ext_in ls f (tensor ls g) x W FG). now apply RZ.
    - rewrite lower_raise. rewrite (raise_ext_in ls _ (tensor ls g)); [|now apply within_neg|].
      + apply RZ. now apply within_neg.
      + intros z Wz. rewrite FG by now apply within_neg. unfold tensor. rewrite zsum_neg. destruct (Z.eqb_spec (- zsum z) 0), (Z.eqb_spec (zsum z) 0); try lia; [|reflexivity]. rewrite <- (GN (removelast z)). f_equal. unfold neg. clear. induction z as [|a z IH]; [reflexivity|]. destruct z; [reflexivity|]. cbn [map removelast] in *. now rewrite <- IH.
  Qed.
End Solve.
Print Assumptions C83_indices.
Print Assumptions C83_invariant.

(** What is enumerated: nondecreasing l, and [run_enum] as a whole. *)
Theorem C83_selected num_basis ord maxl minl odd l : In l (selected num_basis ord maxl minl odd) <->
  (length l = ord /\ Sorted.StronglySorted Z.le l /\ Forall (fun x => 0 <= x <= maxl)%Z l) /\ (0 < num_basis l)%Z /\ (forall b, minl = Some b -> Exists (fun x => b <= x)%Z l) /\ (odd = true -> Z.even (zsum l) = true).
Proof.
  unfold selected. rewrite filter_In, in_combs. split.
  - intros [H B]. split; [exact H|]. apply andb_prop in B. destruct B as [B B3]. apply andb_prop in B. destruct B as [B1 B2]. split; [now apply Z.ltb_lt|]. split.
    + intros b ->. apply Exists_exists. apply existsb_exists in B2. destruct B2 as [x [Ix Hx]]. exists x. split; [exact Ix|now apply Z.leb_le].
    + intros ->. exact B3.
  - intros [H [B1 [B2 B3]]]. split; [exact H|]. apply Z.ltb_lt in B1. rewrite B1. cbn [andb]. apply andb_true_intro. split.
    + destruct minl as [b|]; [|reflexivity]. specialize (B2 b eq_refl). apply Exists_exists in B2. destruct B2 as [x [Ix Hx]]. apply existsb_exists. exists x. split; [exact Ix|now apply Z.leb_le].
    + destruct odd; [now apply B3|reflexivity].
Qed.
Print Assumptions C83_selected.
Lemma mapM_some {A B} (f : A -> res B) l : (exists out, mapM f l = Ok out) <-> forall x, In x l -> exists y, f x = Ok y.
Proof.
  induction l as [|a l IH]; cbn; [split; [intros _ x []|eauto]|]. split.
  - intros [out E] x Hx. destruct (f a) as [y|] eqn:Ea; [|discriminate]. cbn in E. destruct (mapM f l) as [ys|] eqn:El; [|discriminate]. destruct Hx as [<-|Hx]; [eauto|]. apply IH; eauto.
  - intros H. destruct (H a) as [y Ea]; [now left|]. rewrite Ea. cbn. destruct (proj2 IH) as [ys El]; [intros; apply H; now right|]. rewrite El. cbn. eauto.
Qed.
Theorem C83_run tj eigh num_basis order orders maxl minl odd : (exists out, run_enum (F := R) tj eigh num_basis order orders maxl minl odd = Ok out) <->
  forall o, In o orders -> (o <= 6)%nat /\ forall l, In l (selected num_basis o maxl minl odd) -> Z.even (zsum l) = true /\ (2 <= o)%nat.
Proof.
  unfold run_enum. destruct (existsb (fun o => (6 <? o)%nat) orders) eqn:E6.
  - apply existsb_exists in E6. destruct E6 as [o [Io Ho]]. apply Nat.ltb_lt in Ho. split; [intros [out C]; discriminate|]. intros H. destruct (H o Io). lia.
  - assert (L6 : forall o, In o orders -> (o <= 6)%nat). { intros o Io. apply Nat.nlt_ge. intros C. assert (X : existsb (fun o => (6 <? o)%nat) orders = true) by (apply existsb_exists; exists o; split; [exact Io|now apply Nat.ltb_lt]). congruence. }
    transitivity (exists parts, mapM (fun o => run_enum_single tj eigh num_basis order o maxl minl odd) orders = Ok parts).
    { destruct (mapM _ orders) as [parts|]; cbn [bind]; split; intros [x C]; try discriminate; eauto. }
    rewrite mapM_some. split.
    + intros H o Io. split; [now apply L6|]. intros l Il. specialize (H o Io). unfold run_enum_single in H. rewrite mapM_some in H. destruct (H l Il) as [y Ey]. unfold solve in Ey. destruct (build tj l) as [ws|] eqn:EB; [|discriminate]. destruct (proj1 (C83_build tj l)) as [HE HL]; [now exists ws|]. apply C83_selected in Il. destruct Il as [[Ll _] _]. split; [exact HE|lia].
    + intros H o Io. unfold run_enum_single. rewrite mapM_some. intros l Il. destruct (H o Io) as [Ho Hl]. destruct (Hl l Il) as [HE H2]. apply C83_selected in Il. destruct Il as [[Ll _] _]. destruct (proj2 (C83_build tj l)) as [ws EB]; [split; [exact HE|lia]|]. unfold solve. rewrite EB. cbn [bind]. eauto.
Qed.
Print Assumptions C83_run.

(** An order above six anywhere in the list is refused before anything is enumerated. *)
Theorem C83_refused tj eigh num_basis order orders maxl minl odd o : In o orders -> (6 < o)%nat -> run_enum (F := R) tj eigh num_basis order orders maxl minl odd = Err RuntimeError.
Proof. intros H L. unfold run_enum. replace (existsb (fun o => (6 <? o)%nat) orders) with true; [reflexivity|]. symmetry. apply existsb_exists. exists o. split; [exact H|now apply Nat.ltb_lt]. Qed.
(** Two calls that are accepted and fail: order one, and odd sums which are asked for. *)
Theorem C83_order_one_refuted tj eigh num_basis order : (0 < num_basis [0%Z])%Z -> run_enum (F := R) tj eigh num_basis order [1%nat] 0 None true = Err ValueError.
Proof. intros H. unfold run_enum, run_enum_single, selected. apply Z.ltb_lt in H. cbn [existsb Nat.ltb Nat.leb orb mapM]. change (combs 1 0 0) with [[0%Z]]. cbn [filter]. rewrite H. reflexivity. Qed.
Print Assumptions C83_refused.
Print Assumptions C83_order_one_refuted.
Theorem C83_odd_refuted tj eigh num_basis order : (forall l, num_basis l = 1%Z) -> run_enum (F := R) tj eigh num_basis order [3%nat] 1 (Some 1%Z) false = Err ValueError.
Proof.
  intros H. assert (S1 : exists a b, selected num_basis 3 1 (Some 1%Z) false = a :: b /\ a = [0; 0; 1]%Z) by (unfold selected; rewrite (filter_ext _ (fun l => existsb (fun x => (1 <=? x)%Z) l)) by (intros l; rewrite H; cbn [negb orb]; rewrite andb_true_r; reflexivity); eexists; eexists; split; vm_compute; reflexivity). destruct S1 as [a [b [E ->]]]. unfold run_enum. cbn [existsb Nat.ltb Nat.leb orb mapM]. unfold run_enum_single. rewrite E. reflexivity.
Qed.
Print Assumptions C83_odd_refuted.

(** Couplings of two vectors to a tensor of rank two. *)
Definition w112 (m1 m2 : Z) : R :=
  if (Z.abs m1 =? 1)%Z then (if (Z.abs m2 =? 1)%Z then (if (m1 =? m2)%Z then 1 else sqrt 2 * sqrt 3 / 6) else if (m2 =? 0)%Z then sqrt 2 / 2 else 0)
  else if (m1 =? 0)%Z then (if (Z.abs m2 =? 1)%Z then sqrt 2 / 2 else if (m2 =? 0)%Z then sqrt 2 * sqrt 3 / 3 else 0) else 0.
Definition tj112 (a b c m1 m2 m3 : Z) : R := if (a =? 1)%Z && (b =? 1)%Z && (c =? 2)%Z && (m1 + m2 + m3 =? 0)%Z then w112 m1 m2 / sqrt 5 * sgn (m1 + m2) else 0.
Lemma used112 l a b : used [1; 1; 2]%Z l a b -> (l, a, b) = (1, 1, 2)%Z.
Proof. unfold used, couples. cbn. intros [qs [[<-|[]] I]]. cbn in I. destruct I as [I|[]]. congruence. Qed.
Lemma s2 : sqrt 2 * sqrt 2 = 2. Proof. apply sqrt_sqrt; lra. Qed.
Lemma s3 : sqrt 3 * sqrt 3 = 3. Proof. apply sqrt_sqrt; lra. Qed.
Lemma s5 : sqrt 5 * sqrt 5 = 5. Proof. apply sqrt_sqrt; lra. Qed.
Lemma n5 : sqrt 5 <> 0. Proof. intros H. pose proof s5. rewrite H in *. lra. Qed.
Lemma cg112 m s : (-1 <= m <= 1)%Z -> (-1 <= s <= 1)%Z -> cg tj112 1 1 2 m s (s + m) = w112 m s.
Proof.
  intros Hm Hs. unfold cg, tj112. cbn [Z.eqb andb Pos.eqb]. replace (m + s + - (s + m))%Z with 0%Z by lia. cbn [Z.eqb]. cbn [nmul R_num nsqrt R_ord]. rewrite nz_IZR by lia. replace (1 - 1 + (s + m))%Z with (m + s)%Z by lia. change (IZR (2 * 2 + 1)) with 5. pose proof (sgn_sq (m + s)). pose proof n5. field_simplify; [|assumption].
  transitivity (w112 m s * (sgn (F := R) (m + s) * sgn (m + s))); [ring|]. rewrite sgn_sq. ring.
Qed.
Lemma tri112 l q q' m1 m2 m3 : ~ triangle l q q' -> tj112 l q q' m1 m2 m3 = 0.
Proof. intros H. unfold tj112. destruct (Z.eqb_spec l 1), (Z.eqb_spec q 1), (Z.eqb_spec q' 2); try reflexivity. exfalso. apply H. unfold triangle. lia. Qed.
Lemma parity112 : all_parity tj112 [1; 1; 2]%Z.
Proof.
  intros l a b U. apply used112 in U. injection U as -> -> ->. intros m1 m2 m3. unfold tj112. cbn [Z.eqb andb Pos.eqb]. replace (- m1 + - m2 + - m3)%Z with (- (m1 + m2 + m3))%Z by lia. replace (- m1 + - m2)%Z with (- (m1 + m2))%Z by lia. rewrite sgn_opp. change (sgn (F := R) (1 + 1 + 2)) with 1.
  destruct (Z.eqb_spec (- (m1 + m2 + m3)) 0), (Z.eqb_spec (m1 + m2 + m3) 0); try lia; [|ring]. replace (w112 (- m1) (- m2)) with (w112 m1 m2); [ring|]. unfold w112. rewrite !Z.abs_opp. replace (- m1 =? - m2)%Z with (m1 =? m2)%Z by (destruct (Z.eqb_spec m1 m2), (Z.eqb_spec (- m1) (- m2)); reflexivity || lia). replace (- m1 =? 0)%Z with (m1 =? 0)%Z by (destruct (Z.eqb_spec m1 0), (Z.eqb_spec (- m1) 0); reflexivity || lia). replace (- m2 =? 0)%Z with (m2 =? 0)%Z by (destruct (Z.eqb_spec m2 0), (Z.eqb_spec (- m2) 0); reflexivity || lia). reflexivity.
Qed.
Lemma three x : (-1 <= x <= 1)%Z -> (x = -1 \/ x = 0 \/ x = 1)%Z.
Proof. lia. Qed.
Lemma unitary112 : all_unitary tj112 [1; 1; 2]%Z.
Proof.
  intros l a b c U U'. apply used112 in U, U'. injection U as -> -> ->. injection U' as ->. intros t Ht _. cbn [Z.eqb Pos.eqb].
  rewrite (rsum_ext _ (fun m => if (Z.abs (t - m) <=? 1)%Z then w112 m (t - m) * w112 m (t - m) else 0)).
  - assert (T : (t = -2 \/ t = -1 \/ t = 0 \/ t = 1 \/ t = 2)%Z) by lia. pose proof s2. pose proof s3. assert (E : sqrt 2 * sqrt 3 / 6 * (sqrt 2 * sqrt 3 / 6) = 1 / 6) by (transitivity ((sqrt 2 * sqrt 2) * (sqrt 3 * sqrt 3) / 36); [field|rewrite s2, s3; lra]). assert (E' : sqrt 2 * sqrt 3 / 3 * (sqrt 2 * sqrt 3 / 3) = 2 / 3) by (transitivity ((sqrt 2 * sqrt 2) * (sqrt 3 * sqrt 3) / 9); [field|rewrite s2, s3; lra]). assert (E2 : sqrt 2 / 2 * (sqrt 2 / 2) = 1 / 2) by (transitivity ((sqrt 2 * sqrt 2) / 4); [field|rewrite s2; lra]).
    destruct T as [->|[->|[->|[->| ->]]]]; cbv -[Rplus Rmult Rdiv Rminus Ropp Rinv sqrt IZR]; rewrite ?E, ?E', ?E2; lra.
  - intros m Hm. apply in_zrange in Hm. destruct (Z.leb_spec (Z.abs (t - m)) 1); [|reflexivity]. assert (C : cg tj112 1 1 2 m (t - m) t = w112 m (t - m)) by (rewrite <- (cg112 m (t - m)) by lia; f_equal; lia). now rewrite C.
Qed.
Lemma ladder112 : all_invariant3 tj112 [1; 1; 2]%Z.
Proof.
  intros l a b U. apply used112 in U. injection U as -> -> ->. intros m1 m2 m3 W1 W2 W3 E. unfold within in *. assert (m3 = 1 - m1 - m2)%Z by lia. subst m3. clear E.
  assert (Q4 : sqrt 4 = 2) by (replace 4 with (2 * 2) by lra; apply sqrt_square; lra). assert (Q6 : sqrt 6 = sqrt 2 * sqrt 3) by (rewrite <- sqrt_mult by lra; f_equal; lra). pose proof s2 as A2. pose proof s3 as A3. pose proof n5 as A5.
  assert (A23 : sqrt 2 * sqrt 2 * sqrt 3 = 2 * sqrt 3) by (rewrite s2; ring). assert (A233 : sqrt 2 * sqrt 3 * sqrt 3 = 3 * sqrt 2) by (rewrite Rmult_assoc, s3; ring).
  destruct (three m1 W1) as [->|[->| ->]], (three m2 W2) as [->|[->| ->]]; try (exfalso; lia); cbv -[Rplus Rmult Rdiv Rminus Ropp Rinv sqrt IZR]; rewrite ?sqrt_0, ?Q4, ?Q6; unfold Rdiv; try (replace (sqrt 2 * sqrt 3 * (sqrt 2 * sqrt 3 * / 6 * / sqrt 5 * 1)) with ((sqrt 2 * sqrt 2) * (sqrt 3 * sqrt 3) * / 6 * / sqrt 5) by ring); try (field_simplify_eq; [|exact A5]); nra.
Qed.
Example C83_example : exists ws, build tj112 [1; 1; 2]%Z = Ok ws /\ length (states [1; 1; 2]%Z) = 9%nat /\ core ws 0%nat 0%nat = 1 / 5 /\ core ws 0%nat 8%nat = 1 / 5 /\ core ws 4%nat 4%nat = 2 / 15 /\ sumn 9%nat (fun k => core ws k k) = 1 /\
  (forall i j, sumn 9%nat (fun k => core ws i k * core ws k j) = core ws i j).
Proof.
  destruct (proj2 (C83_build tj112 [1; 1; 2]%Z)) as [ws EB]; [split; [reflexivity|cbn; lia]|]. exists ws. split; [exact EB|]. split; [reflexivity|].
  assert (HN : Forall (fun l => 0 <= l)%Z [1; 1; 2]%Z) by (repeat constructor; lia). pose proof (C83_core tj112 _ ws ws tri112 parity112 HN EB (Permutation_refl _)) as C.
  assert (P1 : forall a b c d, (-1 <= a <= 1)%Z -> (-1 <= b <= 1)%Z -> (-1 <= c <= 1)%Z -> (-1 <= d <= 1)%Z -> rsum (fun qs => amps tj112 [1; 1; 2]%Z [a; b] qs * amps tj112 [1; 1; 2]%Z [c; d] qs) (paths_of [1; 1; 2]%Z) = w112 a b * w112 c d).
  { intros a b c d Ha Hb Hc Hd. unfold amps, paths_of. change (removelast [1; 1; 2]%Z) with [1; 1]%Z. change (last [1; 1; 2]%Z 0%Z) with 2%Z. cbn [seq_of]. rewrite (amp_last tj112 tri112) by lia. now rewrite !cg112. }
  assert (W1 : w112 (-1) (-1) = 1) by reflexivity. assert (W2 : w112 1 1 = 1) by reflexivity. assert (W0 : w112 0 0 = sqrt 2 * sqrt 3 / 3) by reflexivity.
  split; [|split; [|split]].
  - rewrite C. change (nth_error (states [1; 1; 2]%Z) 0%nat) with (Some [-1; -1]%Z). cbv iota. rewrite P1 by lia. rewrite ?W1, ?W2, ?W0. cbn [last]. change (sgn (F := R) (zsum [-1; -1]%Z)) with 1. change (IZR (2 * 2 + 1)) with 5. lra.
  - rewrite C. change (nth_error (states [1; 1; 2]%Z) 0%nat) with (Some [-1; -1]%Z). change (nth_error (states [1; 1; 2]%Z) 8%nat) with (Some [1; 1]%Z). cbv iota. rewrite P1 by lia. rewrite ?W1, ?W2, ?W0. cbn [last]. change (sgn (F := R) (zsum [-1; -1]%Z)) with 1. change (sgn (F := R) (zsum [1; 1]%Z)) with 1. change (IZR (2 * 2 + 1)) with 5. lra.
  - rewrite C. change (nth_error (states [1; 1; 2]%Z) 4%nat) with (Some [0; 0]%Z). cbv iota. rewrite P1 by lia. rewrite ?W1, ?W2, ?W0. cbn [last]. change (sgn (F := R) (zsum [0; 0]%Z)) with 1. change (IZR (2 * 2 + 1)) with 5. transitivity ((sqrt 2 * sqrt 2) * (sqrt 3 * sqrt 3) / 45); [field|rewrite s2, s3; lra].
  - destruct (C83_projector tj112 _ ws ws tri112 parity112 unitary112 HN EB (Permutation_refl _)) as [_ [SQ TR]]. split; [exact TR|exact SQ].
Qed.
Example C83_example_index : lm_to_matrix_index [1; 1; 2]%Z [0; 1; -1]%Z = 26%Z /\ matrix_index_to_lm 26 [1; 1; 2]%Z = [(1, 0); (1, 1); (2, -1)]%Z /\ row [1; 1]%Z = [2; 4; 6]%Z.
Proof. repeat split; vm_compute; reflexivity. Qed.
Example C83_example_tensor : forall x, Forall2 within [1; 1; 2]%Z x -> raise [1; 1; 2]%Z (tensor [1; 1; 2]%Z (fun ms => value tj112 [1; 1; 2]%Z ms [1; 1]%Z)) x = 0.
Proof. intros x W. apply value_raise; [repeat constructor; lia|cbn; lia|exact ladder112|exact W]. Qed.
