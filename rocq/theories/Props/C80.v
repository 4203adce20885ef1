(** C80: averages over random substitutions. *)
From Verif Require Import Base Num Model.Structure Model.StructureUtils Model.ThermoGrid Proofs.Structure Proofs.StructureSpin Proofs.StructureSpin2 Proofs.StructureUtils Proofs.ThermoGrid Proofs.Readers Model.Disorder Proofs.Disorder.
From Verif Require Spec.Structure Props.C04 Props.C05 Props.C35.
From Coq Require Import QArith Qabs Lqa.
From Verif Require NumR.
From Coq Require Reals Lra.
From Coq Require String.
Local Open Scope nat_scope.

(** *** Numbers of atoms *)
Definition total (n : nat) (os : list entry) : Z := fold_right Z.add 0%Z (map (fun o => n_rep n (snd o)) os).
(** Numbers are rounded to the nearest integer. *)
Theorem C80_rounded n p (c : Z) : (Qabs (inject_Z (Z.of_nat n) * p - inject_Z c) < 1 # 2)%Q -> n_rep n p = c.
Proof.
  unfold n_rep. set (x := (inject_Z (Z.of_nat n) * p)%Q). intros H. destruct (rint_spec x) as [R _]. set (z := ThermoGrid.rint x) in *. clearbody z.
  assert (D : (Qabs (inject_Z z - inject_Z c) < 1)%Q).
  { setoid_replace (inject_Z z - inject_Z c)%Q with ((x - inject_Z c) - (x - inject_Z z))%Q by ring. eapply Qle_lt_trans; [apply Qabs_triangle|]. rewrite Qabs_opp. lra. }
  apply Qabs_Qlt_condition in D. destruct D as [D1 D2]. unfold Qminus in *. rewrite <- inject_Z_opp, <- inject_Z_plus in D1, D2.
  change (- (1))%Q with (inject_Z (-1)) in D1. change 1%Q with (inject_Z 1) in D2. rewrite <- Zlt_Qlt in D1, D2. lia.
Qed.
Print Assumptions C80_rounded.
(** If all of them are integers and the probabilities pass the test, they are the atoms of the sublattice. *)
Theorem C80_total n os : (Z.of_nat n < 99900)%Z -> close1 (qsum (map snd os)) = true -> (forall o, In o os -> exists c : nat, (inject_Z (Z.of_nat n) * snd o == inject_Z (Z.of_nat c))%Q) ->
  total n os = Z.of_nat n /\ Forall (fun o => 0 <= n_rep n (snd o))%Z os.
Proof.
  intros L C H. unfold close1 in C. apply Qle_bool_iff in C.
  assert (E : forall o, In o os -> (inject_Z (n_rep n (snd o)) == inject_Z (Z.of_nat n) * snd o)%Q /\ (0 <= n_rep n (snd o))%Z).
  { intros o Ho. destruct (H o Ho) as [c Ec]. assert (R : n_rep n (snd o) = Z.of_nat c). { apply C80_rounded. rewrite Ec. setoid_replace (inject_Z (Z.of_nat c) - inject_Z (Z.of_nat c))%Q with 0%Q by ring. reflexivity. } rewrite R. split; [now rewrite Ec|lia]. }
  split; [|apply Forall_forall; intros o Ho; now apply E].
  assert (S : (inject_Z (total n os) == inject_Z (Z.of_nat n) * qsum (map snd os))%Q).
  { unfold total, qsum. assert (G : forall l a, (forall o, In o l -> In o os) -> (inject_Z (fold_right Z.add 0%Z (map (fun o => n_rep n (snd o)) l)) + inject_Z (Z.of_nat n) * a == inject_Z (Z.of_nat n) * fold_left Qplus (map snd l) a)%Q).
    { induction l as [|o l IH]; intros a I; cbn [map fold_right fold_left]; [ring|]. rewrite <- IH by (intros; apply I; now right). rewrite inject_Z_plus. destruct (E o (I o (or_introl eq_refl))) as [-> _]. ring. }
    specialize (G os 0%Q (fun o H => H)). rewrite <- G. ring. }
  assert (D : (Qabs (inject_Z (total n os) - inject_Z (Z.of_nat n)) < 1)%Q).
  { rewrite S. setoid_replace (inject_Z (Z.of_nat n) * qsum (map snd os) - inject_Z (Z.of_nat n))%Q with (inject_Z (Z.of_nat n) * (qsum (map snd os) - 1))%Q by ring. rewrite Qabs_Qmult.
    assert (A0 : (Qabs (inject_Z (Z.of_nat n)) <= inject_Z 99899)%Q). { rewrite Qabs_pos by (change 0%Q with (inject_Z 0); rewrite <- Zle_Qle; lia). rewrite <- Zle_Qle. lia. }
    eapply Qle_lt_trans; [eapply Qmult_le_compat_nonneg; [split; [apply Qabs_nonneg|exact A0]|split; [apply Qabs_nonneg|exact C]]|]. reflexivity. }
  apply Qabs_Qlt_condition in D. destruct D as [D1 D2]. unfold Qminus in *. rewrite <- inject_Z_opp, <- inject_Z_plus in D1, D2.
  change (- (1))%Q with (inject_Z (-1)) in D1. change 1%Q with (inject_Z 1) in D2. rewrite <- Zlt_Qlt in D1, D2. lia.
Qed.
Print Assumptions C80_total.

Lemma nth_firstn {X} (l : list X) n i : i < n -> nth_error (firstn n l) i = nth_error l i.
Proof. revert l i. induction n as [|n IH]; intros [|x l] [|i] H; try lia; try reflexivity. cbn. apply IH. lia. Qed.
Lemma nth_skipn {X} (l : list X) n i : nth_error (skipn n l) i = nth_error l (n + i).
Proof. revert l. induction n as [|n IH]; intros [|x l]; try reflexivity; [now destruct i|]. cbn. apply IH. Qed.
Lemma skipn_two {X} (l : list X) n m : skipn (n + m) l = skipn m (skipn n l).
Proof. revert l. induction n as [|n IH]; intros [|x l]; try reflexivity; [now destruct m|]. cbn. apply IH. Qed.
(** *** Substituted lattices, for every random choice *)
Section Substituted.
  Context {P A V G : Type}.
  Variable sample : G -> list nat -> nat -> list nat * G.
  Hypothesis SO : sample_ok sample.
  Variables (lat : structure P A V) (occ : list (list entry)).
  Hypothesis HE : length (elements lat) = sum (n_atoms lat).
  Hypothesis HT : length (types lat) = sum (n_atoms lat).
  Hypothesis HP : length (positions lat) = sum (n_atoms lat).
  Notation w := (width (elements lat)).

  (** They are made exactly if there are as many occupancies as sublattices and the numbers are not negative and do not exceed the atoms. *)
  Theorem C80_made g : (exists st g', substituted sample g lat occ = Ok (st, g')) <->
    length occ = length (n_atoms lat) /\
    forall i os n, nth_error occ i = Some os -> nth_error (n_atoms lat) i = Some n -> (forall o, In o os -> (0 <= n_rep n (snd o))%Z) /\ (total n os <= Z.of_nat n)%Z.
  Proof.
    assert (F : Forall fits (combine occ (n_atoms lat)) <-> forall i os n, nth_error occ i = Some os -> nth_error (n_atoms lat) i = Some n -> (forall o, In o os -> (0 <= n_rep n (snd o))%Z) /\ (total n os <= Z.of_nat n)%Z).
    { rewrite Forall_forall. split.
      - intros F i os n H1 H2. destruct (F (os, n)) as [F1 F2]; [apply (nth_error_In _ i); now apply nth_error_combine|]. split; [now apply Forall_forall|exact F2].
      - intros F [os n] HI. apply In_nth_error in HI. destruct HI as [i HI].
        assert (Z : forall (a : list (list entry)) (b : list nat) k x y, nth_error (combine a b) k = Some (x, y) -> nth_error a k = Some x /\ nth_error b k = Some y).
        { clear. induction a as [|x a IH]; intros [|y b] [|k] x' y' H; try discriminate; cbn in *; [injection H as -> ->; auto|]. now apply IH in H. }
        apply Z in HI. destruct HI as [H1 H2]. destruct (F i os n H1 H2) as [F1 F2]. split; [now apply Forall_forall|exact F2]. }
    pose proof (substituted_spec sample SO lat occ HE HT g) as S. destruct (substituted sample g lat occ) as [[st g']|e].
    - destruct S as [S1 [S2 _]]. split; [intros _; split; [exact S1|now apply F]|eauto].
    - destruct S as [_ S]. split; [intros [st [g' H]]; discriminate|]. intros [H1 H2]. apply F in H2. tauto.
  Qed.
  Theorem C80_refused g e : substituted sample g lat occ = Err e -> e = ValueError.
  Proof. intros H. pose proof (substituted_spec sample SO lat occ HE HT g) as S. rewrite H in S. apply S. Qed.

  (** Sublattice by sublattice the atoms are those of the occupancy in the rounded numbers, and atoms of the lattice for the rest. *)
  Theorem C80_sublattices g st g' : substituted sample g lat occ = Ok (st, g') ->
    axis st = axis lat /\ positions st = positions lat /\ n_atoms st = n_atoms lat /\ length (elements st) = length (elements lat) /\ length (types st) = length (types lat) /\
    forall i os n, nth_error occ i = Some os -> nth_error (n_atoms lat) i = Some n ->
      exists rest replaced, Permutation (sublattice st i) (flat_map (fun o => repeat (cut w (fst (fst o)), Z.of_nat (snd (fst o))) (Z.to_nat (n_rep n (snd o)))) os ++ rest) /\
        Permutation (sublattice lat i) (replaced ++ rest) /\ Z.of_nat (length rest) = (Z.of_nat n - total n os)%Z.
  Proof.
    intros H. pose proof (substituted_spec sample SO lat occ HE HT g) as S. rewrite H in S. destruct S as [S1 [S2 [S3 [S4 [S5 [_ [_ [S6 [S7 _]]]]]]]]].
    split; [exact S3|]. split; [exact S4|]. split; [exact S5|]. split; [congruence|]. split; [congruence|].
    intros i os n EO EN. destruct (sublattice_spec sample SO lat occ HE HT g st g' i os n H EO EN) as [rest [rep [R1 R2]]]. exists rest, rep. split; [exact R1|]. split; [exact R2|].
    assert (LS : length (sublattice st i) = n).
    { unfold sublattice. rewrite S5, (nth_error_nth _ _ 0 EN), firstn_length, skipn_length, combine_length, S6, S7.
      assert (BN : sum (firstn i (n_atoms lat)) + n <= sum (n_atoms lat)).
      { clear -EN. revert i EN. generalize (n_atoms lat). intros l. unfold sum. induction l as [|x l IH]; intros [|i] E; try discriminate; cbn in *; [injection E as ->; lia|]. apply IH in E. lia. }
      lia. }
    apply Permutation_length in R1. rewrite app_length, LS in R1.
    assert (F : fits (os, n)) by (rewrite Forall_forall in S2; apply S2; apply (nth_error_In _ i); now apply nth_error_combine). destruct F as [F _]. cbn in F.
    match type of R1 with n = length ?l + _ => assert (LF : Z.of_nat (length l) = total n os) end.
    { clear -F. unfold total. induction F as [|o os H F IH]; cbn; [reflexivity|]. rewrite app_length, repeat_length. lia. }
    lia.
  Qed.
  (** If nothing is left by rounding, they are exactly those of the occupancy. *)
  Theorem C80_exact g st g' i os n : substituted sample g lat occ = Ok (st, g') -> nth_error occ i = Some os -> nth_error (n_atoms lat) i = Some n -> total n os = Z.of_nat n ->
    Permutation (sublattice st i) (flat_map (fun o => repeat (cut w (fst (fst o)), Z.of_nat (snd (fst o))) (Z.to_nat (n_rep n (snd o)))) os).
  Proof.
    intros H EO EN T. destruct (C80_sublattices g st g' H) as [_ [_ [_ [_ [_ S]]]]]. destruct (S i os n EO EN) as [rest [rep [R1 [_ R3]]]].
    assert (rest = []) by (destruct rest; [reflexivity|cbn in R3; lia]). subst rest. now rewrite app_nil_r in R1.
  Qed.

  Lemma atom_sublattice (st : structure P A V) i : n_atoms st = n_atoms lat -> length (elements st) = sum (n_atoms lat) -> length (types st) = sum (n_atoms lat) -> i < sum (n_atoms lat) ->
    forall e t, nth_error (elements st) i = Some e -> nth_error (types st) i = Some t -> exists k, k < length (n_atoms lat) /\ In (e, t) (sublattice st k).
  Proof.
    intros EA LE LT L e t HE1 HT1. pose proof (nth_error_combine _ _ _ _ _ HE1 HT1) as HC. unfold sublattice. rewrite EA. clear -HC L. revert i L HC. generalize (combine (elements st) (types st)). 
    induction (n_atoms lat) as [|n ns IH]; intros l i L HC; [cbn in L; lia|]. destruct (Nat.lt_ge_cases i n) as [Hi|Hi].
    - exists 0. split; [cbn; lia|]. cbn. apply (nth_error_In _ i). now rewrite nth_firstn.
    - destruct (IH (skipn n l) (i - n)) as [k [K1 K2]].
      + unfold sum in *. cbn in L. lia.
      + rewrite nth_skipn. now replace (n + (i - n)) with i by lia.
      + exists (S k). split; [cbn; lia|]. cbn [nth firstn]. replace (sum (n :: firstn k ns)) with (n + sum (firstn k ns)) by (unfold sum; cbn; lia). rewrite skipn_two. exact K2.
  Qed.

  Lemma order_any (st : structure P A V) : length (types st) = length (positions st) -> length (elements st) = length (positions st) ->
    exists st' ids, sort_wrt_types st = Ok (st', ids) /\ Permutation ids (seq 0 (length (positions st))) /\ mapM (get (positions st)) ids = Ok (positions st') /\ mapM (get (types st)) ids = Ok (types st') /\ axis st' = axis st.
  Proof.
    intros L1 L2. destruct (sort_wrt_types_ok st L1 L2) as [st' [ids [E [_ [_ [_ [_ [_ [EA _]]]]]]]]]. exists st', ids. split; [exact E|].
    set (st0 := mk_structure (axis st) (positions st) (n_atoms st) (repeat String.EmptyString (length (positions st))) (types st) (volume st) (name st)).
    destruct (C35.C35_sort_wrt_types st0) as [st1 [ids1 [E1 [_ [Q1 [Q2 [Q3 _]]]]]]]; [exact L1|apply repeat_length| |].
    { intros t e e' H1 H2. apply in_combine_r in H1, H2. cbn in H1, H2. apply repeat_spec in H1, H2. congruence. }
    cbn in Q1, Q2, Q3. unfold sort_wrt_types in E, E1. change (sort_step st0) with (sort_step st) in E1. cbn [types elements st0] in E1.
    destruct (foldM (sort_step st) ([], [], [], []) (np_unique (types st))) as [[[[na pos] ty] is]|]; [|discriminate]. cbn [bind] in E, E1.
    destruct (mapM _ ty) as [el|]; [|discriminate]. destruct (mapM (StructureUtils.lookup (map_elements (types st) (repeat String.EmptyString (length (positions st))))) ty) as [el1|]; [|discriminate]. cbn [bind] in E, E1.
    injection E as <- <-. injection E1 as <- <-. cbn in *. auto.
  Qed.
  (** Structures are sorted by type; the returned ids say which atom of the lattice is at every place. *)
  Theorem C80_order g st' ids g' : one_structure sample g lat occ = Ok (st', ids, g') ->
    exists st, substituted sample g lat occ = Ok (st, g') /\ sort_wrt_types st = Ok (st', ids) /\
      Permutation ids (seq 0 (sum (n_atoms lat))) /\ mapM (get (positions lat)) ids = Ok (positions st') /\ mapM (get (types st)) ids = Ok (types st') /\ axis st' = axis lat.
  Proof.
    unfold one_structure. intros H. destruct (substituted sample g lat occ) as [[st g1]|] eqn:E; [|discriminate]. cbn [bind fst snd] in H. destruct (C80_sublattices g st g1 E) as [Q1 [Q2 [_ [Q3 [Q4 _]]]]].
    destruct (order_any st) as [s2 [i2 [O1 [O2 [O3 [O4 O5]]]]]]; [congruence|congruence|]. rewrite O1 in H. injection H as <- <- <-. exists st. rewrite <- HP, <- Q2. split; [reflexivity|]. split; [exact O1|]. split; [exact O2|]. split; [exact O3|]. split; [exact O4|congruence].
  Qed.
  Theorem C80_succeeds g : (exists r, one_structure sample g lat occ = Ok r) <-> exists st g', substituted sample g lat occ = Ok (st, g').
  Proof.
    unfold one_structure. split; [intros [r H]; destruct (substituted sample g lat occ) as [[st g']|]; [eauto|discriminate]|]. intros [st [g' E]]. rewrite E. cbn [bind fst snd].
    destruct (C80_sublattices g st g' E) as [Q1 [Q2 [_ [Q3 [Q4 _]]]]]. destruct (order_any st) as [s2 [i2 [O1 _]]]; [congruence|congruence|]. rewrite O1. cbn. eauto.
  Qed.

  (** *** The types that are evaluated *)
  Lemma cut_short k e : String.length e <= k -> cut k e = e.
  Proof. clear. unfold cut. revert k. induction e as [|c e IH]; intros [|k] H; cbn in *; try reflexivity; [lia|]. f_equal. apply IH. lia. Qed.
  Variable els : list string.   (** of the potential *)
  (** Types are places in [els], names fit into the arrays of the lattice, nothing is left by rounding. *)
  Hypothesis HG : forall os o, In os occ -> In o os -> nth_error els (snd (fst o)) = Some (fst (fst o)) /\ String.length (fst (fst o)) <= w.
  Hypothesis HF : forall i os n, nth_error occ i = Some os -> nth_error (n_atoms lat) i = Some n -> total n os = Z.of_nat n.
  Lemma atom_typed g st g' : substituted sample g lat occ = Ok (st, g') -> forall i e t, nth_error (elements st) i = Some e -> nth_error (types st) i = Some t -> (0 <= t)%Z /\ nth_error els (Z.to_nat t) = Some e.
  Proof.
    intros H i e t H1 H2. destruct (C80_sublattices g st g' H) as [_ [_ [Q1 [Q2 [Q3 _]]]]]. rewrite HE in Q2. rewrite HT in Q3.
    assert (L : i < sum (n_atoms lat)) by (rewrite <- Q2; apply nth_error_Some; congruence).
    destruct (atom_sublattice st i Q1 Q2 Q3 L e t H1 H2) as [k [K1 K2]].
    assert (LO : length occ = length (n_atoms lat)) by (apply (C80_made g); eauto).
    destruct (nth_error occ k) as [os|] eqn:EO; [|apply nth_error_None in EO; lia]. destruct (nth_error (n_atoms lat) k) as [n|] eqn:EN; [|apply nth_error_None in EN; lia].
    rewrite (C80_exact g st g' k os n H EO EN (HF k os n EO EN)) in K2. apply in_flat_map in K2. destruct K2 as [o [O1 O2]]. apply repeat_spec in O2. injection O2 as -> ->.
    destruct (HG os o (nth_error_In _ _ EO) O1) as [G1 G2]. rewrite cut_short by exact G2. split; [lia|]. now rewrite Nat2Z.id.
  Qed.
  Lemma mapM_get_nth {X} (l : list X) ids r : mapM (get l) ids = Ok r -> length r = length ids /\ forall j a, nth_error ids j = Some a -> nth_error r j = nth_error l a.
  Proof.
    clear. revert r. induction ids as [|i ids IH]; intros r H; cbn in H; [injection H as <-; split; [reflexivity|intros [|j]; discriminate]|].
    unfold get at 1 in H. destruct (nth_error l i) as [x|] eqn:E; [|discriminate]. cbn in H. destruct (mapM (get l) ids) as [r'|]; [|discriminate]. injection H as <-. destruct (IH r' eq_refl) as [I1 I2].
    split; [cbn; lia|]. intros [|j] a H; cbn in *; [injection H as <-; congruence|now apply I2].
  Qed.
  Lemma structure_typed g st' ids g' : one_structure sample g lat occ = Ok (st', ids, g') ->
    length (types st') = length (elements st') /\ (forall i e t, nth_error (elements st') i = Some e -> nth_error (types st') i = Some t -> (0 <= t)%Z /\ nth_error els (Z.to_nat t) = Some e) /\
    exists st, substituted sample g lat occ = Ok (st, g') /\ Permutation ids (seq 0 (sum (n_atoms lat))) /\ mapM (get (elements st)) ids = Ok (elements st') /\ mapM (get (types st)) ids = Ok (types st').
  Proof.
    intros H. destruct (C80_order g st' ids g' H) as [st [E [SO' [PI [PP [PT _]]]]]]. destruct (C80_sublattices g st g' E) as [_ [Q2 [_ [Q3 [Q4 _]]]]].
    assert (FN : forall t e e', In (t, e) (combine (types st) (elements st)) -> In (t, e') (combine (types st) (elements st)) -> e = e').
    { assert (Z : forall (a : list Z) (b : list string) k x y, nth_error (combine a b) k = Some (x, y) -> nth_error a k = Some x /\ nth_error b k = Some y).
      { clear. induction a as [|x a IH]; intros [|y b] [|k] x' y' H; try discriminate; cbn in *; [injection H as -> ->; auto|]. now apply IH in H. }
      intros t e e' H1 H2. apply In_nth_error in H1, H2. destruct H1 as [i1 H1], H2 as [i2 H2]. apply Z in H1, H2. destruct H1 as [A1 A2], H2 as [B1 B2].
      destruct (atom_typed g st g' E i1 e t A2 A1) as [_ X1]. destruct (atom_typed g st g' E i2 e' t B2 B1) as [_ X2]. congruence. }
    destruct (C35.C35_sort_wrt_types st) as [s2 [i2 [O1 [_ [_ [_ [_ O6]]]]]]]; [congruence|congruence|exact FN|]. rewrite SO' in O1. injection O1 as <- <-.
    destruct (mapM_get_nth _ _ _ PT) as [T1 T2]. destruct (mapM_get_nth _ _ _ O6) as [T3 T4]. split; [congruence|]. split.
    - intros i e t H1 H2. assert (HI : exists a, nth_error ids i = Some a) by (assert (i < length ids) by (rewrite <- T3; apply nth_error_Some; congruence); destruct (nth_error ids i) eqn:EI; [eauto|apply nth_error_None in EI; lia]).
      destruct HI as [a Ha]. rewrite (T4 i a Ha) in H1. rewrite (T2 i a Ha) in H2. exact (atom_typed g st g' E a e t H1 H2).
    - exists st. auto.
  Qed.
  (** Then the evaluation, which assigns types anew from the elements, keeps them: for potentials without spins, *)
  Theorem C80_types argsort g st' ids g' : NoDup els -> one_structure sample g lat occ = Ok (st', ids, g') ->
    exists st2, replace_types argsort st' els = Ok st2 /\ types st2 = types st' /\ elements st2 = elements st' /\ positions st2 = positions st'.
  Proof.
    intros ND H. destruct (structure_typed g st' ids g' H) as [L [S _]].
    assert (IN : forall e, In e (elements st') -> In e els).
    { intros e He. apply In_nth_error in He. destruct He as [i He]. destruct (nth_error (types st') i) as [t|] eqn:ET; [|apply nth_error_None in ET; assert (i < length (elements st')) by (apply nth_error_Some; congruence); lia].
      destruct (S i e t He ET) as [_ X]. now apply nth_error_In in X. }
    destruct (C04.C04_replace_types argsort st' els L ND IN) as [st2 [R1 [R2 [R3 [R4 [R5 _]]]]]]. exists st2. split; [exact R1|]. split; [|auto].
    apply (nth_ext _ _ 0%Z 0%Z); [congruence|]. intros i Hi. destruct (nth_error (elements st') i) as [e|] eqn:EE; [|apply nth_error_None in EE; lia].
    destruct (nth_error (types st2) i) as [t2|] eqn:E2; [|apply nth_error_None in E2; lia]. destruct (nth_error (types st') i) as [t1|] eqn:E1; [|apply nth_error_None in E1; lia].
    rewrite (nth_error_nth _ _ _ E2), (nth_error_nth _ _ _ E1). destruct (R3 i e t2 EE E2) as [X1 X2]. destruct (S i e t1 EE E1) as [Y1 Y2].
    assert (Z.to_nat t2 = Z.to_nat t1); [|lia]. apply (NoDup_nth_error els); [exact ND|apply nth_error_Some; congruence|congruence].
  Qed.
  (** and for those with spins if every type has an atom. *)
  Theorem C80_types_spins argsort blocks g st' ids g' : Spec.Structure.sorts argsort -> els = Spec.Structure.spread blocks -> NoDup (map fst blocks) ->
    (forall t, t < length els -> exists i os n o, nth_error occ i = Some os /\ nth_error (n_atoms lat) i = Some n /\ In o os /\ snd (fst o) = t /\ (0 < n_rep n (snd o))%Z) ->
    one_structure sample g lat occ = Ok (st', ids, g') ->
    exists st2, replace_types argsort st' els = Ok st2 /\ types st2 = types st' /\ elements st2 = elements st' /\ positions st2 = positions st'.
  Proof.
    intros SA EB ND HA H. destruct (structure_typed g st' ids g' H) as [L [S [st [E [PI [PE PT]]]]]]. rewrite EB in *. apply C05.C05_replace_types_all_channels_present; auto.
    intros j e Hj. destruct (HA j) as [i [os [n [o [EO [EN [IO [ET HN]]]]]]]]; [apply nth_error_Some; congruence|].
    destruct (HG os o (nth_error_In _ _ EO) IO) as [G1 G2]. rewrite ET in G1. assert (EQ : fst (fst o) = e) by congruence.
    assert (IS : In (e, Z.of_nat j) (sublattice st i)).
    { rewrite (C80_exact g st g' i os n E EO EN (HF i os n EO EN)). apply in_flat_map. exists o. split; [exact IO|]. rewrite cut_short by exact G2. rewrite EQ, ET. destruct (Z.to_nat (n_rep n (snd o))) eqn:EZ; [lia|]. now left. }
    unfold sublattice in IS. assert (IS2 : In (e, Z.of_nat j) (combine (elements st) (types st))).
    { rewrite <- (firstn_skipn (sum (firstn i (n_atoms st))) (combine (elements st) (types st))). apply in_app_iff. right.
      rewrite <- (firstn_skipn (nth i (n_atoms st) 0) (skipn _ _)). apply in_app_iff. now left. }
    apply In_nth_error in IS2. destruct IS2 as [a Ha].
    assert (Z : forall (a : list string) (b : list Z) k x y, nth_error (combine a b) k = Some (x, y) -> nth_error a k = Some x /\ nth_error b k = Some y).
    { clear. induction a as [|x a IH]; intros [|y b] [|k] x' y' H; try discriminate; cbn in *; [injection H as -> ->; auto|]. now apply IH in H. }
    apply Z in Ha. destruct Ha as [A1 A2]. destruct (C80_sublattices g st g' E) as [_ [_ [_ [Q3 _]]]].
    assert (LA : a < sum (n_atoms lat)) by (rewrite <- HE, <- Q3; apply nth_error_Some; congruence).
    assert (IA : In a ids) by (rewrite PI; apply in_seq; lia). apply In_nth_error in IA. destruct IA as [i0 I0]. exists i0.
    destruct (mapM_get_nth _ _ _ PE) as [_ T1]. destruct (mapM_get_nth _ _ _ PT) as [_ T2]. rewrite (T1 _ _ I0), (T2 _ _ I0). auto.
  Qed.
End Substituted.
Print Assumptions C80_made.
Print Assumptions C80_refused.
Print Assumptions C80_sublattices.
Print Assumptions C80_exact.
Print Assumptions C80_order.
Print Assumptions C80_succeeds.
Print Assumptions C80_types.
Print Assumptions C80_types_spins.

(** *** Evaluation *)
Lemma map_fst_combine {X Y} (l : list X) (l' : list Y) : length l' = length l -> map fst (combine l l') = l.
Proof. revert l'. induction l as [|x l IH]; intros [|y l'] H; try discriminate; cbn; [reflexivity|]. f_equal. apply IH. now injection H. Qed.
Section Evaluation.
  Context {P A V G F : Type} {N : Num F} {NO : NumOrd F}.
  Variable sample : G -> list nat -> nat -> list nat * G.
  Notation structure := (structure P A V).
  Variable calc : structure -> res (props (F := F)).
  (** Columns go back to the atoms of the lattice. *)
  Theorem C80_forces (zero : list F) f order r : Permutation order (seq 0 (length order)) -> reorder zero f order = Ok r ->
    length r = length order /\ forall j a, nth_error order j = Some a -> nth_error r a = nth_error f j.
  Proof.
    intros HP H. unfold reorder in H. destruct (Nat.eqb_spec (length f) (length order)) as [L|L]; [|discriminate]. cbn [negb] in H. destruct (forallb _ order) eqn:FB; [|discriminate]. injection H as <-.
    fold (writes (repeat zero (length f)) (combine order f)). split; [rewrite writes_length, repeat_length; exact L|]. intros j a Hj.
    assert (ND : NoDup order) by (apply (Permutation_NoDup (Permutation_sym HP)); apply seq_NoDup).
    destruct (nth_error f j) as [v|] eqn:Hf; [|apply nth_error_None in Hf; assert (j < length order) by (apply nth_error_Some; congruence); lia].
    apply writes_in.
    - rewrite map_fst_combine by exact L. exact ND.
    - apply (nth_error_In _ j). now apply nth_error_combine.
    - rewrite repeat_length. rewrite forallb_forall in FB. apply Nat.ltb_lt. apply FB. now apply nth_error_In in Hj.
  Qed.
  Theorem C80_forces_accepted (zero : list F) f order : Permutation order (seq 0 (length order)) -> length f = length order -> exists r, reorder zero f order = Ok r.
  Proof.
    intros HP L. unfold reorder. rewrite L, Nat.eqb_refl. cbn [negb]. assert (FB : forallb (fun i => i <? length order) order = true).
    { apply forallb_forall. intros i Hi. apply Nat.ltb_lt. rewrite HP in Hi. apply in_seq in Hi. lia. } rewrite FB. eauto.
  Qed.
  (** Every sample is a substituted lattice with its energy and stress, and its forces on the atoms of the lattice. *)
  Theorem C80_samples n g lat occ qs g' : eval_substitutional sample calc n g lat occ = Ok (qs, g') ->
    exists sts, length sts = n /\ Forall (fun so => exists g0 g1, one_structure sample g0 lat occ = Ok (fst so, snd so, g1)) sts /\
      Forall2 (fun so q => exists f, calc (fst so) = Ok (fst (fst q), f, snd q) /\ reorder zeros3 f (snd so) = Ok (snd (fst q))) sts qs.
  Proof.
    unfold eval_substitutional. intros H. destruct (structures sample n g lat occ) as [[sts g1]|] eqn:ES; [|discriminate]. cbn [bind fst snd] in H. exists sts.
    assert (S : length sts = n /\ Forall (fun so => exists g0 g1, one_structure sample g0 lat occ = Ok (fst so, snd so, g1)) sts).
    { clear H. revert g sts g1 ES. induction n as [|n IH]; intros g sts g1 ES; cbn in ES; [injection ES as <- <-; auto|]. destruct (one_structure sample g lat occ) as [[so g0]|] eqn:E1; [|discriminate]. cbn [bind fst snd] in ES.
      destruct (structures sample n g0 lat occ) as [[t g2]|] eqn:E2; [|discriminate]. injection ES as <- <-. destruct (IH _ _ _ E2) as [I1 I2]. split; [cbn; lia|]. constructor; [|exact I2]. exists g, g0. rewrite E1. now destruct so. }
    destruct S as [S1 S2]. split; [exact S1|]. split; [exact S2|]. clear S1 S2 ES. match type of H with context [mapM ?f sts] => destruct (mapM f sts) as [ps|] eqn:EM; [|discriminate] end. cbn [bind] in H. match type of H with context [mapM ?f (combine ps sts)] => destruct (mapM f (combine ps sts)) as [qs'|] eqn:EQ; [|discriminate] end. injection H as <- <-.
    revert ps qs' EM EQ. induction sts as [|so sts IH]; intros ps qs' EM EQ; cbn in EM.
    - injection EM as <-. cbn in EQ. injection EQ as <-. constructor.
    - destruct (calc (fst so)) as [[[e f] s]|] eqn:EC; [|discriminate]. cbn [bind] in EM. match type of EM with context [mapM ?f sts] => destruct (mapM f sts) as [ps1|]; [|discriminate] end. injection EM as <-. cbn in EQ.
      destruct (reorder zeros3 f (snd so)) as [r|] eqn:ER; [|discriminate]. cbn [bind] in EQ. match type of EQ with context [mapM ?f (combine ps1 sts)] => destruct (mapM f (combine ps1 sts)) as [qs1|] eqn:E1; [|discriminate] end. injection EQ as <-. constructor; [exists f; auto|]. now apply (IH ps1).
  Qed.

End Evaluation.

(** *** Averages *)
Section Averages.
  Context {G F : Type} {N : Num F} {NO : NumOrd F}.
  Variable batch : G -> res (list (props (F := F)) * G).
  (** All samples of the first k batches *)
  Inductive drawn (g : G) : nat -> list (props (F := F)) -> G -> Prop :=
  | drawn_0 : drawn g 0 [] g
  | drawn_S k l g1 b g2 : drawn g k l g1 -> batch g1 = Ok (b, g2) -> drawn g (S k) (l ++ b) g2.
  Lemma drawn_fun g k l1 g1 l2 g2 : drawn g k l1 g1 -> drawn g k l2 g2 -> l1 = l2 /\ g1 = g2.
  Proof.
    intros H. revert l2 g2. induction H as [|k l g1 b g3 H IH E]; intros l2 g2 H2; inversion H2 as [|k' l' g1' b' g2' H3 E3]; subst; [auto|]. destruct (IH _ _ H3) as [<- <-]. split; congruence.
  Qed.
  Definition energy (l : list (props (F := F))) : F := mean (map (fun p => fst (fst p)) l).
  (** The average changes by no more than the tolerance with the k-th batch. *)
  Definition settled (n_sum : nat) (etol : F) (g : G) (k : nat) : Prop :=
    exists l1 g1 l2 g2, drawn g (k - 1) l1 g1 /\ drawn g k l2 g2 /\ nltb etol (ndiv (dabs (nsub (energy l2) (energy l1))) (nnat n_sum)) = false.
  Lemma average_spec n_sum etol g fuel : forall k prev diff all g1, drawn g k all g1 -> prev = (match k with O => None | _ => Some (energy all) end) ->
    (k <= 1 -> nltb etol diff = true) -> (2 <= k -> nltb etol diff = false <-> settled n_sum etol g k) -> (forall j, 2 <= j < k -> ~ settled n_sum etol g j) ->
    match average batch n_sum etol diff prev fuel g1 all with
    | Ok (prev', all', g') => exists K, k <= K <= k + fuel /\ drawn g K all' g' /\ prev' = (match K with O => None | _ => Some (energy all') end) /\
        (forall j, 2 <= j < K -> ~ settled n_sum etol g j) /\ (K = k + fuel \/ 2 <= K /\ settled n_sum etol g K)
    | Err e => exists K l g', k <= K < k + fuel /\ drawn g K l g' /\ batch g' = Err e
    end.
  Proof.
    induction fuel as [|fuel IH]; intros k prev diff all g1 D EP H1 H2 H3; cbn [average].
    - exists k. split; [lia|]. split; [exact D|]. split; [exact EP|]. split; [exact H3|]. left. lia.
    - destruct (nltb etol diff) eqn:B.
      2:{ exists k. split; [lia|]. split; [exact D|]. split; [exact EP|]. split; [exact H3|]. right. assert (2 <= k) by (destruct (Nat.le_gt_cases 2 k); [assumption|specialize (H1 ltac:(lia)); discriminate]). split; [assumption|]. now apply H2. }
      assert (NS : forall j, 2 <= j < S k -> ~ settled n_sum etol g j). { intros j Hj. destruct (Nat.eq_dec j k) as [->|]; [|apply H3; lia]. intros S. apply H2 in S; [discriminate|lia]. }
      destruct (batch g1) as [[b g2]|e] eqn:EB; cbn [bind fst snd]; [|exists k, all, g1; split; [lia|]; auto].
      pose proof (drawn_S g k all g1 b g2 D EB) as D2.
      specialize (IH (S k) (Some (energy (all ++ b))) (match prev with Some p => ndiv (dabs (nsub (energy (all ++ b)) p)) (nnat n_sum) | None => diff end) (all ++ b) g2 D2 eq_refl).
      match type of IH with ?X -> ?Y -> _ => assert (HX : X); [|assert (HY : Y)] end.
      + intros Hk. destruct k; [|lia]. subst prev. exact B.
      + intros Hk. destruct k as [|k]; [lia|]. subst prev. split.
        * intros E. exists all, g1, (all ++ b), g2. replace (S (S k) - 1) with (S k) by lia. auto.
        * intros [l1 [x1 [l2 [x2 [S1 [S2 S3]]]]]]. replace (S (S k) - 1) with (S k) in S1 by lia. destruct (drawn_fun _ _ _ _ _ _ D S1) as [<- _]. destruct (drawn_fun _ _ _ _ _ _ D2 S2) as [<- _]. exact S3.
      + specialize (IH HX HY NS). unfold energy in *. destruct (average batch n_sum etol _ _ fuel g2 (all ++ b)) as [[[p' a'] g']|e].
        * destruct IH as [K [K1 [K2 [K3 [K4 K5]]]]]. exists K. split; [lia|]. split; [exact K2|]. split; [exact K3|]. split; [exact K4|]. destruct K5 as [->|K5]; [left; lia|now right].
        * destruct IH as [K [l [g' [K1 K2]]]]. exists K, l, g'. split; [lia|exact K2].
  Qed.
End Averages.
(** The average is over all samples of the first K batches; K is the first with a settled average (from the second on) or the given maximum. *)
Theorem C80_average {P A V G F : Type} {N : Num F} {NO : NumOrd F} (sample : G -> list nat -> nat -> list nat * G) (calc : structure P A V -> res (props (F := F))) n max_iter etol g lat occ e f s g' :
  nltb etol (nadd etol n1) = true -> eval_single sample calc n max_iter etol g lat occ = Ok (e, f, s, g') ->
  let batch := fun g => eval_substitutional sample calc n g lat occ in
  exists K all, 1 <= K <= max_iter /\ drawn batch g K all g' /\
    e = mean (map (fun p => fst (fst p)) all) /\ f = mean_cols (map (fun p => snd (fst p)) all) /\ s = mean_rows (map snd all) /\
    (forall j, 2 <= j < K -> ~ settled batch (sum (n_atoms lat)) etol g j) /\ (K = max_iter \/ 2 <= K /\ settled batch (sum (n_atoms lat)) etol g K).
Proof.
  intros HT H batch. unfold eval_single in H. fold batch in H. pose proof (average_spec batch (sum (n_atoms lat)) etol g max_iter 0 None (nadd etol n1) [] g (drawn_0 batch g) eq_refl (fun _ => HT)) as S.
  specialize (S ltac:(lia) ltac:(lia)). destruct (average batch (sum (n_atoms lat)) etol (nadd etol n1) None max_iter g []) as [[[prev all] g1]|]; [|discriminate]. cbn [bind] in H.
  destruct S as [K [K1 [K2 [K3 [K4 K5]]]]]. destruct prev as [e'|]; [|discriminate]. injection H as <- <- <- <-. destruct K as [|K]; [discriminate|]. injection K3 as ->. exists (S K), all. split; [lia|]. split; [exact K2|].
  split; [reflexivity|]. split; [reflexivity|]. split; [reflexivity|]. split; [exact K4|]. destruct K5 as [->|K5]; [left; lia|now right].
Qed.
(** It fails exactly with the first failing batch, or without iterations. *)
Theorem C80_average_fails {P A V G F : Type} {N : Num F} {NO : NumOrd F} (sample : G -> list nat -> nat -> list nat * G) (calc : structure P A V -> res (props (F := F))) n max_iter etol g lat occ x :
  nltb etol (nadd etol n1) = true -> eval_single sample calc n max_iter etol g lat occ = Err x ->
  let batch := fun g => eval_substitutional sample calc n g lat occ in
  (max_iter = 0 /\ x = UnboundLocalError) \/ exists K all g', K < max_iter /\ drawn batch g K all g' /\ batch g' = Err x.
Proof.
  intros HT H batch. unfold eval_single in H. fold batch in H. pose proof (average_spec batch (sum (n_atoms lat)) etol g max_iter 0 None (nadd etol n1) [] g (drawn_0 batch g) eq_refl (fun _ => HT)) as S.
  specialize (S ltac:(lia) ltac:(lia)). destruct (average batch (sum (n_atoms lat)) etol (nadd etol n1) None max_iter g []) as [[[prev all] g1]|y]; cbn [bind] in H.
  - destruct S as [K [K1 [K2 [K3 [K4 K5]]]]]. destruct prev as [e'|]; [discriminate|]. injection H as <-. destruct K as [|K]; [|discriminate]. left. split; [lia|reflexivity].
  - injection H as <-. right. destruct S as [K [l [g1 [K1 K2]]]]. exists K, l, g1. split; [lia|exact K2].
Qed.
Print Assumptions C80_forces.
Print Assumptions C80_forces_accepted.
Print Assumptions C80_samples.
Print Assumptions C80_average.
Print Assumptions C80_average_fails.

(** *** Occupancies *)
Section Occupancies.
  Variable blocks : list (string * nat).
  Hypothesis HN : NoDup (map fst blocks).
  Hypothesis HM : forall b, In b blocks -> snd b <= 1.
  Notation els := (Spec.Structure.spread blocks).
  (** First place of an element *)
  Definition first_at (e : string) (i : nat) : Prop := nth_error els i = Some e /\ forall j, j < i -> nth_error els j <> Some e.
  (** What a key of an occupancy stands for: an element without spin, or one of both channels of an element with spin *)
  Definition stands_for (k : okey) (t : nat) : Prop :=
    match k with
    | Name e => In (e, 0) blocks /\ first_at e t
    | Spin e s => In (e, 1) blocks /\ exists i, first_at e i /\ (s = 0%Z /\ t = i \/ s = 1%Z /\ t = i + 1)
    | Broken => False
    end.
  Fixpoint expect (bs : list (string * nat)) (t : nat) : list (okey * nat) :=
    match bs with
    | [] => []
    | (e, 0) :: bs => (Name e, t) :: expect bs (t + 1)
    | (e, _) :: bs => (Spin e 0, t) :: (Spin e 1, t + 1) :: expect bs (t + 2)
    end.
  Lemma count_spread e m (bs : list (string * nat)) : NoDup (map fst bs) -> In (e, m) bs -> length (filter (String.eqb e) (Spec.Structure.spread bs)) = S m.
  Proof.
    clear. assert (Z : forall cs : list (string * nat), ~ In e (map fst cs) -> filter (String.eqb e) (Spec.Structure.spread cs) = []).
    { induction cs as [|[x k] cs IH]; intros H; [reflexivity|]. unfold Spec.Structure.spread. cbn [flat_map fst snd]. rewrite filter_app. fold (Spec.Structure.spread cs). rewrite IH by (cbn in H; tauto).
      rewrite app_nil_r. assert (E : String.eqb e x = false) by (apply String.eqb_neq; cbn in H; intuition congruence). generalize (S k). induction n as [|n IHn]; [reflexivity|]. cbn. now rewrite E. }
    induction bs as [|[x k] bs IH]; intros ND H; [contradiction|]. unfold Spec.Structure.spread. cbn [flat_map fst snd]. rewrite filter_app, app_length. fold (Spec.Structure.spread bs). inversion ND as [|? ? N1 N2]; subst. destruct H as [[= -> ->]|H].
    - rewrite Z by exact N1. assert (R : forall n, length (filter (String.eqb e) (repeat e n)) = n) by (induction n as [|n IHn]; [reflexivity|]; cbn; rewrite String.eqb_refl; cbn; now rewrite IHn). rewrite R. cbn. lia.
    - rewrite (IH N2 H). assert (E : String.eqb e x = false) by (apply String.eqb_neq; intros <-; apply N1; apply in_map_iff; now exists (e, m)).
      assert (R : forall n, filter (String.eqb e) (repeat x n) = []) by (induction n as [|n IHn]; [reflexivity|]; cbn; now rewrite E). rewrite R. reflexivity.
  Qed.
  Lemma type_map_expect bs : forall t, incl bs blocks -> type_map els (map fst bs) t = expect bs t.
  Proof.
    induction bs as [|[e m] bs IH]; intros t I; [reflexivity|]. cbn [map fst type_map expect]. rewrite (count_spread e m) by (auto; apply I; now left).
    assert (M : m <= 1) by (apply (HM (e, m)); apply I; now left). destruct m as [|[|m]]; [| |lia]; cbn [Nat.eqb]; rewrite IH by (intros x Hx; apply I; now right); reflexivity.
  Qed.
  Lemma spread_first b1 e m b2 : blocks = b1 ++ (e, m) :: b2 -> first_at e (length (Spec.Structure.spread b1)) /\ (forall i, i <= m -> nth_error els (length (Spec.Structure.spread b1) + i) = Some e).
  Proof.
    intros E. assert (S : els = Spec.Structure.spread b1 ++ repeat e (S m) ++ Spec.Structure.spread b2) by (rewrite E; unfold Spec.Structure.spread; rewrite flat_map_app; reflexivity).
    assert (X : forall i, i <= m -> nth_error els (length (Spec.Structure.spread b1) + i) = Some e).
    { intros i Hi. rewrite S, nth_error_app2, nth_error_app1 by (try rewrite repeat_length; lia). replace (length (Spec.Structure.spread b1) + i - length (Spec.Structure.spread b1)) with i by lia. clear -Hi. assert (H : i < Datatypes.S m) by lia. clear Hi. revert i H. generalize (Datatypes.S m). induction n as [|n IH]; intros [|i] H; try lia; [reflexivity|]. cbn. apply IH. lia. }
    split; [|exact X]. split; [rewrite <- (Nat.add_0_r (length _)); apply X; lia|]. intros j Hj Ej. rewrite S, nth_error_app1 in Ej by exact Hj. apply nth_error_In in Ej. unfold Spec.Structure.spread in Ej. apply in_flat_map in Ej. destruct Ej as [[x k] [B1 B2]]. apply repeat_spec in B2. cbn in B2. subst x.
    rewrite E, map_app in HN. cbn in HN. apply NoDup_remove_2 in HN. apply HN. apply in_app_iff. left. apply in_map_iff. now exists (e, k).
  Qed.
  Lemma first_fun e i j : first_at e i -> first_at e j -> i = j.
  Proof. intros [A1 A2] [B1 B2]. destruct (Nat.lt_trichotomy i j) as [L|[L|L]]; [exfalso; now apply (B2 i)|exact L|exfalso; now apply (A2 j)]. Qed.
  Lemma expect_spec b1 : forall bs, blocks = b1 ++ bs -> forall k t, In (k, t) (expect bs (length (Spec.Structure.spread b1))) <-> stands_for k t /\ exists e m, In (e, m) bs /\ name_of k = Ok e.
  Proof.
    intros bs. revert b1. induction bs as [|[e m] bs IH]; intros b1 E k t; [cbn; split; [intros []|intros [_ [e [m [[] _]]]]]|].
    assert (M : m <= 1) by (apply (HM (e, m)); rewrite E; apply in_app_iff; right; now left).
    destruct (spread_first b1 e m bs E) as [F1 F2]. assert (IB : In (e, m) blocks) by (rewrite E; apply in_app_iff; right; now left).
    assert (E2 : blocks = (b1 ++ [(e, m)]) ++ bs) by (rewrite E, <- app_assoc; reflexivity). specialize (IH _ E2 k t).
    assert (LS : length (Spec.Structure.spread (b1 ++ [(e, m)])) = length (Spec.Structure.spread b1) + S m) by (unfold Spec.Structure.spread; rewrite flat_map_app, app_length; cbn; rewrite app_nil_r, repeat_length; reflexivity).
    rewrite LS in IH. assert (U : forall m', In (e, m') blocks -> m' = m).
    { intros m' H. apply in_split in IB. clear -H IB HN. destruct IB as [x [y Eb]]. rewrite Eb in H, HN. rewrite map_app in HN. cbn in HN. apply NoDup_remove_2 in HN. rewrite in_app_iff in H. cbn in H. destruct H as [H|[H|H]]; [|congruence|]; exfalso; apply HN; apply in_app_iff; [left|right]; apply in_map_iff; now exists (e, m'). }
    assert (NB : forall m', ~ In (e, m') bs). { intros m' H. rewrite E, map_app in HN. cbn in HN. apply NoDup_remove_2 in HN. apply HN. apply in_app_iff. right. apply in_map_iff. now exists (e, m'). }
    set (b := length (Spec.Structure.spread b1)) in *. destruct m as [|[|m]]; [| |lia]; cbn [expect].
    - cbn [In]. rewrite IH. split.
      + intros [[= <- <-]|[S [e' [m' [I1 I2]]]]]; [split; [split; [exact IB|exact F1]|exists e, 0; split; [now left|reflexivity]]|]. split; [exact S|]. exists e', m'. split; [now right|exact I2].
      + intros [S [e' [m' [[[= <- <-]|I1] I2]]]].
        * left. destruct k as [x|x s|]; cbn in I2; try discriminate; injection I2 as ->; cbn in S.
          -- f_equal. destruct S as [_ S]. now apply (first_fun e).
          -- destruct S as [S _]. apply U in S. discriminate.
        * right. split; [exact S|]. now exists e', m'.
    - cbn [In]. rewrite IH. split.
      + intros [[= <- <-]|[[= <- <-]|[S [e' [m' [I1 I2]]]]]].
        * split; [|exists e, 1; split; [now left|reflexivity]]. split; [exact IB|]. exists b. split; [exact F1|]. left. auto.
        * split; [|exists e, 1; split; [now left|reflexivity]]. split; [exact IB|]. exists b. split; [exact F1|]. right. auto.
        * split; [exact S|]. exists e', m'. split; [now right|exact I2].
      + intros [S [e' [m' [[[= <- <-]|I1] I2]]]].
        * destruct k as [x|x s|]; cbn in I2; try discriminate; injection I2 as ->; cbn in S.
          -- destruct S as [S _]. apply U in S. discriminate.
          -- destruct S as [_ [i [Fi S]]]. rewrite <- (first_fun e b i F1 Fi) in S. destruct S as [[-> ->]|[-> ->]]; auto.
        * right. right. split; [exact S|]. now exists e', m'.
  Qed.
  Lemma expect_all k t : In (k, t) (type_map els (fromkeys els) 0) <-> stands_for k t.
  Proof.
    rewrite (fromkeys_spread blocks HN), type_map_expect by apply incl_refl. rewrite (expect_spec [] blocks eq_refl k t). split; [now intros [S _]|]. intros S. split; [exact S|].
    destruct k as [e|e s|]; [exists e, 0|exists e, 1|contradiction]; (split; [apply S|reflexivity]).
  Qed.
  Lemma stands_fun k t t' : stands_for k t -> stands_for k t' -> t = t'.
  Proof.
    destruct k as [e|e s|]; cbn; [intros [_ A] [_ B]; now apply (first_fun e)| |intros []]. intros [_ [i [A1 A2]]] [_ [j [B1 B2]]]. rewrite (first_fun e i j A1 B1) in A2. lia.
  Qed.
  Lemma okey_eqb_eq a b : okey_eqb a b = true <-> a = b.
  Proof.
    clear. destruct a as [x|x s|], b as [y|y t|]; cbn; try (split; congruence).
    - rewrite String.eqb_eq. split; congruence.
    - rewrite andb_true_iff, String.eqb_eq, Z.eqb_eq. split; [intros [-> ->]; reflexivity|intros [= -> ->]; auto].
  Qed.
  Lemma type_of_spec k t : type_of (type_map els (fromkeys els) 0) k = Ok t <-> stands_for k t.
  Proof.
    unfold type_of. destruct (find (fun q => okey_eqb k (fst q)) (type_map els (fromkeys els) 0)) as [[k' t']|] eqn:E.
    - apply find_some in E. destruct E as [E1 E2]. cbn in E2. apply okey_eqb_eq in E2. subst k'. apply expect_all in E1. cbn. split; [intros [= <-]; exact E1|]. intros S. now rewrite (stands_fun k t t' S E1).
    - split; [discriminate|]. intros S. apply expect_all in S. apply (find_none _ _ E) in S. cbn in S. assert (okey_eqb k k = true) by now apply okey_eqb_eq. congruence.
  Qed.
  (** The full occupancy names element and type of every key; probabilities of a sublattice add up to one (within the tolerance), and every type occurs. *)
  Theorem C80_occupancy spins occ full : set_full_occupancy els spins occ = Ok full ->
    Forall2 (Forall2 (fun kp o => stands_for (fst kp) (snd (fst o)) /\ name_of (fst kp) = Ok (fst (fst o)) /\ snd o = snd kp /\ nth_error els (snd (fst o)) = Some (fst (fst o)))) occ full /\
    (forall os, In os occ -> close1 (qsum (map snd os)) = true) /\
    forall k t, stands_for k t -> exists os p, In os occ /\ In (k, p) os.
  Proof.
    unfold set_full_occupancy. intros H. destruct (check_occupancy els spins occ) as [[]|] eqn:EC; [|discriminate]. cbn [bind] in H. destruct (mapM _ (type_map els (fromkeys els) 0)) as [u|] eqn:EA; [|discriminate]. cbn [bind] in H.
    assert (NM : forall k e t, stands_for k t -> name_of k = Ok e -> nth_error els t = Some e).
    { intros k e t S NE. destruct k as [x|x s|]; cbn in NE; try discriminate; injection NE as ->; cbn in S; [apply S|]. destruct S as [I1 [i [Fi S]]]. apply in_split in I1. destruct I1 as [b1 [b2 Eb]]. destruct (spread_first b1 e 1 b2 Eb) as [F1 F2]. rewrite (first_fun e i _ Fi F1) in S.
      destruct S as [[_ ->]|[_ ->]]; [rewrite <- (Nat.add_0_r (length _)); apply F2; lia|apply F2; lia]. }
    split; [|split].
    - clear EA EC. revert full H. induction occ as [|os occ IH]; intros full H; cbn in H; [injection H as <-; constructor|]. destruct (mapM _ os) as [r|] eqn:E1; [|discriminate]. cbn [bind] in H. match type of H with context [mapM ?f occ] => destruct (mapM f occ) as [rs|] eqn:E2; [|discriminate] end. injection H as <-. constructor; [|now apply IH].
      clear -E1 HN HM NM. revert r E1. induction os as [|[k p] os IH]; intros r E1; cbn in E1; [injection E1 as <-; constructor|]. destruct (name_of k) as [e|] eqn:EN; [|discriminate]. cbn [bind] in E1. destruct (type_of _ k) as [t|] eqn:ET; [|discriminate]. cbn [bind] in E1.
      match type of E1 with context [mapM ?f os] => destruct (mapM f os) as [rs|]; [|discriminate] end. injection E1 as <-. constructor; [|now apply IH]. cbn. apply type_of_spec in ET. split; [exact ET|]. split; [exact EN|]. split; [reflexivity|]. exact (NM k e t ET EN).
    - clear EA H. unfold check_occupancy in EC. intros os Ho. destruct (mapM _ occ) as [v|] eqn:EV; [|discriminate]. clear EC. revert v EV Ho. induction occ as [|o occ IH]; intros v EV Ho; [contradiction|]. cbn in EV. destruct (close1 (qsum (map snd o))) eqn:C; [|discriminate].
      destruct Ho as [<-|Ho]; [exact C|]. match type of EV with context [mapM ?f o] => destruct (mapM f o); [|discriminate] end. cbn [bind] in EV. match type of EV with context [mapM ?f occ] => destruct (mapM f occ) as [vs|]; [|discriminate] end. now apply (IH vs).
    - intros k t S. apply expect_all in S. clear -EA S. revert u EA S. generalize (type_map els (fromkeys els) 0). intros m. induction m as [|q m IH]; intros u EA S; [contradiction|]. cbn in EA. destruct (existsb (okey_eqb (fst q)) (flat_map (map fst) occ)) eqn:EX; cbn in EA; [|discriminate].
      destruct S as [->|S].
      + cbn in EX. apply existsb_exists in EX. destruct EX as [k' [X1 X2]]. apply okey_eqb_eq in X2. subst k'. apply in_flat_map in X1. destruct X1 as [os [O1 O2]]. apply in_map_iff in O2. destruct O2 as [[k' p] [<- O2]]. now exists os, p.
      + match type of EA with context [mapM ?f m] => destruct (mapM f m) as [u'|]; [|discriminate] end. now apply (IH u').
  Qed.
  (** It is refused only if probabilities do not add up to one, a key stands for nothing, a channel is asked of an element without spin, or a type does not occur. *)
  Theorem C80_occupancy_accepted spins occ : (forall os, In os occ -> close1 (qsum (map snd os)) = true) ->
    (forall os k p, In os occ -> In (k, p) os -> (exists t, stands_for k t) /\ match k with Spin e _ => exists l i, spins = Some l /\ first_at e i /\ nth_error l i = Some true | _ => True end) ->
    (forall k t, stands_for k t -> exists os p, In os occ /\ In (k, p) os) ->
    exists full, set_full_occupancy els spins occ = Ok full.
  Proof.
    intros H1 H2 H3. assert (IX : forall e i, first_at e i -> index_of e els = Ok i).
    { clear. unfold first_at. intros e i [A1 A2]. revert i A1 A2. induction els as [|x l IH]; intros [|i] A1 A2; cbn in *; try discriminate; [injection A1 as ->; now rewrite String.eqb_refl|].
      destruct (String.eqb_spec e x) as [->|]; [exfalso; apply (A2 0); [lia|reflexivity]|]. rewrite (IH i A1); [reflexivity|]. intros j Hj. apply (A2 (S j)). lia. }
    assert (KN : forall e i, first_at e i -> known els e = true). { intros e i [F _]. apply existsb_exists. exists e. split; [now apply nth_error_In in F|apply String.eqb_refl]. }
    assert (CK : forall os k p, In os occ -> In (k, p) os -> check_key els spins k = Ok tt).
    { intros os k p Ho Hk. destruct (H2 os k p Ho Hk) as [[t S] SP]. destruct k as [e|e s|]; cbn in S |- *; [destruct S as [_ S]; now rewrite (KN e t S)| |contradiction].
      destruct SP as [l [i [-> [Fi L]]]]. rewrite (KN e i Fi), (IX e i Fi). cbn. unfold get. now rewrite L. }
    unfold set_full_occupancy. assert (EC : check_occupancy els spins occ = Ok tt).
    { unfold check_occupancy. assert (M : exists v, mapM (fun o => if close1 (qsum (map snd o)) then mapM (fun kp => check_key els spins (fst kp)) o else Err RuntimeError) occ = Ok v).
      { clear H2 H3. induction occ as [|os occ IH]; [now exists []|]. cbn. rewrite (H1 os (or_introl eq_refl)).
        assert (M : exists v, mapM (fun kp => check_key els spins (fst kp)) os = Ok v).
        { specialize (CK os). assert (G : forall k p, In (k, p) os -> check_key els spins k = Ok tt) by (intros k p Hk; apply (CK k p); [now left|exact Hk]). clear -G. induction os as [|[k p] os IH]; [now exists []|]. cbn. rewrite (G k p (or_introl eq_refl)). cbn. destruct IH as [v ->]; [intros k' p' H'; apply (G k' p'); now right|]. cbn. eauto. }
        destruct M as [v ->]. cbn. destruct IH as [v' ->]; [intros; apply H1; now right|intros os' k p Ho; apply (CK os' k p); now right|]. cbn. eauto. }
      destruct M as [v ->]. reflexivity. }
    rewrite EC. cbn [bind]. assert (EA : exists u, mapM (fun q => py_assert (existsb (okey_eqb (fst q)) (flat_map (map fst) occ))) (type_map els (fromkeys els) 0) = Ok u).
    { assert (G : forall q, In q (type_map els (fromkeys els) 0) -> existsb (okey_eqb (fst q)) (flat_map (map fst) occ) = true).
      { intros [k t] Hq. apply expect_all in Hq. destruct (H3 k t Hq) as [os [p [O1 O2]]]. apply existsb_exists. exists k. split; [apply in_flat_map; exists os; split; [exact O1|]; apply in_map_iff; now exists (k, p)|now apply okey_eqb_eq]. }
      clear -G. revert G. generalize (type_map els (fromkeys els) 0). intros m G. induction m as [|q m IH]; [now exists []|]. cbn. rewrite (G q (or_introl eq_refl)). cbn. destruct IH as [u ->]; [intros; apply G; now right|]. cbn. eauto. }
    destruct EA as [u ->]. cbn [bind]. clear EC H1 H3 CK u. induction occ as [|os occ IH]; [now exists []|]. cbn.
    assert (M : exists r, mapM (fun kp => do e <- name_of (fst kp); do t <- type_of (type_map els (fromkeys els) 0) (fst kp); Ok (e, t, snd kp)) os = Ok r).
    { assert (G : forall k p, In (k, p) os -> exists t, stands_for k t) by (intros k p Hk; apply (H2 os k p); [now left|exact Hk]). clear -G HN HM. induction os as [|[k p] os IH]; [now exists []|]. cbn. destruct (G k p (or_introl eq_refl)) as [t S].
      rewrite (proj2 (type_of_spec k t) S). assert (NE : exists e, name_of k = Ok e) by (destruct k; [cbn; eauto|cbn; eauto|contradiction]). destruct NE as [e ->]. cbn. destruct IH as [r ->]; [intros k' p' H'; apply (G k' p'); now right|]. cbn. eauto. }
    destruct M as [r ->]. cbn. destruct IH as [rs ->]; [intros os' k p Ho; apply H2; now right|]. cbn. eauto.
  Qed.
End Occupancies.
Print Assumptions C80_occupancy.
Print Assumptions C80_occupancy_accepted.

(** *** What does not hold, and examples *)
Module Ex.
  Import String.StringSyntax.
  Local Open Scope string_scope.
  Local Open Scope list_scope.
  (** Samples take the first, or the last candidates. *)
  Definition firsts (g : unit) (c : list nat) (k : nat) : list nat * unit := (firstn k c, g).
  Definition lasts (g : unit) (c : list nat) (k : nat) : list nat * unit := (skipn (length c - k) c, g).
  Definition lattice (e : list string) (n : list nat) (t : list Z) : structure Z unit unit := mk_structure tt (map Z.of_nat (seq 10 (length e))) n e t tt None.
  Definition si4 := lattice ["Si"; "Si"; "Si"; "Si"] [4] [0; 0; 0; 0]%Z.
  Definition mgo3 : list (list (okey * Q)) := [[(Name "Mg", 1 # 3); (Name "O", 1 # 3); (Name "Al", 1 # 3)]]%Q.
  Definition full := [[("Mg", 0%nat, 1 # 3); ("O", 1%nat, 1 # 3); ("Al", 2%nat, 1 # 3)]]%Q.
  Definition retyped {P A V} (st : structure P A V) els : res (list Z) := do s <- replace_types insertion_argsort st els; Ok (types s).
End Ex.
Import String.StringSyntax.
Local Open Scope string_scope.
Local Open Scope list_scope.
Lemma firsts_ok : sample_ok Ex.firsts.
Proof.
  intros g c k L N. cbn. split; [rewrite firstn_length; lia|]. rewrite <- (firstn_skipn k c) in N. apply NoDup_app_iff in N. split; [apply N|]. intros x Hx. rewrite <- (firstn_skipn k c). apply in_app_iff. now left.
Qed.
Lemma lasts_ok : sample_ok Ex.lasts.
Proof.
  intros g c k L N. cbn. split; [rewrite skipn_length; lia|]. rewrite <- (firstn_skipn (length c - k) c) in N. apply NoDup_app_iff in N. split; [apply N|]. intros x Hx. rewrite <- (firstn_skipn (length c - k) c). apply in_app_iff. now right.
Qed.
(** "Every occupancy that is accepted can be realised": half of three atoms is two, twice. *)
Theorem C80_realised_refuted : exists occ full (lat : structure Z unit unit), set_full_occupancy ["Mg"; "O"] None occ = Ok full /\ load_lattice (n_atoms lat) full = Ok tt /\
  forall (sample : unit -> list nat -> nat -> list nat * unit), sample_ok sample -> substituted sample tt lat full = Err ValueError.
Proof.
  exists [[(Name "Mg", 1 # 2); (Name "O", 1 # 2)]]%Q, [[("Mg", 0%nat, 1 # 2); ("O", 1%nat, 1 # 2)]]%Q, (Ex.lattice ["Si"; "Si"; "Si"] [3] [0; 0; 0]%Z). split; [vm_compute; reflexivity|]. split; [reflexivity|]. intros sample SO.
  pose proof (substituted_spec sample SO (Ex.lattice ["Si"; "Si"; "Si"] [3] [0; 0; 0]%Z) [[("Mg", 0%nat, 1 # 2); ("O", 1%nat, 1 # 2)]]%Q eq_refl eq_refl tt) as S.
  destruct (substituted _ _ _ _) as [[st g]|e]; [|now destruct S as [-> _]]. destruct S as [_ [S _]]. inversion S as [|? ? [_ F] _]. exfalso. vm_compute in F. now apply F.
Qed.
(** "The lattice's atoms are all replaced", "an atom that is not replaced stays what it is", "the numbers are those of the occupancy":
    thirds of four atoms leave one; sorting by type turns it into magnesium, or the magnesium into it, depending on the choice. *)
Theorem C80_left_refuted : set_full_occupancy ["Mg"; "O"; "Al"] None Ex.mgo3 = Ok Ex.full /\
  (exists st ids, one_structure Ex.lasts tt Ex.si4 Ex.full = Ok (st, ids, tt) /\ elements st = ["Mg"; "Mg"; "O"; "Al"] /\ Ex.retyped st ["Mg"; "O"; "Al"] = Ok [0; 0; 1; 2]%Z) /\
  (exists st ids, one_structure Ex.firsts tt Ex.si4 Ex.full = Ok (st, ids, tt) /\ elements st = ["Si"; "Si"; "O"; "Al"] /\ Ex.retyped st ["Mg"; "O"; "Al"] = Err RuntimeError).
Proof. split; [vm_compute; reflexivity|]. split; do 2 eexists; (split; [vm_compute; reflexivity|split; vm_compute; reflexivity]). Qed.
(** "Types that are evaluated are those of the occupancy": names are cut to the longest name of the lattice. *)
Theorem C80_names_refuted : exists full st ids, set_full_occupancy ["Si"; "S"] None [[(Name "Si", 1 # 2); (Name "S", 1 # 2)]]%Q = Ok full /\
  one_structure Ex.firsts tt (Ex.lattice ["O"; "O"] [2] [0; 0]%Z) full = Ok (st, ids, tt) /\ types st = [0; 1]%Z /\ elements st = ["S"; "S"] /\ Ex.retyped st ["Si"; "S"] = Ok [1; 1]%Z.
Proof. do 3 eexists. split; [vm_compute; reflexivity|]. split; [vm_compute; reflexivity|]. repeat split; vm_compute; reflexivity. Qed.
(** The same if a channel of spin gets no atom by rounding: all types after it are shifted. *)
Theorem C80_channel_refuted : exists full st ids, set_full_occupancy ["Fe"; "Fe"; "Cu"] (Some [true; true; false]) [[(Spin "Fe" 0, 1 # 10); (Spin "Fe" 1, 9 # 10)]; [(Name "Cu", 1%Q)]]%Q = Ok full /\
  one_structure Ex.firsts tt (Ex.lattice ["Fe"; "Fe"; "Fe"; "Fe"; "Cu"] [4; 1] [0; 0; 0; 0; 1]%Z) full = Ok (st, ids, tt) /\ types st = [1; 1; 1; 1; 2]%Z /\ Ex.retyped st ["Fe"; "Fe"; "Cu"] = Ok [0; 0; 0; 0; 1]%Z.
Proof. do 3 eexists. split; [vm_compute; reflexivity|]. split; [vm_compute; reflexivity|]. repeat split; vm_compute; reflexivity. Qed.
Print Assumptions C80_realised_refuted.
Print Assumptions C80_left_refuted.
Print Assumptions C80_names_refuted.
Print Assumptions C80_channel_refuted.
(** Two sublattices with half of each; all conditions of C80_types hold. *)
Example C80_example : let lat := Ex.lattice ["Mg"; "Mg"; "Cl"; "Cl"] [2; 2] [0; 0; 1; 1]%Z in let els := ["Mg"; "Na"; "O"; "Cl"] in
  exists full st ids, set_full_occupancy els None [[(Name "Mg", 1 # 2); (Name "Na", 1 # 2)]; [(Name "Cl", 1 # 2); (Name "O", 1 # 2)]]%Q = Ok full /\
  one_structure Ex.lasts tt lat full = Ok (st, ids, tt) /\ ids = [1; 0; 2; 3] /\ elements st = ["Mg"; "Na"; "O"; "Cl"] /\ types st = [0; 1; 2; 3]%Z /\ positions st = [11; 10; 12; 13]%Z /\ n_atoms st = [1; 1; 1; 1] /\
  (forall os o, In os full -> In o os -> nth_error els (snd (fst o)) = Some (fst (fst o)) /\ String.length (fst (fst o)) <= width (elements lat)) /\
  (forall i os n, nth_error full i = Some os -> nth_error (n_atoms lat) i = Some n -> total n os = Z.of_nat n).
Proof.
  do 3 eexists. split; [vm_compute; reflexivity|]. split; [vm_compute; reflexivity|]. do 5 (split; [vm_compute; reflexivity|]). split.
  - intros os o H1 H2. cbn in H1. destruct H1 as [<-|[<-|[]]]; cbn in H2; destruct H2 as [<-|[<-|[]]]; split; cbn; auto.
  - intros [|[|i]] os n H1 H2; cbn in H1, H2; [injection H1 as <-; injection H2 as <-; reflexivity|injection H1 as <-; injection H2 as <-; reflexivity|destruct i; discriminate].
Qed.
(** Forces, here the positions, go back to the places of the lattice. *)
Example C80_average_example :
  match eval_single (N := Qc_num) (NO := Qc_ord) Ex.lasts (fun st => Ok (Qcanon.Q2Qc 7, map (fun z => [Qcanon.Q2Qc (inject_Z z)]) (positions st), [Qcanon.Q2Qc 1])) 2 20 (Qcanon.Q2Qc (1 # 100)) tt Ex.si4 [[("Mg", 0%nat, 1 # 2); ("O", 1%nat, 1 # 2)]]%Q with
  | Ok (e, f, s, _) => Qcanon.this e = 7%Q /\ map (map Qcanon.this) f = [[10]; [11]; [12]; [13]]%Q /\ map Qcanon.this s = [1%Q]
  | Err _ => False
  end.
Proof. vm_compute. auto. Qed.

(** *** Conditions and errors *)
(** A sum of probabilities is one within 0.00001001. *)
Theorem C80_close x : close1 x = true <-> (Qabs (x - 1) <= 1001 # 100000000)%Q.
Proof. unfold close1. rewrite Qle_bool_iff. setoid_replace ((1 # 100000000) + (1 # 100000))%Q with (1001 # 100000000)%Q by reflexivity. reflexivity. Qed.
(** Averages have settled when they differ by at most the tolerance per atom. *)
Theorem C80_settled {P A V G : Type} (sample : G -> list nat -> nat -> list nat * G) (calc : structure P A V -> res (props (F := Rdefinitions.R))) n lat occ n_sum etol g k :
  let batch := fun g => eval_substitutional sample calc n g lat occ in
  settled batch n_sum etol g k <-> exists l1 g1 l2 g2, drawn batch g (k - 1) l1 g1 /\ drawn batch g k l2 g2 /\ (Rdefinitions.Rle (Rdefinitions.Rdiv (Rbasic_fun.Rabs (Rdefinitions.Rminus (energy l2) (energy l1))) (Raxioms.INR n_sum)) etol).
Proof.
  assert (D : forall x : Rdefinitions.R, dabs x = Rbasic_fun.Rabs x). { intros x. unfold dabs, Rbasic_fun.Rabs. cbn [nltb NumR.R_ord n0 nopp NumR.R_num]. unfold NumR.Rltb. destruct (Rbasic_fun.Rcase_abs x) as [H|H], (RIneq.Rlt_dec x (Rdefinitions.IZR Z0)) as [H'|H']; try reflexivity; exfalso; [now apply H'|exact (RIneq.Rge_not_lt _ _ H H')]. }
  intros batch. unfold settled. split; intros [l1 [g1 [l2 [g2 [H1 [H2 H3]]]]]]; exists l1, g1, l2, g2; (split; [exact H1|split; [exact H2|]]).
  - cbn [nltb NumR.R_ord] in H3. apply NumR.Rltb_false in H3. rewrite D, NumR.nnat_INR in H3. exact H3.
  - cbn [nltb NumR.R_ord]. apply NumR.Rltb_false. rewrite D, NumR.nnat_INR. exact H3.
Qed.
(** A key that is refused: no such element, no such form of key, no spins. *)
Theorem C80_key els spins k e : check_key els spins k = Err e ->
  e = RuntimeError /\ (k = Broken \/ (exists x, name_of k = Ok x /\ ~ In x els) \/ exists x s l i, k = Spin x s /\ spins = Some l /\ nth_error els i = Some x /\ (forall j, j < i -> nth_error els j <> Some x) /\ nth_error l i = Some false) \/
  e = TypeError /\ spins = None /\ (exists x s, k = Spin x s /\ In x els) \/
  e = IndexError /\ exists x s l i, k = Spin x s /\ spins = Some l /\ nth_error els i = Some x /\ (forall j, j < i -> nth_error els j <> Some x) /\ length l <= i.
Proof.
  assert (KN : forall x, known els x = false -> ~ In x els). { intros x H I. unfold known in H. assert (existsb (String.eqb x) els = true) by (apply existsb_exists; exists x; split; [exact I|apply String.eqb_refl]). congruence. }
  assert (IX : forall x, known els x = true -> exists i, index_of x els = Ok i /\ nth_error els i = Some x /\ forall j, j < i -> nth_error els j <> Some x).
  { clear. intros x. induction els as [|y l IH]; [discriminate|]. cbn. destruct (String.eqb_spec x y) as [->|D]; [intros _; exists 0; repeat split; [lia]|]. cbn [orb]. intros H. destruct (IH H) as [i [-> [H1 H2]]]. exists (S i). split; [reflexivity|]. split; [exact H1|]. intros [|j] Hj; [cbn; congruence|]. apply H2. lia. }
  destruct k as [x|x s|]; cbn [check_key].
  - destruct (known els x) eqn:K; [discriminate|]. intros H. left. split; [congruence|]. right. left. exists x. split; [reflexivity|now apply KN].
  - destruct (known els x) eqn:K.
    + destruct (IX x K) as [i [-> [N1 N2]]]. cbn [bind]. destruct spins as [l|].
      * unfold get. destruct (nth_error l i) as [[|]|] eqn:EL; cbn [bind]; intros H; [discriminate| |].
        { left. split; [congruence|]. right. right. exists x, s, l, i. repeat split; auto. }
        { right. right. split; [congruence|]. exists x, s, l, i. repeat split; auto. now apply nth_error_None. }
      * intros H. right. left. split; [congruence|]. split; [reflexivity|]. exists x, s. split; [reflexivity|]. now apply nth_error_In in N1.
    + intros H. left. split; [congruence|]. right. left. exists x. split; [reflexivity|now apply KN].
  - intros H. left. split; [congruence|now left].
Qed.
Theorem C80_load n_atoms occ : (length n_atoms = length occ -> load_lattice n_atoms occ = Ok tt) /\ (length n_atoms <> length occ -> load_lattice n_atoms occ = Err RuntimeError).
Proof. unfold load_lattice. destruct (Nat.eqb_spec (length n_atoms) (length occ)); split; intros; congruence. Qed.
Theorem C80_forces_refused {F : Type} (zero : list F) f order : length f <> length order -> reorder zero f order = Err ValueError.
Proof. intros H. unfold reorder. destruct (Nat.eqb_spec (length f) (length order)); [contradiction|reflexivity]. Qed.
Print Assumptions C80_close.
Print Assumptions C80_settled.
Print Assumptions C80_key.
Print Assumptions C80_load.
Print Assumptions C80_forces_refused.
