(** Lemmas on normal forms of fractional coordinates. *)
From Verif Require Import Base Model.ThermoGrid Proofs.ThermoGrid Spec.ThermoGrid Model.Matcher.
From Coq Require Import QArith Qround Qabs Lqa ZArith Lia Permutation Sorted.
From Verif Require Import Spec.Matcher Model.Matcher.
Local Open Scope nat_scope.

(** ** Sorting *)
Section Sorting.
  Context {A : Type} (le : A -> A -> bool).
  Hypothesis total : forall x y, le x y = true \/ le y x = true.
  Hypothesis trans : forall x y z, le x y = true -> le y z = true -> le x z = true.
  Hypothesis anti : forall x y, le x y = true -> le y x = true -> x = y.
  Lemma insert_perm x l : Permutation (x :: l) (insert_by le x l).
  Proof using. induction l as [|y l IH]; cbn [insert_by]; [apply Permutation_refl|]. destruct (le x y); [apply Permutation_refl|]. eapply perm_trans; [apply perm_swap|]. now constructor. Qed.
  Lemma sort_perm l : Permutation l (sort_by le l).
  Proof using. induction l as [|x l IH]; [constructor|]. cbn [sort_by fold_right]. eapply perm_trans; [apply perm_skip; exact IH|apply insert_perm]. Qed.
  Lemma insert_sorted x l : StronglySorted (fun a b => le a b = true) l -> StronglySorted (fun a b => le a b = true) (insert_by le x l).
  Proof.
    induction 1 as [|y l S IH H]; cbn [insert_by]; [repeat constructor|]. destruct (le x y) eqn:E.
    - constructor; [now constructor|]. constructor; [exact E|]. revert H. apply Forall_impl. intros z Hz. now apply (trans x y z).
    - assert (le y x = true) by (destruct (total x y) as [X|X]; [congruence|exact X]). constructor; [exact IH|]. apply Forall_forall. intros z Hz. apply (Permutation_in _ (Permutation_sym (insert_perm x l))) in Hz. destruct Hz as [<-|Hz]; [assumption|]. rewrite Forall_forall in H. now apply H.
  Qed.
  Lemma sort_sorted l : StronglySorted (fun a b => le a b = true) (sort_by le l).
  Proof. induction l as [|x l IH]; [constructor|]. now apply insert_sorted. Qed.
  Lemma sorted_unique l l' : StronglySorted (fun a b => le a b = true) l -> StronglySorted (fun a b => le a b = true) l' -> Permutation l l' -> l = l'.
  Proof using anti.
    intros S. revert l'. induction S as [|x l S IH H]; intros l' S' P; [apply Permutation_nil in P; now symmetry|]. destruct S' as [|y l' S' H']; [apply Permutation_sym, Permutation_nil in P; discriminate|].
    assert (x = y) as <-.
    { assert (Ix : In x (y :: l')) by (apply (Permutation_in _ P); now left). assert (Iy : In y (x :: l)) by (apply (Permutation_in _ (Permutation_sym P)); now left). rewrite Forall_forall in H, H'.
      destruct Ix as [Ix|Ix]; [now symmetry|]. destruct Iy as [Iy|Iy]; [exact Iy|]. apply anti; [now apply H|now apply H']. }
    f_equal. apply IH; [exact S'|]. now apply Permutation_cons_inv in P.
  Qed.
  Lemma sort_eq l l' : Permutation l l' -> sort_by le l = sort_by le l'.
  Proof. intros P. apply sorted_unique; try apply sort_sorted. eapply perm_trans; [apply Permutation_sym, sort_perm|]. eapply perm_trans; [exact P|apply sort_perm]. Qed.
End Sorting.

(** ** Lexicographic order *)
Lemma lex_refl a : lex a a = true.
Proof. induction a as [|x a IH]; [reflexivity|]. cbn. now rewrite Z.ltb_irrefl. Qed.
Lemma lex_total a : forall b, lex a b = true \/ lex b a = true.
Proof. induction a as [|x a IH]; intros [|y b]; cbn; auto. destruct (Z.ltb_spec x y), (Z.ltb_spec y x); auto. Qed.
Lemma lex_trans a : forall b c, lex a b = true -> lex b c = true -> lex a c = true.
Proof.
  induction a as [|x a IH]; intros [|y b] [|z c]; cbn; try easy. destruct (Z.ltb_spec x y), (Z.ltb_spec y x), (Z.ltb_spec y z), (Z.ltb_spec z y), (Z.ltb_spec x z), (Z.ltb_spec z x); intros; try lia; try easy. eapply IH; eassumption.
Qed.
Lemma lex_anti a : forall b, lex a b = true -> lex b a = true -> a = b.
Proof. induction a as [|x a IH]; intros [|y b]; cbn; try easy. destruct (Z.ltb_spec x y), (Z.ltb_spec y x); intros; try lia; try easy. f_equal; [lia|now apply IH]. Qed.
Lemma leb_eq l l' : Permutation l l' -> sort_by Z.leb l = sort_by Z.leb l'.
Proof. apply sort_eq; intros; lia. Qed.
Lemma col_eq l l' : Permutation l l' -> sort_by col_leb l = sort_by col_leb l'.
Proof.
  apply sort_eq.
  - intros [[x y] z] [[x' y'] z']. apply lex_total.
  - intros [[x y] z] [[x' y'] z'] [[x2 y2] z2]. apply lex_trans.
  - intros [[x y] z] [[x' y'] z'] H1 H2. pose proof (lex_anti _ _ H1 H2). congruence.
Qed.
Lemma row_eqb_spec a : forall b, row_eqb a b = true <-> a = b.
Proof. induction a as [|x a IH]; intros [|y b]; cbn; try easy. rewrite andb_true_iff, IH, Z.eqb_eq. split; [intros [-> ->]; reflexivity|intros [= -> ->]; now split]. Qed.
Lemma least_spec cs : forall c, In (least c cs) (c :: cs) /\ forall x, In x (c :: cs) -> lex (least c cs) x = true.
Proof.
  induction cs as [|b cs IH]; intros c; cbn [least fold_left]; [split; [now left|]; intros x [->|[]]; apply lex_refl|].
  destruct (lex c b) eqn:E.
  - destruct (IH c) as [I1 I2]. fold (least c cs). split; [destruct I1 as [I1|I1]; [now left|right; now right]|]. intros x [->|[->|Hx]]; [apply I2; now left|eapply lex_trans; [apply I2; now left|exact E]|apply I2; now right].
  - destruct (IH b) as [I1 I2]. fold (least b cs). assert (lex b c = true) by (destruct (lex_total b c); [assumption|congruence]). split; [now right|]. intros x [->|Hx]; [eapply lex_trans; [apply I2; now left|assumption]|now apply I2].
Qed.
Lemma least_eq c cs c' cs' : (forall x, In x (c :: cs) <-> In x (c' :: cs')) -> least c cs = least c' cs'.
Proof. intros H. destruct (least_spec cs c) as [I1 I2], (least_spec cs' c') as [J1 J2]. apply lex_anti; [apply I2, H, J1|apply J2, H, I1]. Qed.

(** ** Rounding *)
Lemma rint_int q z : (q == inject_Z z)%Q -> rint q = z.
Proof.
  intros E. assert (K : rounds 0 q z).
  { unfold rounds. change (10 ^ Z.of_nat 0)%Z with 1%Z. assert (X : (q * inject_Z 1 - inject_Z z == 0)%Q) by (rewrite E; change (inject_Z 1) with 1%Q; ring). rewrite X. split; [easy|]. intros Y. exfalso. revert Y. cbn. unfold Qeq. cbn. lia. }
  apply rounds_key in K. rewrite <- K. unfold key. change (unit_of 0) with 1%Z. change (inject_Z 1) with 1%Q. unfold rint. rewrite (Qfloor_comp q (q * 1)) by ring. set (f := Qfloor _). replace (Qcompare (q - inject_Z f) (1 # 2)) with (Qcompare (q * 1 - inject_Z f) (1 # 2)); [reflexivity|]. apply Qcompare_comp; [ring|reflexivity].
Qed.
Lemma rint_comp p q : (p == q)%Q -> rint p = rint q.
Proof. intros E. unfold rint. rewrite (Qfloor_comp p q E). set (f := Qfloor q). replace (Qcompare (p - inject_Z f) (1 # 2)) with (Qcompare (q - inject_Z f) (1 # 2)); [reflexivity|]. apply Qcompare_comp; [now rewrite E|reflexivity]. Qed.
Lemma key_comp d p q : (p == q)%Q -> key d p = key d q.
Proof. intros E. unfold key. apply rint_comp. now rewrite E. Qed.
Lemma unit_pos d : (0 < unit_of d)%Z.
Proof. unfold unit_of. apply Z.pow_pos_nonneg; lia. Qed.
Lemma unit_Q d : (0 < inject_Z (unit_of d))%Q.
Proof. change 0%Q with (inject_Z 0). rewrite <- Zlt_Qlt. apply unit_pos. Qed.
Lemma unit_even d : d <> 0 -> exists m, unit_of d = (2 * m)%Z.
Proof. intros H. destruct d as [|d]; [easy|]. exists (5 * 10 ^ Z.of_nat d)%Z. unfold unit_of. rewrite Nat2Z.inj_succ, Z.pow_succ_r by lia. lia. Qed.
Lemma rest_bound x : (- (1 # 2) <= x - inject_Z (rint x) <= 1 # 2)%Q.
Proof. pose proof (proj1 (rint_spec x)) as H. apply Qabs_Qle_condition in H. exact H. Qed.
Lemma inject_eq a b : (inject_Z a == inject_Z b)%Q -> a = b.
Proof. unfold Qeq. cbn. lia. Qed.
Lemma key_half d s : (s == 1 # 2)%Q -> d <> 0 -> (2 * key d s = unit_of d)%Z.
Proof. intros E H. destruct (unit_even d H) as [m U]. unfold key. rewrite (rint_int _ m); [lia|]. rewrite E, U, inject_Z_mult. change (inject_Z 2) with 2%Q. field. Qed.
Lemma key_minus_half d s : (s == - (1 # 2))%Q -> d <> 0 -> (2 * key d s = - unit_of d)%Z.
Proof. intros E H. destruct (unit_even d H) as [m U]. unfold key. rewrite (rint_int _ (- m)); [lia|]. rewrite E, U, inject_Z_mult, inject_Z_opp. change (inject_Z 2) with 2%Q. field. Qed.
Lemma grid_of_half d s : (s == 1 # 2)%Q \/ (s == - (1 # 2))%Q -> (if (2 * key d s =? unit_of d)%Z then - key d s else key d s)%Z = (if Nat.eqb d 0 then 0 else - (unit_of d / 2))%Z.
Proof.
  intros H. pose proof (unit_pos d). destruct (Nat.eqb_spec d 0) as [->|N].
  - assert (key 0 s = 0)%Z as -> by (destruct H as [E|E]; rewrite (key_comp 0 _ _ E); reflexivity). reflexivity.
  - destruct H as [E|E].
    + pose proof (key_half d s E N) as K. rewrite K, Z.eqb_refl. rewrite <- K. rewrite Z.mul_comm, Z.div_mul by lia. reflexivity.
    + pose proof (key_minus_half d s E N) as K. destruct (Z.eqb_spec (2 * key d s) (unit_of d)); [lia|]. replace (unit_of d) with ((- key d s) * 2)%Z by lia. rewrite Z.div_mul by lia. lia.
Qed.
(** Coordinates are taken modulo one. *)
Lemma grid_mod d x y z : (y == x + inject_Z z)%Q -> grid d y = grid d x.
Proof.
  intros E. unfold grid. cbv zeta. pose proof (rest_bound x) as [X1 X2]. pose proof (rest_bound y) as [Y1 Y2]. set (a := (x - inject_Z (rint x))%Q) in *. set (b := (y - inject_Z (rint y))%Q) in *. set (w := (z + rint x - rint y)%Z).
  assert (D : (b == a + inject_Z w)%Q) by (unfold a, b, w; unfold Zminus; rewrite !inject_Z_plus, inject_Z_opp; lra).
  assert (W : (-1 <= w <= 1)%Z) by (split; rewrite Zle_Qle; [change (inject_Z (-1)) with (-1)%Q|change (inject_Z 1) with 1%Q]; lra).
  assert (C : w = 0%Z \/ w = 1%Z \/ w = (-1)%Z) by lia. destruct C as [C|[C|C]]; rewrite C in D.
  - assert (Eab : (b == a)%Q) by (rewrite D; change (inject_Z 0) with 0%Q; ring). now rewrite (key_comp d _ _ Eab).
  - change (inject_Z 1) with 1%Q in D. rewrite !grid_of_half; [reflexivity|right; lra|left; lra].
  - change (inject_Z (-1)) with (-1)%Q in D. rewrite !grid_of_half; [reflexivity|left; lra|right; lra].
Qed.
Lemma grid_comp d x y : (x == y)%Q -> grid d x = grid d y.
Proof. intros E. apply (grid_mod d y x 0). rewrite E. change (inject_Z 0) with 0%Q. ring. Qed.
(** A rounded coordinate is within half a unit of the coordinate, up to an integer. *)
Lemma grid_near d x : exists z, (- (1 # 2) <= (coord d (grid d x) - x - inject_Z z) * inject_Z (unit_of d) <= 1 # 2)%Q.
Proof.
  pose proof (unit_Q d) as U. unfold grid, coord. cbv zeta. set (a := (x - inject_Z (rint x))%Q). set (k := key d a). assert (K : (- (1 # 2) <= a * inject_Z (unit_of d) - inject_Z k <= 1 # 2)%Q) by (apply rest_bound).
  destruct (Z.eqb_spec (2 * k) (unit_of d)) as [E|E].
  - exists (- rint x - 1)%Z. assert (EQ : (inject_Z (unit_of d) == 2 * inject_Z k)%Q) by (rewrite <- E, inject_Z_mult; reflexivity).
    assert (X : ((inject_Z (- k) / inject_Z (unit_of d) - x - inject_Z (- rint x - 1)) * inject_Z (unit_of d) == - (a * inject_Z (unit_of d) - inject_Z k))%Q).
    { unfold a, Zminus. rewrite !inject_Z_plus, !inject_Z_opp. change (inject_Z 1) with 1%Q. rewrite EQ. field. rewrite EQ in U. intros H0. rewrite H0 in U. lra. }
    rewrite X. lra.
  - exists (- rint x)%Z. assert (X : ((inject_Z k / inject_Z (unit_of d) - x - inject_Z (- rint x)) * inject_Z (unit_of d) == - (a * inject_Z (unit_of d) - inject_Z k))%Q) by (unfold a; rewrite inject_Z_opp; field; lra).
    rewrite X. lra.
Qed.
(** Coordinates with as many decimals are kept. *)
Definition on_grid (d : nat) (x : Q) : Prop := exists k, (x == coord d k)%Q.
Lemma grid_exact d x : on_grid d x -> exists z, (coord d (grid d x) == x + inject_Z z)%Q.
Proof.
  intros [k E]. destruct (grid_near d x) as [z H]. exists z. pose proof (unit_Q d) as U. unfold coord in *. set (g := grid d x) in *.
  assert (X : ((inject_Z g / inject_Z (unit_of d) - x - inject_Z z) * inject_Z (unit_of d) == inject_Z (g - k - z * unit_of d))%Q) by (unfold Zminus; rewrite !inject_Z_plus, !inject_Z_opp, inject_Z_mult, E; field; lra).
  rewrite X in H. assert (W : (g - k - z * unit_of d = 0)%Z).
  { set (w := (g - k - z * unit_of d)%Z) in *. assert (-1 < w < 1)%Z; [|lia]. split; rewrite Zlt_Qlt; [change (inject_Z (-1)) with (-1)%Q|change (inject_Z 1) with 1%Q]; lra. }
  rewrite E. replace g with (k + z * unit_of d)%Z by lia. rewrite inject_Z_plus, inject_Z_mult. field. lra.
Qed.
Lemma grid_range d x : (- unit_of d <= 2 * grid d x)%Z /\ (2 * grid d x < unit_of d)%Z.
Proof.
  pose proof (unit_pos d) as U. unfold grid. cbv zeta. set (a := (x - inject_Z (rint x))%Q). pose proof (rest_bound x) as H. fold a in H. pose proof (rest_bound (a * inject_Z (unit_of d))) as K. fold (key d a) in K. set (k := key d a) in *.
  assert (B : (- unit_of d - 1 <= 2 * k <= unit_of d + 1)%Z).
  { assert (UQ := unit_Q d). set (u := inject_Z (unit_of d)) in *. assert (- (1 # 2) * u <= a * u <= (1 # 2) * u)%Q by (split; apply Qmult_le_compat_r; lra). split; rewrite Zle_Qle; unfold Zminus; rewrite ?inject_Z_plus, ?inject_Z_opp, inject_Z_mult; change (inject_Z 2) with 2%Q; change (inject_Z 1) with 1%Q; fold u; lra. }
  destruct (Nat.eq_dec d 0) as [->|N].
  - change (unit_of 0) with 1%Z in *. assert (k = -1 \/ k = 0 \/ k = 1)%Z as C by lia. assert (k = 0%Z); [|subst k; rewrite H0; cbn; lia].
    assert (E : (a * inject_Z 1 == a)%Q) by (change (inject_Z 1) with 1%Q; ring). pose proof (rint_spec (a * inject_Z 1)) as [_ EV]. change (rint (a * inject_Z 1)) with k in EV.
    destruct C as [C|[C|C]]; [|exact C|]; exfalso; rewrite C in *; [change (inject_Z (-1)) with (-1)%Q in *|change (inject_Z 1) with 1%Q in *]; (assert (O : Z.Even (-1) \/ Z.Even 1); [first [left; apply EV; assert (X : (a * 1 - -1 == 1 # 2)%Q) by lra; rewrite X; reflexivity|right; apply EV; assert (X : (a * 1 - 1 == - (1 # 2))%Q) by lra; rewrite X; reflexivity]|]); destruct O as [[m O]|[m O]]; lia.
  - destruct (unit_even d N) as [m M]. destruct (Z.eqb_spec (2 * k) (unit_of d)); lia.
Qed.

(** ** Sums *)
Lemma qsum_plus (f g : Q -> Q) l : (qsum (map (fun x => f x + g x) l) == qsum (map f l) + qsum (map g l))%Q.
Proof. induction l as [|x l IH]; cbn [map qsum fold_right]; [reflexivity|]. fold (qsum (map (fun x => f x + g x)%Q l)) (qsum (map f l)) (qsum (map g l)). rewrite IH. ring. Qed.
Lemma qsum_minus a l : (qsum (map (fun p => p - a) l) == qsum l - inject_Z (Z.of_nat (length l)) * a)%Q.
Proof.
  induction l as [|x l IH]; [reflexivity|]. cbn [map length]. change (qsum (x :: l)) with (x + qsum l)%Q. change (qsum ((x - a)%Q :: map (fun p => (p - a)%Q) l)) with ((x - a) + qsum (map (fun p => (p - a)%Q) l))%Q. rewrite IH, Nat2Z.inj_succ, <- Z.add_1_r, inject_Z_plus. change (inject_Z 1) with 1%Q. ring.
Qed.
Lemma count_pos n : n <> 0 -> (0 < inject_Z (Z.of_nat n))%Q.
Proof. intros H. change 0%Q with (inject_Z 0). rewrite <- Zlt_Qlt. lia. Qed.
Lemma average_centred l : l <> [] -> (average (map (fun p => p - average l) l) == 0)%Q.
Proof.
  intros H. assert (P : (0 < inject_Z (Z.of_nat (length l)))%Q) by (apply count_pos; destruct l; easy). unfold average at 1. rewrite map_length, qsum_minus. unfold average. field. lra.
Qed.
Lemma qsum_perm l l' : Permutation l l' -> (qsum l == qsum l')%Q.
Proof.
  induction 1 as [|x l l' P IH|x y l|l l' l'' P1 IH1 P2 IH2]; [reflexivity| | |now rewrite IH1].
  - change (qsum (x :: l)) with (x + qsum l)%Q. change (qsum (x :: l')) with (x + qsum l')%Q. now rewrite IH.
  - change (qsum (y :: x :: l)) with (y + (x + qsum l))%Q. change (qsum (x :: y :: l)) with (x + (y + qsum l))%Q. ring.
Qed.

(** ** One axis *)
Definition total (d : nat) (xs : list Q) : Q := qsum (map (fun x => coord d (grid d x)) xs).
Definition place (d : nat) (xs : list Q) (k : nat) (x : Q) : Z :=
  grid d (coord d (grid d x) - total d xs / inject_Z (Z.of_nat (length xs)) + inject_Z (Z.of_nat k) / inject_Z (Z.of_nat (length xs))).
Lemma shifts_eq d xs : xs <> [] -> shifts d (centred d xs) = map (fun k => map (place d xs k) xs) (seq 0 (length xs)).
Proof.
  intros H. unfold shifts, centred. cbv zeta. pose proof (average_centred (map (fun x => coord d (grid d x)) xs) ltac:(destruct xs; easy)) as A2. assert (A1 : (average (map (fun x => coord d (grid d x)) xs) == total d xs / inject_Z (Z.of_nat (length xs)))%Q) by (unfold average; rewrite map_length; reflexivity).
  set (r := map (fun x => coord d (grid d x)) xs) in *. set (q2 := average (map (fun p => (p - average r)%Q) r)) in *. set (q1 := average r) in *. clearbody q1 q2. rewrite !map_length. replace (length r) with (length xs) by (unfold r; now rewrite map_length). apply map_ext. intros k. unfold r. rewrite !map_map. apply map_ext. intros x. unfold place. apply grid_comp. rewrite A1, A2. ring.
Qed.
Definition keeps (d : nat) (xs : list Q) (k : nat) : Prop :=
  k < length xs /\ forall j, j < length xs -> lex (sort_by Z.leb (map (place d xs k) xs)) (sort_by Z.leb (map (place d xs j) xs)) = true.
Lemma origin_spec d xs : xs <> [] -> exists cx, origin_shifts d (centred d xs) = Ok cx /\ cx <> [] /\ forall c, In c cx <-> exists k, keeps d xs k /\ c = map (place d xs k) xs.
Proof.
  intros H. unfold origin_shifts. assert (L : length (centred d xs) = length xs) by (unfold centred; cbv zeta; now rewrite !map_length). rewrite L. destruct (Nat.eqb_spec (length xs) 0) as [Z|Z]; [destruct xs; easy|]. rewrite shifts_eq by exact H. set (n := length xs) in *. rewrite map_map.
  set (cs := map (fun k => sort_by Z.leb (map (place d xs k) xs)) (seq 0 n)). assert (CS : forall s, In s cs <-> exists k, k < n /\ s = sort_by Z.leb (map (place d xs k) xs)).
  { intros s. unfold cs. rewrite in_map_iff. split; intros [k [A B]]; exists k; [apply in_seq in B|rewrite in_seq]; (split; [lia + now symmetry|lia + now symmetry]). }
  destruct cs as [|c0 cs0] eqn:E; [exfalso; apply (f_equal (@length _)) in E; unfold cs in E; rewrite map_length, seq_length in E; easy|].
  destruct (least_spec cs0 c0) as [I1 I2]. set (rep := least c0 cs0) in *. eexists. split; [reflexivity|].
  assert (X : forall c, In c (filter (fun c => row_eqb (sort_by Z.leb c) rep) (map (fun k => map (place d xs k) xs) (seq 0 n))) <-> exists k, keeps d xs k /\ c = map (place d xs k) xs).
  { intros c. rewrite filter_In, in_map_iff, row_eqb_spec. split.
    - intros [[k [K1 K2]] K3]. exists k. split; [|now symmetry]. apply in_seq in K2. split; [fold n; lia|]. intros j Hj. rewrite K1, K3. apply I2, CS. now exists j.
    - intros [k [[K1 K2] K3]]. split; [exists k; split; [now symmetry|apply in_seq; fold n in K1; lia]|]. rewrite K3. apply lex_anti; [|apply I2, CS; now exists k]. apply CS in I1. destruct I1 as [j [J1 J2]]. rewrite J2. now apply K2. }
  split; [|exact X]. apply CS in I1. destruct I1 as [k [K1 K2]]. intros N. assert (I : In (map (place d xs k) xs) []); [|destruct I]. rewrite <- N. apply X. exists k. split; [|reflexivity]. split; [exact K1|]. intros j Hj. rewrite <- K2. apply I2, CS. now exists j.
Qed.
Lemma place_perm d xs xs' k x : Permutation xs xs' -> place d xs k x = place d xs' k x.
Proof. intros P. unfold place. rewrite (Permutation_length P). apply grid_comp. unfold total. rewrite (qsum_perm _ _ (Permutation_map _ P)). reflexivity. Qed.
Lemma keeps_perm d xs xs' k : Permutation xs xs' -> keeps d xs k -> keeps d xs' k.
Proof.
  intros P [H1 H2]. assert (S : forall j, sort_by Z.leb (map (place d xs' j) xs') = sort_by Z.leb (map (place d xs j) xs)).
  { intros j. rewrite (map_ext _ (place d xs j)) by (intros; symmetry; now apply place_perm). apply leb_eq, Permutation_map, Permutation_sym, P. }
  split; [now rewrite <- (Permutation_length P)|]. intros j Hj. rewrite !S. apply H2. now rewrite (Permutation_length P).
Qed.

(** ** Translations *)
Lemma Forall2_len {A B} (P : A -> B -> Prop) l l' : Forall2 P l l' -> length l = length l'.
Proof. induction 1; cbn; congruence. Qed.
Definition step (d : nat) (t x x' : Q) : Prop := exists z, (coord d (grid d x') == coord d (grid d x) + t + inject_Z z)%Q.
Lemma total_step d t xs xs' : Forall2 (step d t) xs xs' -> exists e, (total d xs' == total d xs + inject_Z (Z.of_nat (length xs)) * t + inject_Z e)%Q.
Proof.
  induction 1 as [|x x' l l' [z Z] H IH]; [exists 0%Z; reflexivity|]. destruct IH as [e E]. exists (z + e)%Z. unfold total in *. cbn [map length]. change (qsum (coord d (grid d x') :: map (fun x => coord d (grid d x)) l')) with (coord d (grid d x') + qsum (map (fun x => coord d (grid d x)) l'))%Q. change (qsum (coord d (grid d x) :: map (fun x => coord d (grid d x)) l)) with (coord d (grid d x) + qsum (map (fun x => coord d (grid d x)) l))%Q. rewrite E, Z, Nat2Z.inj_succ, <- Z.add_1_r, !inject_Z_plus. change (inject_Z 1) with 1%Q. ring.
Qed.
Lemma place_step d t xs xs' k : Forall2 (step d t) xs xs' -> xs <> [] -> exists k', k' < length xs /\ forall x x', step d t x x' -> place d xs' k x' = place d xs k' x.
Proof.
  intros H NE. destruct (total_step _ _ _ _ H) as [e E]. pose proof (Forall2_len _ _ _ H) as L. set (n := length xs) in *. assert (N : n <> 0) by (unfold n; destruct xs; easy). pose proof (count_pos n N) as P.
  set (w := (Z.of_nat k - e)%Z). exists (Z.to_nat (w mod Z.of_nat n)). pose proof (Z.mod_pos_bound w (Z.of_nat n) ltac:(lia)) as B. split; [lia|]. intros x x' [z Z]. unfold place. rewrite <- L. fold n. rewrite Z2Nat.id by lia.
  apply grid_mod with (z := (z + w / Z.of_nat n)%Z). rewrite E, Z, inject_Z_plus. assert (W : (inject_Z (Z.of_nat k) == inject_Z e + inject_Z (Z.of_nat n) * inject_Z (w / Z.of_nat n) + inject_Z (w mod Z.of_nat n))%Q).
  { rewrite <- inject_Z_mult, <- !inject_Z_plus. assert (D : Z.of_nat k = (e + Z.of_nat n * (w / Z.of_nat n) + w mod Z.of_nat n)%Z) by (pose proof (Z.div_mod w (Z.of_nat n) ltac:(lia)); unfold w in *; lia). rewrite D at 1. reflexivity. }
  rewrite W. field. lra.
Qed.
Lemma step_sym d t x x' : step d t x x' -> step d (- t) x' x.
Proof. intros [z Z]. exists (- z)%Z. rewrite Z, inject_Z_opp. ring. Qed.
Lemma Forall2_flip_ {A B} (P : A -> B -> Prop) (Q' : B -> A -> Prop) l l' : (forall a b, P a b -> Q' b a) -> Forall2 P l l' -> Forall2 Q' l' l.
Proof. intros H. induction 1; constructor; auto. Qed.
Lemma map_place {A B} (f : A -> Z) (g : B -> Z) (P : A -> B -> Prop) l l' : (forall a b, P a b -> g b = f a) -> Forall2 P l l' -> map g l' = map f l.
Proof. intros H. induction 1 as [|a b l l' H1 H2 IH]; [reflexivity|]. cbn. now rewrite (H _ _ H1), IH. Qed.
Lemma keeps_step d t xs xs' k : Forall2 (step d t) xs xs' -> keeps d xs' k -> exists k', keeps d xs k' /\ forall x x', step d t x x' -> place d xs' k x' = place d xs k' x.
Proof.
  intros H [K1 K2]. pose proof (Forall2_len _ _ _ H) as L. assert (NE : xs <> []) by (destruct xs; cbn in *; [lia|easy]). destruct (place_step d t xs xs' k H NE) as [k' [B E]]. exists k'. split; [|exact E]. split; [exact B|]. intros j Hj.
  pose proof (Forall2_flip_ _ (step d (- t)) _ _ (step_sym d t) H) as H'. assert (NE' : xs' <> []) by (destruct xs'; cbn in *; [lia|easy]). destruct (place_step d (- t) xs' xs j H' NE') as [j' [B' E']].
  rewrite <- (map_place (place d xs k') (place d xs' k) _ _ _ E H). rewrite (map_place (place d xs' j') (place d xs j) _ _ _ E' H'). now apply K2.
Qed.

(** ** Three axes *)
Definition put (d : nat) (l : list atom) (k : nat * nat * nat) (a : atom) : col :=
  (place d (map ax l) (fst (fst k)) (ax a), place d (map ay l) (snd (fst k)) (ay a), place d (map az l) (snd k) (az a)).
Definition keeps3 (d : nat) (l : list atom) (k : nat * nat * nat) : Prop := keeps d (map ax l) (fst (fst k)) /\ keeps d (map ay l) (snd (fst k)) /\ keeps d (map az l) (snd k).
Definition form (d : nat) (l : list atom) (n_atoms : list nat) (k : nat * nat * nat) : list Z := flat (sort_positions n_atoms (map (put d l k) l)).
Definition least_form (d : nat) (l : list atom) (n_atoms : list nat) (f : list Z) : Prop :=
  (exists k, keeps3 d l k /\ f = form d l n_atoms k) /\ forall k, keeps3 d l k -> lex f (form d l n_atoms k) = true.
Lemma combine_map3 {A B} (f g h : A -> B) l : combine (combine (map f l) (map g l)) (map h l) = map (fun a => (f a, g a, h a)) l.
Proof. induction l as [|a l IH]; [reflexivity|]. cbn [map combine]. now rewrite IH. Qed.
Lemma cols_map d l k : cols (map (place d (map ax l) (fst (fst k))) (map ax l)) (map (place d (map ay l) (snd (fst k))) (map ay l)) (map (place d (map az l) (snd k)) (map az l)) = map (put d l k) l.
Proof.
  unfold cols, put. rewrite !map_map. apply combine_map3.
Qed.
Lemma normalize_spec d l n_atoms : l <> [] -> exists f, normalize d (map ax l) (map ay l) (map az l) n_atoms = Ok (unflat (length l) f) /\ least_form d l n_atoms f.
Proof.
  intros H. unfold normalize. destruct (origin_spec d (map ax l)) as [cx [-> [NX X]]]; [destruct l; easy|]. destruct (origin_spec d (map ay l)) as [cy [-> [NY Y]]]; [destruct l; easy|]. destruct (origin_spec d (map az l)) as [cz [-> [NZ ZZ]]]; [destruct l; easy|]. cbn [bind].
  set (fn := fun q : list Z * list Z * list Z => flat (sort_positions n_atoms (cols (fst (fst q)) (snd (fst q)) (snd q)))). cbv zeta. set (cs := map fn _).
  assert (CS : forall s, In s cs <-> exists k, keeps3 d l k /\ s = form d l n_atoms k).
  { intros s. unfold cs. rewrite in_map_iff. split.
    - intros [[[a b] c] [E I]]. apply in_prod_iff in I. destruct I as [I Iz]. apply in_prod_iff in I. destruct I as [Ix Iy]. apply X in Ix. apply Y in Iy. apply ZZ in Iz. destruct Ix as [k1 [A1 ->]], Iy as [k2 [A2 ->]], Iz as [k3 [A3 ->]]. exists (k1, k2, k3). split; [exact (conj A1 (conj A2 A3))|]. rewrite <- E. unfold fn, form. cbn [fst snd]. rewrite <- (cols_map d l (k1, k2, k3)). reflexivity.
    - intros [[[k1 k2] k3] [[A1 [A2 A3]] ->]]. cbn [fst snd] in *. exists (map (place d (map ax l) k1) (map ax l), map (place d (map ay l) k2) (map ay l), map (place d (map az l) k3) (map az l)). split; [unfold fn, form; cbn [fst snd]; now rewrite <- (cols_map d l (k1, k2, k3))|]. apply in_prod_iff. split; [apply in_prod_iff; split; [apply X; now exists k1|apply Y; now exists k2]|apply ZZ; now exists k3]. }
  destruct cs as [|c0 cs0] eqn:E.
  - exfalso. unfold cs in E. apply map_eq_nil in E. destruct cx as [|a cx]; [easy|]. destruct cy as [|b cy]; [easy|]. destruct cz as [|c cz]; [easy|]. discriminate.
  - destruct (least_spec cs0 c0) as [I1 I2]. exists (least c0 cs0). split; [now rewrite map_length|]. split; [now apply CS|]. intros k K. apply I2, CS. now exists k.
Qed.
Lemma least_form_unique d l n_atoms l' n' f f' :
  (forall k, keeps3 d l k -> exists k', keeps3 d l' k' /\ form d l n_atoms k = form d l' n' k') -> (forall k, keeps3 d l' k -> exists k', keeps3 d l k' /\ form d l' n' k = form d l n_atoms k') ->
  least_form d l n_atoms f -> least_form d l' n' f' -> f = f'.
Proof.
  intros A B [[k [K ->]] F] [[k' [K' ->]] F']. apply lex_anti.
  - destruct (B k' K') as [j [J E]]. rewrite E. now apply F.
  - destruct (A k K) as [j [J E]]. rewrite E. now apply F'.
Qed.
Lemma reordered_perm n_atoms : forall l l', reordered n_atoms l l' -> Permutation l l'.
Proof.
  induction n_atoms as [|n ns IH]; cbn; intros l l' H; [now subst|]. destruct H as [P H]. rewrite <- (firstn_skipn n l), <- (firstn_skipn n l'). apply Permutation_app; [exact P|now apply IH].
Qed.
Lemma reordered_sym n_atoms : forall l l', reordered n_atoms l l' -> reordered n_atoms l' l.
Proof. induction n_atoms as [|n ns IH]; cbn; intros l l' H; [now symmetry|]. destruct H as [P H]. split; [now apply Permutation_sym|now apply IH]. Qed.
Lemma sort_reordered n_atoms (g : atom -> col) : forall l l', reordered n_atoms l l' -> sort_positions n_atoms (map g l) = sort_positions n_atoms (map g l').
Proof. induction n_atoms as [|n ns IH]; cbn; intros l l' H; [now subst|]. destruct H as [P H]. rewrite <- !firstn_map, <- !skipn_map || rewrite !firstn_map, !skipn_map. f_equal; [now apply col_eq, Permutation_map|now apply IH]. Qed.
Lemma form_reordered d l l' n_atoms : reordered n_atoms l l' -> forall k, keeps3 d l k -> exists k', keeps3 d l' k' /\ form d l n_atoms k = form d l' n_atoms k'.
Proof.
  intros H k [K1 [K2 K3]]. pose proof (reordered_perm _ _ _ H) as P. exists k. split; [split; [|split]; (eapply keeps_perm; [apply Permutation_map; exact P|assumption])|]. unfold form. f_equal. rewrite (sort_reordered n_atoms (put d l k) _ _ H). f_equal. apply map_ext. intros a. unfold put. now rewrite !(place_perm d _ _ _ _ (Permutation_map _ P)).
Qed.
Definition step3 (d : nat) (t a a' : atom) : Prop := step d (ax t) (ax a) (ax a') /\ step d (ay t) (ay a) (ay a') /\ step d (az t) (az a) (az a').
Lemma Forall2_map_ {A B} (f : A -> B) (P : A -> A -> Prop) (P' : B -> B -> Prop) l l' : (forall a b, P a b -> P' (f a) (f b)) -> Forall2 P l l' -> Forall2 P' (map f l) (map f l').
Proof. intros H. induction 1; cbn; constructor; auto. Qed.
Lemma form_step d t l l' n_atoms : Forall2 (step3 d t) l l' -> forall k, keeps3 d l' k -> exists k', keeps3 d l k' /\ form d l' n_atoms k = form d l n_atoms k'.
Proof.
  intros H k [K1 [K2 K3]].
  assert (HX : Forall2 (step d (ax t)) (map ax l) (map ax l')) by (eapply Forall2_map_; [|exact H]; intros a b S3; apply S3).
  assert (HY : Forall2 (step d (ay t)) (map ay l) (map ay l')) by (eapply Forall2_map_; [|exact H]; intros a b S3; apply S3).
  assert (HZ : Forall2 (step d (az t)) (map az l) (map az l')) by (eapply Forall2_map_; [|exact H]; intros a b S3; apply S3).
  destruct (keeps_step _ _ _ _ _ HX K1) as [k1 [A1 B1]], (keeps_step _ _ _ _ _ HY K2) as [k2 [A2 B2]], (keeps_step _ _ _ _ _ HZ K3) as [k3 [A3 B3]].
  exists (k1, k2, k3). split; [exact (conj A1 (conj A2 A3))|]. unfold form. do 2 f_equal. clear - H B1 B2 B3.
  assert (E : forall a b, step3 d t a b -> put d l' k b = put d l (k1, k2, k3) a) by (intros a b [S1 [S2 S3]]; unfold put; cbn [fst snd]; now rewrite (B1 _ _ S1), (B2 _ _ S2), (B3 _ _ S3)).
  revert E. generalize (put d l' k) (put d l (k1, k2, k3)). intros g f E. clear - H E. induction H as [|a b l l' H1 H2 IH]; [reflexivity|]. cbn. now rewrite (E _ _ H1), IH.
Qed.
Lemma step3_sym d t a a' : step3 d t a a' -> step3 d ((- ax t, - ay t, - az t)%Q) a' a.
Proof. intros [H1 [H2 H3]]. unfold step3, ax, ay, az in *. cbn [fst snd]. repeat split; now apply step_sym. Qed.
Lemma normalize_steps d t l l' n_atoms : Forall2 (step3 d t) l l' -> normalize d (map ax l) (map ay l) (map az l) n_atoms = normalize d (map ax l') (map ay l') (map az l') n_atoms.
Proof.
  intros H. destruct l as [|a l]; [inversion H; reflexivity|]. destruct l' as [|a' l']; [inversion H|]. destruct (normalize_spec d (a :: l) n_atoms ltac:(easy)) as [f [-> F]]. destruct (normalize_spec d (a' :: l') n_atoms ltac:(easy)) as [f' [-> F']]. rewrite (Forall2_len _ _ _ H). do 2 f_equal. eapply least_form_unique; [| |exact F|exact F'].
  - apply (form_step d ((- ax t, - ay t, - az t)%Q)). eapply Forall2_flip_; [|exact H]. apply step3_sym.
  - apply (form_step d t). exact H.
Qed.
Lemma normalize_reordered d l l' n_atoms : reordered n_atoms l l' -> normalize d (map ax l) (map ay l) (map az l) n_atoms = normalize d (map ax l') (map ay l') (map az l') n_atoms.
Proof.
  intros H. pose proof (reordered_perm _ _ _ H) as P. destruct l as [|a l]; [apply Permutation_nil in P; now subst|]. destruct l' as [|a' l']; [apply Permutation_sym, Permutation_nil in P; discriminate|].
  destruct (normalize_spec d (a :: l) n_atoms ltac:(easy)) as [f [-> F]]. destruct (normalize_spec d (a' :: l') n_atoms ltac:(easy)) as [f' [-> F']]. rewrite (Permutation_length P). do 2 f_equal. eapply least_form_unique; [| |exact F|exact F']; apply form_reordered; [exact H|now apply reordered_sym].
Qed.

(** ** What a normal form describes *)
Lemma sort_lift (g : atom -> col) n_atoms : forall l, exists m, reordered n_atoms l m /\ sort_positions n_atoms (map g l) = map g m.
Proof.
  induction n_atoms as [|n ns IH]; intros l; [exists l; now split|]. cbn [sort_positions reordered]. rewrite firstn_map, skipn_map. destruct (IH (skipn n l)) as [m [R E]].
  pose proof (sort_perm col_leb (map g (firstn n l))) as P. apply Permutation_sym in P. apply Permutation_map_inv in P. destruct P as [f [F P]]. apply Permutation_sym in P.
  assert (L : length f = length (firstn n l)) by now rewrite (Permutation_length P).
  exists (f ++ m). rewrite E, F, <- map_app. split; [|reflexivity]. destruct (Nat.le_gt_cases n (length l)) as [LE|GT].
  - rewrite firstn_length_le in L by exact LE. rewrite <- L. rewrite firstn_app, skipn_app, Nat.sub_diag, firstn_all, skipn_all. cbn [firstn skipn app]. rewrite app_nil_r. rewrite L. split; [now apply Permutation_sym|exact R].
  - rewrite (skipn_all2 l) in R |- * by lia. assert (m = []) as -> by (apply reordered_perm in R; now apply Permutation_nil in R). rewrite app_nil_r. rewrite firstn_all2 in P, L |- * by lia. rewrite firstn_all2 by lia. rewrite skipn_all2 by lia. split; [now apply Permutation_sym|exact R].
Qed.
Lemma flat_unflat d l n_atoms k : exists m, reordered n_atoms l m /\ unflat (length l) (form d l n_atoms k) = (map (fun a => place d (map ax l) (fst (fst k)) (ax a)) m, map (fun a => place d (map ay l) (snd (fst k)) (ay a)) m, map (fun a => place d (map az l) (snd k) (az a)) m).
Proof.
  destruct (sort_lift (put d l k) n_atoms l) as [m [R E]]. exists m. split; [exact R|]. unfold form. rewrite E. unfold flat. rewrite !map_map. cbn [put fst snd]. assert (L : length l = length m) by (apply Permutation_length, (reordered_perm _ _ _ R)).
  set (f := fun a => place d (map ax l) _ _). set (g := fun a => place d (map ay l) _ _). set (h := fun a => place d (map az l) _ _). change (unflat (length l) (map f m ++ map g m ++ map h m) = (map f m, map g m, map h m)). unfold unflat. rewrite L.
  rewrite firstn_app, skipn_app, map_length, Nat.sub_diag. rewrite (firstn_all2 (map f m)) by now rewrite map_length. rewrite (skipn_all2 (map f m)) by now rewrite map_length. cbn [firstn skipn app]. rewrite app_nil_r. rewrite firstn_app, skipn_app, map_length, Nat.sub_diag. rewrite (firstn_all2 (map g m)) by now rewrite map_length. rewrite (skipn_all2 (map g m)) by now rewrite map_length. cbn [firstn skipn app]. now rewrite app_nil_r.
Qed.
Definition shift_of (d : nat) (xs : list Q) (k : nat) : Q := (inject_Z (Z.of_nat k) / inject_Z (Z.of_nat (length xs)) - total d xs / inject_Z (Z.of_nat (length xs)))%Q.
Lemma place_near d xs k x : within (1 / inject_Z (unit_of d)) (shift_of d xs k) x (coord d (place d xs k x)).
Proof.
  unfold place. set (y := (coord d (grid d x) - _ + _)%Q). destruct (grid_near d x) as [z Hz]. destruct (grid_near d y) as [w Hw]. exists (w + z)%Z. pose proof (unit_Q d) as U. set (u := inject_Z (unit_of d)) in *. set (c := coord d (grid d y)) in *. set (b := coord d (grid d x)) in *.
  assert (Y : (y == b + shift_of d xs k)%Q) by (unfold y, shift_of; ring). set (s := shift_of d xs k) in *. clearbody y s b c. rewrite inject_Z_plus. set (zz := inject_Z z) in *. set (ww := inject_Z w) in *.
  assert (X : ((c - x - s - (ww + zz)) == ((c - y - ww) * u + (b - x - zz) * u) / u)%Q) by (rewrite Y; field; lra). rewrite X. split.
  - apply Qle_shift_div_l; [exact U|]. assert (- (1 / u) * u == -1)%Q by (field; lra). lra.
  - apply Qle_shift_div_r; [exact U|]. assert (1 / u * u == 1)%Q by (field; lra). lra.
Qed.
