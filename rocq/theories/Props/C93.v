(** C93: the smallest distance found is that of the periodic structure. *)
From Verif Require Import Base Num NumR Model.Neighbor Spec.Lattice.
From Coq Require Import Reals Lra ZArith Lia List.
From Verif Require Import Spec.NearestDistance Model.NearestDistance.
Import ListNotations.
Local Open Scope R_scope.

Lemma fold_min t : forall x, In (fold_left Rmin t x) (x :: t) /\ (forall y, In y (x :: t) -> fold_left Rmin t x <= y).
Proof.
  induction t as [|a t IH]; intros x; cbn [fold_left]; [split; [now left|]; intros y [<-|[]]; lra|]. destruct (IH (Rmin x a)) as [I L]. split.
  - destruct I as [<-|I]; [|right; now right]. unfold Rmin. destruct (Rle_dec x a); [now left|right; now left].
  - intros y H. assert (L0 := L _ (or_introl eq_refl)). pose proof (Rmin_l x a). pose proof (Rmin_r x a). destruct H as [<-|[<-|H]]; [lra|lra|]. apply L. now right.
Qed.
Lemma pymin_ok l m : pymin l = Ok m -> In m l /\ forall y, In y l -> m <= y.
Proof. destruct l as [|x t]; [discriminate|]. intros [= <-]. apply fold_min. Qed.
Lemma mapM_ok {X Y} (f : X -> res Y) l r : mapM f l = Ok r -> (forall x, In x l -> exists y, f x = Ok y /\ In y r) /\ (forall y, In y r -> exists x, In x l /\ f x = Ok y).
Proof.
  revert r. induction l as [|x l IH]; intros r H; cbn [mapM] in H; [injection H as <-; split; intros ? []|]. destruct (f x) as [y|] eqn:E; [|discriminate]. cbn [bind] in H. destruct (mapM f l) as [r'|] eqn:E'; [|discriminate]. injection H as <-. destruct (IH r' eq_refl) as [P Q]. split.
  - intros z [<-|H]; [exists y; split; [exact E|now left]|]. destruct (P z H) as (w & W & I). exists w. split; [exact W|now right].
  - intros z [<-|H]; [exists x; split; [now left|exact E]|]. destruct (Q z H) as (w & W & I). exists w. split; [now right|exact I].
Qed.
Lemma mapM_min l : (Forall (fun x => x <> []) l /\ exists r, mapM pymin l = Ok r /\ length r = length l) \/ (Exists (fun x => x = []) l /\ mapM pymin l = Err ValueError).
Proof.
  induction l as [|x l IH]; cbn [mapM]; [left; split; [constructor|exists []; now split]|]. destruct x as [|a x]; [right; split; [now constructor|reflexivity]|]. cbn [pymin bind]. destruct IH as [[F (r & -> & L)]|[F ->]].
  - left. split; [constructor; [discriminate|exact F]|]. eexists. split; [reflexivity|]. cbn. now rewrite L.
  - right. split; [now constructor 2|reflexivity].
Qed.

Section Nearest.
  Variables (tol : R) (A : cell R) (pos : list (v3 R)) (types : list nat) (n : nat) (dist : list (list (list R))).
  Hypothesis Htol : 0 < tol.
  Hypothesis Haxis : tol < len (ax0 A) /\ tol < len (ax1 A) /\ tol < len (ax2 A).
  Hypothesis Hpos : pos <> [].
  Hypothesis Htypes : forall j, (j < length pos)%nat -> (nth j types 0 < n)%nat.
  Hypothesis Htable : table tol (search_cutoff A) A pos types n dist.

  Lemma in_lists x : In x (concat dist) <-> exists i k, (i < length pos)%nat /\ (k < n)%nat /\ x = nth k (nth i dist []) [].
  Proof using Htable.
    clear Hpos Htypes Haxis Htol. destruct Htable as [L T]. rewrite in_concat. split.
    - intros (l & I & J). apply In_nth with (d := []) in I. destruct I as (i & Hi & <-). rewrite L in Hi. apply In_nth with (d := []) in J. destruct J as (k & Hk & <-). rewrite (proj1 (T i Hi)) in Hk. now exists i, k.
    - intros (i & k & Hi & Hk & ->). exists (nth i dist []). split; apply nth_In; [now rewrite L|now rewrite (proj1 (T i Hi))].
  Qed.
  Lemma lattice_axis : lattice A (ax0 A) /\ lattice A (ax1 A) /\ lattice A (ax2 A).
  Proof using.
    clear. destruct A as [[a b c] [d e f] [g h k]]. cbn [ax0 ax1 ax2]. split; [exists 1%Z, 0%Z, 0%Z|split; [exists 0%Z, 1%Z, 0%Z|exists 0%Z, 0%Z, 1%Z]]; unfold comb, vadd, vscale; cbn [vx vy vz ax0 ax1 ax2 nadd nmul R_num];
      match goal with |- V3 ?a ?b ?c = V3 ?x ?y ?z => assert (E1 : a = x) by ring; assert (E2 : b = y) by ring; assert (E3 : c = z) by ring; rewrite <- E1, <- E2, <- E3; reflexivity end.
  Qed.
  Lemma own i t : lattice A t -> apart A pos i i (len t).
  Proof using.
    clear. intros H. exists t. split; [exact H|]. cbv zeta. unfold len. destruct t as [x y z], (nth i pos v0) as [a b c]. unfold vsub, vadd. cbn [vx vy vz nadd nsub R_num]. f_equal. ring.
  Qed.
  (** The own images of an atom are found. *)
  Lemma own_near i : (i < length pos)%nat -> exists d, near tol (search_cutoff A) A pos types i (nth i types 0%nat) d /\ d < search_cutoff A.
  Proof using Haxis.
    intros Hi. destruct lattice_axis as (L0 & L1 & L2). destruct Haxis as (T0 & T1 & T2). unfold search_cutoff. unfold Rmin at 1 3. destruct (Rle_dec _ _) as [_|_]; [unfold Rmin; destruct (Rle_dec _ _) as [_|_]|].
    all: [> exists (len (ax0 A)) | exists (len (ax1 A)) | exists (len (ax2 A))]; (split; [split; [split; [assumption|lra]|exists i; split; [exact Hi|split; [reflexivity|now apply own]]]|lra]).
  Qed.

  (** The result is a distance of the crystal, and no pair of atoms or of an atom and its images is nearer, except those nearer than [tol]. *)
  Theorem C93_minimum m : find_minimum_distance dist = Ok m ->
    tol < m /\ (exists i j, (i < length pos)%nat /\ (j < length pos)%nat /\ apart A pos i j m) /\
    (forall i j d, (i < length pos)%nat -> (j < length pos)%nat -> apart A pos i j d -> tol < d -> m <= d).
  Proof using Haxis Hpos Htypes Htable.
    unfold find_minimum_distance, min_array. destruct (mapM _ _) as [l|] eqn:E; [|discriminate]. cbn [bind]. intros H. apply pymin_ok in H. destruct H as [I L]. destruct (mapM_ok _ _ _ E) as [P Q]. pose proof Htable as [_ T].
    assert (B : forall i k d, (i < length pos)%nat -> (k < n)%nat -> near tol (search_cutoff A) A pos types i k d -> m <= d).
    { intros i k d Hi Hk N. destruct (P (nth k (nth i dist []) [])) as (y & Y & J); [apply in_lists; now exists i, k|]. apply pymin_ok in Y. specialize (L _ J). apply (proj2 (T i Hi) k Hk) in N. apply (proj2 Y) in N. lra. }
    destruct (Q m I) as (x & X & Y). apply in_lists in X. destruct X as (i & k & Hi & Hk & ->). apply pymin_ok in Y. destruct Y as [Y _]. apply (proj2 (T i Hi) k Hk) in Y. destruct Y as (R1 & j & Hj & _ & D).
    split; [lra|]. split; [now exists i, j|]. intros i' j' d Hi' Hj' D' Td. destruct (Rlt_dec d (search_cutoff A)) as [C|C].
    - apply (B i' (nth j' types 0%nat)); [exact Hi'|now apply Htypes|]. split; [lra|]. now exists j'.
    - destruct (own_near i' Hi') as (o & N & O). specialize (B i' _ o Hi' (Htypes i' Hi') N). lra.
  Qed.
  (** It fails exactly when some atom has no neighbour of some type within the search. *)
  Theorem C93_defined : (exists m, find_minimum_distance dist = Ok m) \/ find_minimum_distance dist = Err ValueError.
  Proof using. unfold find_minimum_distance, min_array. destruct (mapM_min (concat dist)) as [[_ (r & -> & _)]|[_ ->]]; [|now right]. cbn [bind]. destruct r; [now right|left; eexists; reflexivity]. Qed.
  Theorem C93_stops : find_minimum_distance dist = Err ValueError <-> exists i k, (i < length pos)%nat /\ (k < n)%nat /\ forall d, ~ near tol (search_cutoff A) A pos types i k d.
  Proof using Hpos Htypes Htable.
    clear Haxis Htol. pose proof Htable as [_ T]. unfold find_minimum_distance, min_array. destruct (mapM_min (concat dist)) as [[F (r & -> & Lr)]|[F ->]]; cbn [bind].
    - split.
      + intros H. destruct r; [|discriminate]. exfalso. assert (P0 : (0 < length pos)%nat) by (clear - Hpos; destruct pos; [now contradiction Hpos|cbn; lia]). pose proof (Htypes 0%nat P0) as H0. assert (X : In (nth (nth 0 types 0%nat) (nth 0 dist []) []) (concat dist)) by (apply in_lists; exists 0%nat, (nth 0 types 0%nat); split; [exact P0|now split]).
        clear - X Lr. destruct (concat dist); [destruct X|discriminate].
      + intros (i & k & Hi & Hk & N). exfalso. rewrite Forall_forall in F. apply (F (nth k (nth i dist []) [])); [apply in_lists; now exists i, k|]. destruct (nth k _ []) as [|d l] eqn:E; [reflexivity|]. exfalso. apply (N d). apply (proj2 (T i Hi) k Hk). rewrite E. now left.
    - split; [intros _|reflexivity]. apply Exists_exists in F. destruct F as (x & X & ->). apply in_lists in X. destruct X as (i & k & Hi & Hk & E). exists i, k. split; [exact Hi|split; [exact Hk|]]. intros d N. apply (proj2 (T i Hi) k Hk) in N. now rewrite <- E in N.
  Qed.
  (** Never with one kind of atoms *)
  Theorem C93_single : n = 1%nat -> exists m, find_minimum_distance dist = Ok m.
  Proof using Haxis Hpos Htypes Htable.
    intros N1. destruct C93_defined as [H|H]; [exact H|]. exfalso. apply C93_stops in H. destruct H as (i & k & Hi & Hk & N). destruct (own_near i Hi) as (d & D & _). apply (N d). replace k with (nth i types 0%nat); [exact D|]. specialize (Htypes i Hi). lia.
  Qed.
  (** Coordination numbers, in the order of atoms and types *)
  Theorem C93_coordination : length (get_coordination_numbers dist) = (length pos * n)%nat.
  Proof using Htable.
    clear Hpos Htypes Haxis Htol. unfold get_coordination_numbers. rewrite map_length. destruct Htable as [L T]. rewrite <- L in *. clear L Htable. assert (T' : forall i, (i < length dist)%nat -> length (nth i dist []) = n) by (intros i Hi; apply (T i Hi)). clear T. rename T' into T. induction dist as [|x l IH]; [reflexivity|]. cbn [concat length]. pose proof (T 0%nat ltac:(cbn; lia)) as T0. cbn [nth] in T0. rewrite app_length, T0. rewrite IH; [cbn; lia|]. intros i Hi. apply (T (S i)). cbn. lia.
  Qed.
End Nearest.

(** Not so with two kinds of atoms that are farther apart than the shortest axis: no smallest distance is given. *)
Definition long : cell R := Cell (V3 1 0 0) (V3 0 1 0) (V3 0 0 10).
Definition two_atoms : list (v3 R) := [V3 0 0 0; V3 0 0 5].
Lemma long_cutoff : search_cutoff long = 1 + 1 / 100000.
Proof.
  unfold search_cutoff, len, long. cbn [vx vy vz ax0 ax1 ax2]. replace (1 * 1 + 0 * 0 + 0 * 0) with 1 by ring. replace (0 * 0 + 1 * 1 + 0 * 0) with 1 by ring. replace (0 * 0 + 0 * 0 + 10 * 10) with (10 * 10) by ring. rewrite sqrt_1, sqrt_square by lra. rewrite (Rmin_left 1 1) by lra. rewrite Rmin_left by lra. reflexivity.
Qed.
Theorem C93_refuted dist : table (1 / 10000000000) (search_cutoff long) long two_atoms [0; 1]%nat 2 dist -> find_minimum_distance dist = Err ValueError.
Proof.
  intros T. apply (C93_stops (1 / 10000000000) long two_atoms [0; 1]%nat 2 dist); [discriminate| |exact T|].
  - intros j H. cbn in H. destruct j as [|[|j]]; cbn; lia.
  - exists 0%nat, 1%nat. split; [cbn; lia|]. split; [lia|]. intros d ([_ C] & j & Hj & Tj & (t & (a & b & c & ->) & D)). cbn in Hj. destruct j as [|[|j]]; [discriminate| |lia]. rewrite long_cutoff in C. cbv zeta in D.
    unfold comb, two_atoms, long, vsub, vadd, vscale in D. cbn [nth vx vy vz ax0 ax1 ax2 nadd nsub nmul R_num] in D.
    assert (S5 : 5 * 5 <= (5 + 10 * IZR c) * (5 + 10 * IZR c)). { assert (X : (c <= -1 \/ 0 <= c)%Z) by lia. destruct X as [X|X]; apply IZR_le in X; nra. }
    assert (D5 : 5 <= d); [|lra]. rewrite D. apply Rle_trans with (sqrt (5 * 5)); [rewrite sqrt_square by lra; lra|]. apply sqrt_le_1_alt.
    match goal with |- _ <= ?x * ?x + ?y * ?y + ?z * ?z => assert (0 <= x * x) by apply Rle_0_sqr; assert (0 <= y * y) by apply Rle_0_sqr; replace z with (5 + 10 * IZR c) by ring; lra end.
Qed.

(** ** Examples *)
(** Lists of distances as required exist for this structure: each atom has its own images at distance 1. *)
Lemma self_images d i : (i < 2)%nat -> (1 / 10000000000 < d < search_cutoff long /\ apart long two_atoms i i d) <-> d = 1.
Proof.
  intros Hi. rewrite long_cutoff. split.
  - intros [C (t & (a & b & c & ->) & D)]. cbv zeta in D. unfold comb, long, vsub, vadd, vscale in D. cbn [vx vy vz ax0 ax1 ax2 nadd nsub nmul R_num] in D. destruct (nth i two_atoms v0) as [x y z]. cbn [vx vy vz] in D.
    assert (E : d = sqrt (IZR (a * a + b * b + 100 * (c * c)))) by (rewrite D; apply f_equal; rewrite !plus_IZR, !mult_IZR; ring). set (m := (a * a + b * b + 100 * (c * c))%Z) in *. assert (M0 : (0 <= m)%Z) by (unfold m; nia).
    assert (E2 : d * d = IZR m) by (rewrite E; apply sqrt_sqrt; now apply IZR_le). assert (M1 : (m < 2)%Z) by (apply lt_IZR; rewrite <- E2; nra). assert (M2 : (0 < m)%Z) by (apply lt_IZR; rewrite <- E2; nra). assert (m = 1%Z) as M by lia. rewrite E, M. apply sqrt_1.
  - intros ->. split; [lra|]. replace 1 with (len (ax0 long)) by (unfold len, long; cbn [vx vy vz ax0]; replace (1 * 1 + 0 * 0 + 0 * 0) with 1 by ring; apply sqrt_1). apply own. apply (lattice_axis long).
Qed.
Lemma no_pair d i j : (i < 2)%nat -> (j < 2)%nat -> i <> j -> apart long two_atoms i j d -> 5 <= d.
Proof.
  intros Hi Hj N (t & (a & b & c & ->) & D). cbv zeta in D. unfold comb, two_atoms, long, vsub, vadd, vscale in D.
  assert (X : (c <= -1 \/ c = 0 \/ 1 <= c)%Z) by lia.
  destruct i as [|[|i]], j as [|[|j]]; try lia; cbn [nth vx vy vz ax0 ax1 ax2 nadd nsub nmul R_num] in D; rewrite D; (apply Rle_trans with (sqrt (5 * 5)); [rewrite sqrt_square by lra; lra|]); apply sqrt_le_1_alt;
    match goal with |- _ <= ?x * ?x + ?y * ?y + ?z * ?z => assert (0 <= x * x) by apply Rle_0_sqr; assert (0 <= y * y) by apply Rle_0_sqr; assert (5 * 5 <= z * z); [|lra] end;
    (destruct X as [X|[X|X]]; [apply IZR_le in X|subst c|apply IZR_le in X]; nra).
Qed.
Example ex_table : table (1 / 10000000000) (search_cutoff long) long two_atoms [0; 1]%nat 2 [[[1]; []]; [[]; [1]]].
Proof.
  split; [reflexivity|]. intros i Hi. cbn in Hi. split; [destruct i as [|[|i]]; [reflexivity|reflexivity|lia]|]. intros k Hk d. unfold near.
  assert (S1 : (exists j, (j < length two_atoms)%nat /\ nth j [0; 1]%nat 0%nat = k /\ apart long two_atoms i j d) <-> apart long two_atoms i k d).
  { split; [intros (j & Hj & E & H); cbn in Hj; destruct j as [|[|j]]; cbn in E; [subst k; exact H|subst k; exact H|lia]|]. intros H. exists k. cbn. split; [lia|]. split; [destruct k as [|[|k]]; cbn; lia|exact H]. }
  rewrite S1. clear S1. destruct (Nat.eq_dec i k) as [<-|N].
  - rewrite (self_images d i Hi). destruct i as [|[|i]]; [| |lia]; cbn [nth In]; split; [intros [<-|[]]; reflexivity|intros ->; now left|intros [<-|[]]; reflexivity|intros ->; now left].
  - split; [destruct i as [|[|i]], k as [|[|k]]; try lia; intros []|]. intros [[_ C] H]. apply no_pair in H; [|lia|lia|exact N]. rewrite long_cutoff in C. lra.
Qed.
Example ex_min : find_minimum_distance [[[3; 2]; [5]]; [[4]; [2; 2]]] = Ok 2.
Proof. unfold find_minimum_distance, min_array. cbn [concat app mapM pymin bind fold_left]. unfold Rmin. repeat (destruct (Rle_dec _ _); try lra). all: reflexivity. Qed.
Example ex_stop : find_minimum_distance [[[1]; []]; [[]; [1]]] = Err ValueError.
Proof. reflexivity. Qed.

Print Assumptions C93_minimum.
Print Assumptions C93_defined.
Print Assumptions C93_stops.
Print Assumptions C93_single.
Print Assumptions C93_coordination.
Print Assumptions C93_refuted.
