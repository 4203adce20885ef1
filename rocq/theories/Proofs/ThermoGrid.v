(** Lemmas on thermodynamic grids. *)
From Verif Require Import Base Num Model.Structure Model.ThermoGrid Spec.ThermoGrid.
From Coq Require Import QArith Qround Qabs Lqa Lia FinFun.
Local Open Scope nat_scope.

(** ** Rounding *)
Lemma rint_spec q : (Qabs (q - inject_Z (rint q)) <= 1 # 2)%Q /\ ((Qabs (q - inject_Z (rint q)) == 1 # 2)%Q -> Z.Even (rint q)).
Proof.
  unfold rint. pose proof (Qfloor_le q) as H1. pose proof (Qlt_floor q) as H2. set (f := Qfloor q) in *.
  rewrite inject_Z_plus in H2. change (inject_Z 1) with 1%Q in H2.
  destruct (Qcompare (q - inject_Z f) (1 # 2)) eqn:C.
  - apply Qeq_alt in C. destruct (Z.even f) eqn:Ev.
    + split; [apply Qabs_Qle_condition; split; lra|intros _; now apply Z.even_spec].
    + rewrite inject_Z_plus. change (inject_Z 1) with 1%Q. split; [apply Qabs_Qle_condition; split; lra|]. intros _.
      apply Z.even_spec. rewrite Z.even_add, Ev. reflexivity.
  - apply Qlt_alt in C. split; [apply Qabs_Qle_condition; split; lra|]. intros E. exfalso. rewrite Qabs_pos in E by lra. lra.
  - apply Qgt_alt in C. rewrite inject_Z_plus. change (inject_Z 1) with 1%Q. split; [apply Qabs_Qle_condition; split; lra|].
    intros E. exfalso. rewrite Qabs_neg in E by lra. lra.
Qed.
Lemma nearest_unique q v w : (Qabs (q - inject_Z v) <= 1 # 2)%Q /\ ((Qabs (q - inject_Z v) == 1 # 2)%Q -> Z.Even v) ->
  (Qabs (q - inject_Z w) <= 1 # 2)%Q /\ ((Qabs (q - inject_Z w) == 1 # 2)%Q -> Z.Even w) -> (v < w)%Z -> False.
Proof.
  intros [V1 V2] [W1 W2] L. apply Qabs_Qle_condition in V1, W1.
  assert (L' : (inject_Z v + 1 <= inject_Z w)%Q) by (change 1%Q with (inject_Z 1); rewrite <- inject_Z_plus, <- Zle_Qle; lia).
  assert (E1 : (q - inject_Z v == 1 # 2)%Q) by lra. assert (E2 : (q - inject_Z w == - (1 # 2))%Q) by lra.
  assert (E3 : (inject_Z w == inject_Z (v + 1))%Q) by (rewrite inject_Z_plus; change (inject_Z 1) with 1%Q; lra).
  assert (E4 : w = (v + 1)%Z) by (unfold Qeq, inject_Z in E3; cbn in E3; lia).
  specialize (V2 ltac:(rewrite E1; reflexivity)). specialize (W2 ltac:(rewrite E2; reflexivity)).
  rewrite E4 in W2. destruct V2 as [a A1], W2 as [b B1]. lia.
Qed.
Lemma rounds_key d q v : rounds d q v <-> key d q = v.
Proof.
  unfold rounds, key, unit_of. set (x := (q * _)%Q). pose proof (rint_spec x) as R. split; [|intros <-; exact R].
  intros H. destruct (Z.lt_trichotomy (rint x) v) as [L|[L|L]]; [|exact L|].
  - exfalso. exact (nearest_unique _ _ _ R H L).
  - exfalso. exact (nearest_unique _ _ _ H R L).
Qed.

(** ** Lists *)
Lemma wf_In {X} (f : X -> bool) l k i : In i (where_from k f l) <-> k <= i /\ exists x, nth_error l (i - k) = Some x /\ f x = true.
Proof.
  revert k; induction l as [|a l IH]; intros k; cbn [where_from].
  - split; [intros []|]. intros [_ [x [E _]]]. now destruct (i - k).
  - assert (T : In i (where_from (S k) f l) <-> S k <= i /\ exists x, nth_error (a :: l) (i - k) = Some x /\ f x = true).
    { rewrite IH. split; intros [L [x [E Fx]]]; (split; [exact L|]); exists x; (split; [|exact Fx]); replace (i - k) with (S (i - S k)) in * by lia; exact E. }
    destruct (f a) eqn:Fa.
    + cbn [In]. rewrite T. split.
      * intros [<-|[L E]]; [|split; [lia|exact E]]. split; [lia|]. exists a. rewrite Nat.sub_diag. now split.
      * intros [L E]. destruct (Nat.eq_dec k i) as [->|NE]; [now left|right]. split; [lia|exact E].
    + rewrite T. split; intros [L [x [E Fx]]]; (split; [|exists x; now split]); [lia|].
      destruct (Nat.eq_dec k i) as [->|NE]; [|lia]. rewrite Nat.sub_diag in E. cbn in E. congruence.
Qed.
Lemma wf_NoDup {X} (f : X -> bool) l k : NoDup (where_from k f l).
Proof.
  revert k; induction l as [|a l IH]; intros k; cbn [where_from]; [constructor|]. destruct (f a); [|apply IH]. constructor; [|apply IH].
  rewrite wf_In. lia.
Qed.
Lemma wf_length {X} (f : X -> bool) l k : length (where_from k f l) = length (filter f l).
Proof. revert k; induction l as [|a l IH]; intros k; cbn; [reflexivity|]. destruct (f a); cbn; now rewrite IH. Qed.
Lemma NoDup_firstn {X} n (l : list X) : NoDup l -> NoDup (firstn n l).
Proof.
  revert n; induction l as [|a l IH]; intros [|n] H; cbn; try constructor; inversion H; subst; [|now apply IH].
  intros C. apply H2. rewrite <- (firstn_skipn n l). apply in_app_iff. now left.
Qed.
Lemma at_least_filter {X} n (f : X -> bool) l : at_least n (fun x => f x = true) l <-> n <= length (filter f l).
Proof.
  split.
  - intros [is [ND [<- H]]]. rewrite <- (wf_length f l 0). apply NoDup_incl_length; [exact ND|].
    intros i Hi. apply wf_In. split; [lia|]. rewrite Nat.sub_0_r. now apply H.
  - intros H. exists (firstn n (where_from 0 f l)). split; [apply NoDup_firstn, wf_NoDup|]. split; [rewrite firstn_length, wf_length; lia|].
    intros i Hi. assert (Hi' : In i (where_from 0 f l)) by (rewrite <- (firstn_skipn n (where_from 0 f l)); apply in_app_iff; now left).
    apply wf_In in Hi'. rewrite Nat.sub_0_r in Hi'. exact (proj2 Hi').
Qed.
Lemma at_least_ext {X} n (P Q : X -> Prop) l : (forall x, P x <-> Q x) -> at_least n P l <-> at_least n Q l.
Proof. intros H. split; intros [is [N [L K]]]; exists is; split; [exact N|split; [exact L|]|exact N|split; [exact L|]]; intros i Hi; destruct (K i Hi) as [x [E P1]]; exists x; split; try exact E; now apply H. Qed.

Lemma insert_z_perm x l : Permutation (insert_z x l) (x :: l).
Proof. induction l as [|y l IH]; cbn; [reflexivity|]. destruct (x <=? y)%Z; [reflexivity|]. rewrite IH. apply perm_swap. Qed.
Lemma sort_z_perm l : Permutation (sort_z l) l.
Proof. induction l as [|x l IH]; cbn; [reflexivity|]. now rewrite insert_z_perm, IH. Qed.
Lemma sort_z_sorted l : NoDup l -> increasing (sort_z l).
Proof.
  intros ND. assert (G : StronglySorted Z.le (sort_z l)).
  { clear ND. induction l as [|x l IH]; cbn [sort_z fold_right]; [constructor|]. fold (sort_z l). induction (sort_z l) as [|y t IHt]; cbn; [repeat constructor|].
    destruct (x <=? y)%Z eqn:E.
    - apply Z.leb_le in E. constructor; [exact IH|]. inversion IH; subst. constructor; [exact E|]. eapply Forall_impl; [|exact H2]. cbn. lia.
    - apply Z.leb_gt in E. inversion IH; subst. constructor; [now apply IHt|]. eapply Permutation_Forall; [symmetry; apply insert_z_perm|]. constructor; [lia|exact H2]. }
  assert (ND' : NoDup (sort_z l)) by (eapply Permutation_NoDup; [symmetry; apply sort_z_perm|exact ND]).
  unfold increasing. induction (sort_z l) as [|y t IH]; [constructor|]. inversion G; subst. inversion ND'; subst. constructor; [now apply IH|].
  apply Forall_forall. intros z Hz. rewrite Forall_forall in H2. specialize (H2 z Hz). assert (z <> y) by (intros ->; contradiction). lia.
Qed.
Lemma increasing_NoDup l : increasing l -> NoDup l.
Proof. induction 1 as [|a l H IH H0]; constructor; [|exact IH]. intros C. rewrite Forall_forall in H0. specialize (H0 a C). lia. Qed.
Lemma NoDup_disjoint {X} (a b : list X) : NoDup a -> NoDup b -> (forall x, In x a -> ~ In x b) -> NoDup (a ++ b).
Proof.
  induction a as [|x a IH]; cbn; intros H1 H2 H3; [exact H2|]. inversion H1; subst. constructor; [|apply IH; auto].
  rewrite in_app_iff. intros [C|C]; [contradiction|]. exact (H3 x (or_introl eq_refl) C).
Qed.
Lemma index_of_nth k l i : index_of k l = Some i -> nth_error l i = Some k.
Proof. revert i; induction l as [|x l IH]; intros i; cbn; [discriminate|]. destruct (Z.eqb k x) eqn:E; [intros [= <-]; apply Z.eqb_eq in E; now subst|]. destruct (index_of k l); [|discriminate]. intros [= <-]. now apply IH. Qed.
Lemma nth_index_of k l i : NoDup l -> nth_error l i = Some k -> index_of k l = Some i.
Proof.
  revert i; induction l as [|x l IH]; intros [|i] ND E; cbn in *; try discriminate; inversion ND; subst.
  - injection E as ->. now rewrite Z.eqb_refl.
  - destruct (Z.eqb k x) eqn:Q; [apply Z.eqb_eq in Q; subst; apply nth_error_In in E; contradiction|]. now rewrite (IH i).
Qed.
Lemma set_nth_length {X} (l : list X) i x : length (set_nth l i x) = length l.
Proof. revert i; induction l as [|a l IH]; intros [|i]; cbn; auto. Qed.
Lemma set_nth_get {X} (l : list X) i x j : nth_error (set_nth l i x) j = if (j =? i) && (i <? length l) then Some x else nth_error l j.
Proof.
  revert i j; induction l as [|a l IH]; intros [|i] [|j]; cbn; try reflexivity.
  - now rewrite andb_false_r.
  - rewrite IH. destruct (j =? i); [|reflexivity]. cbn. reflexivity.
Qed.

(** ** Counts *)
Lemma lookup_bump k k' c : lookup k (bump k' c) = if Z.eqb k k' then Some (S (match lookup k c with Some n => n | None => 0 end)) else lookup k c.
Proof.
  induction c as [|[x n] c IH]; cbn.
  - destruct (Z.eqb k k'); reflexivity.
  - destruct (Z.eqb_spec k' x) as [->|E]; cbn.
    + destruct (Z.eqb_spec k x) as [->|E']; reflexivity.
    + rewrite IH. destruct (Z.eqb_spec k x) as [->|E']; [|reflexivity]. destruct (Z.eqb_spec x k') as [->|_]; [contradiction|reflexivity].
Qed.
Lemma bump_keys k c x : In x (map fst (bump k c)) <-> x = k \/ In x (map fst c).
Proof. induction c as [|[y n] c IH]; cbn; [intuition|]. destruct (Z.eqb_spec k y) as [->|E]; cbn; [intuition congruence|]. rewrite IH. tauto. Qed.
Lemma bump_NoDup k c : NoDup (map fst c) -> NoDup (map fst (bump k c)).
Proof.
  induction c as [|[y n] c IH]; cbn; intros H; [repeat constructor; intros []|]. inversion H; subst. destruct (Z.eqb_spec k y) as [->|E]; cbn; [exact H|].
  constructor; [|now apply IH]. rewrite bump_keys. intros [->|C]; [contradiction|contradiction].
Qed.
Lemma lookup_In k n c : NoDup (map fst c) -> lookup k c = Some n <-> In (k, n) c.
Proof.
  induction c as [|[y m] c IH]; cbn; intros H; [split; [discriminate|intros []]|]. inversion H; subst. destruct (Z.eqb_spec k y) as [->|E].
  - split; [intros [= ->]; now left|]. intros [[= ->]|C]; [reflexivity|]. exfalso. apply H2. apply in_map_iff. exists (y, n). now split.
  - rewrite (IH H3). split; [now right|]. intros [[= -> _]|C]; [contradiction|exact C].
Qed.
Lemma lookup_None k c : lookup k c = None <-> ~ In k (map fst c).
Proof. induction c as [|[y m] c IH]; cbn; [tauto|]. destruct (Z.eqb_spec k y) as [->|E]; [split; [discriminate|intros H; exfalso; apply H; now left]|]. rewrite IH. intuition. Qed.
Lemma minimum_keys c c' x : In x (map fst (minimum c c')) -> In x (map fst c).
Proof.
  unfold minimum. rewrite !in_map_iff. intros [q [<- H]]. apply in_flat_map in H. destruct H as [r [H1 H2]]. exists r. split; [|exact H1].
  destruct (lookup (fst r) c'); [|destruct H2]. destruct H2 as [<-|[]]. reflexivity.
Qed.
Lemma minimum_NoDup c c' : NoDup (map fst c) -> NoDup (map fst (minimum c c')).
Proof.
  induction c as [|[y n] c IH]; cbn; intros H; [constructor|]. inversion H; subst. destruct (lookup y c'); cbn; [|now apply IH].
  constructor; [|now apply IH]. intros C. apply H2. now apply (minimum_keys c c').
Qed.
Lemma lookup_minimum k c c' : lookup k (minimum c c') = match lookup k c, lookup k c' with Some n, Some n' => Some (Nat.min n n') | _, _ => None end.
Proof.
  induction c as [|[y n] c IH]; [reflexivity|]. cbn [minimum flat_map lookup fst snd]. destruct (Z.eqb_spec k y) as [->|E].
  - destruct (lookup y c') as [n'|] eqn:L; cbn [app lookup fst snd].
    + rewrite Z.eqb_refl. f_equal. destruct (Nat.ltb_spec n' n); lia.
    + fold (minimum c c'). rewrite IH. now destruct (lookup y c).
  - destruct (lookup y c'); cbn; [destruct (Z.eqb_spec k y); [contradiction|]|]; exact IH.
Qed.

Section Grid.
  Context {F : Type} {N : Num F} {A P : Type}.
  Notation datum := (@datum F A P).
  Notation gpoint := (@gpoint F A P).
  Notation grid := (@grid F A P).
  Variable d : nat.

  Definition volk (x : datum) := key d (d_volume x).
  Definition tempk (x : datum) := rint (d_temp x).
  Definition cnt (f : datum -> Z) (k : Z) (l : list datum) := length (filter (fun x => has_free x && Z.eqb (f x) k) l).
  Definition tally (f : datum -> Z) (l : list datum) (c : counts) := NoDup (map fst c) /\ forall k, lookup k c = match cnt f k l with 0 => None | n => Some n end.
  Lemma cnt_snoc f k l x : cnt f k (l ++ [x]) = cnt f k l + (if has_free x && Z.eqb (f x) k then 1 else 0).
  Proof. unfold cnt. rewrite filter_app, app_length. cbn. now destruct (has_free x && Z.eqb (f x) k). Qed.
  Lemma tally_bump f l c x : tally f l c -> tally f (l ++ [x]) (if has_free x then bump (f x) c else c).
  Proof.
    intros [N1 T]. split; [destruct (has_free x); [now apply bump_NoDup|exact N1]|]. intros k. rewrite cnt_snoc. destruct (has_free x); cbn [andb].
    - rewrite lookup_bump, Z.eqb_sym, T. destruct (Z.eqb (f x) k); [|now rewrite Nat.add_0_r]. destruct (cnt f k l); cbn; [reflexivity|]. now rewrite Nat.add_1_r.
    - now rewrite Nat.add_0_r, T.
  Qed.
  Lemma count_size_tally (l : list datum) : tally volk l (fst (count_size d l)) /\ tally tempk l (snd (count_size d l)).
  Proof.
    induction l as [|x l IH] using rev_ind; [split; split; cbn; try constructor; reflexivity|].
    unfold count_size. rewrite fold_left_app. cbn [fold_left]. fold (count_size d l). destruct IH as [IH1 IH2]. apply (tally_bump _ _ _ x) in IH1, IH2.
    destruct (has_free x); cbn [fst snd]; split; assumption.
  Qed.

  (** All data sets *)
  Definition common (f : datum -> Z) (sets : list (list datum)) (c : counts) := NoDup (map fst c) /\
    forall k m, (exists n, lookup k c = Some n /\ m <= n) <-> forall D, In D sets -> 1 <= cnt f k D /\ m <= cnt f k D.
  Lemma tally_common f D c : tally f D c -> common f [D] c.
  Proof.
    intros [N1 T]. split; [exact N1|]. intros k m. rewrite T. split.
    - intros [n [E L]] D' [<-|[]]. destruct (cnt f k D) eqn:C; [discriminate|]. injection E as <-. lia.
    - intros H. destruct (H D (or_introl eq_refl)) as [H1 H2]. destruct (cnt f k D) eqn:C; [lia|]. eauto.
  Qed.
  Lemma common_minimum f sets D c c' : common f sets c -> tally f D c' -> common f (sets ++ [D]) (minimum c c').
  Proof.
    intros [N1 G] [N2 T]. split; [now apply minimum_NoDup|]. intros k m. rewrite lookup_minimum. split.
    - intros [n [E L]]. destruct (lookup k c) as [a|] eqn:Ca; [|discriminate]. rewrite T in E. destruct (cnt f k D) as [|b] eqn:Cb; [discriminate|]. apply (f_equal (fun o => match o with Some z => z | None => 0 end)) in E. cbv beta iota in E.
      assert (La : m <= a) by lia. pose proof (proj1 (G k m) (ex_intro _ a (conj Ca La))) as G1. intros D' HD. apply in_app_iff in HD. destruct HD as [HD|[<-|[]]]; [now apply G1|]. rewrite Cb. lia.
    - intros H. assert (H1 : exists n, lookup k c = Some n /\ m <= n) by (apply G; intros D' HD; apply H, in_app_iff; now left).
      destruct H1 as [a [-> La]]. destruct (H D ltac:(apply in_app_iff; right; now left)) as [H2 H3]. rewrite T. destruct (cnt f k D) as [|b]; [lia|]. eexists. split; [reflexivity|]. lia.
  Qed.
  Definition given (l : list (option (list datum))) : list (list datum) := flat_map (fun o => match o with Some x => [x] | None => [] end) l.
  Lemma count_minimum_common (l : list (option (list datum))) :
    match count_minimum d l with
    | None => given l = []
    | Some (cv, ct) => given l <> [] /\ common volk (given l) cv /\ common tempk (given l) ct
    end.
  Proof.
    induction l as [|o l IH] using rev_ind; [reflexivity|]. unfold count_minimum. rewrite fold_left_app. cbn [fold_left]. fold (count_minimum d l).
    unfold given. rewrite flat_map_app. fold (given l). cbn [flat_map]. destruct o as [D|]; cbn [app]; [|rewrite app_nil_r; exact IH].
    pose proof (count_size_tally D) as [T1 T2]. destruct (count_size d D) as [cv' ct']. cbn [fst snd] in T1, T2. destruct (count_minimum d l) as [[cv ct]|].
    - destruct IH as [_ [I1 I2]]. split; [now destruct (given l)|]. split; now apply common_minimum.
    - rewrite IH. split; [discriminate|]. split; now apply tally_common.
  Qed.
  Lemma common_grid_ok n_require (l : list (option (list datum))) : given l <> [] -> exists vs ts, common_grid d n_require l = Ok (vs, ts) /\ increasing vs /\ increasing ts /\
    (forall v, In v vs <-> forall D, In D (given l) -> 1 <= cnt volk v D /\ n_require <= cnt volk v D) /\
    (forall t, In t ts <-> forall D, In D (given l) -> 1 <= cnt tempk t D).
  Proof.
    intros NE. pose proof (count_minimum_common l) as H. unfold common_grid. destruct (count_minimum d l) as [[cv ct]|]; [|contradiction].
    destruct H as [_ [[N1 H1] [N2 H2]]]. do 2 eexists. split; [reflexivity|].
    assert (NF : forall c : counts, NoDup (map fst c) -> NoDup (map fst (filter (fun q => n_require <=? snd q) c))).
    { induction c as [|q c IH]; cbn; intros ND; [constructor|]. inversion ND; subst. destruct (n_require <=? snd q); cbn; [|now apply IH]. constructor; [|now apply IH].
      intros C. apply H3. apply in_map_iff in C. destruct C as [r [E C]]. apply filter_In in C. apply in_map_iff. exists r. tauto. }
    split; [now apply sort_z_sorted, NF|]. split; [now apply sort_z_sorted|]. split.
    - intros v. rewrite <- (H1 v n_require). transitivity (In v (map fst (filter (fun q => n_require <=? snd q) cv))).
      + split; apply Permutation_in; [|symmetry]; apply sort_z_perm.
      + rewrite in_map_iff. split.
        * intros [[k n] [<- C]]. apply filter_In in C. cbn [fst snd] in *. destruct C as [C1 C2]. apply Nat.leb_le in C2. exists n. split; [now apply lookup_In|exact C2].
        * intros [n [E L]]. exists (v, n). split; [reflexivity|]. apply filter_In. split; [now apply lookup_In|]. cbn. now apply Nat.leb_le.
    - intros t. transitivity (In t (map fst ct)); [split; apply Permutation_in; [|symmetry]; apply sort_z_perm|].
      transitivity (forall D, In D (given l) -> 1 <= cnt tempk t D /\ 0 <= cnt tempk t D).
      + rewrite <- (H2 t 0). rewrite in_map_iff. split.
        * intros [[k n] [<- C]]. exists n. split; [now apply lookup_In|lia].
        * intros [n [E _]]. exists (t, n). split; [reflexivity|now apply lookup_In].
      + split; intros H D HD; specialize (H D HD); [tauto|split; [exact H|lia]].
  Qed.

  (** ** Places *)
  Definition entry {X} (arr : list (list X)) (i j : nat) : option X := match nth_error arr i with Some row => nth_error row j | None => None end.
  Section Place.
    Variables (vs ts : list Z).
    Hypothesis NV : NoDup vs.
    Hypothesis NT : NoDup ts.
    Definition here (i j : nat) (x : datum) : Prop := nth_error vs i = Some (volk x) /\ exists t, nth_error ts j = Some t /\ key d (d_temp x) = (t * unit_of d)%Z.
    Lemma unit_pos : (0 < unit_of d)%Z.
    Proof. unfold unit_of. apply Z.pow_pos_nonneg; lia. Qed.
    Lemma NT' : NoDup (map (fun t => t * unit_of d)%Z ts).
    Proof. apply FinFun.Injective_map_NoDup; [|exact NT]. intros x y E. pose proof unit_pos. nia. Qed.
    Definition loc (x : datum) : option (nat * nat) :=
      match index_of (volk x) vs, index_of (key d (d_temp x)) (map (fun t => t * unit_of d)%Z ts) with Some i, Some j => Some (i, j) | _, _ => None end.
    Lemma loc_here x i j : loc x = Some (i, j) <-> here i j x.
    Proof.
      unfold loc, here. split.
      - destruct (index_of (volk x) vs) as [a|] eqn:Ea; [|discriminate]. destruct (index_of _ (map _ ts)) as [b|] eqn:Eb; [|discriminate]. intros E0. assert (a = i) by congruence. assert (b = j) by congruence. subst a b.
        apply index_of_nth in Ea, Eb. split; [exact Ea|]. rewrite nth_error_map in Eb. destruct (nth_error ts j) as [t|]; [|discriminate]. injection Eb as E. eauto.
      - intros [E1 [t [E2 E3]]]. rewrite (nth_index_of _ _ _ NV E1). rewrite (nth_index_of _ _ j NT'); [reflexivity|]. rewrite nth_error_map, E2, E3. reflexivity.
    Qed.
    Definition arr_of (l : list datum) := fold_left (place d vs ts) (enumerate l) (repeat (repeat (@None nat) (length ts)) (length vs)).
    Lemma enumerate_snoc {X} (l : list X) x : enumerate (l ++ [x]) = enumerate l ++ [(length l, x)].
    Proof. unfold enumerate. rewrite app_length, Nat.add_1_r, seq_S. cbn. revert x. assert (G : forall k x, combine (seq k (length l) ++ [k + length l]) (l ++ [x]) = combine (seq k (length l)) l ++ [(k + length l, x)]).
      { induction l as [|a l IH]; intros k x; cbn; [reflexivity|]. f_equal. specialize (IH (S k) x). replace (k + S (length l)) with (S k + length l) by lia. exact IH. }
      intros x. apply (G 0). Qed.
    Lemma arr_snoc l x : arr_of (l ++ [x]) = place d vs ts (arr_of l) (length l, x).
    Proof. unfold arr_of. rewrite enumerate_snoc, fold_left_app. reflexivity. Qed.
    Definition shaped {X} (arr : list (list X)) : Prop := length arr = length vs /\ forall row, In row arr -> length row = length ts.
    Lemma place_shape arr (q : nat * datum) : shaped arr -> shaped (place d vs ts arr q).
    Proof.
      intros [S1 S2]. unfold place. destruct (index_of _ vs) as [i|] eqn:Ei; [|now split]. destruct (index_of _ (map _ ts)) as [j|]; [|now split].
      split; [now rewrite set_nth_length|]. intros row Hr. apply In_nth_error in Hr. destruct Hr as [k Hk]. rewrite set_nth_get in Hk.
      assert (Li : i < length arr) by (rewrite S1; apply nth_error_Some; apply index_of_nth in Ei; congruence).
      destruct ((k =? i) && (i <? length arr)); [|apply S2; now apply nth_error_In in Hk]. injection Hk as <-. rewrite set_nth_length. apply S2. now apply nth_In.
    Qed.
    Lemma arr_shape l : shaped (arr_of l).
    Proof.
      induction l as [|x l IH] using rev_ind; [|rewrite arr_snoc; now apply place_shape]. split; [apply repeat_length|]. intros row Hr. apply repeat_spec in Hr. subst. apply repeat_length.
    Qed.
    Lemma entry_place arr k x i j : shaped arr -> entry (place d vs ts arr (k, x)) i j = match loc x with Some (a, b) => if (i =? a) && (j =? b) then Some (Some k) else entry arr i j | None => entry arr i j end.
    Proof.
      intros [S1 S2]. unfold place, loc. cbn [fst snd]. fold (volk x). destruct (index_of (volk x) vs) as [a|] eqn:Ea; [|reflexivity].
      destruct (index_of _ (map _ ts)) as [b|] eqn:Eb; [|reflexivity]. apply index_of_nth in Ea, Eb.
      assert (La : a < length arr) by (rewrite S1; apply nth_error_Some; congruence).
      assert (Lb : b < length ts) by (rewrite <- (map_length (fun t => t * unit_of d)%Z); apply nth_error_Some; congruence).
      unfold entry. rewrite set_nth_get. apply Nat.ltb_lt in La as La'. rewrite La', andb_true_r. destruct (Nat.eqb_spec i a) as [->|NE]; [|reflexivity].
      rewrite set_nth_get. assert (Lr : length (nth a arr []) = length ts) by (apply S2, nth_In; exact La). rewrite Lr. apply Nat.ltb_lt in Lb. rewrite Lb, andb_true_r, andb_true_l.
      destruct (j =? b); [reflexivity|]. now rewrite (nth_error_nth' arr [] La).
    Qed.
    Lemma entry_spec (l : list datum) i j : i < length vs -> j < length ts ->
      exists o, entry (arr_of l) i j = Some o /\ match o with
        | Some k => exists x, nth_error l k = Some x /\ here i j x /\ forall k' x', k < k' -> nth_error l k' = Some x' -> ~ here i j x'
        | None => forall x, In x l -> ~ here i j x
        end.
    Proof.
      intros Hi Hj. induction l as [|x l IH] using rev_ind.
      - exists None. split; [|intros x []]. unfold arr_of, entry. cbn [enumerate combine seq length fold_left]. rewrite nth_error_repeat by exact Hi. now rewrite nth_error_repeat.
      - rewrite arr_snoc, entry_place by apply arr_shape. destruct IH as [o [E IH]].
        destruct (loc x) as [[a b]|] eqn:Lx.
        + apply loc_here in Lx as Hx. destruct (Nat.eqb_spec i a) as [->|NE]; [destruct (Nat.eqb_spec j b) as [->|NE]|]; cbn [andb].
          * exists (Some (length l)). split; [reflexivity|]. exists x. split; [now rewrite nth_error_app2, Nat.sub_diag by lia|]. split; [exact Hx|].
            intros k' x' L E'. exfalso. assert (k' < length (l ++ [x])) by (apply nth_error_Some; congruence). rewrite app_length in H. cbn in H. lia.
          * exists o. split; [exact E|]. assert (Nx : ~ here a j x) by (intros C; apply loc_here in C; congruence). destruct o as [k|].
            -- destruct IH as [y [I1 [I2 I3]]]. assert (k < length l) by (apply nth_error_Some; congruence). exists y. split; [now rewrite nth_error_app1|]. split; [exact I2|].
               intros k' x' L E'. destruct (Nat.lt_ge_cases k' (length l)) as [C|C]; [rewrite nth_error_app1 in E' by exact C; now apply (I3 k')|].
               rewrite nth_error_app2 in E' by exact C. destruct (k' - length l) as [|[|q]]; cbn in E'; try discriminate. now injection E' as <-.
            -- intros y Hy. apply in_app_iff in Hy. destruct Hy as [Hy|[<-|[]]]; [now apply IH|exact Nx].
          * exists o. split; [exact E|]. assert (Nx : ~ here i j x) by (intros C; apply loc_here in C; congruence). destruct o as [k|].
            -- destruct IH as [y [I1 [I2 I3]]]. assert (k < length l) by (apply nth_error_Some; congruence). exists y. split; [now rewrite nth_error_app1|]. split; [exact I2|].
               intros k' x' L E'. destruct (Nat.lt_ge_cases k' (length l)) as [C|C]; [rewrite nth_error_app1 in E' by exact C; now apply (I3 k')|].
               rewrite nth_error_app2 in E' by exact C. destruct (k' - length l) as [|[|q]]; cbn in E'; try discriminate. now injection E' as <-.
            -- intros y Hy. apply in_app_iff in Hy. destruct Hy as [Hy|[<-|[]]]; [now apply IH|exact Nx].
        + exists o. split; [exact E|]. assert (Nx : ~ here i j x) by (intros C; apply loc_here in C; congruence). destruct o as [k|].
          -- destruct IH as [y [I1 [I2 I3]]]. assert (k < length l) by (apply nth_error_Some; congruence). exists y. split; [now rewrite nth_error_app1|]. split; [exact I2|].
             intros k' x' L E'. destruct (Nat.lt_ge_cases k' (length l)) as [C|C]; [rewrite nth_error_app1 in E' by exact C; now apply (I3 k')|].
             rewrite nth_error_app2 in E' by exact C. destruct (k' - length l) as [|[|q]]; cbn in E'; try discriminate. now injection E' as <-.
          -- intros y Hy. apply in_app_iff in Hy. destruct Hy as [Hy|[<-|[]]]; [now apply IH|exact Nx].
    Qed.
    Definition point_of (x : datum) : gpoint := mk_gp (Some (d_volume x, d_temp x)) (d_vals x).
    Notation G l := (grid_data d vs ts l).
    Lemma cells_entry (l : list datum) i j : entry (g_cells (G l)) i j = match entry (arr_of l) i j with Some (Some k) => Some k | Some None => Some (length l) | None => None end.
    Proof.
      unfold entry, grid_data. cbn [g_cells]. fold (arr_of l). rewrite nth_error_map. destruct (nth_error (arr_of l) i) as [row|]; [|reflexivity]. cbn [option_map].
      rewrite nth_error_map. destruct (nth_error row j) as [[k|]|]; reflexivity.
    Qed.
    Lemma cell_entry (g : grid) i j : cell g i j = match entry (g_cells g) i j with Some r => Some (g_store g r) | None => None end.
    Proof. unfold cell, entry. now destruct (nth_error (g_cells g) i). Qed.
    Lemma grid_cell (l : list datum) i j : i < length vs -> j < length ts ->
      (exists x, last_with (here i j) l x /\ cell (G l) i j = Some (point_of x)) \/ ((forall x, In x l -> ~ here i j x) /\ cell (G l) i j = Some empty_point).
    Proof.
      intros Hi Hj. rewrite cell_entry, cells_entry. destruct (entry_spec l i j Hi Hj) as [o [-> H]]. destruct o as [k|].
      - destruct H as [x [H1 [H2 H3]]]. left. exists x. split; [exists k; now split|]. cbn [g_store grid_data]. now rewrite H1.
      - right. split; [exact H|]. cbn [g_store grid_data]. rewrite (proj2 (nth_error_None l (length l))) by lia. reflexivity.
    Qed.
    Lemma cells_shape (l : list datum) : shaped (g_cells (G l)).
    Proof.
      destruct (arr_shape l) as [S1 S2]. unfold grid_data. cbn [g_cells]. fold (arr_of l). split; [now rewrite map_length|]. intros row Hr. apply in_map_iff in Hr. destruct Hr as [r [<- Hr]]. rewrite map_length. now apply S2.
    Qed.
    (** Only the empty point is shared. *)
    Lemma shared_blank (l : list datum) i j i' j' r : entry (g_cells (G l)) i j = Some r -> entry (g_cells (G l)) i' j' = Some r -> (i, j) <> (i', j') -> g_store (G l) r = empty_point.
    Proof.
      intros E E' NE.
      assert (B : forall i j r, entry (g_cells (G l)) i j = Some r -> i < length vs /\ j < length ts).
      { destruct (cells_shape l) as [S1 S2]. unfold entry. intros a b s H. destruct (nth_error (g_cells (G l)) a) as [row|] eqn:R; [|discriminate].
        split; [rewrite <- S1; apply nth_error_Some; congruence|]. rewrite <- (S2 row); [apply nth_error_Some; congruence|now apply nth_error_In in R]. }
      destruct (B _ _ _ E) as [L1 L2], (B _ _ _ E') as [L3 L4]. rewrite cells_entry in E, E'.
      destruct (entry_spec l i j L1 L2) as [o [R1 H1]], (entry_spec l i' j' L3 L4) as [o' [R2 H2]]. rewrite R1 in E. rewrite R2 in E'.
      assert (X : r = length l \/ (o = Some r /\ o' = Some r)).
      { destruct o as [k|], o' as [k'|]; injection E as E; injection E' as E'; subst; [right; now split|now left|now left|now left]. }
      destruct X as [->|[-> ->]]; [cbn [g_store grid_data]; now rewrite (proj2 (nth_error_None l (length l))) by lia|].
      exfalso. destruct H1 as [x [A1 [A2 _]]], H2 as [y [B1 [B2 _]]]. assert (x = y) by congruence. subst y. apply loc_here in A2, B2. congruence.
    Qed.
  End Place.

  (** ** Sums *)
  Definition safe (a : attr) (g : grid) := forall i j i' j' r, entry (g_cells g) i j = Some r -> entry (g_cells g) i' j' = Some r -> (i, j) <> (i', j') -> get_attr a (gp_vals (g_store g r)) = None.
  Lemma get_add a (p q : gpoint) : get_attr a (gp_vals (add p q)) = add_single (get_attr a (gp_vals p)) (get_attr a (gp_vals q)).
  Proof. destruct a; reflexivity. Qed.
  Lemma add_item_ok (g : grid) i j p r : entry (g_cells g) i j = Some r -> add_item g (i, j, p) = Ok (mk_grid (g_volumes g) (g_temps g) (g_cells g) (update (g_store g) r (add (g_store g r) p))).
  Proof. unfold add_item, entry, get. destruct (nth_error (g_cells g) i) as [row|]; [|discriminate]. cbn [bind]. intros ->. reflexivity. Qed.
  Lemma add_items (its : list (nat * nat * gpoint)) (g : grid) : NoDup (map fst its) -> (forall q, In q its -> exists r, entry (g_cells g) (fst (fst q)) (snd (fst q)) = Some r) ->
    exists g', foldM add_item g its = Ok g' /\ g_volumes g' = g_volumes g /\ g_temps g' = g_temps g /\ g_cells g' = g_cells g /\
      (forall r, gp_at (g_store g' r) = gp_at (g_store g r)) /\
      (forall a r, get_attr a (gp_vals (g_store g r)) = None -> get_attr a (gp_vals (g_store g' r)) = None) /\
      forall a, safe a g -> forall i j r, entry (g_cells g) i j = Some r ->
        (forall p, In (i, j, p) its -> get_attr a (gp_vals (g_store g' r)) = add_single (get_attr a (gp_vals (g_store g r))) (get_attr a (gp_vals p))) /\
        (~ In (i, j) (map fst its) -> get_attr a (gp_vals (g_store g' r)) = get_attr a (gp_vals (g_store g r))).
  Proof.
    revert g; induction its as [|[[i1 j1] p1] its IH]; intros g ND R.
    - exists g. cbn [foldM]. do 5 (split; [reflexivity|]). split; [auto|]. intros a _ i j r _. split; [intros p []|reflexivity].
    - inversion ND as [|? ? ND1 ND2]; subst. destruct (R _ (or_introl eq_refl)) as [r1 E1]. cbn [fst snd] in E1. cbn [foldM]. rewrite (add_item_ok _ _ _ _ _ E1). cbn [bind].
      set (g1 := mk_grid (g_volumes g) (g_temps g) (g_cells g) (update (g_store g) r1 (add (g_store g r1) p1))).
      destruct (IH g1 ND2) as [g' [H1 [H2 [H3 [H4 [H5 [H6 H7]]]]]]]; [intros q Hq; apply (R q); now right|].
      exists g'. split; [exact H1|]. split; [exact H2|]. split; [exact H3|]. split; [exact H4|].
      assert (U : forall r, gp_at (g_store g1 r) = gp_at (g_store g r)) by (intros r; cbn [g_store g1]; unfold update; destruct (Nat.eqb_spec r r1) as [->|]; reflexivity).
      assert (V : forall a r, get_attr a (gp_vals (g_store g r)) = None -> get_attr a (gp_vals (g_store g1 r)) = None).
      { intros a r Hn. cbn [g_store g1]. unfold update. destruct (Nat.eqb_spec r r1) as [->|]; [|exact Hn]. rewrite get_add, Hn. reflexivity. }
      split; [intros r; now rewrite H5, U|]. split; [intros a r Hn; apply H6, V, Hn|]. intros a S i j r E.
      assert (S1 : safe a g1) by (intros a1 b1 a2 b2 s X Y Z; apply V; exact (S _ _ _ _ _ X Y Z)).
      specialize (H7 a S1 i j r E). destruct H7 as [H7 H8]. split.
      + intros p [Hp|Hp].
        * injection Hp as -> -> ->. assert (r = r1) by congruence. subst r1. rewrite (H8 ND1). cbn [g_store g1]. unfold update. rewrite Nat.eqb_refl. apply get_add.
        * rewrite (H7 p Hp). cbn [g_store g1]. unfold update. destruct (Nat.eqb_spec r r1) as [->|]; [|reflexivity].
          assert (NEij : (i, j) <> (i1, j1)) by (intros C; apply ND1; rewrite <- C; apply in_map_iff; now exists (i, j, p)).
          rewrite get_add, (S _ _ _ _ _ E E1 NEij). reflexivity.
      + cbn [map fst]. intros Hn. rewrite H8 by (intros C; apply Hn; now right). cbn [g_store g1]. unfold update. destruct (Nat.eqb_spec r r1) as [->|]; [|reflexivity].
        assert (NEij : (i, j) <> (i1, j1)) by (intros C; apply Hn; now left). rewrite get_add, (S _ _ _ _ _ E E1 NEij). reflexivity.
  Qed.
  Lemma enumerate_In {X} (l : list X) k x : In (k, x) (enumerate l) <-> nth_error l k = Some x.
  Proof.
    unfold enumerate. assert (G : forall b, In (b + k, x) (combine (seq b (length l)) l) <-> nth_error l k = Some x); [|apply (G 0)].
    revert k; induction l as [|y l IH]; intros k b; cbn; [destruct k; cbn; split; [intros []|discriminate|intros []|discriminate]|]. destruct k as [|k]; cbn.
    - split; [|intros [= ->]; left; f_equal; lia]. intros [H|H]; [now injection H as _ ->|]. apply in_combine_l in H. apply in_seq in H. lia.
    - rewrite <- (IH k (S b)). replace (b + S k) with (S b + k) by lia. split; [intros [H|H]; [injection H as H _; lia|exact H]|now right].
  Qed.
  Lemma enumerate_NoDup {X} (l : list X) : NoDup (map fst (enumerate l)).
  Proof.
    unfold enumerate. assert (G : forall b, map fst (combine (seq b (length l)) l) = seq b (length l)) by (induction l as [|y l IH]; intros b; cbn; [reflexivity|]; now rewrite IH).
    rewrite G. apply seq_NoDup.
  Qed.
  Lemma items_In (g : grid) i j p : In (i, j, p) (items g) <-> cell g i j = Some p.
  Proof.
    unfold items, cell. rewrite in_flat_map. split.
    - intros [[a row] [H1 H2]]. apply in_map_iff in H2. destruct H2 as [[b r] [E H2]]. cbn [fst snd] in *. injection E as -> -> <-. apply enumerate_In in H1, H2. now rewrite H1, H2.
    - destruct (nth_error (g_cells g) i) as [row|] eqn:E1; [|discriminate]. destruct (nth_error row j) as [r|] eqn:E2; [|discriminate]. intros [= <-].
      exists (i, row). split; [now apply enumerate_In|]. apply in_map_iff. exists (j, r). split; [reflexivity|now apply enumerate_In].
  Qed.
  Lemma items_NoDup (g : grid) : NoDup (map fst (items g)).
  Proof.
    unfold items. pose proof (enumerate_NoDup (g_cells g)) as ND. induction (enumerate (g_cells g)) as [|[i row] l IH]; [constructor|]. cbn [flat_map fst snd]. rewrite map_app, map_map. cbn [fst].
    cbn [map fst] in ND. inversion ND; subst. specialize (IH H2).
    assert (N1 : NoDup (map (fun x : nat * nat => (i, fst x)) (enumerate row))).
    { pose proof (enumerate_NoDup row) as NR. induction (enumerate row) as [|c t IHt]; [constructor|]. cbn in NR |- *. inversion NR; subst. constructor; [|now apply IHt].
      intros C. apply H3. apply in_map_iff in C. destruct C as [e [E C]]. injection E as E. apply in_map_iff. now exists e. }
    apply NoDup_disjoint; [exact N1|exact IH|]. intros y Hy C. apply in_map_iff in Hy. destruct Hy as [e [<- _]].
    apply in_map_iff in C. destruct C as [[[a b] p] [E C]]. cbn [fst] in E. injection E as -> ->. apply in_flat_map in C. destruct C as [[i' row'] [C1 C2]].
    apply in_map_iff in C2. destruct C2 as [c [E2 C2]]. cbn [fst snd] in E2. injection E2 as E3 _ _. subst i'. apply H1.
    apply in_map_iff. exists (i, row'). now split.
  Qed.
End Grid.
