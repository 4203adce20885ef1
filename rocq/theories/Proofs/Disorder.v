(** Lemmas on random substitutions. *)
From Verif Require Import Base Num Model.Structure Model.StructureUtils Model.ThermoGrid Model.Disorder.
From Coq Require Import QArith.
From Coq Require String.
Local Open Scope nat_scope.

Lemma key_eqb_eq a b : key_eqb a b = true <-> a = b.
Proof.
  destruct a as [x s], b as [y t]. unfold key_eqb. cbn. rewrite andb_true_iff, Nat.eqb_eq. split.
  - intros [H ->]. apply String.eqb_eq in H. now subst.
  - intros [= -> ->]. split; [apply String.eqb_refl|reflexivity].
Qed.
(** Atom and key, for all writes in order *)
Definition pairs (d : ids_dict) : list (nat * key) := flat_map (fun q => map (fun i => (i, fst q)) (snd q)) d.
Lemma pairs_extend d k l : Permutation (pairs (extend d k l)) (pairs d ++ map (fun i => (i, k)) l).
Proof.
  induction d as [|[k' l'] d IH]; cbn [extend]; [cbn; rewrite app_nil_r; reflexivity|]. destruct (key_eqb k k') eqn:E.
  - apply key_eqb_eq in E. subst k'. unfold pairs. cbn. rewrite map_app, <- !app_assoc. apply Permutation_app_head. apply Permutation_app_comm.
  - unfold pairs in *. cbn. rewrite <- app_assoc. now apply Permutation_app_head.
Qed.
Lemma ids_of_extend d k l : ids_of (extend d k l) k = ids_of d k ++ l.
Proof.
  unfold ids_of. induction d as [|[k' l'] d IH]; cbn [extend find fst].
  - assert (E : key_eqb k k = true) by now apply key_eqb_eq. now rewrite E.
  - destruct (key_eqb k k') eqn:E; cbn [find fst]; rewrite E; [reflexivity|exact IH].
Qed.
Lemma ids_of_pairs d k i : In i (ids_of d k) -> In (i, k) (pairs d).
Proof.
  unfold ids_of. destruct (find _ d) as [[k' l]|] eqn:E; [|intros []]. apply find_some in E. destruct E as [E1 E2]. cbn in *. apply key_eqb_eq in E2. subst k'.
  intros H. apply in_flat_map. exists (k, l). split; [exact E1|]. apply in_map_iff. eauto.
Qed.
Lemma split_filter {X} (f : X -> bool) l : Permutation l (filter f l ++ filter (fun x => negb (f x)) l).
Proof. induction l as [|x l IH]; [reflexivity|]. cbn. destruct (f x); cbn; [now constructor|]. rewrite <- Permutation_middle. now constructor. Qed.
Lemma split_cand cand s : NoDup cand -> NoDup s -> incl s cand -> Permutation cand (s ++ filter (fun i => negb (mem i s)) cand).
Proof.
  intros N1 N2 I. rewrite (split_filter (fun i => mem i s) cand) at 1. apply Permutation_app_tail. apply NoDup_Permutation; [now apply NoDup_filter|exact N2|].
  intros x. rewrite filter_In, mem_In. firstorder.
Qed.
Lemma NoDup_app_iff {X} (l m : list X) : NoDup (l ++ m) <-> NoDup l /\ NoDup m /\ forall x, In x l -> ~ In x m.
Proof.
  induction l as [|a l IH]; cbn; [split; [intros H; repeat split; auto; constructor|tauto]|]. rewrite !NoDup_cons_iff, IH, in_app_iff. firstorder. subst. auto.
Qed.

Section Plan.
  Context {G : Type}.
  Variable sample : G -> list nat -> nat -> list nat * G.
  (** random.sample: so many different ones of the candidates *)
  Definition sample_ok : Prop := forall g c k, k <= length c -> NoDup c ->
    length (fst (sample g c k)) = k /\ NoDup (fst (sample g c k)) /\ incl (fst (sample g c k)) c.
  Hypothesis SO : sample_ok.

  Lemma draw_spec g cand k : NoDup cand ->
    (forall s g', draw sample g cand k = Ok (s, g') -> Z.of_nat (length s) = k /\ NoDup s /\ incl s cand) /\
    ((0 <= k <= Z.of_nat (length cand))%Z -> exists s g', draw sample g cand k = Ok (s, g')) /\
    (~ (0 <= k <= Z.of_nat (length cand))%Z -> draw sample g cand k = Err ValueError).
  Proof.
    intros N. unfold draw. destruct (Z.eqb_spec (Z.of_nat (length cand)) k) as [E|E].
    - split; [intros s g' [= <- <-]; split; [exact E|]; split; [exact N|apply incl_refl]|]. split; [eauto|lia].
    - destruct ((k <? 0)%Z || (Z.of_nat (length cand) <? k)%Z) eqn:B.
      + apply orb_true_iff in B. rewrite !Z.ltb_lt in B. split; [discriminate|]. split; [lia|reflexivity].
      + apply orb_false_iff in B. rewrite !Z.ltb_ge in B. destruct (SO g cand (Z.to_nat k)) as [S1 [S2 S3]]; [lia|exact N|].
        split; [intros s g' [= E1]; rewrite E1 in *; cbn in *; split; [lia|auto]|]. split; [destruct (sample g cand (Z.to_nat k)); eauto|lia].
  Qed.

  Definition assign_os (os : list entry) (ss : list (list nat)) : list (nat * key) :=
    flat_map (fun q => map (fun i => (i, fst (fst q))) (snd q)) (combine os ss).
  Lemma occ_fold n os : forall cand d g, NoDup cand -> (forall i, In i cand -> ~ In i (map fst (pairs d))) ->
    match foldM (occ_step sample n) (cand, d, g) os with
    | Ok (rest, d', g') => exists ss, Forall2 (fun o s => Z.of_nat (length s) = n_rep n (snd o)) os ss /\ Permutation cand (concat ss ++ rest) /\ Permutation (pairs d') (pairs d ++ assign_os os ss)
    | Err e => e = ValueError
    end.
  Proof.
    induction os as [|o os IH]; intros cand d g N D; cbn [foldM].
    - exists []. split; [constructor|]. split; [reflexivity|]. unfold assign_os. cbn. now rewrite app_nil_r.
    - destruct (draw_spec g cand (n_rep n (snd o)) N) as [D1 [D2 D3]]. cbn [occ_step]. destruct (draw sample g cand (n_rep n (snd o))) as [[s g1]|e] eqn:E; cbn [bind].
      2:{ destruct (Z_le_dec 0 (n_rep n (snd o))) as [L1|L1]; [destruct (Z_le_dec (n_rep n (snd o)) (Z.of_nat (length cand))) as [L2|L2]|].
          - destruct D2 as [s [g1 D2]]; [lia|discriminate].
          - specialize (D3 ltac:(lia)). congruence.
          - specialize (D3 ltac:(lia)). congruence. }
      destruct (D1 _ _ eq_refl) as [S1 [S2 S3]]. cbn [fst snd] in *.
      assert (EF : filter (fun i => negb (mem i (ids_of (extend d (fst o) s) (fst o)))) cand = filter (fun i => negb (mem i s)) cand).
      { apply filter_ext_in. intros i Hi. f_equal. apply eq_true_iff_eq. rewrite !mem_In, ids_of_extend, in_app_iff. split; [|auto]. intros [H|H]; [|exact H].
        exfalso. apply (D i Hi). apply ids_of_pairs in H. apply in_map_iff. now exists (i, fst o). }
      rewrite EF. pose proof (split_cand cand s N S2 S3) as PC. set (c1 := filter (fun i => negb (mem i s)) cand) in *.
      assert (NA : NoDup (s ++ c1)) by (now apply (Permutation_NoDup PC)). apply NoDup_app_iff in NA. destruct NA as [_ [N1 NI]].
      specialize (IH c1 (extend d (fst o) s) g1 N1). match type of IH with ?H -> _ => assert (HD : H) end.
      { intros i Hi H. rewrite (Permutation_map fst (pairs_extend d (fst o) s)), map_app, in_app_iff, map_map in H. cbn in H. rewrite map_id in H. destruct H as [H|H].
        - apply (D i); [|exact H]. rewrite PC. apply in_app_iff. now right.
        - now apply (NI i). }
      specialize (IH HD). destruct (foldM (occ_step sample n) (c1, extend d (fst o) s, g1) os) as [[[rest d'] g']|e]; [|exact IH].
      destruct IH as [ss [I1 [I2 I3]]]. exists (s :: ss). split; [constructor; [exact S1|exact I1]|]. split; [rewrite PC, I2; cbn; now rewrite app_assoc|].
      rewrite I3, pairs_extend. unfold assign_os. cbn. now rewrite <- app_assoc.
  Qed.
  (** Success exactly if the counts are not negative and no more than the atoms *)
  Lemma occ_fold_ok n os : forall cand d g, NoDup cand -> (forall i, In i cand -> ~ In i (map fst (pairs d))) ->
    (is_ok (foldM (occ_step sample n) (cand, d, g) os) = true <->
     Forall (fun o => (0 <= n_rep n (snd o))%Z) os /\ (fold_right Z.add 0 (map (fun o => n_rep n (snd o)) os) <= Z.of_nat (length cand))%Z).
  Proof.
    induction os as [|o os IH]; intros cand d g N D; cbn [foldM map fold_right].
    - cbn. split; [intros _; split; [constructor|lia]|reflexivity].
    - destruct (draw_spec g cand (n_rep n (snd o)) N) as [D1 [D2 D3]]. cbn [occ_step]. destruct (draw sample g cand (n_rep n (snd o))) as [[s g1]|e] eqn:E; cbn [bind].
      2:{ cbn. split; [discriminate|]. intros [F B]. inversion F as [|? ? F1 F2]; subst. assert (0 <= fold_right Z.add 0 (map (fun o => n_rep n (snd o)) os))%Z.
          { clear -F2. induction F2; cbn; lia. } destruct D2 as [s [g1 D2]]; [lia|discriminate]. }
      destruct (D1 _ _ eq_refl) as [S1 [S2 S3]]. cbn [fst snd] in *.
      assert (EF : filter (fun i => negb (mem i (ids_of (extend d (fst o) s) (fst o)))) cand = filter (fun i => negb (mem i s)) cand).
      { apply filter_ext_in. intros i Hi. f_equal. apply eq_true_iff_eq. rewrite !mem_In, ids_of_extend, in_app_iff. split; [|auto]. intros [H|H]; [|exact H].
        exfalso. apply (D i Hi). apply ids_of_pairs in H. apply in_map_iff. now exists (i, fst o). }
      rewrite EF. pose proof (split_cand cand s N S2 S3) as PC. set (c1 := filter (fun i => negb (mem i s)) cand) in *.
      assert (NA : NoDup (s ++ c1)) by (now apply (Permutation_NoDup PC)). apply NoDup_app_iff in NA. destruct NA as [_ [N1 NI]].
      rewrite (IH c1 (extend d (fst o) s) g1 N1).
      + apply Permutation_length in PC. rewrite app_length in PC. rewrite Forall_cons_iff. split; intros [F B]; [split; [split; [lia|exact F]|lia]|]. split; [apply F|lia].
      + intros i Hi H. rewrite (Permutation_map fst (pairs_extend d (fst o) s)), map_app, in_app_iff, map_map in H. cbn in H. rewrite map_id in H. destruct H as [H|H].
        * apply (D i); [|exact H]. rewrite PC. apply in_app_iff. now right.
        * now apply (NI i).
  Qed.

  (** Which atoms of every sublattice go to which entry, and which are left *)
  Fixpoint planned (b : nat) (ons : list (list entry * nat)) (plan : list (list (list nat) * list nat)) : Prop :=
    match ons, plan with
    | [], [] => True
    | (os, n) :: ons, (ss, rest) :: plan =>
        Forall2 (fun o s => Z.of_nat (length s) = n_rep n (snd o)) os ss /\ Permutation (seq b n) (concat ss ++ rest) /\ planned (b + n) ons plan
    | _, _ => False
    end.
  Definition assign (ons : list (list entry * nat)) (plan : list (list (list nat) * list nat)) : list (nat * key) :=
    flat_map (fun q => assign_os (fst (fst q)) (fst (snd q))) (combine ons plan).
  Lemma assign_os_ids os ss n : Forall2 (fun o s => Z.of_nat (length s) = n_rep n (snd o)) os ss -> map fst (assign_os os ss) = concat ss.
  Proof. unfold assign_os. induction 1 as [|o s os ss H F IH]; cbn; [reflexivity|]. rewrite map_app, map_map. cbn. rewrite map_id. f_equal. exact IH. Qed.
  Definition fits (on : list entry * nat) : Prop :=
    Forall (fun o => (0 <= n_rep (snd on) (snd o))%Z) (fst on) /\ (fold_right Z.add 0 (map (fun o => n_rep (snd on) (snd o)) (fst on)) <= Z.of_nat (snd on))%Z.
  Lemma lattice_fold ons : forall b d g, (forall i, In i (map fst (pairs d)) -> i < b) ->
    match foldM (lattice_step sample) (b, d, g) ons with
    | Ok (b', d', g') => exists plan, planned b ons plan /\ Permutation (pairs d') (pairs d ++ assign ons plan) /\ Forall fits ons
    | Err e => e = ValueError /\ ~ Forall fits ons
    end.
  Proof.
    induction ons as [|[os n] ons IH]; intros b d g D; cbn [foldM].
    - exists []. split; [exact I|]. split; [unfold assign; cbn; now rewrite app_nil_r|constructor].
    - cbn [lattice_step fst snd]. assert (DS : forall i, In i (seq b n) -> ~ In i (map fst (pairs d))) by (intros i Hi H; apply D in H; apply in_seq in Hi; lia).
      pose proof (occ_fold n os (seq b n) d g (seq_NoDup n b) DS) as OF. pose proof (occ_fold_ok n os (seq b n) d g (seq_NoDup n b) DS) as OK. rewrite seq_length in OK.
      destruct (foldM (occ_step sample n) (seq b n, d, g) os) as [[[rest d1] g1]|e]; cbn [bind].
      2:{ split; [exact OF|]. intros F. inversion F as [|? ? F1 F2]; subst. apply OK in F1. discriminate. }
      assert (F1 : fits (os, n)) by now apply OK. destruct OF as [ss [O1 [O2 O3]]].
      specialize (IH (b + n) d1 g1). match type of IH with ?H -> _ => assert (HD : H) end.
      { intros i H. rewrite (Permutation_map fst O3), map_app, in_app_iff, (assign_os_ids os ss n O1) in H. destruct H as [H|H]; [apply D in H; lia|].
        assert (HS : In i (seq b n)) by (rewrite O2; apply in_app_iff; now left). apply in_seq in HS. lia. }
      specialize (IH HD). destruct (foldM (lattice_step sample) (b + n, d1, g1) ons) as [[[b' d'] g']|e].
      + destruct IH as [plan [I1 [I2 I3]]]. exists ((ss, rest) :: plan). split; [cbn; auto|]. split; [|now constructor]. rewrite I2, O3. unfold assign. cbn. now rewrite app_assoc.
      + destruct IH as [-> NF]. split; [reflexivity|]. intros F. inversion F; subst; contradiction.
  Qed.
  Lemma planned_ids b ons plan : planned b ons plan -> NoDup (map fst (assign ons plan)) /\ forall i, In i (map fst (assign ons plan)) -> b <= i < b + sum (map snd ons).
  Proof.
    revert b plan. induction ons as [|[os n] ons IH]; intros b [|[ss rest] plan] H; cbn in H; try contradiction; [split; [constructor|intros i []]|].
    destruct H as [F [PS H]]. destruct (IH _ _ H) as [I1 I2]. unfold assign. cbn [combine flat_map fst snd]. fold (assign ons plan). rewrite map_app, (assign_os_ids os ss n F).
    assert (N : NoDup (concat ss ++ rest)) by (apply (Permutation_NoDup PS); apply seq_NoDup). apply NoDup_app_iff in N. destruct N as [N1 [_ _]].
    assert (C : forall i, In i (concat ss) -> b <= i < b + n) by (intros i Hi; apply in_seq; rewrite PS; apply in_app_iff; now left).
    split.
    - apply NoDup_app_iff. split; [exact N1|]. split; [exact I1|]. intros x Hx Hy. apply C in Hx. apply I2 in Hy. lia.
    - intros i. rewrite in_app_iff. unfold sum in *. cbn [map snd fold_right]. intros [Hi|Hi]; [apply C in Hi; lia|apply I2 in Hi; lia].
  Qed.
End Plan.

(** *** Writing *)
Lemma write_at_length {B} (l : list B) i v : length (write_at l i v) = length l.
Proof. revert i. induction l as [|x l IH]; intros [|i]; cbn; auto. Qed.
Lemma write_at_same {B} (l : list B) i v : i < length l -> nth_error (write_at l i v) i = Some v.
Proof. revert i. induction l as [|x l IH]; intros [|i]; cbn; intros H; try lia; [reflexivity|]. apply IH. lia. Qed.
Lemma write_at_other {B} (l : list B) i j v : i <> j -> nth_error (write_at l i v) j = nth_error l j.
Proof. revert i j. induction l as [|x l IH]; intros [|i] [|j] H; cbn; try reflexivity; [lia|]. apply IH. lia. Qed.
Definition writes {B} (l : list B) (ivs : list (nat * B)) : list B := fold_left (fun l iv => write_at l (fst iv) (snd iv)) ivs l.
Lemma writes_length {B} ivs : forall l : list B, length (writes l ivs) = length l.
Proof. induction ivs as [|iv ivs IH]; intros l; cbn; [reflexivity|]. unfold writes in *. now rewrite IH, write_at_length. Qed.
Lemma writes_other {B} ivs i : forall l : list B, ~ In i (map fst ivs) -> nth_error (writes l ivs) i = nth_error l i.
Proof. induction ivs as [|[j v] ivs IH]; intros l H; cbn in *; [reflexivity|]. unfold writes in *. cbn. rewrite IH by tauto. apply write_at_other. tauto. Qed.
Lemma writes_in {B} ivs i v : forall l : list B, NoDup (map fst ivs) -> In (i, v) ivs -> i < length l -> nth_error (writes l ivs) i = Some v.
Proof.
  induction ivs as [|[j w] ivs IH]; intros l N H L; cbn in *; [contradiction|]. inversion N as [|? ? N1 N2]; subst. unfold writes in *. cbn. destruct H as [[= -> ->]|H].
  - pose proof (writes_other ivs i (write_at l i v) N1) as W. unfold writes in W. rewrite W. now apply write_at_same.
  - apply IH; auto. now rewrite write_at_length.
Qed.
Lemma write_all_ok {B} (l : list B) ids v : (forall i, In i ids -> i < length l) -> write_all l ids v = Ok (writes l (map (fun i => (i, v)) ids)).
Proof.
  intros H. unfold write_all. assert (E : forallb (fun i => i <? length l) ids = true) by (apply forallb_forall; intros i Hi; apply Nat.ltb_lt; auto). rewrite E. f_equal.
  clear. revert l. induction ids as [|i ids IH]; intros l; cbn; [reflexivity|]. unfold writes in *. now rewrite IH.
Qed.
Lemma writes_app {B} a b : forall l : list B, writes l (a ++ b) = writes (writes l a) b.
Proof. intros l. unfold writes. now rewrite fold_left_app. Qed.
Lemma write_keys w d : forall els tys, (forall i, In i (map fst (pairs d)) -> i < length els /\ i < length tys) ->
  foldM (write_key w) (els, tys) d = Ok (writes els (map (fun p => (fst p, cut w (fst (snd p)))) (pairs d)), writes tys (map (fun p => (fst p, Z.of_nat (snd (snd p)))) (pairs d))).
Proof.
  induction d as [|[k ids] d IH]; intros els tys H; cbn [foldM]; [reflexivity|]. unfold write_key at 1. cbn [fst snd].
  assert (HK : forall i, In i ids -> i < length els /\ i < length tys). { intros i Hi. apply H. unfold pairs. cbn. rewrite map_app, in_app_iff, map_map. cbn. rewrite map_id. now left. }
  rewrite (write_all_ok els), (write_all_ok tys) by (intros; now apply HK). cbn [bind]. rewrite IH.
  - unfold pairs. cbn [flat_map fst snd]. rewrite !map_app, !writes_app, !map_map. reflexivity.
  - intros i Hi. rewrite !writes_length. apply H. unfold pairs in *. cbn. rewrite map_app, in_app_iff. now right.
Qed.

(** *** Sublattices *)
Lemma planned_nth ons : forall b plan i os n, planned b ons plan -> nth_error ons i = Some (os, n) ->
  exists ss rest, Forall2 (fun o s => Z.of_nat (length s) = n_rep n (snd o)) os ss /\
    Permutation (seq (b + sum (firstn i (map snd ons))) n) (concat ss ++ rest) /\
    (forall o s j, In (o, s) (combine os ss) -> In j s -> In (j, fst o) (assign ons plan)) /\
    (forall j, In j rest -> ~ In j (map fst (assign ons plan))).
Proof.
  induction ons as [|[os0 n0] ons IH]; intros b [|[ss0 rest0] plan] i os n H E; cbn in H; try contradiction; [destruct i; discriminate|].
  destruct H as [F [PS H]]. pose proof (planned_ids _ _ _ H) as [PI1 PI2].
  assert (N : NoDup (concat ss0 ++ rest0)) by (apply (Permutation_NoDup PS); apply seq_NoDup). apply NoDup_app_iff in N. destruct N as [N1 [N2 N3]].
  unfold assign. cbn [combine flat_map fst snd]. fold (assign ons plan). destruct i as [|i].
  - cbn in E. injection E as -> ->. exists ss0, rest0. split; [exact F|]. split; [cbn; now rewrite Nat.add_0_r|]. split.
    + intros o s j H1 H2. apply in_app_iff. left. unfold assign_os. apply in_flat_map. exists (o, s). split; [exact H1|]. apply in_map_iff. now exists j.
    + intros j Hj Hi. rewrite map_app, in_app_iff, (assign_os_ids os ss0 n F) in Hi. destruct Hi as [Hi|Hi]; [now apply (N3 j)|].
      apply PI2 in Hi. assert (HS : In j (seq b n)) by (rewrite PS; apply in_app_iff; now right). apply in_seq in HS. lia.
  - cbn in E. destruct (IH _ _ _ _ _ H E) as [ss [rest [I1 [I2 [I3 I4]]]]]. exists ss, rest. split; [exact I1|]. split.
    + replace (b + sum (firstn (S i) (map snd ((os0, n0) :: ons)))) with (b + n0 + sum (firstn i (map snd ons))) by (cbn; unfold sum; lia). exact I2.
    + split; [intros o s j H1 H2; apply in_app_iff; right; eauto|]. intros j Hj Hi. rewrite map_app, in_app_iff, (assign_os_ids os0 ss0 n0 F) in Hi. destruct Hi as [Hi|Hi]; [|now apply (I4 j)].
      assert (HS : In j (seq b n0)) by (rewrite PS; apply in_app_iff; now left). assert (HT : In j (seq (b + n0 + sum (firstn i (map snd ons))) n)) by (rewrite I2; apply in_app_iff; now right).
      apply in_seq in HS. apply in_seq in HT. lia.
Qed.
Lemma firstn_skipn_map {X} (l : list X) d b n : b + n <= length l -> firstn n (skipn b l) = map (fun a => nth a l d) (seq b n).
Proof.
  revert b n. induction l as [|x l IH]; intros b n H; cbn in H.
  - assert (b = 0 /\ n = 0) as [-> ->] by lia. reflexivity.
  - destruct b as [|b].
    + destruct n as [|n]; [reflexivity|]. cbn [skipn firstn seq map nth]. f_equal. rewrite <- seq_shift, map_map. specialize (IH 0 n). cbn [skipn] in IH. rewrite IH by lia. reflexivity.
    + cbn [skipn]. rewrite IH by lia. rewrite <- seq_shift, map_map. reflexivity.
Qed.
Lemma nth_error_combine {X Y} (l : list X) (m : list Y) i x y : nth_error l i = Some x -> nth_error m i = Some y -> nth_error (combine l m) i = Some (x, y).
Proof. revert m i. induction l as [|a l IH]; intros [|b m] [|i] H1 H2; try discriminate; cbn in *; [congruence|]. now apply IH. Qed.
Lemma map_const {X Y} (f : X -> Y) v l : (forall x, In x l -> f x = v) -> map f l = repeat v (length l).
Proof. induction l as [|x l IH]; intros H; cbn; [reflexivity|]. rewrite H by now left. rewrite IH by (intros; apply H; now right). reflexivity. Qed.

Section Sub.
  Context {P A V G : Type}.
  Variable sample : G -> list nat -> nat -> list nat * G.
  Hypothesis SO : sample_ok sample.
  Variables (lat : structure P A V) (occ : list (list entry)).
  Hypothesis HE : length (elements lat) = sum (n_atoms lat).
  Hypothesis HT : length (types lat) = sum (n_atoms lat).
  Notation w := (width (elements lat)).

  Lemma snd_combine_firstn {X Y} (l : list X) (m : list Y) : length l = length m -> map snd (combine l m) = m.
  Proof. revert m. induction l as [|x l IH]; intros [|y m] H; try discriminate; cbn; [reflexivity|]. f_equal. apply IH. now injection H. Qed.
  Lemma snd_combine_short {X Y} (l : list X) (m : list Y) : exists k, map snd (combine l m) = firstn k m.
  Proof. revert m. induction l as [|x l IH]; intros [|y m]; [now exists 0|now exists 0|now exists 0|]. destruct (IH m) as [k E]. exists (S k). cbn. now rewrite E. Qed.
  Lemma sum_firstn_le k l : sum (firstn k l) <= sum l.
  Proof. revert k. unfold sum. induction l as [|x l IH]; intros [|k]; cbn; try lia. specialize (IH k). lia. Qed.

  Lemma indices_spec g : match indices sample g (n_atoms lat) occ with
    | Ok (d, g') => length occ = length (n_atoms lat) /\ Forall fits (combine occ (n_atoms lat)) /\ exists plan, planned 0 (combine occ (n_atoms lat)) plan /\ Permutation (pairs d) (assign (combine occ (n_atoms lat)) plan)
    | Err e => e = ValueError /\ (length occ <> length (n_atoms lat) \/ ~ Forall fits (combine occ (n_atoms lat)))
    end.
  Proof.
    unfold indices. pose proof (lattice_fold sample SO (combine occ (n_atoms lat)) 0 [] g) as L. cbn in L. specialize (L ltac:(intros i [])).
    destruct (foldM _ _ _) as [[[b d] g']|e]; cbn [bind fst snd]; [|destruct L; auto]. destruct L as [plan [L1 [L2 L3]]].
    destruct (Nat.eqb_spec (length occ) (length (n_atoms lat))) as [E|E]; [|auto]. split; [exact E|]. split; [exact L3|]. now exists plan.
  Qed.

  Lemma substituted_spec g : match substituted sample g lat occ with
    | Ok (st, g') => length occ = length (n_atoms lat) /\ Forall fits (combine occ (n_atoms lat)) /\
        axis st = axis lat /\ positions st = positions lat /\ n_atoms st = n_atoms lat /\ volume st = volume lat /\ name st = name lat /\
        length (elements st) = sum (n_atoms lat) /\ length (types st) = sum (n_atoms lat) /\
        exists d plan, indices sample g (n_atoms lat) occ = Ok (d, g') /\ planned 0 (combine occ (n_atoms lat)) plan /\ Permutation (pairs d) (assign (combine occ (n_atoms lat)) plan) /\
          elements st = writes (elements lat) (map (fun p => (fst p, cut w (fst (snd p)))) (pairs d)) /\ types st = writes (types lat) (map (fun p => (fst p, Z.of_nat (snd (snd p)))) (pairs d)) /\
          NoDup (map fst (pairs d)) /\ (forall i, In i (map fst (pairs d)) -> i < sum (n_atoms lat))
    | Err e => e = ValueError /\ (length occ <> length (n_atoms lat) \/ ~ Forall fits (combine occ (n_atoms lat)))
    end.
  Proof.
    unfold substituted. pose proof (indices_spec g) as I. destruct (indices sample g (n_atoms lat) occ) as [[d g']|e] eqn:EI; cbn [bind fst snd]; [|exact I].
    destruct I as [I1 [I2 [plan [I3 I4]]]]. destruct (planned_ids _ _ _ I3) as [P1 P2].
    assert (PB : forall i, In i (map fst (pairs d)) -> i < sum (n_atoms lat)).
    { intros i Hi. rewrite (Permutation_map fst I4) in Hi. apply P2 in Hi. rewrite snd_combine_firstn in Hi by exact I1. lia. }
    rewrite write_keys by (intros i Hi; apply PB in Hi; lia). cbn [bind fst snd]. do 7 (split; [auto|]). cbn. rewrite !writes_length. split; [exact HE|]. split; [exact HT|].
    exists d, plan. split; [reflexivity|]. split; [exact I3|]. split; [exact I4|]. split; [reflexivity|]. split; [reflexivity|]. split; [|exact PB].
    apply (Permutation_NoDup (l := map fst (assign (combine occ (n_atoms lat)) plan))); [symmetry; now apply Permutation_map|exact P1].
  Qed.

  (** Elements and types of the atoms of sublattice i *)
  Definition sublattice (st : structure P A V) (i : nat) : list (string * Z) :=
    firstn (nth i (n_atoms st) 0) (skipn (sum (firstn i (n_atoms st))) (combine (elements st) (types st))).
  Lemma sublattice_spec g st g' i os n : substituted sample g lat occ = Ok (st, g') -> nth_error occ i = Some os -> nth_error (n_atoms lat) i = Some n ->
    exists left replaced, Permutation (sublattice st i) (flat_map (fun o => repeat (cut w (fst (fst o)), Z.of_nat (snd (fst o))) (Z.to_nat (n_rep n (snd o)))) os ++ left) /\
      Permutation (sublattice lat i) (replaced ++ left).
  Proof.
    intros H EO EN. pose proof (substituted_spec g) as S. rewrite H in S. destruct S as [L [_ [_ [_ [EA [_ [_ [LE [LT [d [plan [_ [PL [PP [E1 [E2 [ND PB]]]]]]]]]]]]]]]]].
    pose proof (nth_error_combine _ _ _ _ _ EO EN) as EC. destruct (planned_nth _ _ _ _ _ _ PL EC) as [ss [rest [R1 [R2 [R3 R4]]]]]. rewrite snd_combine_firstn in R2 by exact L. cbn [Nat.add] in R2.
    assert (BN : sum (firstn i (n_atoms lat)) + n <= sum (n_atoms lat)).
    { clear -EN. revert i EN. generalize (n_atoms lat). intros l. unfold sum. induction l as [|x l IH]; intros [|i] E; try discriminate; cbn in *; [injection E as ->; lia|]. apply IH in E. lia. }
    set (b := sum (firstn i (n_atoms lat))) in *. set (dflt := (String.EmptyString, 0%Z)).
    assert (SL : sublattice st i = map (fun a => nth a (combine (elements st) (types st)) dflt) (seq b n)).
    { unfold sublattice. rewrite EA. fold b. rewrite (nth_error_nth _ _ 0 EN). apply firstn_skipn_map. rewrite combine_length, LE, LT. lia. }
    assert (SL0 : sublattice lat i = map (fun a => nth a (combine (elements lat) (types lat)) dflt) (seq b n)).
    { unfold sublattice. fold b. rewrite (nth_error_nth _ _ 0 EN). apply firstn_skipn_map. rewrite combine_length, HE, HT. lia. }
    exists (map (fun a => nth a (combine (elements lat) (types lat)) dflt) rest), (map (fun a => nth a (combine (elements lat) (types lat)) dflt) (concat ss)).
    assert (IN : forall a k, In (a, k) (assign (combine occ (n_atoms lat)) plan) -> nth a (combine (elements st) (types st)) dflt = (cut w (fst k), Z.of_nat (snd k))).
    { intros a k HA. apply nth_error_nth. rewrite <- PP in HA. assert (HB : a < sum (n_atoms lat)) by (apply PB; apply in_map_iff; now exists (a, k)). apply nth_error_combine.
      - rewrite E1. apply writes_in; [rewrite map_map; exact ND| |lia]. apply in_map_iff. now exists (a, k).
      - rewrite E2. apply writes_in; [rewrite map_map; exact ND| |lia]. apply in_map_iff. now exists (a, k). }
    assert (OUT : forall a, In a rest -> nth a (combine (elements st) (types st)) dflt = nth a (combine (elements lat) (types lat)) dflt).
    { intros a HA. assert (NI : ~ In a (map fst (pairs d))). { rewrite (Permutation_map fst PP). now apply R4. }
      assert (HB : a < sum (n_atoms lat)). { assert (HS : In a (seq b n)) by (rewrite R2; apply in_app_iff; now right). apply in_seq in HS. lia. }
      unfold dflt; rewrite !combine_nth by lia. f_equal.
      - apply nth_error_nth. rewrite E1, writes_other by (rewrite map_map; exact NI). apply nth_error_nth'. lia.
      - apply nth_error_nth. rewrite E2, writes_other by (rewrite map_map; exact NI). apply nth_error_nth'. lia. }
    split.
    - rewrite SL, (Permutation_map _ R2), map_app. apply Permutation_app; [|rewrite (map_ext_in _ _ _ OUT); reflexivity].
      clear -R1 R3 IN. revert R3. induction R1 as [|o s os ss H F IH]; intros R3; [reflexivity|]. cbn [concat flat_map]. rewrite map_app. apply Permutation_app.
      + rewrite (map_const _ (cut w (fst (fst o)), Z.of_nat (snd (fst o)))). { replace (Z.to_nat (n_rep n (snd o))) with (length s) by lia. reflexivity. }
        intros a Ha. apply IN. apply (R3 o s); [now left|exact Ha].
      + apply IH. intros o' s' j H1 H2. apply (R3 o' s'); [now right|exact H2].
    - rewrite SL0, (Permutation_map _ R2), map_app. reflexivity.
  Qed.
End Sub.
