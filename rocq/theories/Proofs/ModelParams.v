(** Enumeration lemmas: type words (C31), polynomial combinations (C30), linear features (C49). *)
From Verif Require Import Base Model.Cxx Model.Mapping Model.ModelParams Spec.ModelParams Proofs.Cxx Proofs.Mapping.

Lemma NoDup_map_inj_in {A B} (f : A -> B) l :
  (forall x y, In x l -> In y l -> f x = f y -> x = y) -> NoDup l -> NoDup (map f l).
Proof.
  intros Hf Hd. induction Hd as [|x l Hn Hd IH]; cbn; constructor.
  - intros H. apply in_map_iff in H. destruct H as [y [E Hy]]. apply Hn.
    rewrite <- (Hf y x); [exact Hy|now right|now left|exact E].
  - apply IH. intros a b Ha Hb. apply Hf; now right.
Qed.
Lemma fold_left_ext_in {A B} (f g : A -> B -> A) l : forall a,
  (forall b a, In b l -> f a b = g a b) -> fold_left f l a = fold_left g l a.
Proof.
  induction l as [|x l IH]; intros a H; cbn; [reflexivity|]. rewrite (H x a) by now left.
  apply IH. intros b c Hb. apply H. now right.
Qed.

(** * Words *)
Fixpoint words {A} (k : nat) (input : list A) : list (list A) :=
  match k with O => [[]] | S k' => flat_map (fun x => map (cons x) (words k' input)) input end.
Lemma permutenr_words {A} k (input : list A) : forall output all,
  permutenr k input output all = all ++ map (app output) (words k input).
Proof.
  induction k as [|k IH]; intros output all; cbn [permutenr words].
  - cbn. now rewrite app_nil_r.
  - assert (G : forall l all, fold_left (fun acc x => permutenr k input (output ++ [x]) acc) l all
      = all ++ map (app output) (flat_map (fun x => map (cons x) (words k input)) l)).
    { clear all. induction l as [|x l IHl]; intros all; cbn [fold_left flat_map].
      - cbn. now rewrite app_nil_r.
      - rewrite IHl, IH, map_app, map_map, app_assoc. f_equal. f_equal.
        apply map_ext. intros w. rewrite <- app_assoc. reflexivity. }
    apply G.
Qed.
Lemma words_In {A} k (input : list A) w : In w (words k input) <-> length w = k /\ Forall (fun x => In x input) w.
Proof.
  revert w. induction k as [|k IH]; intros w; cbn [words].
  - cbn. split; [intros [<-|[]]; split; constructor|]. intros [H _]. destruct w; [now left|discriminate].
  - rewrite in_flat_map. split.
    + intros [x [Hx H]]. apply in_map_iff in H. destruct H as [w' [<- H]]. apply IH in H. destruct H as [H1 H2].
      split; [cbn; lia|now constructor].
    + intros [H1 H2]. destruct w as [|x w]; [discriminate|]. inversion H2; subst. exists x. split; [assumption|].
      apply in_map. apply IH. split; [now injection H1|assumption].
Qed.
Lemma words_nodup {A} k (input : list A) : NoDup input -> NoDup (words k input).
Proof.
  intros H. induction k as [|k IH]; cbn [words]; [repeat constructor; auto|].
  apply NoDup_flat_map; [exact H| |].
  - intros x _. apply FinFun.Injective_map_NoDup; [intros a b E; congruence|exact IH].
  - intros x y z _ _ Hx Hy. apply in_map_iff in Hx, Hy. destruct Hx as [? [<- _]], Hy as [? [E _]]. congruence.
Qed.
Lemma permutenr_all {A} k (input : list A) : permutenr k input [] [] = words k input.
Proof. rewrite permutenr_words. cbn. rewrite <- (map_id (words k input)) at 2. apply map_ext. reflexivity. Qed.
Lemma words_length {A} k (input : list A) : length (words k input) = length input ^ k.
Proof.
  induction k as [|k IH]; [reflexivity|]. cbn [words Nat.pow].
  assert (G : forall l, length (flat_map (fun x => map (cons x) (words k input)) l) = length l * length input ^ k).
  { induction l as [|x l IHl]; cbn; [reflexivity|]. rewrite app_length, map_length, IHl, IH. reflexivity. }
  apply G.
Qed.
Theorem permutenr_spec {A} (k : nat) (input : list A) :
  NoDup input ->
  let all := permutenr k input [] [] in
  NoDup all /\ length all = length input ^ k /\
  forall w, In w all <-> length w = k /\ Forall (fun x => In x input) w.
Proof.
  intros H. cbn zeta. rewrite permutenr_all. split; [now apply words_nodup|]. split; [apply words_length|apply words_In].
Qed.

(** * Strictly sorted lists *)
Definition ssorted := StronglySorted lt.
Lemma ssorted_le l : ssorted l -> StronglySorted le l.
Proof.
  induction 1 as [|x l Hs IH Hf]; constructor; [exact IH|]. eapply Forall_impl; [|exact Hf]. intros a. cbn. lia.
Qed.
Lemma ssorted_nodup l : ssorted l -> NoDup l.
Proof.
  induction 1 as [|x l Hs IH Hf]; constructor; [|exact IH]. rewrite Forall_forall in Hf. intros H. specialize (Hf _ H). lia.
Qed.
Lemma le_nodup_ssorted l : StronglySorted le l -> NoDup l -> ssorted l.
Proof.
  induction 1 as [|x l Hs IH Hf]; intros Hd; [constructor|]. inversion Hd; subst. constructor; [now apply IH|].
  rewrite Forall_forall in *. intros y Hy. specialize (Hf _ Hy). assert (x <> y) by (intros ->; contradiction). lia.
Qed.
Lemma ssorted_seq b n : ssorted (seq b n).
Proof.
  revert b. induction n as [|n IH]; intros b; cbn; constructor; [apply IH|].
  apply Forall_forall. intros x Hx. apply in_seq in Hx. lia.
Qed.
Lemma ssorted_filter (p : nat -> bool) l : ssorted l -> ssorted (filter p l).
Proof.
  induction 1 as [|x l Hs IH Hf]; cbn; [constructor|]. destruct (p x); [|exact IH]. constructor; [exact IH|].
  rewrite Forall_forall in *. intros y Hy. apply filter_In in Hy. now apply Hf.
Qed.
Lemma ssorted_ext l1 l2 : ssorted l1 -> ssorted l2 -> (forall x, In x l1 <-> In x l2) -> l1 = l2.
Proof.
  intros H1 H2 H. apply sorted_perm_eq; [now apply ssorted_le|now apply ssorted_le|].
  apply NoDup_Permutation; [now apply ssorted_nodup|now apply ssorted_nodup|exact H].
Qed.
Lemma set_inter_incl k a b x : In x (set_inter_ k a b) -> In x a.
Proof.
  revert a b. induction k as [|k IH]; intros a b; cbn; [intros []|].
  destruct a as [|y a]; [intros []|]. destruct b as [|z b]; [intros []|].
  destruct (Nat.compare y z); intros H.
  - destruct H as [->|H]; [now left|right; eapply IH; exact H].
  - right. eapply IH. exact H.
  - eapply IH. exact H.
Qed.
Lemma set_intersection_ssorted a b : ssorted a -> ssorted (set_intersection a b).
Proof.
  unfold set_intersection. generalize (length a + length b). intros k. revert a b.
  induction k as [|k IH]; intros a b Ha; cbn; [constructor|].
  destruct a as [|y a]; [constructor|]. destruct b as [|z b]; [constructor|].
  inversion Ha; subst. destruct (Nat.compare y z); [|now apply IH|now apply IH].
  constructor; [now apply IH|]. rewrite Forall_forall in *. intros x Hx. apply set_inter_incl in Hx. now apply H2.
Qed.

(** * Admissible types *)
Lemma row_In nt t tp : t < nt -> (In tp (nth t (type_pairs nt) []) <-> adm_tp nt tp t).
Proof.
  intros Ht. destruct (type_pairs_dims nt) as [_ D]. split.
  - intros H. apply (In_nth _ _ 0) in H. destruct H as [t2 [H2 E]]. rewrite D in H2 by exact Ht. exists t2. split; [exact H2|exact E].
  - intros [t2 [H2 <-]]. unfold tpair. apply nth_In. now rewrite D.
Qed.
Lemma check_type_spec nt tps t : t < nt -> (check_type (type_pairs nt) tps t = true <-> Forall (fun tp => adm_tp nt tp t) tps).
Proof.
  intros Ht. unfold check_type. rewrite forallb_forall, Forall_forall. split; intros H tp Htp.
  - apply (row_In nt t tp Ht). apply (mem_In tp). exact (H tp Htp).
  - apply (mem_In tp). apply (row_In nt t tp Ht). auto.
Qed.
Lemma touch_adm nt t tp : t < nt -> tp < length (tp_to_types nt) -> (touch nt t tp = true <-> adm_tp nt tp t).
Proof.
  intros Ht Htp. split.
  - intros H. apply touch_inv in H; [|assumption|assumption]. destruct H as [E H]. exists (oth nt t tp). auto.
  - intros [t2 [H2 <-]]. now apply touch_tpair.
Qed.
Lemma types_of_spec nt tps t : In t (types_of nt tps) <-> t < nt /\ Forall (fun tp => adm_tp nt tp t) tps.
Proof.
  unfold types_of. rewrite filter_In, in_seq. split.
  - intros [H1 H2]. split; [lia|]. apply check_type_spec; [lia|exact H2].
  - intros [H1 H2]. split; [lia|]. apply check_type_spec; [lia|exact H2].
Qed.
Lemma types_of_ssorted nt tps : ssorted (types_of nt tps).
Proof. apply ssorted_filter, ssorted_seq. Qed.

(** * Combinations *)
Lemma pushes_nth (types : list nat) (x : nat) : forall v t, NoDup types -> (forall t, In t types -> t < length v) ->
  length (fold_left (fun v t => push t x v) types v) = length v /\
  nth t (fold_left (fun v t => push t x v) types v) [] = nth t v [] ++ (if mem t types then [x] else []).
Proof.
  induction types as [|y types IH]; intros v t Hd Hb; cbn [fold_left].
  - cbn. split; [reflexivity|now rewrite app_nil_r].
  - inversion Hd; subst. destruct (IH (push y x v) t) as [I1 I2]; [assumption|intros z Hz; rewrite push_length; apply Hb; now right|].
    rewrite push_length in I1. split; [exact I1|]. rewrite I2, push_nth by (apply Hb; now left).
    unfold mem. cbn [existsb]. destruct (Nat.eqb_spec t y) as [->|N]; cbn [orb].
    + destruct (existsb (Nat.eqb y) types) eqn:E; [exfalso; apply H1, mem_In, E|]. now rewrite app_nil_r.
    + now rewrite app_nil_r.
Qed.
Lemma seq_filter_snoc (p : nat -> bool) n : filter p (seq 0 (S n)) = filter p (seq 0 n) ++ (if p n then [n] else []).
Proof. rewrite seq_S, filter_app. cbn. destruct (p n); reflexivity. Qed.
Section Combos.
  Variables (nt : nat) (adm : nat -> nat -> bool).
  Definition adm_types (ids : list nat) : list nat := filter (fun t => forallb (adm t) ids) (seq 0 nt).
  Variable matched : list nat -> list nat.
  Variable iarray : list nat.
  Let ids (pos : list nat) := map (fun p => nth p iarray 0) pos.
  Variable dom : list nat -> Prop.
  Hypothesis Hm : forall l, dom l -> matched l = adm_types l.
  Let keep (pos : list nat) : bool := negb (match adm_types (ids pos) with [] => true | _ => false end).
  Lemma combos_spec loop : (forall pos, In pos loop -> dom (ids pos)) ->
    let r := combos nt matched iarray loop in
    fst (fst r) = map (fun pos => rev (ids pos)) (filter keep loop) /\
    snd r = length (fst (fst r)) /\ length (snd (fst r)) = nt /\
    forall t, t < nt -> nth t (snd (fst r)) [] = filter (fun k => forallb (adm t) (nth k (fst (fst r)) [])) (seq 0 (length (fst (fst r)))).
  Proof.
    unfold combos. cbn zeta. induction loop as [|pos loop IH] using rev_ind; intros Hdom.
    - cbn. rewrite repeat_length. repeat split. intros t _. now rewrite nth_repeat_nil.
    - specialize (IH (fun p Hp => Hdom p (proj2 (in_app_iff _ _ _) (or_introl Hp)))).
      rewrite fold_left_app. cbn [fold_left].
      destruct (fold_left _ loop ([], repeat [] nt, 0)) as [[target ind] i] eqn:E. clear E. cbn [fst snd] in *.
      destruct IH as [I1 [I2 [I3 I4]]]. subst i.
      assert (Hp : dom (map (fun p => nth p iarray 0) pos)) by (apply Hdom, in_app_iff; right; now left).
      unfold append_combs. rewrite (Hm _ Hp). rewrite filter_app, map_app. cbn [filter].
      change (map (fun p => nth p iarray 0) pos) with (ids pos).
      unfold keep at 2. destruct (adm_types (ids pos)) as [|t0 ts] eqn:Et; cbn [negb].
      + cbn. rewrite app_nil_r. auto.
      + rewrite <- Et. cbn [fst snd map]. rewrite I1. split; [reflexivity|]. split; [rewrite app_length; cbn; lia|].
        assert (B : forall t, In t (adm_types (ids pos)) -> t < length ind).
        { intros t H. apply filter_In in H. destruct H as [H _]. apply in_seq in H. lia. }
        assert (D : NoDup (adm_types (ids pos))) by (apply ssorted_nodup, ssorted_filter, ssorted_seq).
        split; [rewrite (proj1 (pushes_nth _ (length (map (fun pos => rev (ids pos)) (filter keep loop))) ind 0 D B)); exact I3|].
        intros t Ht. rewrite (proj2 (pushes_nth _ (length (map (fun pos => rev (ids pos)) (filter keep loop))) ind t D B)), (I4 t Ht), <- I1.
        rewrite app_length. cbn [length]. rewrite Nat.add_1_r, seq_filter_snoc.
        rewrite (app_nth2 target) by lia. rewrite Nat.sub_diag. cbn [nth]. f_equal.
        * apply filter_ext_in. intros k Hk. apply in_seq in Hk. now rewrite app_nth1 by lia.
        * assert (Q : mem t (adm_types (ids pos)) = forallb (adm t) (rev (ids pos))).
          { destruct (forallb (adm t) (rev (ids pos))) eqn:F.
            - apply mem_In. apply filter_In. split; [apply in_seq; lia|]. rewrite forallb_forall in *. intros x Hx. apply F. now apply in_rev in Hx.
            - apply mem_false. intros H. apply filter_In in H. destruct H as [_ H]. rewrite forallb_forall in H.
              assert (forallb (adm t) (rev (ids pos)) = true) by (apply forallb_forall; intros x Hx; apply H; now apply in_rev).
              congruence. }
          now rewrite Q.
  Qed.
  Lemma comb1_spec n : (forall i, i < n -> dom [i]) ->
    length (comb1 nt n matched) = nt /\
    forall t, t < nt -> nth t (comb1 nt n matched) [] = filter (adm t) (seq 0 n).
  Proof.
    unfold comb1. induction n as [|n IH]; intros Hdom.
    - cbn. rewrite repeat_length. split; [reflexivity|]. intros t _. now rewrite nth_repeat_nil.
    - destruct IH as [I1 I2]; [intros i Hi; apply Hdom; lia|].
      rewrite seq_S, fold_left_app. cbn [fold_left Nat.add]. rewrite (Hm _ (Hdom n (Nat.lt_succ_diag_r n))).
      set (v := fold_left _ (seq 0 n) (repeat [] nt)) in *.
      assert (B : forall t, In t (adm_types [n]) -> t < length v).
      { intros t H. apply filter_In in H. destruct H as [H _]. apply in_seq in H. lia. }
      assert (D : NoDup (adm_types [n])) by (apply ssorted_nodup, ssorted_filter, ssorted_seq).
      split; [rewrite (proj1 (pushes_nth _ n v 0 D B)); exact I1|].
      intros t Ht. rewrite (proj2 (pushes_nth _ n v t D B)), (I2 t Ht), filter_app. f_equal. cbn [filter].
      assert (Q : mem t (adm_types [n]) = adm t n).
      { unfold adm_types. cbn [forallb]. destruct (adm t n) eqn:F.
        - apply mem_In, filter_In. split; [apply in_seq; lia|]. now rewrite F.
        - apply mem_false. intros H. apply filter_In in H. destruct H as [_ H]. rewrite F in H. discriminate. }
      now rewrite Q.
  Qed.
End Combos.

Lemma loop2_In n a b : In [a; b] (loop2 n) <-> b <= a < n.
Proof.
  unfold loop2. rewrite in_flat_map. split.
  - intros [x [Hx H]]. apply in_seq in Hx. apply in_map_iff in H. destruct H as [y [E Hy]].
    injection E as -> ->. apply in_seq in Hy. lia.
  - intros H. exists a. split; [apply in_seq; lia|]. apply in_map_iff. exists b. split; [reflexivity|apply in_seq; lia].
Qed.
Lemma loop2_shape n p : In p (loop2 n) -> exists a b, p = [a; b].
Proof. unfold loop2. intros H. apply in_flat_map in H. destruct H as [x [_ H]]. apply in_map_iff in H. destruct H as [y [<- _]]. eauto. Qed.
Lemma loop2_nodup n : NoDup (loop2 n).
Proof.
  unfold loop2. apply NoDup_flat_map; [apply seq_NoDup| |].
  - intros i _. apply FinFun.Injective_map_NoDup; [intros a b E; congruence|apply seq_NoDup].
  - intros x y z _ _ Hx Hy. apply in_map_iff in Hx, Hy. destruct Hx as [? [<- _]], Hy as [? [E _]]. congruence.
Qed.
Lemma loop3_In n a b c : In [a; b; c] (loop3 n) <-> c <= b /\ b <= a < n.
Proof.
  unfold loop3. rewrite in_flat_map. split.
  - intros [x [Hx H]]. apply in_seq in Hx. apply in_flat_map in H. destruct H as [y [Hy H]]. apply in_seq in Hy.
    apply in_map_iff in H. destruct H as [z [E Hz]]. injection E as -> -> ->. apply in_seq in Hz. lia.
  - intros H. exists a. split; [apply in_seq; lia|]. apply in_flat_map. exists b. split; [apply in_seq; lia|].
    apply in_map_iff. exists c. split; [reflexivity|apply in_seq; lia].
Qed.
Lemma loop3_shape n p : In p (loop3 n) -> exists a b c, p = [a; b; c].
Proof.
  unfold loop3. intros H. apply in_flat_map in H. destruct H as [x [_ H]]. apply in_flat_map in H. destruct H as [y [_ H]].
  apply in_map_iff in H. destruct H as [z [<- _]]. eauto.
Qed.
Lemma loop3_nodup n : NoDup (loop3 n).
Proof.
  unfold loop3. apply NoDup_flat_map; [apply seq_NoDup| |].
  - intros i _. apply NoDup_flat_map; [apply seq_NoDup| |].
    + intros j _. apply FinFun.Injective_map_NoDup; [intros a b E; congruence|apply seq_NoDup].
    + intros x y z _ _ Hx Hy. apply in_map_iff in Hx, Hy. destruct Hx as [? [<- _]], Hy as [? [E _]]. congruence.
  - intros x y z _ _ Hx Hy. apply in_flat_map in Hx, Hy. destruct Hx as [? [_ Hx]], Hy as [? [_ Hy]].
    apply in_map_iff in Hx, Hy. destruct Hx as [? [<- _]], Hy as [? [E _]]. congruence.
Qed.

Lemma ssorted_nth_lt l i j : ssorted l -> i < j < length l -> nth i l 0 < nth j l 0.
Proof.
  intros H. revert i j. induction H as [|x l Hs IH Hf]; intros i j Hij; [cbn in Hij; lia|]. cbn [length] in Hij.
  rewrite Forall_forall in Hf. destruct i, j; cbn [nth]; try lia.
  - apply Hf. apply nth_In. lia.
  - apply IH. lia.
Qed.
Lemma ssorted_nth_le l i j : ssorted l -> i <= j < length l -> nth i l 0 <= nth j l 0.
Proof.
  intros H Hij. destruct (Nat.eq_dec i j) as [->|]; [lia|]. assert (nth i l 0 < nth j l 0) by (apply ssorted_nth_lt; [exact H|lia]). lia.
Qed.
Lemma ssorted_nth_inj l i j : ssorted l -> i < length l -> j < length l -> nth i l 0 <= nth j l 0 -> i <= j.
Proof.
  intros H Hi Hj Hle. destruct (Nat.le_gt_cases i j); [assumption|].
  assert (nth j l 0 < nth i l 0) by (apply ssorted_nth_lt; [exact H|lia]). lia.
Qed.

Lemma keep_iff nt adm l :
  negb (match adm_types nt adm l with [] => true | _ => false end) = true <-> exists t, t < nt /\ Forall (fun i => adm t i = true) l.
Proof.
  destruct (adm_types nt adm l) as [|t ts] eqn:E; cbn; split; try discriminate; try reflexivity.
  - intros [t [Ht H]]. assert (In t (adm_types nt adm l)).
    { apply filter_In. split; [apply in_seq; lia|]. rewrite forallb_forall. rewrite Forall_forall in H. exact H. }
    rewrite E in H0. destruct H0.
  - intros _. exists t. assert (In t (adm_types nt adm l)) by (rewrite E; now left). apply filter_In in H. destruct H as [H1 H2].
    apply in_seq in H1. split; [lia|]. rewrite Forall_forall. rewrite forallb_forall in H2. exact H2.
Qed.
Lemma combos2_complete nt adm matched P (dom : list nat -> Prop) :
  (forall l, dom l -> matched l = adm_types nt adm l) -> ssorted P ->
  (forall l, Forall (fun i => In i P) l -> dom l) ->
  let r := combos nt matched P (loop2 (length P)) in
  combs_complete nt 2 adm P (fst (fst r)) (snd (fst r)).
Proof.
  intros Hm HP Hdom. cbn zeta.
  assert (Hd : forall pos, In pos (loop2 (length P)) -> Forall (fun i => In i P) (map (fun p => nth p P 0) pos)).
  { intros pos Hp. destruct (loop2_shape _ _ Hp) as [a [b ->]]. apply loop2_In in Hp. repeat constructor; apply nth_In; lia. }
  destruct (combos_spec nt adm matched P dom Hm (loop2 (length P)) (fun p Hp => Hdom _ (Hd p Hp))) as [C1 [C2 [C3 C4]]].
  set (r := combos nt matched P (loop2 (length P))) in *. clearbody r.
  unfold combs_complete. rewrite C1 in *. split; [|split; [|split; [exact C3|exact C4]]].
  - apply NoDup_map_inj_in; [|apply NoDup_filter, loop2_nodup].
    intros x y Hx Hy E. apply filter_In in Hx, Hy. destruct Hx as [Hx _], Hy as [Hy _].
    destruct (loop2_shape _ _ Hx) as [a [b ->]], (loop2_shape _ _ Hy) as [a' [b' ->]].
    apply loop2_In in Hx, Hy. cbn in E. injection E as E1 E2.
    assert (a = a') by (apply Nat.le_antisymm; apply (ssorted_nth_inj P); lia || assumption).
    assert (b = b') by (apply Nat.le_antisymm; apply (ssorted_nth_inj P); lia || assumption). congruence.
  - intros c. rewrite in_map_iff. split.
    + intros [pos [<- Hp]]. apply filter_In in Hp. destruct Hp as [Hp Hk]. apply keep_iff in Hk.
      specialize (Hd _ Hp). destruct (loop2_shape _ _ Hp) as [a [b ->]]. apply loop2_In in Hp. cbn in *.
      split; [reflexivity|]. split.
      * constructor; [repeat constructor|]. constructor; [|constructor]. apply ssorted_nth_le; [exact HP|lia].
      * split; [now apply Forall_rev in Hd|]. destruct Hk as [t [Ht H]]. exists t. split; [exact Ht|]. now apply Forall_rev in H.
    + intros [H1 [H2 [H3 H4]]]. destruct c as [|x [|y [|? ?]]]; try discriminate.
      inversion H3 as [|? ? Ix H3']; subst. inversion H3' as [|? ? Iy _]; subst.
      apply (In_nth _ _ 0) in Ix, Iy. destruct Ix as [i [Hi <-]], Iy as [j [Hj <-]].
      inversion H2 as [|? ? _ F]; subst. inversion F; subst.
      exists [j; i]. split; [reflexivity|]. apply filter_In. split.
      * apply loop2_In. split; [|exact Hj]. now apply (ssorted_nth_inj P).
      * apply keep_iff. destruct H4 as [t [Ht H]]. exists t. split; [exact Ht|]. now apply Forall_rev in H.
Qed.
Lemma combos3_complete nt adm matched P (dom : list nat -> Prop) :
  (forall l, dom l -> matched l = adm_types nt adm l) -> ssorted P ->
  (forall l, Forall (fun i => In i P) l -> dom l) ->
  let r := combos nt matched P (loop3 (length P)) in
  combs_complete nt 3 adm P (fst (fst r)) (snd (fst r)).
Proof.
  intros Hm HP Hdom. cbn zeta.
  assert (Hd : forall pos, In pos (loop3 (length P)) -> Forall (fun i => In i P) (map (fun p => nth p P 0) pos)).
  { intros pos Hp. destruct (loop3_shape _ _ Hp) as [a [b [c ->]]]. apply loop3_In in Hp. repeat constructor; apply nth_In; lia. }
  destruct (combos_spec nt adm matched P dom Hm (loop3 (length P)) (fun p Hp => Hdom _ (Hd p Hp))) as [C1 [C2 [C3 C4]]].
  set (r := combos nt matched P (loop3 (length P))) in *. clearbody r.
  unfold combs_complete. rewrite C1 in *. split; [|split; [|split; [exact C3|exact C4]]].
  - apply NoDup_map_inj_in; [|apply NoDup_filter, loop3_nodup].
    intros x y Hx Hy E. apply filter_In in Hx, Hy. destruct Hx as [Hx _], Hy as [Hy _].
    destruct (loop3_shape _ _ Hx) as [a [b [c ->]]], (loop3_shape _ _ Hy) as [a' [b' [c' ->]]].
    apply loop3_In in Hx, Hy. cbn in E. injection E as E1 E2 E3.
    assert (a = a') by (apply Nat.le_antisymm; apply (ssorted_nth_inj P); lia || assumption).
    assert (b = b') by (apply Nat.le_antisymm; apply (ssorted_nth_inj P); lia || assumption).
    assert (c = c') by (apply Nat.le_antisymm; apply (ssorted_nth_inj P); lia || assumption). congruence.
  - intros c. rewrite in_map_iff. split.
    + intros [pos [<- Hp]]. apply filter_In in Hp. destruct Hp as [Hp Hk]. apply keep_iff in Hk.
      specialize (Hd _ Hp). destruct (loop3_shape _ _ Hp) as [a [b [c ->]]]. apply loop3_In in Hp. cbn in *.
      split; [reflexivity|]. split.
      * constructor; [constructor; [repeat constructor|]|]; repeat constructor; apply ssorted_nth_le; try exact HP; lia.
      * split; [now apply Forall_rev in Hd|]. destruct Hk as [t [Ht H]]. exists t. split; [exact Ht|]. now apply Forall_rev in H.
    + intros [H1 [H2 [H3 H4]]]. destruct c as [|x [|y [|z [|? ?]]]]; try discriminate.
      inversion H3 as [|? ? Ix H3']; subst. inversion H3' as [|? ? Iy H3'']; subst. inversion H3'' as [|? ? Iz _]; subst.
      apply (In_nth _ _ 0) in Ix, Iy, Iz. destruct Ix as [i [Hi <-]], Iy as [j [Hj <-]], Iz as [k [Hk <-]].
      inversion H2 as [|? ? H2' F]; subst. inversion F as [|? ? L1 _]; subst. inversion H2' as [|? ? _ F']; subst. inversion F' as [|? ? L2 _]; subst.
      exists [k; j; i]. split; [reflexivity|]. apply filter_In. split.
      * apply loop3_In. split; [now apply (ssorted_nth_inj P)|]. split; [now apply (ssorted_nth_inj P)|exact Hk].
      * apply keep_iff. destruct H4 as [t [Ht H]]. exists t. split; [exact Ht|]. now apply Forall_rev in H.
Qed.

(** ** Pair models *)
Lemma adm_pair_iff nt ntp t i : adm_pair nt ntp t i = true <-> adm_tp nt (p_tp (nth i ntp (NTP 0 0 0 0 0 0))) t.
Proof.
  unfold adm_pair, adm_tp. rewrite existsb_exists. split.
  - intros [t2 [H E]]. apply in_seq in H. apply Nat.eqb_eq in E. exists t2. split; [lia|exact E].
  - intros [t2 [H E]]. exists t2. split; [apply in_seq; lia|now apply Nat.eqb_eq].
Qed.
Lemma match_pair_adm nt ntp ids : match_pair nt ntp ids = adm_types nt (adm_pair nt ntp) ids.
Proof.
  apply ssorted_ext; [apply types_of_ssorted|apply ssorted_filter, ssorted_seq|].
  intros t. unfold match_pair. rewrite types_of_spec. unfold adm_types. rewrite filter_In, in_seq, forallb_forall.
  rewrite Forall_map, Forall_forall. split; intros [H1 H2]; (split; [lia|]); intros i Hi.
  - apply adm_pair_iff. auto.
  - apply adm_pair_iff. auto.
Qed.
Theorem pair_combinations nt maxp ntp :
  let M := model_params_pair nt 2 maxp ntp in
  let A := adm_pair nt ntp in
  let P := seq 0 (length ntp) in
  (length (mp_comb1 M) = nt /\ forall t, t < nt -> nth t (mp_comb1 M) [] = filter (A t) P) /\
  (if 1 <? maxp then combs_complete nt 2 A P (mp_comb2 M) (mp_ind2 M) else mp_comb2 M = []) /\
  (if 2 <? maxp then combs_complete nt 3 A P (mp_comb3 M) (mp_ind3 M) else mp_comb3 M = []).
Proof.
  cbn zeta. unfold model_params_pair, model_poly, select_pair. change (2 =? 2) with true. change (1 <? 2) with true. cbn [andb mp_comb1 mp_comb2 mp_ind2 mp_comb3 mp_ind3].
  split; [|split].
  - apply (comb1_spec nt (adm_pair nt ntp) (match_pair nt ntp) [] (fun _ => True)); [intros; apply match_pair_adm|auto].
  - destruct (1 <? maxp); [|reflexivity].
    apply (combos2_complete nt (adm_pair nt ntp) (match_pair nt ntp) (seq 0 (length ntp)) (fun _ => True));
      [intros; apply match_pair_adm|apply ssorted_seq|auto].
  - destruct (2 <? maxp); [|reflexivity].
    apply (combos3_complete nt (adm_pair nt ntp) (match_pair nt ntp) (seq 0 (length ntp)) (fun _ => True));
      [intros; apply match_pair_adm|apply ssorted_seq|auto].
Qed.

(** ** Gtinv models *)
Definition types_ok (nt : nat) (lts : list linearTerm) : Prop :=
  forall x, In x lts -> ssorted (lt_type1 x) /\ Forall (fun t => t < nt) (lt_type1 x).
Lemma fold_inter_spec rest : forall t0, ssorted t0 -> Forall ssorted rest ->
  ssorted (fold_left set_intersection rest t0) /\
  forall t, In t (fold_left set_intersection rest t0) <-> In t t0 /\ Forall (In t) rest.
Proof.
  induction rest as [|r rest IH]; intros t0 H0 Hr; cbn [fold_left].
  - split; [exact H0|]. intros t. split; [auto|tauto].
  - inversion Hr; subst. destruct (IH (set_intersection t0 r)) as [I1 I2]; [now apply set_intersection_ssorted|assumption|].
    split; [exact I1|]. intros t. rewrite I2, set_intersection_In by (now apply ssorted_le).
    split; [intros [[? ?] ?]; auto|]. intros [? F]. inversion F; subst. auto.
Qed.
Lemma match_gtinv_adm nt lts ids : types_ok nt lts -> ids <> [] -> Forall (fun i => i < length lts) ids ->
  match_gtinv lts ids = adm_types nt (adm_gtinv lts) ids.
Proof.
  intros Hok Hne Hids. unfold match_gtinv. destruct ids as [|i ids]; [congruence|]. cbn [map]. clear Hne.
  assert (Q : forall i, i < length lts -> ssorted (lt_type1 (nth i lts (LT 0 0 0 0 []))) /\ Forall (fun t => t < nt) (lt_type1 (nth i lts (LT 0 0 0 0 [])))).
  { intros j Hj. apply Hok, nth_In, Hj. }
  inversion Hids as [|? ? Hi Hids']; subst.
  destruct (fold_inter_spec (map (fun i => lt_type1 (nth i lts (LT 0 0 0 0 []))) ids) (lt_type1 (nth i lts (LT 0 0 0 0 [])))) as [F1 F2].
  { apply Q, Hi. }
  { rewrite Forall_map. eapply Forall_impl; [|exact Hids']. intros j Hj. apply Q, Hj. }
  apply ssorted_ext; [exact F1|apply ssorted_filter, ssorted_seq|].
  intros t. rewrite F2. unfold adm_types. rewrite filter_In, in_seq. cbn [forallb]. rewrite andb_true_iff, forallb_forall, Forall_map, Forall_forall.
  unfold adm_gtinv at 1. fold (mem t (lt_type1 (nth i lts (LT 0 0 0 0 [])))). rewrite mem_In.
  split.
  - intros [H1 H2]. pose proof (proj2 (Q i Hi)) as B. rewrite Forall_forall in B. split; [specialize (B _ H1); lia|].
    split; [exact H1|]. intros x Hx. apply mem_In, H2, Hx.
  - intros [_ [H1 H2]]. split; [exact H1|]. intros x Hx. apply mem_In, H2, Hx.
Qed.
Lemma select_gtinv_spec mt lts : mt <= 4 -> select_gtinv mt lts = poly_indices mt lts.
Proof.
  intros H. unfold select_gtinv, poly_indices.
  assert (T : forall l : list nat, filter (fun _ => true) l = l) by (induction l; cbn; congruence).
  assert (Fa : forall l : list nat, filter (fun _ => false) l = []) by (induction l; cbn; congruence).
  destruct mt as [|[|[|[|[|?]]]]]; cbn [Nat.eqb Nat.ltb Nat.leb]; try lia; rewrite ?T, ?Fa; reflexivity.
Qed.
Theorem gtinv_combinations nt mt maxp lts : types_ok nt lts -> mt <= 4 ->
  let M := model_params_gtinv nt mt maxp lts in
  let A := adm_gtinv lts in
  let P := poly_indices mt lts in
  (length (mp_comb1 M) = nt /\ forall t, t < nt -> nth t (mp_comb1 M) [] = filter (A t) (seq 0 (length lts))) /\
  (if (1 <? mt) && (1 <? maxp) then combs_complete nt 2 A P (mp_comb2 M) (mp_ind2 M) else mp_comb2 M = []) /\
  (if (1 <? mt) && (2 <? maxp) then combs_complete nt 3 A P (mp_comb3 M) (mp_ind3 M) else mp_comb3 M = []).
Proof.
  intros Hok Hmt. cbn zeta. unfold model_params_gtinv, model_poly. cbn [mp_comb1 mp_comb2 mp_ind2 mp_comb3 mp_ind3].
  rewrite (select_gtinv_spec mt lts Hmt). set (P := poly_indices mt lts).
  assert (SP : ssorted P) by apply ssorted_filter, ssorted_seq.
  assert (D : forall l, Forall (fun i => In i P) l -> Forall (fun i => i < length lts) l).
  { intros l. apply Forall_impl. intros i Hi. apply filter_In in Hi. destruct Hi as [Hi _]. apply in_seq in Hi. lia. }
  assert (Hm : forall l, (l <> [] /\ Forall (fun i => i < length lts) l) -> match_gtinv lts l = adm_types nt (adm_gtinv lts) l).
  { intros l [H1 H2]. now apply match_gtinv_adm. }
  split; [|split].
  - apply (comb1_spec nt (adm_gtinv lts) (match_gtinv lts) [] _ Hm). intros i Hi. split; [discriminate|]. repeat constructor. exact Hi.
  - destruct ((1 <? mt) && (1 <? maxp)); [|reflexivity].
    assert (E : combos nt (match_gtinv lts) P (loop2 (length P)) = combos nt (adm_types nt (adm_gtinv lts)) P (loop2 (length P))).
    { unfold combos. apply fold_left_ext_in. intros pos st Hp. f_equal. apply Hm. destruct (loop2_shape _ _ Hp) as [a [b ->]]. split; [discriminate|].
      apply D. apply loop2_In in Hp. repeat constructor; apply nth_In; lia. }
    rewrite E. apply (combos2_complete nt (adm_gtinv lts) (adm_types nt (adm_gtinv lts)) P (fun _ => True)); auto.
  - destruct ((1 <? mt) && (2 <? maxp)); [|reflexivity].
    assert (E : combos nt (match_gtinv lts) P (loop3 (length P)) = combos nt (adm_types nt (adm_gtinv lts)) P (loop3 (length P))).
    { unfold combos. apply fold_left_ext_in. intros pos st Hp. f_equal. apply Hm. destruct (loop3_shape _ _ Hp) as [a [b [c ->]]]. split; [discriminate|].
      apply D. apply loop3_In in Hp. repeat constructor; apply nth_In; lia. }
    rewrite E. apply (combos3_complete nt (adm_gtinv lts) (adm_types nt (adm_gtinv lts)) P (fun _ => True)); auto.
Qed.

(** * Linear features of gtinv models *)
Lemma vector_intersection_In v1 v2 x : In x (vector_intersection v1 v2) <-> In x v1 /\ In x v2.
Proof.
  unfold vector_intersection. rewrite set_intersection_In by apply sortn_sorted.
  assert (P : forall v, In x (sortn v) <-> In x v) by (intros v; split; apply Permutation_in; [|symmetry]; apply sortn_perm).
  now rewrite !P.
Qed.
Lemma vector_intersection_nodup v1 v2 : NoDup v1 -> NoDup (vector_intersection v1 v2).
Proof.
  intros H. apply ssorted_nodup, set_intersection_ssorted, le_nodup_ssorted; [apply sortn_sorted|].
  eapply Permutation_NoDup; [symmetry; apply sortn_perm|exact H].
Qed.
Lemma nonzero_n_In tpn tps n : tps <> [] -> (In n (nonzero_n tpn tps) <-> Forall (fun tp => In n (nth tp tpn [])) tps).
Proof.
  destruct tps as [|tp tps]; [congruence|]. intros _. cbn [nonzero_n].
  assert (G : forall v, In n (fold_left (fun acc tp' => vector_intersection acc (nth tp' tpn [])) tps v)
    <-> In n v /\ Forall (fun tp => In n (nth tp tpn [])) tps).
  { induction tps as [|t tps IH]; intros v; cbn [fold_left]; [split; [auto|tauto]|].
    rewrite IH, vector_intersection_In. split; [intros [[? ?] ?]; auto|]. intros [? F]. inversion F; subst. auto. }
  rewrite G. split; [intros [? ?]; now constructor|]. intros F. inversion F; subst. auto.
Qed.
Lemma nonzero_n_nodup tpn tps : (forall tp, NoDup (nth tp tpn [])) -> NoDup (nonzero_n tpn tps).
Proof.
  intros H. destruct tps as [|tp tps]; [constructor|]. cbn [nonzero_n]. generalize (H tp). generalize (nth tp tpn []).
  induction tps as [|t tps IH]; intros v Hv; cbn [fold_left]; [exact Hv|]. apply IH. now apply vector_intersection_nodup.
Qed.
Lemma find_id_spec w l : In w l -> find_id leqb w l < length l /\ nth (find_id leqb w l) l [] = w.
Proof.
  induction l as [|x l IH]; intros H; [destruct H|]. cbn [find_id length]. destruct (leqb w x) eqn:E.
  - apply leqb_eq in E. subst. cbn. split; [lia|reflexivity].
  - destruct H as [->|H]; [rewrite leqb_refl in E; discriminate|]. destruct (IH H). cbn [nth]. split; [lia|assumption].
Qed.
Lemma tp_combs_order_In nt order p : 0 < order ->
  (In p (tp_combs_order nt order) <-> length p = order /\ exists t, t < nt /\ Forall (fun tp => adm_tp nt tp t) p).
Proof.
  intros Ho. unfold tp_combs_order. destruct order as [|order]; [lia|]. rewrite filter_In, permutenr_all, words_In, existsb_exists. split.
  - intros [[H1 H2] [t [Ht H3]]]. apply in_seq in Ht. split; [exact H1|]. exists t. split; [lia|]. apply check_type_spec; [lia|exact H3].
  - intros [H1 [t [Ht H2]]]. split.
    + split; [exact H1|]. eapply Forall_impl; [|exact H2]. intros tp [t2 [H3 <-]]. apply in_seq. split; [lia|]. cbn. now apply tpair_lt.
    + exists t. split; [apply in_seq; lia|]. now apply check_type_spec.
Qed.

(** Canonical sorting of pairs. *)
Lemma pair_leb_total a b : pair_leb a b = false -> pair_leb b a = true.
Proof. unfold pair_leb. destruct (cmp_pair a b) eqn:E; try discriminate. intros _. apply cmp_pair_anti in E. now rewrite E. Qed.
Lemma pair_leb_trans a b c : pair_leb a b = true -> pair_leb b c = true -> pair_leb a c = true.
Proof.
  unfold pair_leb. destruct (cmp_pair a b) eqn:E1; try discriminate; intros _; destruct (cmp_pair b c) eqn:E2; try discriminate; intros _.
  - apply cmp_pair_eq in E1, E2. subst. now rewrite cmp_pair_refl.
  - apply cmp_pair_eq in E1. subst. now rewrite E2.
  - apply cmp_pair_eq in E2. subst. now rewrite E1.
  - now rewrite (cmp_pair_trans _ _ _ E1 E2).
Qed.
Lemma pair_leb_antisym a b : pair_leb a b = true -> pair_leb b a = true -> a = b.
Proof.
  unfold pair_leb. destruct (cmp_pair a b) eqn:E1; try discriminate; intros _.
  - intros _. now apply cmp_pair_eq.
  - destruct (cmp_pair b a) eqn:E2; try discriminate; intros _; [apply cmp_pair_eq in E2; now subst|].
    pose proof (cmp_pair_trans _ _ _ E1 E2) as E. rewrite cmp_pair_refl in E. discriminate.
Qed.
Definition psorted := StronglySorted (fun a b => pair_leb a b = true).
Lemma ins_psorted x l : psorted l -> psorted (ins_by pair_leb x l).
Proof.
  induction 1 as [|y l Hs IH Hf]; cbn; [repeat constructor|]. destruct (pair_leb x y) eqn:E.
  - constructor; [now constructor|]. constructor; [exact E|]. eapply Forall_impl; [|exact Hf]. cbn. intros a. now apply pair_leb_trans.
  - constructor; [exact IH|]. apply Forall_forall. intros z Hz. apply (Permutation_in _ (ins_by_perm _ _ _)) in Hz.
    destruct Hz as [<-|Hz]; [now apply pair_leb_total|]. rewrite Forall_forall in Hf. now apply Hf.
Qed.
Lemma sort_psorted l : psorted (sort_by pair_leb l).
Proof. induction l as [|x l IH]; cbn; [constructor|]. now apply ins_psorted. Qed.
Lemma psorted_perm_eq l1 : forall l2, psorted l1 -> psorted l2 -> Permutation l1 l2 -> l1 = l2.
Proof.
  induction l1 as [|x l1 IH]; intros l2 H1 H2 P.
  - apply Permutation_nil in P. now subst.
  - destruct l2 as [|y l2]; [symmetry in P; apply Permutation_nil in P; discriminate|].
    inversion H1 as [|? ? S1 F1]; subst. inversion H2 as [|? ? S2 F2]; subst. rewrite Forall_forall in F1, F2.
    assert (x = y).
    { assert (I1 : In x (y :: l2)) by (eapply Permutation_in; [exact P|now left]).
      assert (I2 : In y (x :: l1)) by (eapply Permutation_in; [symmetry; exact P|now left]).
      destruct I1 as [I1|I1]; [congruence|]. destruct I2 as [I2|I2]; [congruence|].
      apply pair_leb_antisym; auto. }
    subst y. f_equal. apply IH; [assumption|assumption|]. now apply Permutation_cons_inv in P.
Qed.
Lemma lmt_perm l1 l2 : Permutation l1 l2 -> sort_by pair_leb l1 = sort_by pair_leb l2.
Proof.
  intros P. apply psorted_perm_eq; [apply sort_psorted|apply sort_psorted|].
  rewrite !sort_by_perm. exact P.
Qed.
Lemma psorted_fst l : psorted l -> StronglySorted le (map fst l).
Proof.
  induction 1 as [|x l Hs IH Hf]; cbn; constructor; [exact IH|]. rewrite Forall_map. eapply Forall_impl; [|exact Hf].
  intros y. cbn. unfold pair_leb, cmp_pair. destruct (Nat.compare_spec (fst x) (fst y)); intros; try lia; try discriminate.
Qed.
Lemma combine_fst {A B} (a : list A) (b : list B) : length a = length b -> map fst (combine a b) = a.
Proof. revert b. induction a as [|x a IH]; intros [|y b] H; cbn in *; try lia; [reflexivity|]. f_equal. apply IH. lia. Qed.
Lemma combine_snd {A B} (a : list A) (b : list B) : length a = length b -> map snd (combine a b) = b.
Proof. revert b. induction a as [|x a IH]; intros [|y b] H; cbn in *; try lia; [reflexivity|]. f_equal. apply IH. lia. Qed.
Lemma combine_fst_snd {A B} (l : list (A * B)) : combine (map fst l) (map snd l) = l.
Proof. induction l as [|[x y] l IH]; cbn; congruence. Qed.
Lemma lmt_shape lc tps : StronglySorted le lc -> length tps = length lc ->
  let lt := lmt_multiset lc tps in
  map fst lt = lc /\ Permutation (map snd lt) tps /\ lt = combine lc (map snd lt) /\ Permutation lt (combine lc tps).
Proof.
  intros Hs Hl. cbn zeta. unfold lmt_multiset. pose proof (sort_by_perm pair_leb (combine lc tps)) as P.
  assert (E : map fst (sort_by pair_leb (combine lc tps)) = lc).
  { apply sorted_perm_eq; [apply psorted_fst, sort_psorted|exact Hs|]. rewrite P. now rewrite combine_fst. }
  split; [exact E|]. split; [rewrite P; now rewrite combine_snd|]. split; [|exact P].
  rewrite <- E at 2. now rewrite combine_fst_snd.
Qed.

Section Linear.
  Variables (nt n_fn : nat) (cond : nat -> nat -> list nat) (l_comb : list (list nat)).
  Let tpn := tp_to_n nt cond.
  Let gorder := length (last l_comb []).
  Hypothesis Hcond : forall i j, NoDup (cond i j) /\ Forall (fun n => n < n_fn) (cond i j).
  Hypothesis Hl : forall lc, In lc l_comb -> lc <> [] /\ StronglySorted le lc /\ length lc <= gorder.
  Notation lt_tps := (lt_tps nt l_comb).
  Notation lt_valid := (lt_valid nt (tp_to_n nt cond) l_comb).
  Let tpc (lc : list nat) := nth (length lc) (tp_combs nt gorder) [].
  Lemma tpc_order lc : In lc l_comb -> tpc lc = tp_combs_order nt (length lc).
  Proof.
    intros H. unfold tpc, tp_combs. rewrite (nth_map_lt _ _ _ [] 0) by (rewrite seq_length; pose proof (Hl lc H); lia).
    rewrite seq_nth by (pose proof (Hl lc H); lia). reflexivity.
  Qed.
  Lemma tpc_In lc p : In lc l_comb -> (In p (tpc lc) <-> length p = length lc /\ exists t, t < nt /\ Forall (fun tp => adm_tp nt tp t) p).
  Proof.
    intros H. rewrite (tpc_order lc H). apply tp_combs_order_In. destruct (Hl lc H) as [H1 _]. destruct lc; [congruence|cbn; lia].
  Qed.
  Lemma tpn_nodup tp : NoDup (nth tp tpn []).
  Proof.
    unfold tpn, tp_to_n. destruct (Nat.lt_ge_cases tp (length (tp_to_types nt))) as [L|L].
    - rewrite (nth_map_lt _ _ _ [] (0, 0)) by exact L. apply Hcond.
    - rewrite nth_overflow by (rewrite map_length; exact L). constructor.
  Qed.
  Lemma tpn_bound tp n : In n (nth tp tpn []) -> n < n_fn.
  Proof.
    unfold tpn, tp_to_n. destruct (Nat.lt_ge_cases tp (length (tp_to_types nt))) as [L|L].
    - rewrite (nth_map_lt _ _ _ [] (0, 0)) by exact L. destruct (Hcond (fst (nth tp (tp_to_types nt) (0, 0))) (snd (nth tp (tp_to_types nt) (0, 0)))) as [_ H].
      rewrite Forall_forall in H. apply H.
    - rewrite nth_overflow by (rewrite map_length; exact L). intros [].
  Qed.
  Lemma uniq_In lc lt : In lc l_comb -> (In lt (uniq_lmt lc (tpc lc)) <-> exists p, In p (tpc lc) /\ lt = lmt_multiset lc p).
  Proof.
    intros H. unfold uniq_lmt. rewrite set_of_In by (intros a b; apply lex_eq, cmp_pair_eq). rewrite in_map_iff.
    split; intros [p Hp]; exists p; intuition.
  Qed.
  Lemma uniq_nodup lc : NoDup (uniq_lmt lc (tpc lc)).
  Proof.
    apply set_of_nodup.
    - intros a b. apply lex_eq, cmp_pair_eq.
    - intros a b c. apply (lex_trans _ cmp_pair_eq cmp_pair_refl cmp_pair_trans).
    - intros a b. apply (lex_anti _ cmp_pair_eq cmp_pair_refl cmp_pair_anti).
    - intros a. rewrite (lex_refl _ cmp_pair_refl). discriminate.
  Qed.
  (** elements of the set: [lt] pairs the l's in order with a word of admissible type pairs *)
  Lemma uniq_shape lc lt : In lc l_comb -> In lt (uniq_lmt lc (tpc lc)) ->
    In (map snd lt) (tpc lc) /\ lt = combine lc (map snd lt) /\ lmt_multiset lc (map snd lt) = lt.
  Proof.
    intros H Hlt. apply uniq_In in Hlt; [|exact H]. destruct Hlt as [p [Hp ->]]. pose proof Hp as Hp'.
    apply tpc_In in Hp; [|exact H]. destruct Hp as [H1 [t [Ht H2]]].
    destruct (Hl lc H) as [_ [Hs _]]. destruct (lmt_shape lc p Hs H1) as [S1 [S2 [S3 S4]]].
    split; [|split; [exact S3|]].
    - apply tpc_In; [exact H|]. split; [now rewrite (Permutation_length S2)|]. exists t. split; [exact Ht|].
      rewrite Forall_forall in *. intros tp Htp. apply H2. eapply Permutation_in; [exact S2|exact Htp].
    - apply lmt_perm. rewrite <- S3. exact S4.
  Qed.
  Lemma lt_of_In lc il lt x : In lc l_comb -> In lt (uniq_lmt lc (tpc lc)) ->
    (In x (lt_of nt tpn (tpc lc) il (length lc) lt) <->
     exists n, x = LT n il (find_id leqb (map snd lt) (tpc lc)) (length lc) (types_of nt (map snd lt)) /\
               Forall (fun tp => In n (nth tp tpn [])) (map snd lt)).
  Proof.
    intros H Hlt. destruct (uniq_shape lc lt H Hlt) as [S1 [S2 _]]. destruct (find_id_spec _ _ S1) as [F1 F2].
    unfold lt_of. rewrite in_map_iff. rewrite (nth_map_lt _ _ _ [] []) by exact F1. rewrite F2.
    assert (Ne : map snd lt <> []).
    { apply tpc_In in S1; [|exact H]. destruct S1 as [S1 _]. destruct (Hl lc H) as [H1 _]. destruct lc; [congruence|]. destruct (map snd lt); [discriminate|congruence]. }
    split; intros [n Hn]; exists n; rewrite nonzero_n_In in * by exact Ne; intuition congruence.
  Qed.
  Lemma lt_all_In x : In x (lt_all nt tpn l_comb) <->
    exists il lc lt, nth_error l_comb il = Some lc /\ In lt (uniq_lmt lc (tpc lc)) /\ In x (lt_of nt tpn (tpc lc) il (length lc) lt).
  Proof.
    unfold lt_all. fold gorder. rewrite in_flat_map. split.
    - intros [[il lc] [Hi H]]. cbn [fst snd] in H. apply in_flat_map in H. destruct H as [lt [H1 H2]].
      exists il, lc, lt. split; [|auto]. apply (In_nth _ _ (0, [])) in Hi. destruct Hi as [k [Hk E]].
      rewrite combine_length, seq_length, Nat.min_id in Hk. rewrite combine_nth in E by apply seq_length. injection E as E1 E2.
      rewrite seq_nth in E1 by exact Hk. cbn in E1. subst k. rewrite <- E2. now apply nth_error_nth'.
    - intros [il [lc [lt [H1 [H2 H3]]]]]. exists (il, lc). split.
      + assert (Hk : il < length l_comb) by (apply nth_error_Some; congruence).
        replace (il, lc) with (nth il (combine (seq 0 (length l_comb)) l_comb) (0, [])).
        * apply nth_In. rewrite combine_length, seq_length, Nat.min_id. exact Hk.
        * rewrite combine_nth by apply seq_length. rewrite seq_nth by exact Hk. now rewrite (nth_error_nth _ _ [] H1).
      + cbn [fst snd]. apply in_flat_map. exists lt. auto.
  Qed.
  Lemma group_all_In {A} (key : A -> nat) n l x : In x (concat (group n key (fun t => t) l)) <-> In x l /\ key x < n.
  Proof.
    rewrite in_concat. split.
    - intros [g [Hg Hx]]. apply (In_nth _ _ []) in Hg. destruct Hg as [k [Hk E]]. rewrite group_length in Hk.
      rewrite group_nth in E by exact Hk. subst g. rewrite map_id in Hx. apply filter_In in Hx. destruct Hx as [Hx E].
      apply Nat.eqb_eq in E. split; [exact Hx|lia].
    - intros [Hx Hk]. exists (nth (key x) (group n key (fun t => t) l) []). split.
      + apply nth_In. now rewrite group_length.
      + rewrite group_nth by exact Hk. rewrite map_id. apply filter_In. split; [exact Hx|apply Nat.eqb_refl].
  Qed.
  Lemma concat_nth_seq {A} (v : list (list A)) : concat v = flat_map (fun k => nth k v []) (seq 0 (length v)).
  Proof.
    induction v as [|x v IH]; [reflexivity|]. cbn [concat length seq flat_map nth]. f_equal.
    rewrite IH. rewrite <- seq_shift. rewrite !flat_map_concat_map, map_map. reflexivity.
  Qed.
  Lemma group_all_nodup {A} (key : A -> nat) n l : NoDup l -> NoDup (concat (group n key (fun t => t) l)).
  Proof.
    intros H. rewrite concat_nth_seq, group_length. apply NoDup_flat_map; [apply seq_NoDup| |].
    - intros k Hk. apply in_seq in Hk. rewrite group_nth by lia. rewrite map_id. now apply NoDup_filter.
    - intros x y z Hx Hy Zx Zy. apply in_seq in Hx, Hy. rewrite group_nth, map_id in Zx, Zy by lia.
      apply filter_In in Zx, Zy. destruct Zx as [_ Zx], Zy as [_ Zy]. apply Nat.eqb_eq in Zx, Zy. congruence.
  Qed.

  Theorem linear_terms_In x : In x (linear_terms nt n_fn tpn l_comb) <->
    exists il lc lt, nth_error l_comb il = Some lc /\ In lt (uniq_lmt lc (tpc lc)) /\ In x (lt_of nt tpn (tpc lc) il (length lc) lt).
  Proof.
    unfold linear_terms. rewrite group_all_In, lt_all_In. split; [tauto|]. intros H. split; [exact H|].
    destruct H as [il [lc [lt [H1 [H2 H3]]]]]. pose proof (nth_error_In _ _ H1) as H.
    apply lt_of_In in H3; [|assumption|assumption]. destruct H3 as [n [-> F]]. cbn.
    destruct (uniq_shape lc lt H H2) as [S1 _]. apply tpc_In in S1; [|exact H]. destruct S1 as [S1 _].
    destruct (Hl lc H) as [Ne _]. destruct (map snd lt) as [|tp r]; [destruct lc; [congruence|discriminate]|].
    inversion F; subst. eapply tpn_bound. eassumption.
  Qed.
  Lemma lt_tps_of lc il lt n ty : nth_error l_comb il = Some lc -> In lt (uniq_lmt lc (tpc lc)) ->
    lt_tps (LT n il (find_id leqb (map snd lt) (tpc lc)) (length lc) ty) = map snd lt.
  Proof.
    intros H1 H2. unfold Spec.ModelParams.lt_tps. cbn [lt_tp lt_order]. pose proof (nth_error_In _ _ H1) as H.
    destruct (uniq_shape lc lt H H2) as [S1 _]. apply (find_id_spec _ _ S1).
  Qed.
  Theorem linear_terms_sound x : In x (linear_terms nt n_fn tpn l_comb) ->
    exists lc, lt_valid (lt_n x) (lt_lm x) lc (lt_tps x) /\ lt_n x < n_fn /\ lt_order x = length lc /\
      ssorted (lt_type1 x) /\ forall t, In t (lt_type1 x) <-> t < nt /\ Forall (fun tp => adm_tp nt tp t) (lt_tps x).
  Proof.
    intros Hx. apply linear_terms_In in Hx. destruct Hx as [il [lc [lt [H1 [H2 H3]]]]]. pose proof (nth_error_In _ _ H1) as H.
    apply lt_of_In in H3; [|assumption|assumption]. destruct H3 as [n [-> F]]. exists lc.
    rewrite (lt_tps_of lc il lt n _ H1 H2). cbn [lt_n lt_lm lt_order lt_type1].
    destruct (uniq_shape lc lt H H2) as [S1 _]. apply tpc_In in S1; [|exact H]. destruct S1 as [S1 S2].
    split; [unfold Spec.ModelParams.lt_valid; auto|]. split.
    { destruct (Hl lc H) as [Ne _]. destruct (map snd lt) as [|tp r]; [destruct lc; [congruence|discriminate]|].
      inversion F; subst. eapply tpn_bound. eassumption. }
    split; [reflexivity|]. split; [apply types_of_ssorted|apply types_of_spec].
  Qed.
  Theorem linear_terms_complete n il lc tps : lt_valid n il lc tps ->
    exists x, In x (linear_terms nt n_fn tpn l_comb) /\ lt_n x = n /\ lt_lm x = il /\
              Permutation (combine lc (lt_tps x)) (combine lc tps).
  Proof.
    intros [H1 [H2 [[t [Ht H3]] H4]]]. pose proof (nth_error_In _ _ H1) as H. destruct (Hl lc H) as [Ne [Hs _]].
    destruct (lmt_shape lc tps Hs H2) as [S1 [S2 [S3 S4]]]. set (lt := lmt_multiset lc tps) in *.
    assert (I : In lt (uniq_lmt lc (tpc lc))).
    { apply uniq_In; [exact H|]. exists tps. split; [apply tpc_In; [exact H|eauto]|reflexivity]. }
    exists (LT n il (find_id leqb (map snd lt) (tpc lc)) (length lc) (types_of nt (map snd lt))). split.
    - apply linear_terms_In. exists il, lc, lt. split; [exact H1|]. split; [exact I|]. apply lt_of_In; [exact H|exact I|].
      exists n. split; [reflexivity|]. rewrite Forall_forall in *. intros tp Htp. apply H4. eapply Permutation_in; [exact S2|exact Htp].
    - split; [reflexivity|]. split; [reflexivity|]. rewrite (lt_tps_of lc il lt n _ H1 I). rewrite <- S3. exact S4.
  Qed.
  Theorem linear_terms_unique x y lc : In x (linear_terms nt n_fn tpn l_comb) -> In y (linear_terms nt n_fn tpn l_comb) ->
    nth_error l_comb (lt_lm x) = Some lc -> lt_n x = lt_n y -> lt_lm x = lt_lm y ->
    Permutation (combine lc (lt_tps x)) (combine lc (lt_tps y)) -> x = y.
  Proof.
    intros Hx Hy Hlc En El P. apply linear_terms_In in Hx, Hy.
    destruct Hx as [il [lc1 [lt1 [H1 [H2 H3]]]]], Hy as [il' [lc2 [lt2 [H1' [H2' H3']]]]].
    pose proof (nth_error_In _ _ H1) as I1. pose proof (nth_error_In _ _ H1') as I2.
    apply lt_of_In in H3; [|assumption|assumption]. apply lt_of_In in H3'; [|assumption|assumption].
    destruct H3 as [n [-> F]], H3' as [n' [-> F']]. cbn [lt_n lt_lm] in *. subst n' il'.
    rewrite H1 in Hlc. injection Hlc as ->. rewrite H1 in H1'. injection H1' as <-.
    rewrite (lt_tps_of lc il lt1 n _ H1 H2), (lt_tps_of lc il lt2 n _ H1 H2') in P.
    destruct (uniq_shape lc lt1 I1 H2) as [_ [_ Q1]], (uniq_shape lc lt2 I1 H2') as [_ [_ Q2]].
    assert (lt1 = lt2) by (rewrite <- Q1, <- Q2; now apply lmt_perm). now subst lt2.
  Qed.
  Theorem linear_terms_nodup : NoDup (linear_terms nt n_fn tpn l_comb).
  Proof.
    apply group_all_nodup. unfold lt_all. fold gorder.
    assert (C : forall il lc, In (il, lc) (combine (seq 0 (length l_comb)) l_comb) -> In lc l_comb) by (intros il lc; apply in_combine_r).
    apply NoDup_flat_map.
    - apply (NoDup_map_inv fst). rewrite combine_fst by apply seq_length. apply seq_NoDup.
    - intros [il lc] Hi. cbn [fst snd]. specialize (C _ _ Hi). apply NoDup_flat_map.
      + apply uniq_nodup.
      + intros lt _. unfold lt_of. apply FinFun.Injective_map_NoDup; [intros a b E; congruence|].
        set (tc := nth (length lc) (tp_combs nt gorder) []). clearbody tc.
        destruct (Nat.lt_ge_cases (find_id leqb (map snd lt) tc) (length tc)) as [L|L].
        * rewrite (nth_map_lt _ _ _ [] []) by exact L. apply nonzero_n_nodup, tpn_nodup.
        * rewrite nth_overflow by (rewrite map_length; exact L). constructor.
      + intros lt1 lt2 z H1 H2 Z1 Z2. fold (tpc lc) in *.
        apply lt_of_In in Z1; [|assumption|assumption]. apply lt_of_In in Z2; [|assumption|assumption].
        destruct Z1 as [n [-> _]], Z2 as [n' [E _]]. injection E as _ E _.
        destruct (uniq_shape lc lt1 C H1) as [S1 [Q1 _]], (uniq_shape lc lt2 C H2) as [S2 [Q2 _]].
        apply find_id_spec in S1, S2. rewrite Q1, Q2. f_equal. destruct S1 as [_ <-], S2 as [_ <-]. now rewrite E.
    - intros [il lc] [il' lc'] z Hi Hi' Z Z'. cbn [fst snd] in *.
      apply in_flat_map in Z, Z'. destruct Z as [lt [_ Z]], Z' as [lt' [_ Z']].
      unfold lt_of in Z, Z'. apply in_map_iff in Z, Z'. destruct Z as [n [<- _]], Z' as [n' [E _]]. injection E as _ E _ _ _.
      subst il'. f_equal.
      apply (In_nth _ _ (0, [])) in Hi, Hi'. destruct Hi as [k [Hk Ek]], Hi' as [k' [Hk' Ek']].
      rewrite combine_length, seq_length, Nat.min_id in Hk, Hk'. rewrite combine_nth in Ek, Ek' by apply seq_length.
      injection Ek as E1 E2. injection Ek' as E1' E2'. rewrite seq_nth in E1, E1' by assumption. cbn in E1, E1'. congruence.
  Qed.
  Lemma linear_terms_types_ok : types_ok nt (linear_terms nt n_fn tpn l_comb).
  Proof.
    intros x Hx. destruct (linear_terms_sound x Hx) as [lc [_ [_ [_ [H1 H2]]]]]. split; [exact H1|].
    apply Forall_forall. intros t Ht. now apply H2.
  Qed.
End Linear.
