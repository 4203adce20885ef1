(** Facts about the container operations of Model/Cxx.v. *)
From Verif Require Import Base Model.Cxx.

Lemma upd_length {A} i (f : A -> A) l : length (upd i f l) = length l.
Proof. revert i; induction l as [|a l IH]; intros [|i]; cbn; congruence. Qed.

Lemma upd_nth {A} i (f : A -> A) l k d : nth k (upd i f l) d = if (k =? i) && (i <? length l) then f (nth i l d) else nth k l d.
Proof.
  revert i k; induction l as [|a l IH]; intros [|i] [|k]; cbn; try reflexivity.
  - now rewrite andb_false_r.
  - rewrite IH. reflexivity.
Qed.
Lemma upd_nth_eq {A} i (f : A -> A) l d : i < length l -> nth i (upd i f l) d = f (nth i l d).
Proof. intros H. rewrite upd_nth, Nat.eqb_refl. apply Nat.ltb_lt in H. now rewrite H. Qed.
Lemma upd_nth_neq {A} i (f : A -> A) l k d : k <> i -> nth k (upd i f l) d = nth k l d.
Proof. intros H. rewrite upd_nth. apply Nat.eqb_neq in H. now rewrite H. Qed.

(** Grouping. *)
Lemma group_acc {A B} (key : A -> nat) (val : A -> B) l v k :
  k < length v ->
  nth k (fold_left (fun v x => upd (key x) (fun b => b ++ [val x]) v) l v) []
  = nth k v [] ++ map val (filter (fun x => key x =? k) l).
Proof.
  revert v; induction l as [|x l IH]; intros v Hk; cbn [fold_left filter map].
  - now rewrite app_nil_r.
  - rewrite IH by (rewrite upd_length; exact Hk).
    destruct (Nat.eqb_spec (key x) k) as [E|E].
    + subst k. rewrite upd_nth_eq by exact Hk. cbn. now rewrite <- app_assoc.
    + rewrite upd_nth_neq by congruence. reflexivity.
Qed.
Lemma group_length {A B} n (key : A -> nat) (val : A -> B) l : length (group n key val l) = n.
Proof.
  unfold group. rewrite <- (repeat_length (@nil B) n) at 2. generalize (repeat (@nil B) n).
  induction l as [|x l IH]; intros v; cbn; [reflexivity|]. rewrite IH. apply upd_length.
Qed.
Lemma nth_repeat_nil {A} n k : nth k (repeat (@nil A) n) [] = [].
Proof. revert k; induction n; intros [|k]; cbn; auto. Qed.
Lemma group_nth {A B} n (key : A -> nat) (val : A -> B) l k :
  k < n -> nth k (group n key val l) [] = map val (filter (fun x => key x =? k) l).
Proof.
  intros Hk. unfold group. rewrite group_acc by (rewrite repeat_length; exact Hk).
  now rewrite nth_repeat_nil.
Qed.

(** Sorting. *)
Lemma ins_by_perm {A} (leb : A -> A -> bool) x l : Permutation (ins_by leb x l) (x :: l).
Proof.
  induction l as [|y l IH]; cbn; [reflexivity|]. destruct (leb x y); [reflexivity|].
  rewrite IH. apply perm_swap.
Qed.
Lemma sort_by_perm {A} (leb : A -> A -> bool) l : Permutation (sort_by leb l) l.
Proof. induction l as [|x l IH]; cbn; [reflexivity|]. rewrite ins_by_perm. now rewrite IH. Qed.
Lemma sortn_perm l : Permutation (sortn l) l.
Proof. apply sort_by_perm. Qed.
Lemma sortn_length l : length (sortn l) = length l.
Proof. apply Permutation_length, sortn_perm. Qed.

Lemma ins_sorted x l : StronglySorted le l -> StronglySorted le (ins_by Nat.leb x l).
Proof.
  induction 1 as [|y l Hs IH Hf]; cbn; [repeat constructor|].
  destruct (Nat.leb_spec x y) as [L|L].
  - constructor; [constructor; assumption|]. constructor; [exact L|].
    rewrite Forall_forall in *. intros z Hz. specialize (Hf z Hz). lia.
  - constructor; [exact IH|]. rewrite Forall_forall in *. intros z Hz.
    apply (Permutation_in _ (ins_by_perm Nat.leb x l)) in Hz. destruct Hz as [<-|Hz]; [lia|auto].
Qed.
Lemma sortn_sorted l : StronglySorted le (sortn l).
Proof. induction l as [|x l IH]; cbn; [constructor|]. now apply ins_sorted. Qed.
Lemma sorted_perm_eq l1 l2 : StronglySorted le l1 -> StronglySorted le l2 -> Permutation l1 l2 -> l1 = l2.
Proof.
  intros S1. revert l2. induction S1 as [|x l1 S1 IH F1]; intros l2 S2 P.
  - now apply Permutation_nil in P.
  - destruct l2 as [|y l2]; [now apply Permutation_sym, Permutation_nil in P|].
    inversion S2 as [|y' l2' S2' F2]; subst.
    assert (x = y).
    { rewrite Forall_forall in F1, F2.
      assert (In y (x :: l1)) as Hy by (apply (Permutation_in _ (Permutation_sym P)); now left).
      assert (In x (y :: l2)) as Hx by (apply (Permutation_in _ P); now left).
      destruct Hy as [|Hy]; [assumption|]. destruct Hx as [|Hx]; [congruence|].
      specialize (F1 _ Hy). specialize (F2 _ Hx). lia. }
    subst y. f_equal. apply IH; [assumption|]. eapply Permutation_cons_inv; eassumption.
Qed.
Lemma sortn_perm_eq l1 l2 : Permutation l1 l2 -> sortn l1 = sortn l2.
Proof.
  intros P. apply sorted_perm_eq; [apply sortn_sorted|apply sortn_sorted|]. now rewrite !sortn_perm.
Qed.
Lemma sortn_id l : StronglySorted le l -> sortn l = l.
Proof. intros H. apply sorted_perm_eq; [apply sortn_sorted|exact H|apply sortn_perm]. Qed.

(** Equality of integer vectors. *)
Lemma leqb_eq a b : leqb a b = true <-> a = b.
Proof.
  revert b; induction a as [|x a IH]; intros [|y b]; cbn; try (split; congruence).
  rewrite andb_true_iff, IH, Nat.eqb_eq. split; [intros [-> ->]; reflexivity|intros H; injection H; auto].
Qed.
Lemma leqb_refl a : leqb a a = true.
Proof. now apply leqb_eq. Qed.
Lemma leqb_neq a b : leqb a b = false <-> a <> b.
Proof. rewrite <- leqb_eq. destruct (leqb a b); split; congruence. Qed.

(** Hash maps. *)
Lemma um_find_alter {V} k (f : option V -> V) m k' :
  um_find k' (um_alter k f m) = if leqb k' k then Some (f (um_find k m)) else um_find k' m.
Proof.
  induction m as [|[k0 v] m IH]; cbn.
  - destruct (leqb k' k); reflexivity.
  - destruct (leqb k k0) eqn:E; cbn.
    + apply leqb_eq in E. subst k0. destruct (leqb k' k); reflexivity.
    + destruct (leqb k' k0) eqn:E'; [|exact IH].
      apply leqb_eq in E'. subst k0. destruct (leqb k' k) eqn:E2; [|reflexivity].
      apply leqb_eq in E2. subst. rewrite leqb_refl in E. discriminate.
Qed.
Lemma um_find_set {V} k (v : V) m k' : um_find k' (um_set k v m) = if leqb k' k then Some v else um_find k' m.
Proof. unfold um_set. apply um_find_alter. Qed.
Lemma um_get_set k v m k' : um_get k' (um_set k v m) = if leqb k' k then v else um_get k' m.
Proof. unfold um_get. rewrite um_find_set. destruct (leqb k' k); reflexivity. Qed.

(** Keys of a map stay distinct. *)
Lemma um_alter_keys_in {V} k (f : option V -> V) m k' :
  In k' (map fst (um_alter k f m)) <-> k' = k \/ In k' (map fst m).
Proof.
  induction m as [|[k0 v] m IH]; cbn; [intuition congruence|].
  destruct (leqb k k0) eqn:E; cbn.
  - apply leqb_eq in E. subst. intuition congruence.
  - rewrite IH. intuition congruence.
Qed.
Lemma um_alter_nodup {V} k (f : option V -> V) m : NoDup (map fst m) -> NoDup (map fst (um_alter k f m)).
Proof.
  induction m as [|[k0 v] m IH]; cbn; intros H; [repeat constructor; auto|].
  inversion H as [|? ? Hn Hd]; subst. destruct (leqb k k0) eqn:E; cbn; [assumption|].
  constructor; [|auto]. rewrite um_alter_keys_in. intros [->|C]; [|contradiction].
  rewrite leqb_refl in E. discriminate.
Qed.

(** Sets of integer vectors. *)
Lemma lexn_refl a : lexn a a = Eq.
Proof. unfold lexn. induction a as [|x a IH]; cbn; [reflexivity|]. now rewrite Nat.compare_refl. Qed.
Lemma lexn_eq a b : lexn a b = Eq -> a = b.
Proof.
  unfold lexn. revert b; induction a as [|x a IH]; intros [|y b]; cbn; try congruence.
  destruct (Nat.compare_spec x y); try congruence. intros H'. subst. f_equal. now apply IH.
Qed.
Lemma set_insert_In {A} (cmp : A -> A -> comparison) (Heq : forall a b, cmp a b = Eq -> a = b) x l y :
  In y (set_insert cmp x l) <-> y = x \/ In y l.
Proof.
  induction l as [|z l IH]; cbn; [intuition congruence|].
  destruct (cmp x z) eqn:E; cbn.
  - apply Heq in E. subst. intuition congruence.
  - intuition congruence.
  - rewrite IH. intuition congruence.
Qed.
Lemma set_of_acc_In {A} (cmp : A -> A -> comparison) (Heq : forall a b, cmp a b = Eq -> a = b) l s y :
  In y (fold_left (fun s x => set_insert cmp x s) l s) <-> In y l \/ In y s.
Proof.
  revert s; induction l as [|x l IH]; intros s; cbn; [intuition|]. rewrite IH, set_insert_In by assumption.
  intuition congruence.
Qed.
Lemma set_of_In {A} (cmp : A -> A -> comparison) (Heq : forall a b, cmp a b = Eq -> a = b) l y :
  In y (set_of cmp l) <-> In y l.
Proof. unfold set_of. rewrite set_of_acc_In by assumption. cbn. intuition. Qed.

Section SetSorted.
  Context {A : Type} (cmp : A -> A -> comparison).
  Hypothesis Heq : forall a b, cmp a b = Eq -> a = b.
  Hypothesis Htr : forall a b c, cmp a b = Lt -> cmp b c = Lt -> cmp a c = Lt.
  Hypothesis Has : forall a b, cmp a b = Gt -> cmp b a = Lt.
  Hypothesis Hirr : forall a, cmp a a <> Lt.
  Definition clt a b := cmp a b = Lt.
  Lemma set_insert_sorted x l : StronglySorted clt l -> StronglySorted clt (set_insert cmp x l).
  Proof.
    induction 1 as [|y l Hs IH Hf]; cbn; [repeat constructor|].
    destruct (cmp x y) eqn:E.
    - constructor; assumption.
    - constructor; [constructor; assumption|]. constructor; [exact E|].
      rewrite Forall_forall in *. intros z Hz. eapply Htr; [exact E|]. now apply Hf.
    - constructor; [exact IH|]. rewrite Forall_forall in *. intros z Hz.
      apply set_insert_In in Hz; [|exact Heq]. destruct Hz as [->|Hz]; [now apply Has|now apply Hf].
  Qed.
  Lemma set_of_sorted l : StronglySorted clt (set_of cmp l).
  Proof.
    unfold set_of. assert (G : StronglySorted clt (@nil A)) by constructor. revert G. generalize (@nil A).
    induction l as [|x l IH]; intros s Hs; cbn; [exact Hs|]. apply IH. now apply set_insert_sorted.
  Qed.
  Lemma clt_sorted_nodup l : StronglySorted clt l -> NoDup l.
  Proof.
    induction 1 as [|x l Hs IH Hf]; constructor; [|exact IH].
    rewrite Forall_forall in Hf. intros Hx. exact (Hirr x (Hf x Hx)).
  Qed.
  Lemma set_of_nodup l : NoDup (set_of cmp l).
  Proof. apply clt_sorted_nodup, set_of_sorted. Qed.
End SetSorted.

Lemma lex_trans {A} (cmp : A -> A -> comparison)
  (Heq : forall a b, cmp a b = Eq -> a = b) (Hrefl : forall a, cmp a a = Eq)
  (Htr : forall a b c, cmp a b = Lt -> cmp b c = Lt -> cmp a c = Lt) a b c :
  lex cmp a b = Lt -> lex cmp b c = Lt -> lex cmp a c = Lt.
Proof.
  revert b c; induction a as [|x a IH]; intros [|y b] [|z c]; cbn; try congruence.
  destruct (cmp x y) eqn:E1; destruct (cmp y z) eqn:E2; try congruence; intros H1 H2.
  - apply Heq in E1, E2. subst. rewrite Hrefl. eauto.
  - apply Heq in E1. subst. now rewrite E2.
  - apply Heq in E2. subst. now rewrite E1.
  - now rewrite (Htr _ _ _ E1 E2).
Qed.
Lemma lex_anti {A} (cmp : A -> A -> comparison)
  (Heq : forall a b, cmp a b = Eq -> a = b) (Hrefl : forall a, cmp a a = Eq)
  (Has : forall a b, cmp a b = Gt -> cmp b a = Lt) a b :
  lex cmp a b = Gt -> lex cmp b a = Lt.
Proof.
  revert b; induction a as [|x a IH]; intros [|y b]; cbn; try congruence.
  destruct (cmp x y) eqn:E1; try congruence; intros H1.
  - apply Heq in E1. subst. rewrite Hrefl. auto.
  - now rewrite (Has _ _ E1).
Qed.
Lemma lex_refl {A} (cmp : A -> A -> comparison) (Hrefl : forall a, cmp a a = Eq) a : lex cmp a a = Eq.
Proof. induction a as [|x a IH]; cbn; [reflexivity|]. now rewrite Hrefl. Qed.
Lemma lex_eq {A} (cmp : A -> A -> comparison) (Heq : forall a b, cmp a b = Eq -> a = b) a b : lex cmp a b = Eq -> a = b.
Proof.
  revert b; induction a as [|x a IH]; intros [|y b]; cbn; try congruence.
  destruct (cmp x y) eqn:E; try congruence. intros H. apply Heq in E. subst. f_equal. auto.
Qed.
Lemma ncmp_eq a b : Nat.compare a b = Eq -> a = b. Proof. apply Nat.compare_eq. Qed.
Lemma ncmp_trans a b c : Nat.compare a b = Lt -> Nat.compare b c = Lt -> Nat.compare a c = Lt.
Proof. rewrite !Nat.compare_lt_iff. lia. Qed.
Lemma ncmp_anti a b : Nat.compare a b = Gt -> Nat.compare b a = Lt.
Proof. rewrite Nat.compare_gt_iff, Nat.compare_lt_iff. lia. Qed.
Lemma lexn_nodup l : NoDup (set_of lexn l).
Proof.
  apply set_of_nodup.
  - apply lexn_eq.
  - intros a b c. apply (lex_trans _ ncmp_eq Nat.compare_refl ncmp_trans).
  - intros a b. apply (lex_anti _ ncmp_eq Nat.compare_refl ncmp_anti).
  - intros a. rewrite lexn_refl. discriminate.
Qed.
Lemma lexn_In l y : In y (set_of lexn l) <-> In y l.
Proof. apply set_of_In, lexn_eq. Qed.

Lemma cmp_pair_refl a : cmp_pair a a = Eq.
Proof. unfold cmp_pair. now rewrite !Nat.compare_refl. Qed.
Lemma cmp_pair_eq a b : cmp_pair a b = Eq -> a = b.
Proof.
  unfold cmp_pair. destruct a as [a1 a2], b as [b1 b2]. cbn.
  destruct (Nat.compare_spec a1 b1); try congruence. intros H'. apply Nat.compare_eq in H'. congruence.
Qed.
Lemma cmp_pair_trans a b c : cmp_pair a b = Lt -> cmp_pair b c = Lt -> cmp_pair a c = Lt.
Proof.
  unfold cmp_pair. destruct a as [a1 a2], b as [b1 b2], c as [c1 c2]; cbn.
  destruct (Nat.compare_spec a1 b1), (Nat.compare_spec b1 c1), (Nat.compare_spec a1 c1);
    rewrite ?Nat.compare_lt_iff; try congruence; try lia.
Qed.
Lemma cmp_pair_anti a b : cmp_pair a b = Gt -> cmp_pair b a = Lt.
Proof.
  unfold cmp_pair. destruct a as [a1 a2], b as [b1 b2]; cbn.
  destruct (Nat.compare_spec a1 b1), (Nat.compare_spec b1 a1); try congruence; try lia.
  rewrite Nat.compare_gt_iff, Nat.compare_lt_iff. lia.
Qed.

(** The position map of a set. *)
Lemma set_map_find s k i d : NoDup s -> i < length s -> nth i s d = k -> um_find k (set_map s) = Some i.
Proof.
  intros Hd Hi Hk. unfold set_map.
  assert (G : forall s b (m : umap nat), NoDup s ->
    um_find k (fold_left (fun m ki => um_set (fst ki) (snd ki) m) (combine s (seq b (length s))) m)
    = match find_id leqb k s with j => if j <? length s then Some (b + j) else um_find k m end).
  { clear. induction s as [|x s IH]; intros b m Hd; cbn; [reflexivity|].
    inversion Hd as [|? ? Hn Hd']; subst. rewrite IH by assumption.
    destruct (leqb k x) eqn:E.
    - apply leqb_eq in E. subst x.
      assert (find_id leqb k s = length s) as ->.
      { clear -Hn. induction s as [|y s IH]; cbn; [reflexivity|].
        destruct (leqb k y) eqn:E; [apply leqb_eq in E; subst; exfalso; apply Hn; now left|].
        f_equal. apply IH. intros C. apply Hn. now right. }
      rewrite Nat.ltb_irrefl. rewrite um_find_set, leqb_refl. cbn. apply f_equal. lia.
    - change (S (find_id leqb k s) <=? length s) with (find_id leqb k s <? length s).
      destruct (find_id leqb k s <? length s); [apply f_equal; lia|]. rewrite um_find_set, E. reflexivity. }
  rewrite G by assumption.
  assert (find_id leqb k s = i) as ->.
  { clear G. revert i Hi Hk. induction Hd as [|x s Hn Hd IH]; intros [|i] Hi Hk; cbn in *; try lia.
    - subst. now rewrite leqb_refl.
    - destruct (leqb k x) eqn:E.
      + apply leqb_eq in E. subst x. exfalso. apply Hn. rewrite <- Hk. apply nth_In. lia.
      + f_equal. apply IH; [lia|assumption]. }
  apply Nat.ltb_lt in Hi. rewrite Hi. reflexivity.
Qed.
Lemma set_map_get s k d : NoDup s -> In k s -> um_get k (set_map s) < length s /\ nth (um_get k (set_map s)) s d = k.
Proof.
  intros Hd Hk. destruct (In_nth _ _ d Hk) as [i [Hi E]].
  unfold um_get. rewrite (set_map_find s k i d Hd Hi E). split; assumption.
Qed.

(** Erasing a component. *)
Lemma erase_perm {A} i (l : list A) d : i < length l -> Permutation (nth i l d :: erase i l) l.
Proof.
  revert i; induction l as [|a l IH]; intros [|i] H; cbn in *; try lia; [reflexivity|].
  rewrite perm_swap. constructor. apply IH. lia.
Qed.
Lemma erase_length {A} i (l : list A) : i < length l -> length (erase i l) = length l - 1.
Proof. revert i; induction l as [|a l IH]; intros [|i] H; cbn in *; try lia. rewrite IH; lia. Qed.
Lemma erase_a_key_perm i l d : i < length l -> Permutation (nth i l d :: erase_a_key l i) l.
Proof. intros H. unfold erase_a_key. rewrite sortn_perm. now apply erase_perm. Qed.

(** Intersections of sorted lists. *)
Lemma set_intersection_In a b x :
  StronglySorted le a -> StronglySorted le b -> (In x (set_intersection a b) <-> In x a /\ In x b).
Proof.
  unfold set_intersection. intros Sa Sb.
  assert (G : forall k a b, length a + length b <= k -> StronglySorted le a -> StronglySorted le b ->
    (In x (set_inter_ k a b) <-> In x a /\ In x b)).
  { clear. induction k as [|k IH]; intros a b Hk Sa Sb.
    - destruct a; cbn in *; [intuition|lia].
    - destruct a as [|y a]; [cbn; intuition|]. destruct b as [|z b]; [cbn; intuition|].
      cbn [length] in Hk.
      inversion Sa as [|? ? Sa' Fa]; inversion Sb as [|? ? Sb' Fb]; subst.
      rewrite Forall_forall in Fa, Fb. cbn [set_inter_].
      destruct (Nat.compare_spec y z) as [E|E|E].
      + subst z. cbn [In]. rewrite IH by (cbn [length]; try lia; assumption). split; [intuition|].
        intros [[->|H1] [H2|H2]]; auto.
      + rewrite IH by (cbn [length]; try lia; assumption). cbn [In]. split; [intuition|].
        intros [[->|H1] H2]; [|auto]. exfalso. destruct H2 as [->|H2]; [lia|]. specialize (Fb _ H2). lia.
      + rewrite IH by (cbn [length]; try lia; assumption). cbn [In]. split; [intuition|].
        intros [H1 [->|H2]]; [|auto]. exfalso. destruct H1 as [->|H1]; [lia|]. specialize (Fa _ H1). lia. }
  apply G; [lia|assumption|assumption].
Qed.
