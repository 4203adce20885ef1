(** Lemmas on the elements, types and counts of structures of other programs and of sorted structures. *)
From Verif Require Import Base Num Model.Structure Model.StructureUtils Model.Parser Model.PotentialFile Model.Poscar Spec.Poscar Proofs.StructureUtils Proofs.Poscar.
From Coq Require String Ascii Structures.OrdersEx.
Local Open Scope list_scope.
Local Open Scope nat_scope.

(** ** First appearances *)
Lemma existsb_eqb e l : existsb (String.eqb e) l = true <-> In e l.
Proof. rewrite existsb_exists. split; [intros (x & H & E); apply String.eqb_eq in E; now subst|intros H; exists e; split; [exact H|apply String.eqb_refl]]. Qed.
Lemma firsts_In seen els e : In e (firsts seen els) <-> In e els /\ ~ In e seen.
Proof.
  revert seen. induction els as [|x els IH]; intros seen; cbn [firsts In]; [tauto|]. destruct (existsb (String.eqb x) seen) eqn:E.
  - apply existsb_eqb in E. rewrite IH. intuition congruence.
  - assert (NI : ~ In x seen) by (rewrite <- existsb_eqb, E; discriminate). cbn [In]. rewrite IH. cbn [In]. destruct (String.string_dec x e); intuition congruence.
Qed.
Lemma firsts_NoDup seen els : NoDup (firsts seen els).
Proof. revert seen. induction els as [|x els IH]; intros seen; cbn [firsts]; [constructor|]. destruct (existsb _ _); [apply IH|]. constructor; [|apply IH]. rewrite firsts_In. cbn [In]. tauto. Qed.
Lemma firsts_ext seen seen' els : (forall e, In e els -> (In e seen <-> In e seen')) -> firsts seen els = firsts seen' els.
Proof.
  revert seen seen'. induction els as [|x els IH]; intros seen seen' H; cbn [firsts]; [reflexivity|].
  assert (E : existsb (String.eqb x) seen = existsb (String.eqb x) seen').
  { destruct (existsb (String.eqb x) seen) eqn:A, (existsb (String.eqb x) seen') eqn:B; try reflexivity; exfalso; [apply existsb_eqb in A; apply (H x) in A; [|now left]; apply existsb_eqb in A; congruence|apply existsb_eqb in B; apply (H x) in B; [|now left]; apply existsb_eqb in B; congruence]. }
  rewrite E. destruct (existsb _ seen'); [apply IH; intros; apply H; now right|]. f_equal. apply IH. intros e HE. cbn [In]. rewrite (H e) by (now right). tauto.
Qed.
Lemma firsts_repeat seen e n r : In e seen -> firsts seen (repeat e n ++ r) = firsts seen r.
Proof. intros H. induction n as [|n IH]; [reflexivity|]. cbn [repeat app firsts]. rewrite (proj2 (existsb_eqb e seen) H). exact IH. Qed.
Lemma count_app a b e : count (a ++ b) e = count a e + count b e.
Proof. unfold count. now rewrite filter_app, app_length. Qed.
Lemma count_repeat e n : count (repeat e n) e = n.
Proof. unfold count. induction n as [|n IH]; [reflexivity|]. cbn [repeat filter]. rewrite String.eqb_refl. cbn. now rewrite IH. Qed.
Lemma count_out l e : ~ In e l -> count l e = 0.
Proof. unfold count. induction l as [|x l IH]; intros H; [reflexivity|]. cbn [filter]. destruct (String.eqb_spec e x) as [->|]; [exfalso; apply H; now left|]. apply IH. intros I. apply H. now right. Qed.
Lemma count_pos l e : In e l -> 0 < count l e.
Proof. intros H. unfold count. destruct (filter (String.eqb e) l) as [|x t] eqn:E; [|cbn; lia]. assert (I : In e (filter (String.eqb e) l)) by (apply filter_In; split; [exact H|apply String.eqb_refl]). rewrite E in I. destruct I. Qed.

(** ** Elements standing together *)
Lemma together_tail {E} (e : E) t : together (e :: t) -> together t.
Proof. intros H i j k x HJ HI HK. apply (H (S i) (S j) (S k) x); [lia|assumption|assumption]. Qed.
Lemma together_head (e : string) t : together (e :: t) -> exists n r, t = repeat e n ++ r /\ ~ In e r.
Proof.
  induction t as [|x t IH]; intros H; [exists 0, []; split; [reflexivity|intros []]|]. destruct (String.string_dec x e) as [->|NE].
  - destruct IH as (n & r & -> & HR); [apply together_tail in H; exact H|]. exists (S n), r. split; [reflexivity|exact HR].
  - exists 0, (x :: t). split; [reflexivity|]. intros [->|I]; [now apply NE|]. apply In_nth_error in I. destruct I as [k Hk].
    assert (X : nth_error (e :: x :: t) 1 = Some e) by (apply (H 0 1 (S (S k))); [lia|reflexivity|exact Hk]). cbn in X. injection X as ->. now apply NE.
Qed.
Lemma together_app_r {E} (a b : list E) : together (a ++ b) -> together b.
Proof. induction a as [|x a IH]; [auto|]. intros H. apply together_tail in H. auto. Qed.
Lemma together_spread els : together els -> els = spread (firsts [] els) (map (count els) (firsts [] els)).
Proof.
  remember (length els) as m eqn:Hm. assert (HM : length els <= m) by lia. clear Hm. revert els HM. induction m as [|m IH]; intros [|e t] HM H; try reflexivity; [cbn in HM; lia|].
  destruct (together_head e t H) as (n & r & -> & HR). cbn [firsts existsb]. rewrite firsts_repeat by (now left).
  assert (EF : firsts [e] r = firsts [] r). { apply firsts_ext. intros x Hx. cbn [In]. intuition congruence. }
  rewrite EF. cbn [map spread]. change (e :: repeat e n ++ r) with (repeat e (S n) ++ r). rewrite count_app, count_repeat, (count_out r e HR), Nat.add_0_r. f_equal.
  rewrite (IH r) at 1; [|rewrite app_length in HM || (cbn in HM; rewrite app_length in HM); cbn in HM; lia|apply (together_app_r (e :: repeat e n)); exact H]. f_equal. apply map_ext_in. intros x Hx. apply firsts_In in Hx. rewrite count_app, (count_out (repeat e (S n)) x); [reflexivity|]. intros I. apply repeat_spec in I. subst x. tauto.
Qed.
Lemma sum_counts els u : NoDup u -> (forall e, In e els -> In e u) -> sum (map (count els) u) = length els.
Proof.
  revert u. induction els as [|x els IH]; intros u HU HI; [clear HU HI; induction u as [|y u IH]; [reflexivity|]; cbn; exact IH|].
  cbn [length]. rewrite <- (IH u HU) by (intros; apply HI; now right). assert (HX : In x u) by (apply HI; now left).
  clear IH HI. induction HU as [|y u NY HU IHu]; [destruct HX|]. cbn [map]. change (sum (?a :: ?l)) with (a + sum l). destruct HX as [->|HX].
  - assert (E : map (count (x :: els)) u = map (count els) u). { apply map_ext_in. intros z Hz. unfold count. cbn [filter]. destruct (String.eqb_spec z x) as [->|]; [contradiction|reflexivity]. }
    rewrite E. unfold count at 1. cbn [filter]. rewrite String.eqb_refl. cbn [length]. fold (count els x). lia.
  - rewrite (IHu HX). unfold count at 1. cbn [filter]. destruct (String.eqb_spec y x) as [->|]; [contradiction|]. fold (count els y). lia.
Qed.

(** ** Types that are block numbers *)
Lemma in_block_mono ns i j b b' : in_block ns i b -> in_block ns j b' -> i <= j -> b <= b'.
Proof.
  intros (L1 & H1) (L2 & H2) HIJ. destruct (Nat.le_gt_cases b b') as [|HG]; [assumption|]. exfalso.
  assert (M : forall c, S b' <= c -> sum (firstn (S b') ns) <= sum (firstn c ns)).
  { intros c Hc. replace c with (S b' + (c - S b')) by lia. generalize (c - S b'). clear. intros d. revert ns d. induction (S b') as [|p IH]; intros [|n ns] d; try (cbn; lia). cbn [Nat.add firstn]. change (sum (n :: ?l)) with (n + sum l). specialize (IH ns d). lia. }
  specialize (M b ltac:(lia)). lia.
Qed.
Lemma types_match_spread {E} (u : list E) ns : NoDup u -> length u = length ns -> types_match (spread u ns) (block_types 0 ns).
Proof.
  intros HU HL. split; [rewrite block_types_length, spread_length by assumption; reflexivity|]. intros k k' e e' t t' He He' Ht Ht'.
  assert (B : forall k, nth_error (spread u ns) k <> None -> exists b, in_block ns k b) by (intros j Hj; apply in_block_ex; rewrite <- (spread_length u ns HL); now apply nth_error_Some).
  destruct (B k) as [b Hb]; [congruence|]. destruct (B k') as [b' Hb']; [congruence|]. rewrite (spread_nth u ns k b HL Hb) in He. rewrite (spread_nth u ns k' b' HL Hb') in He'. rewrite (block_types_nth 0 ns k b Hb) in Ht. rewrite (block_types_nth 0 ns k' b' Hb') in Ht'.
  assert (EQ : t = Z.of_nat b /\ t' = Z.of_nat b') by (split; cbn in *; congruence). destruct EQ as [-> ->]. split.
  - intros <-. f_equal. apply (proj1 (NoDup_nth_error u) HU); [apply nth_error_Some; congruence|congruence].
  - intros EB. assert (b = b') by lia. subst b'. congruence.
Qed.
Lemma types_match_together {E} (els : list E) ns : types_match els (block_types 0 ns) -> together els.
Proof.
  intros [HL H] i j k e HJ HI HK. rewrite block_types_length in HL.
  assert (B : forall k, k < length els -> exists b, in_block ns k b) by (intros m Hm; apply in_block_ex; lia).
  assert (LK : k < length els) by (apply nth_error_Some; congruence). destruct (B i) as [bi Bi]; [lia|]. destruct (B j) as [bj Bj]; [lia|]. destruct (B k) as [bk Bk]; [lia|].
  pose proof (block_types_nth 0 ns i bi Bi) as Ti. pose proof (block_types_nth 0 ns j bj Bj) as Tj. pose proof (block_types_nth 0 ns k bk Bk) as Tk. cbn [Nat.add] in *.
  pose proof (proj1 (H i k e e _ _ HI HK Ti Tk) eq_refl) as E1. pose proof (in_block_mono ns i j bi bj Bi Bj ltac:(lia)). pose proof (in_block_mono ns j k bj bk Bj Bk ltac:(lia)). assert (bj = bi) by lia. subst bj.
  destruct (nth_error els j) as [x|] eqn:EX; [|apply nth_error_None in EX; lia]. f_equal. apply (H j i x e _ _ EX HI Tj Ti). reflexivity.
Qed.
Lemma one_element_spread {E} (u : list E) ns : length u = length ns -> one_element ns (spread u ns).
Proof. intros HL k k' b Hk Hk'. now rewrite (spread_nth u ns k b), (spread_nth u ns k' b). Qed.

(** ** [np.unique] of strings *)
Definition slt (a b : string) : Prop := String.compare a b = Lt.
Lemma slt_trans a b c : slt a b -> slt b c -> slt a c.
Proof. exact (RelationClasses.StrictOrder_Transitive (R := OrdersEx.String_as_OT.lt) a b c). Qed.
Lemma scompare_refl a : String.compare a a = Eq.
Proof. induction a as [|x a IH]; [reflexivity|]. cbn. assert (E : Ascii.compare x x = Eq) by (unfold Ascii.compare; apply N.compare_refl). rewrite E. exact IH. Qed.
Lemma slt_irrefl a : ~ slt a a.
Proof. unfold slt. rewrite scompare_refl. discriminate. Qed.
Lemma sinsert_In e l x : In x (sinsert e l) <-> x = e \/ In x l.
Proof.
  induction l as [|y l IH]; cbn [sinsert In]; [intuition congruence|]. destruct (String.compare e y) eqn:E; cbn [In].
  - apply String.compare_eq_iff in E. subst. intuition congruence.
  - intuition congruence.
  - rewrite IH. intuition congruence.
Qed.
Lemma sinsert_sorted e l : StronglySorted slt l -> StronglySorted slt (sinsert e l).
Proof.
  induction 1 as [|y l S IH FA]; cbn [sinsert]; [repeat constructor|]. destruct (String.compare e y) eqn:E.
  - now constructor.
  - constructor; [now constructor|]. constructor; [exact E|]. eapply Forall_impl; [|exact FA]. intros z Hz. now apply (slt_trans e y z).
  - constructor; [exact IH|]. apply Forall_forall. intros z Hz. apply sinsert_In in Hz. destruct Hz as [->|Hz]; [|rewrite Forall_forall in FA; now apply FA]. unfold slt. rewrite String.compare_antisym, E. reflexivity.
Qed.
Lemma np_unique_str_In l x : In x (np_unique_str l) <-> In x l.
Proof. induction l as [|y l IH]; [reflexivity|]. cbn [np_unique_str fold_right]. fold (np_unique_str l). rewrite sinsert_In, IH. cbn [In]. intuition congruence. Qed.
Lemma np_unique_str_sorted l : StronglySorted slt (np_unique_str l).
Proof. induction l as [|y l IH]; [constructor|]. apply sinsert_sorted, IH. Qed.
Lemma sorted_NoDup l : StronglySorted slt l -> NoDup l.
Proof. induction 1 as [|y l S IH FA]; constructor; [|exact IH]. intros I. rewrite Forall_forall in FA. apply FA in I. now apply slt_irrefl in I. Qed.

(** ** The loop of OpenMX *)
Lemma count_mask e els : count_true (mask e els) = count els e.
Proof. unfold count_true, mask, count. induction els as [|x els IH]; [reflexivity|]. cbn [map count_occ filter]. destruct (String.eqb e x); cbn; rewrite IH; reflexivity. Qed.
Lemma set_masked_length m i ty : length m = length ty -> length (set_masked m i ty) = length ty.
Proof. intros H. unfold set_masked. rewrite map_length, combine_length. lia. Qed.
Lemma set_masked_nth e els i ty k x t : nth_error els k = Some x -> nth_error ty k = Some t ->
  nth_error (set_masked (mask e els) i ty) k = Some (if String.eqb e x then i else t).
Proof.
  revert ty k. induction els as [|y els IH]; intros [|t0 ty] [|k] HX HT; try discriminate; cbn in *; [now injection HX as ->; injection HT as ->|]. now apply IH.
Qed.
Lemma assign_types_spec els uniq i ty : NoDup uniq -> length ty = length els ->
  let '(ty', ns) := assign_types_loop els uniq i ty in
  ns = map (count els) uniq /\ length ty' = length els /\
  (forall k x p, nth_error els k = Some x -> nth_error uniq p = Some x -> nth_error ty' k = Some (Z.of_nat (i + p))) /\
  (forall k x, nth_error els k = Some x -> ~ In x uniq -> nth_error ty' k = nth_error ty k).
Proof.
  intros HU. revert i ty. induction HU as [|e uniq NE HU IH]; intros i ty HT; cbn [assign_types_loop].
  - cbn [map]. repeat split; auto. intros k x [|p] _ HP; discriminate HP.
  - assert (HS : length (set_masked (mask e els) (Z.of_nat i) ty) = length els) by (rewrite set_masked_length; [exact HT|unfold mask; rewrite map_length; lia]).
    specialize (IH (S i) (set_masked (mask e els) (Z.of_nat i) ty) HS). destruct (assign_types_loop els uniq (S i) _) as [ty' ns]. destruct IH as (-> & IL & I1 & I2).
    split; [cbn [map]; now rewrite count_mask|]. split; [exact IL|].
    assert (TY : forall k x, nth_error els k = Some x -> exists t, nth_error ty k = Some t).
    { intros k x HX. destruct (nth_error ty k) eqn:ET; [eauto|]. apply nth_error_None in ET. assert (k < length els) by (apply nth_error_Some; congruence). lia. }
    split.
    + intros k x [|p] HX HP.
      * injection HP as ->. destruct (TY k x HX) as [t Ht]. rewrite (I2 k x HX NE), (set_masked_nth _ _ _ _ _ x t HX Ht), String.eqb_refl. do 2 f_equal. lia.
      * cbn in HP. rewrite (I1 k x p HX HP). do 2 f_equal. lia.
    + intros k x HX HN. destruct (TY k x HX) as [t Ht]. rewrite (I2 k x HX) by (intros I; apply HN; now right). rewrite (set_masked_nth _ _ _ _ _ x t HX Ht), Ht. destruct (String.eqb_spec e x) as [->|]; [exfalso; apply HN; now left|reflexivity].
Qed.

(** ** Sorted structures *)
Lemma sorted_types_spread {T} (key : T -> Z) u (L : list T) : map key (zgroup key u L) = spread u (map (fun i => length (filter (isz key i) L)) u).
Proof.
  induction u as [|i u IH]; [reflexivity|]. rewrite zgroup_cons, map_app. cbn [map spread]. rewrite IH. f_equal. clear IH. induction L as [|x L IH]; [reflexivity|]. cbn [filter]. destruct (isz key i x) eqn:E; [|exact IH]. cbn [map length repeat]. unfold isz in E. apply Z.eqb_eq in E. rewrite <- E. f_equal. exact IH.
Qed.
