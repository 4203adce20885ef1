From Verif Require Import Base Model.Structure Model.Properties Model.HybridTypes Proofs.Structure Proofs.GridOptimal Proofs.Properties.
From Coq Require String.
From Coq Require Import Sorting.Sorted.

Lemma insert_perm x l : Permutation (insert_key x l) (x :: l).
Proof. induction l as [|y l IH]; cbn [insert_key]; [reflexivity|]. destruct (fst x <=? fst y); [reflexivity|]. rewrite IH. apply perm_swap. Qed.
Lemma sort_perm l : Permutation (sort_key l) l.
Proof. induction l as [|x l IH]; cbn; [reflexivity|]. rewrite insert_perm. now constructor. Qed.
Lemma insert_sorted x l : StronglySorted (fun a b => fst a <= fst b) l -> StronglySorted (fun a b => fst a <= fst b) (insert_key x l).
Proof.
  intros H. induction H as [|y l H IH HY]; cbn [insert_key]; [repeat constructor|]. destruct (Nat.leb_spec (fst x) (fst y)).
  - constructor; [now constructor|]. constructor; [assumption|]. eapply Forall_impl; [|exact HY]. intros; cbn in *; lia.
  - constructor; [exact IH|]. rewrite Forall_forall in *. intros z Hz. apply (Permutation_in z (insert_perm x l)) in Hz. destruct Hz as [<-|Hz]; [lia|]. now apply HY.
Qed.
Lemma sort_sorted l : StronglySorted (fun a b => fst a <= fst b) (sort_key l).
Proof. induction l as [|x l IH]; cbn; [constructor|]. now apply insert_sorted. Qed.

(** Sorting a list of distinct elements of [els] *)
Definition ascending (els l : list string) : Prop := StronglySorted (fun a b => position a els < position b els) l.
Lemma sorted_elements_ok els l : incl l els -> NoDup l -> exists l', sorted_elements els l = Ok l' /\ Permutation l' l /\ ascending els l'.
Proof.
  intros HI HN. unfold sorted_elements. rewrite (mapM_Ok (py_index els) (fun e => position e els)).
  - cbn [bind]. eexists. split; [reflexivity|]. set (ps := combine (map (fun e => position e els) l) l).
    assert (E : map snd ps = l) by (unfold ps; clear; induction l; cbn; [reflexivity|f_equal; assumption]).
    assert (EK : Forall (fun q => fst q = position (snd q) els) ps) by (unfold ps; clear; induction l; cbn; constructor; [reflexivity|assumption]).
    assert (HP : Permutation (map snd (sort_key ps)) l) by (rewrite <- E; apply Permutation_map, sort_perm). split; [exact HP|].
    assert (EK2 : Forall (fun q => fst q = position (snd q) els) (sort_key ps)) by (rewrite Forall_forall in *; intros q Hq; apply EK; apply (Permutation_in q (sort_perm ps) Hq)).
    assert (HN2 : NoDup (map snd (sort_key ps))) by (eapply Permutation_NoDup; [symmetry; exact HP|exact HN]).
    assert (HI2 : incl (map snd (sort_key ps)) els) by (intros x Hx; apply HI; eapply Permutation_in; eauto).
    pose proof (sort_sorted ps) as HS. clear - HS EK2 HN2 HI2. unfold ascending. induction HS as [|q t HS IH HQ]; cbn [map]; [constructor|]. inversion EK2; subst. cbn [map] in HN2, HI2. inversion HN2; subst. constructor.
    + apply IH; [assumption|assumption|]. intros x Hx. apply HI2. now right.
    + rewrite Forall_forall in *. intros x Hx. apply in_map_iff in Hx. destruct Hx as [r [<- Hr]]. specialize (HQ r Hr). rewrite (H2 r Hr) in HQ. rewrite H1 in HQ.
      destruct (Nat.eq_dec (position (snd q) els) (position (snd r) els)) as [EE|]; [|lia]. exfalso. assert (snd q = snd r).
      { assert (Hq2 := position_nth (snd q) els (HI2 _ (or_introl eq_refl))). assert (Hr2 := position_nth (snd r) els (HI2 _ (or_intror (in_map snd _ _ Hr)))). congruence. }
      apply H3. rewrite H. apply in_map, Hr.
  - intros e He. unfold py_index. replace (is_in els e) with true by (symmetry; apply is_in_In, HI, He). reflexivity.
Qed.
Lemma position_inj els a b : In a els -> In b els -> position a els = position b els -> a = b.
Proof. intros Ha Hb E. assert (H1 := position_nth a els Ha). assert (H2 := position_nth b els Hb). congruence. Qed.
Lemma position_at els k e : NoDup els -> nth_error els k = Some e -> position e els = k.
Proof. intros HN Hk. assert (HI : In e els) by (eapply nth_error_In; eauto). assert (H := position_nth e els HI). rewrite NoDup_nth_error in HN. symmetry. apply HN; [apply nth_error_Some; congruence|congruence]. Qed.

(** The chain of replacements is right for ascending indices. *)
Lemma replace_chain_map idx k l : replace_chain idx k l = map (fun x => match replace_chain idx k [x] with [y] => y | _ => x end) l.
Proof.
  revert k l. induction idx as [|t idx IH]; intros k l; cbn [replace_chain]; [rewrite map_id; reflexivity|]. rewrite IH. unfold replace. rewrite map_map. apply map_ext. intros x. cbn [map]. destruct (replace_chain idx (S k) [_]) as [|y [|]] eqn:E; try reflexivity.
  - rewrite IH in E. discriminate. - rewrite IH in E. discriminate.
Qed.
Lemma replace_chain_low idx k x : StronglySorted lt idx -> (forall t, In t idx -> k <= t) -> x < k -> replace_chain idx k [Z.of_nat x] = [Z.of_nat x].
Proof.
  intros HS. revert k. induction HS as [|t idx HS IH HT]; intros k HK HX; cbn [replace_chain]; [reflexivity|]. cbn [replace map]. destruct (Z.eqb_spec (Z.of_nat x) (Z.of_nat t)) as [E|NE].
  - exfalso. specialize (HK t (or_introl eq_refl)). lia.
  - apply IH; [|lia]. intros u Hu. rewrite Forall_forall in HT. specialize (HT u Hu). specialize (HK t (or_introl eq_refl)). lia.
Qed.
Lemma replace_chain_at idx k j t : StronglySorted lt idx -> (forall t, In t idx -> k <= t) -> nth_error idx j = Some t -> replace_chain idx k [Z.of_nat t] = [Z.of_nat (k + j)].
Proof.
  intros HS. revert k j. induction HS as [|u idx HS IH HT]; intros k j HK HJ; [destruct j; discriminate|]. cbn [replace_chain]. cbn [replace map].
  assert (HK2 : forall t0, In t0 idx -> S k <= t0) by (intros t0 Ht; rewrite Forall_forall in HT; specialize (HT t0 Ht); specialize (HK u (or_introl eq_refl)); lia).
  destruct j as [|j]; cbn in HJ.
  - injection HJ as ->. rewrite Z.eqb_refl. rewrite replace_chain_low by (auto; lia). do 2 f_equal. lia.
  - destruct (Z.eqb_spec (Z.of_nat t) (Z.of_nat u)) as [E|NE]; [exfalso; rewrite Forall_forall in HT; apply nth_error_In in HJ; specialize (HT t HJ); lia|]. rewrite (IH (S k) j HK2 HJ). do 2 f_equal. lia.
Qed.
Lemma where_map {B C} (f : B -> C) (p : C -> bool) (l : list B) : where_ p (map f l) = where_ (fun x => p (f x)) l.
Proof. unfold where_. generalize 0. induction l as [|a l IH]; intros k; [reflexivity|]. cbn [map where_from]. rewrite IH. reflexivity. Qed.
Lemma where_ext {B} (p q : B -> bool) (l : list B) : (forall x, In x l -> p x = q x) -> where_ p l = where_ q l.
Proof. unfold where_. generalize 0. induction l as [|a l IH]; intros k H; [reflexivity|]. cbn [where_from]. rewrite (H a (or_introl eq_refl)), (IH (S k)) by (intros; apply H; now right). reflexivity. Qed.
Lemma filter_map_swap {B C} (f : B -> C) (p : C -> bool) (l : list B) : filter p (map f l) = map f (filter (fun x => p (f x)) l).
Proof. induction l as [|a l IH]; [reflexivity|]. cbn [map filter]. rewrite IH. destruct (p (f a)); reflexivity. Qed.

(** C++ selection for a sub-model whose elements are [own], ascending in [els] *)
Lemma cxx_active_ok els own names : incl names els -> incl own els -> ascending els own ->
  cxx_active false (map (fun e => position e els) own) (map (fun e => Z.of_nat (position e els)) names) =
  (where_ (is_in own) names, map (fun e => Z.of_nat (position e own)) (filter (is_in own) names)).
Proof.
  intros HN HO HA. unfold cxx_active.
  assert (EP : forall e, In e names -> existsb (Z.eqb (Z.of_nat (position e els))) (map Z.of_nat (map (fun e => position e els) own)) = is_in own e).
  { intros e He. apply eq_true_iff_eq. rewrite is_in_In, existsb_exists. split.
    - intros [z [Hz E]]. apply Z.eqb_eq in E. rewrite map_map in Hz. apply in_map_iff in Hz. destruct Hz as [o [<- Ho]]. apply Nat2Z.inj in E. apply position_inj in E; [now subst|auto|auto].
    - intros Ho. exists (Z.of_nat (position e els)). split; [rewrite map_map; apply in_map_iff; eauto|apply Z.eqb_refl]. }
  rewrite where_map, filter_map_swap. f_equal; [now apply where_ext|].
  rewrite (filter_ext_in _ (is_in own) names) by exact EP. rewrite replace_chain_map, map_map. apply map_ext_in. intros e He. apply filter_In in He. destruct He as [He Ho]. apply is_in_In in Ho.
  assert (HS : StronglySorted lt (map (fun e => position e els) own)). { clear - HA. induction HA as [|a l H IH HF]; cbn [map]; constructor; [assumption|]. rewrite Forall_forall in *. intros x Hx. apply in_map_iff in Hx. destruct Hx as [b [<- Hb]]. now apply HF. }
  rewrite (replace_chain_at _ 0 (position e own) (position e els)); [reflexivity|exact HS|lia|]. erewrite map_nth_error; [reflexivity|]. now apply position_nth.
Qed.
Lemma longest_spec subs : (forall s, In s subs -> length (u_elements s) <= length (longest subs)) /\ (longest subs = [] \/ exists s, In s subs /\ u_elements s = longest subs).
Proof.
  unfold longest. assert (G : forall subs acc, let r := fold_left (fun acc s => if length acc <? length (u_elements s) then u_elements s else acc) subs acc in length acc <= length r /\ (forall s, In s subs -> length (u_elements s) <= length r) /\ (r = acc \/ exists s, In s subs /\ u_elements s = r)).
  { clear. induction subs as [|s subs IH]; intros acc; cbn [fold_left]; [cbn; split; [lia|]; split; [intros s []|now left]|]. cbn zeta. destruct (IH (if length acc <? length (u_elements s) then u_elements s else acc)) as [H1 [H2 H3]]. cbn zeta in *.
    destruct (Nat.ltb_spec (length acc) (length (u_elements s))); split; try lia; (split; [intros s' [<-|Hs]; [lia|now apply H2]|]); destruct H3 as [H3|[s' [Hs E]]]; eauto using in_eq, in_cons. }
  destruct (G subs []) as [_ [H2 H3]]. split; assumption.
Qed.

Lemma ascending_unique els l l' : ascending els l -> ascending els l' -> Permutation l l' -> l = l'.
Proof.
  intros H. revert l'. induction H as [|a l H IH HA]; intros l' H' HP; [apply Permutation_nil in HP; now subst|].
  destruct H' as [|b l' H' HB]; [symmetry in HP; apply Permutation_nil in HP; discriminate|]. rewrite Forall_forall in *.
  assert (E : a = b).
  { assert (Ha : In a (b :: l')) by (eapply Permutation_in; [exact HP|now left]). assert (Hb : In b (a :: l)) by (eapply Permutation_in; [symmetry; exact HP|now left]).
    destruct Ha as [<-|Ha]; [reflexivity|]. destruct Hb as [<-|Hb]; [reflexivity|]. specialize (HA b Hb). specialize (HB a Ha). lia. }
  subst b. f_equal. apply IH; [exact H'|]. now apply Permutation_cons_inv in HP.
Qed.
Lemma ascending_self els : NoDup els -> ascending els els.
Proof.
  intros HN. unfold ascending. assert (G : forall l pre, els = pre ++ l -> StronglySorted (fun a b => position a els < position b els) l); [|exact (G els [] eq_refl)].
  induction l as [|a l IH]; intros pre E; constructor; [apply (IH (pre ++ [a])); rewrite <- app_assoc; exact E|]. apply Forall_forall. intros b Hb. apply In_nth_error in Hb. destruct Hb as [j Hj].
  rewrite (position_at els (length pre) a HN), (position_at els (length pre + S j) b HN); [lia| |]; rewrite E, nth_error_app2 by lia; [replace (length pre + S j - length pre) with (S j) by lia; exact Hj|rewrite Nat.sub_diag; reflexivity].
Qed.
Lemma full_elements els own : NoDup els -> NoDup own -> incl own els -> ascending els own -> length own = length els -> own = els.
Proof. intros H1 H2 HI HA HL. apply (ascending_unique els); [exact HA|now apply ascending_self|]. apply NoDup_Permutation_bis; [exact H2|lia|exact HI]. Qed.
Lemma mapM_py_index els l : incl l els -> mapM (py_index els) l = Ok (map (fun e => position e els) l).
Proof. intros HI. apply mapM_Ok. intros e He. unfold py_index. replace (is_in els e) with true by (symmetry; apply is_in_In, HI, He). reflexivity. Qed.
