(** Groups, cuts and copied files of the automatic division. *)
From Verif Require Import Base Num Model.Split Model.Divide Proofs.Split Proofs.GridOptimal.

Lemma map_Some_perm {A} (a b : list A) : Permutation (map Some a) (map Some b) -> Permutation a b.
Proof.
  intros H. apply Permutation_map_inv in H. destruct H as [c [E H]].
  assert (G : forall x y : list A, map Some x = map Some y -> x = y) by (induction x as [|? x IH]; intros [|? y]; cbn; intros [= ]; [reflexivity|f_equal; auto]).
  apply G in E. subst. now symmetry.
Qed.
Lemma map_nth_error_seq {A} (l : list A) : map (nth_error l) (seq 0 (length l)) = map Some l.
Proof. induction l as [|a l IH]; [reflexivity|]. cbn [length seq map nth_error]. f_equal. rewrite <- IH, <- seq_shift, map_map. reflexivity. Qed.
Lemma mapM_get_Some {A} (l : list A) ids rows : mapM (get l) ids = Ok rows -> map Some rows = map (nth_error l) ids.
Proof.
  revert rows. induction ids as [|i ids IH]; intros rows; cbn; [intros [= <-]; reflexivity|]. unfold get at 1. destruct (nth_error l i) as [a|] eqn:E; cbn; [|discriminate].
  destruct (mapM (get l) ids) as [r|]; cbn; [|discriminate]. intros [= <-]. cbn. rewrite (IH r eq_refl). reflexivity.
Qed.
Lemma where_nodup {A} (p : A -> bool) l : NoDup (where_ p l).
Proof.
  unfold where_. generalize 0 at 1. induction l as [|a l IH]; intros k; cbn; [constructor|]. destruct (p a); [|apply IH]. constructor; [|apply IH].
  rewrite where_from_In. intros [? [_ [_ ?]]]. lia.
Qed.
Lemma nodup_app {A} (a b : list A) : NoDup a -> NoDup b -> (forall x, In x a -> ~ In x b) -> NoDup (a ++ b).
Proof. induction a as [|x a IH]; cbn; intros Ha Hb H; [exact Hb|]. inversion Ha; subst. constructor; [rewrite in_app_iff; intros [?|?]; [auto|eapply H; eauto]|apply IH; auto]. Qed.
(** Each number of the list is in exactly one of its groups. *)
Lemma groups_partition (groups : list nat) n : (forall g, In g groups -> g < n) -> Permutation (concat (map (fun g => where_ (Nat.eqb g) groups) (seq 0 n))) (seq 0 (length groups)).
Proof.
  intros H. apply NoDup_Permutation; [|apply seq_NoDup|].
  - generalize 0. clear H. induction n as [|n IH]; intros b; cbn [seq map concat]; [constructor|]. apply nodup_app; [apply where_nodup|apply IH|].
    intros x Hx Hy. apply where_In in Hx. destruct Hx as [a [Ha E]]. apply Nat.eqb_eq in E. subst a. apply in_concat in Hy. destruct Hy as [l [Hl Hx]]. apply in_map_iff in Hl. destruct Hl as [g [<- Hg]]. apply in_seq in Hg.
    apply where_In in Hx. destruct Hx as [a [Ha2 E]]. apply Nat.eqb_eq in E. subst a. rewrite Ha in Ha2. injection Ha2 as ->. lia.
  - intros x. rewrite in_concat, in_seq. split.
    + intros [l [Hl Hx]]. apply in_map_iff in Hl. destruct Hl as [g [<- Hg]]. apply where_In in Hx. destruct Hx as [a [Ha _]]. assert (nth_error groups x <> None) by congruence. apply nth_error_Some in H0. lia.
    + intros Hx. assert (HL : x < length groups) by lia. apply nth_error_Some in HL. destruct (nth_error groups x) as [g|] eqn:E; [|congruence]. exists (where_ (Nat.eqb g) groups). split.
      * apply in_map_iff. exists g. split; [reflexivity|]. apply in_seq. apply nth_error_In in E. specialize (H g E). lia.
      * apply where_In. exists g. split; [exact E|apply Nat.eqb_refl].
Qed.
Lemma perm_concat {A} (l1 l2 : list (list A)) : Forall2 (@Permutation A) l1 l2 -> Permutation (concat l1) (concat l2).
Proof. induction 1; cbn; [constructor|]. now apply Permutation_app. Qed.

Definition attr_ids (a : attr) : list nat := match a with Attr tr te => tr ++ te | Tuple tr te => tr ++ te end.
Definition is_attr (a : attr) : Prop := match a with Attr _ _ => True | Tuple _ _ => False end.
Lemma cut_groups_ok groups n : exists attrs, cut_groups groups n = Ok attrs /\ length attrs = n /\ Forall is_attr attrs /\
  Forall2 (@Permutation nat) (map attr_ids attrs) (map (fun g => where_ (Nat.eqb g) groups) (seq 0 n)).
Proof.
  unfold cut_groups. assert (HS := seq_length n 0). revert HS. generalize n at 2 4. generalize (seq 0 n). intros gs m <-. induction gs as [|g gs IH]; cbn [mapM]; [exists []; repeat split; constructor|].
  destruct (split_files_ids (where_ (Nat.eqb g) groups) 9 10 ltac:(lia) ltac:(lia)) as [tri [tei [tr [te [_ [E [_ [_ HP]]]]]]]]. rewrite E. cbn [bind].
  destruct IH as [attrs [-> [HL [HA HF]]]]. cbn [bind]. exists (Attr tr te :: attrs). split; [reflexivity|]. split; [cbn; now rewrite HL|]. split; [now repeat constructor|]. cbn [map]. constructor; [exact HP|exact HF].
Qed.

Section Out.
  Context {F : Type} {N : Num F} {O : NumOrd F} {File : Type}.
  Lemma copy_ok (vaspruns : list File) tr i (w : F) ids : (forall x, In x ids -> x < length vaspruns) ->
    exists out, copy File vaspruns tr i w ids = Ok out /\ map Some (concat (map (en_files _) out)) = map (nth_error vaspruns) ids /\
      Forall (fun e => en_train _ e = tr /\ en_id _ e = i + 1 /\ en_weight _ e = w /\ en_files _ e <> [] /\ forall f, In f (en_files _ e) -> exists x, In x ids /\ nth_error vaspruns x = Some f) out /\ length out <= 1.
  Proof.
    intros H. unfold copy. destruct ids as [|x ids]; [exists []; repeat split; [constructor|cbn; lia]|].
    destruct (mapM_get_ok vaspruns (x :: ids) H) as [r E]. rewrite E. cbn [bind]. exists [mk_entry _ tr (i + 1) w r]. split; [reflexivity|].
    pose proof (mapM_get_Some _ _ _ E) as HM. split; [cbn [map concat en_files]; now rewrite app_nil_r|]. split; [|cbn; lia].
    constructor; [|constructor]. cbn [en_train en_id en_weight en_files]. repeat split; [intros ->; apply mapM_length in E; discriminate|].
    intros f Hf. apply (in_map Some) in Hf. rewrite HM in Hf. apply in_map_iff in Hf. destruct Hf as [y [Hy Hi]]. eauto.
  Qed.
  (** Files copied, directory names and weights *)
  Lemma output_ok (vaspruns : list File) (weights : list F) attrs i : Forall is_attr attrs -> (forall x, In x (concat (map attr_ids attrs)) -> x < length vaspruns) -> i + length attrs <= length weights ->
    exists out, output File vaspruns weights i attrs = Ok out /\ map Some (concat (map (en_files _) out)) = map (nth_error vaspruns) (concat (map attr_ids attrs)) /\
      NoDup (map (fun e => (en_train _ e, en_id _ e)) out) /\ Forall (fun e => i < en_id _ e <= i + length attrs /\ nth_error weights (en_id _ e - 1) = Some (en_weight _ e) /\ en_files _ e <> [] /\
        forall f, In f (en_files _ e) -> exists a x, nth_error attrs (en_id _ e - 1 - i) = Some a /\ In x (attr_ids a) /\ nth_error vaspruns x = Some f) out.
  Proof.
    intros HA. revert i. induction HA as [|a attrs Ha HA IH]; intros i HB HL; cbn [output]; [exists []; repeat split; constructor|].
    cbn [length] in HL. unfold get at 1. assert (Hi : i < length weights) by lia. apply nth_error_Some in Hi. destruct (nth_error weights i) as [w|] eqn:EW; [|congruence]. cbn [bind].
    destruct a as [tr te|]; [|destruct Ha]. cbn [attr_sets bind map concat attr_ids] in *.
    destruct (copy_ok vaspruns true i w tr) as [o1 [-> [M1 [F1 L1]]]]; [intros x Hx; apply HB; rewrite !in_app_iff; auto|]. cbn [bind].
    destruct (copy_ok vaspruns false i w te) as [o2 [-> [M2 [F2 L2]]]]; [intros x Hx; apply HB; rewrite !in_app_iff; auto|]. cbn [bind].
    destruct (IH (S i)) as [o3 [-> [M3 [N3 F3]]]]; [intros x Hx; apply HB; rewrite !in_app_iff; auto|lia|]. cbn [bind].
    exists (o1 ++ o2 ++ o3). split; [reflexivity|]. split; [rewrite !map_app, !concat_app, !map_app, M1, M2, M3, app_assoc; reflexivity|].
    rewrite Forall_forall in F1, F2, F3.
    assert (S1 : forall (tr : bool) o, length o <= 1 -> NoDup (map (fun e => (en_train _ e, en_id _ e)) (o : list (entry F File)))).
    { intros _ [|x [|y o]] H; cbn in *; [constructor|repeat constructor; intros []|lia]. }
    split.
    - rewrite !map_app. apply nodup_app; [now apply (S1 true)| |].
      + apply nodup_app; [now apply (S1 true)|exact N3|]. intros x Hx Hy. apply in_map_iff in Hx, Hy. destruct Hx as [e [<- He]], Hy as [e' [E He']]. apply F2 in He. apply F3 in He'. injection E as E1 E2. lia.
      + intros x Hx Hy. apply in_app_iff in Hy. apply in_map_iff in Hx. destruct Hx as [e [<- He]]. apply F1 in He. destruct Hy as [Hy|Hy]; apply in_map_iff in Hy; destruct Hy as [e' [E He']].
        * apply F2 in He'. injection E as E1 E2. destruct He as [HX1 _], He' as [HX2 _]. congruence.
        * apply F3 in He'. injection E as E1 E2. lia.
    - rewrite Forall_forall. intros e He. apply in_app_iff in He. destruct He as [He|He]; [|apply in_app_iff in He; destruct He as [He|He]].
      + apply F1 in He. destruct He as [_ [-> [<- [HN HX]]]]. cbn [length]. replace (i + 1 - 1) with i by lia. rewrite Nat.sub_diag. repeat split; [lia|lia|exact EW|exact HN|].
        intros f Hf. destruct (HX f Hf) as [x [Hx1 Hx2]]. exists (Attr tr te), x. cbn [attr_ids]. rewrite in_app_iff. auto.
      + apply F2 in He. destruct He as [_ [-> [<- [HN HX]]]]. cbn [length]. replace (i + 1 - 1) with i by lia. rewrite Nat.sub_diag. repeat split; [lia|lia|exact EW|exact HN|].
        intros f Hf. destruct (HX f Hf) as [x [Hx1 Hx2]]. exists (Attr tr te), x. cbn [attr_ids]. rewrite in_app_iff. auto.
      + apply F3 in He. destruct He as [H1 [H2 [H3 HX]]]. cbn [length]. repeat split; [lia|lia|exact H2|exact H3|].
        intros f Hf. destruct (HX f Hf) as [a [x [Hx0 [Hx1 Hx2]]]]. exists a, x. replace (en_id _ e - 1 - i) with (S (en_id _ e - 1 - S i)) by lia. cbn [nth_error]. auto.
  Qed.
  (** A cut of all groups copies every file once. *)
  Lemma output_partition (vaspruns : list File) (weights : list F) groups n attrs : (forall g, In g groups -> g < n) -> length groups = length vaspruns -> cut_groups groups n = Ok attrs -> n <= length weights ->
    exists out, output File vaspruns weights 0 attrs = Ok out /\ Permutation (concat (map (en_files _) out)) vaspruns /\ NoDup (map (fun e => (en_train _ e, en_id _ e)) out) /\
      Forall (fun e => 0 < en_id _ e <= n /\ nth_error weights (en_id _ e - 1) = Some (en_weight _ e) /\ en_files _ e <> [] /\
        forall f, In f (en_files _ e) -> exists x, nth_error vaspruns x = Some f /\ nth_error groups x = Some (en_id _ e - 1)) out.
  Proof.
    intros HG HL HC HW. destruct (cut_groups_ok groups n) as [attrs' [E [HN [HA HF]]]]. rewrite HC in E. injection E as <-.
    pose proof (groups_partition groups n HG) as HP. pose proof (perm_concat _ _ HF) as HQ.
    destruct (output_ok vaspruns weights attrs 0 HA) as [out [E [M [ND FA]]]].
    - intros x Hx. apply (Permutation_in _ HQ) in Hx. apply (Permutation_in _ HP) in Hx. apply in_seq in Hx. lia.
    - lia.
    - exists out. split; [exact E|]. split; [|split; [exact ND|]].
      + apply map_Some_perm. rewrite M, <- map_nth_error_seq, <- HL. apply Permutation_map. now rewrite HQ.
      + rewrite HN in FA. rewrite Forall_forall in *. intros e He. destruct (FA e He) as [H1 [H2 [H3 H4]]]. repeat split; [lia|lia|exact H2|exact H3|].
        intros f Hf. destruct (H4 f Hf) as [a [x [Ha [Hx Hf2]]]]. rewrite Nat.sub_0_r in Ha. exists x. split; [exact Hf2|].
        assert (HG2 : forall (l1 l2 : list (list nat)) k p, Forall2 (@Permutation nat) l1 l2 -> nth_error l1 k = Some p -> exists q, nth_error l2 k = Some q /\ Permutation p q).
        { clear. intros l1 l2 k p H. revert k. induction H; intros [|k]; cbn; try discriminate; [intros [= <-]; eauto|eauto]. }
        destruct (HG2 _ _ (en_id _ e - 1) (attr_ids a) HF) as [q [Hq HPq]]; [rewrite nth_error_map, Ha; reflexivity|]. apply (Permutation_in _ HPq) in Hx.
        rewrite nth_error_map in Hq. destruct (nth_error (seq 0 n) (en_id _ e - 1)) as [g|] eqn:Eg; cbn in Hq; [|discriminate]. injection Hq as <-.
        apply where_In in Hx. destruct Hx as [g2 [Hg2 E2]]. apply Nat.eqb_eq in E2. subst g2.
        assert (EQ : g = en_id _ e - 1) by (apply (nth_error_nth _ _ 0) in Eg; rewrite seq_nth in Eg by lia; cbn in Eg; lia). rewrite <- EQ. exact Hg2.
  Qed.
  Lemma group_of_bound (ths : list F) x : group_of ths x <= length ths.
  Proof.
    unfold group_of. set (step := fun g it => if nltb (snd it) x then g else S (fst it)).
    assert (G : forall l b g, g <= b -> fold_left step (combine (seq b (length l)) l) g <= b + length l).
    { induction l as [|t l IH]; intros b g Hg; cbn [length seq combine fold_left]; [lia|]. specialize (IH (S b) (step g (b, t))). unfold step in *. cbn in *. destruct (nltb t x); lia. }
    apply (G ths 0 0). lia.
  Qed.
  Lemma f_std_length b ns fs : length (@f_std_from F N O b ns fs) = length ns.
  Proof. revert b. induction ns as [|n ns IH]; intros b; cbn; [reflexivity|]. now rewrite IH. Qed.
  Lemma split_ok (pow2 : F -> F) es fs n : es <> [] -> length fs = length es -> 1 <= n -> exists gs, split pow2 es fs n = Ok gs /\ length gs = length es /\ forall g, In g gs -> g < n.
  Proof.
    intros HE HL HN. unfold split. destruct es as [|e es]; [congruence|]. cbn [np_min bind]. eexists. split; [reflexivity|]. split; [rewrite map_length, combine_length; lia|].
    intros g Hg. apply in_map_iff in Hg. destruct Hg as [ef [<- _]].
    match goal with |- Nat.max (group_of ?a ?x) (group_of ?b ?y) < _ => pose proof (group_of_bound a x) as H1; pose proof (group_of_bound b y) as H2 end.
    assert (HI : forall a b : F, length (linspace_init a b n) = n - 1) by (intros; unfold linspace_init; now rewrite map_length, seq_length).
    rewrite !map_length, HI in H1. rewrite !map_length, HI in H2. lia.
  Qed.
End Out.
