(** C28: the atoms and types seen by the sub-models of a hybrid model. *)
From Verif Require Import Base Model.Structure Model.Properties Model.HybridTypes Proofs.Structure Proofs.StructureSpin2 Proofs.GridOptimal Proofs.Dataset Proofs.Properties Proofs.HybridTypes.
From Coq Require String.
From Coq Require Import Sorting.Sorted.
Import String.StringSyntax.
Local Open Scope string_scope.
Local Open Scope list_scope.
Local Open Scope nat_scope.

(** The elements of the whole model: the first of the longest element lists. *)
Definition first_longest (subs : list sub) (els : list string) : Prop :=
  exists pre s post, subs = pre ++ s :: post /\ u_elements s = els /\ (forall x, In x pre -> length (u_elements x) < length els) /\ (forall x, In x post -> length (u_elements x) <= length els).
(** Every sub-model is one of some of the elements of the whole model. *)
Definition sound (els : list string) (s : sub) : Prop := NoDup (u_elements s) /\ incl (u_elements s) els /\ u_n_type s = length (u_elements s).
(** Types of atoms as set from an element list *)
Definition numbered (els names : list string) (types : list Z) : Prop := Forall2 (fun t e => exists k, t = Z.of_nat k /\ nth_error els k = Some e) types names.
(** A list of elements in the order of the whole model *)
Definition in_order (els l : list string) : Prop := forall i j a b, i < j -> nth_error l i = Some a -> nth_error l j = Some b -> exists m n, m < n /\ nth_error els m = Some a /\ nth_error els n = Some b.
(** The atoms of a sub-model in order, and their types in its own element list *)
Definition sees (own names : list string) (active : list nat) (types : list Z) : Prop :=
  StronglySorted lt active /\ (forall i, In i active <-> exists e, nth_error names i = Some e /\ In e own) /\
  Forall2 (fun i t => exists e k, nth_error names i = Some e /\ t = Z.of_nat k /\ nth_error own k = Some e) active types.

Lemma longest_ok subs els : first_longest subs els -> longest subs = els.
Proof.
  intros [pre [s [post [-> [E [H1 H2]]]]]]. unfold longest. rewrite fold_left_app. cbn [fold_left].
  assert (G : length (fold_left (fun acc s => if length acc <? length (u_elements s) then u_elements s else acc) pre []) < length els \/ fold_left (fun acc s => if length acc <? length (u_elements s) then u_elements s else acc) pre [] = []).
  { destruct (longest_spec pre) as [_ H]. fold (longest pre). destruct H as [H|[x [Hx Ex]]]; [now right|]. left. rewrite <- Ex. now apply H1. }
  set (acc := fold_left _ pre []) in *. clearbody acc.
  assert (E2 : (if length acc <? length (u_elements s) then u_elements s else acc) = els).
  { rewrite E. destruct (Nat.ltb_spec (length acc) (length els)); [reflexivity|]. destruct G as [G|G]; [lia|]. subst acc. cbn in *. destruct els; [reflexivity|cbn in *; lia]. }
  rewrite E2. clear - H2. induction post as [|x post IH]; cbn [fold_left]; [reflexivity|]. replace (length els <? length (u_elements x)) with false by (symmetry; apply Nat.ltb_ge, H2; now left). apply IH. intros; apply H2; now right.
Qed.
Lemma n_type_ok subs els : first_longest subs els -> Forall (sound els) subs -> fold_left Nat.max (map u_n_type subs) 0 = length els.
Proof.
  intros [pre [s [post [-> [E [H1 H2]]]]]] HS. rewrite Forall_forall in HS.
  assert (G : forall l a, fold_left Nat.max l a = Nat.max a (fold_right Nat.max 0 l)) by (induction l as [|x l IH]; intros a; cbn [fold_left fold_right]; [lia|rewrite IH; lia]).
  rewrite G. cbn [Nat.max]. apply Nat.le_antisymm.
  - assert (G2 : forall l, (forall x, In x l -> x <= length els) -> fold_right Nat.max 0 l <= length els) by (induction l as [|x l IH]; intros H; cbn [fold_right]; [lia|]; specialize (H x (or_introl eq_refl)) as Hx; specialize (IH (fun y Hy => H y (or_intror Hy))); lia).
    apply G2. intros x Hx. apply in_map_iff in Hx. destruct Hx as [u [<- Hu]]. destruct (HS u Hu) as [_ [_ ->]]. apply in_app_iff in Hu. destruct Hu as [Hu|[<-|Hu]]; [apply H1 in Hu; lia|rewrite E; lia|now apply H2].
  - assert (G3 : forall l x, In x l -> x <= fold_right Nat.max 0 l) by (induction l as [|y l IH]; intros x []; cbn [fold_right]; [subst; lia|specialize (IH x H); lia]).
    apply G3. apply in_map_iff. exists s. assert (Hs : In s (pre ++ s :: post)) by (apply in_app_iff; right; now left). split; [|exact Hs]. destruct (HS s Hs) as [_ [_ ->]]. now rewrite E.
Qed.
Lemma numbered_map els names types : NoDup els -> numbered els names types -> types = map (fun e => Z.of_nat (position e els)) names /\ incl names els.
Proof.
  intros HN H. induction H as [|t e ts es [k [-> Hk]] H [IH1 IH2]]; [split; [reflexivity|intros x []]|]. split.
  - cbn [map]. rewrite <- IH1, (position_at els k e HN Hk). reflexivity.
  - intros x [<-|Hx]; [eapply nth_error_In; eauto|now apply IH2].
Qed.
Lemma where_sorted {B} (p : B -> bool) l : StronglySorted lt (where_ p l).
Proof.
  unfold where_. assert (G : forall l k, StronglySorted lt (where_from k p l) /\ forall x, In x (where_from k p l) -> k <= x); [|apply G].
  clear l. induction l as [|a l IH]; intros k; cbn [where_from]; [split; [constructor|intros x []]|]. destruct (IH (S k)) as [H1 H2]. destruct (p a).
  - split; [constructor; [exact H1|apply Forall_forall; intros x Hx; apply H2 in Hx; lia]|]. intros x [<-|Hx]; [lia|apply H2 in Hx; lia].
  - split; [exact H1|]. intros x Hx. apply H2 in Hx. lia.
Qed.
Lemma sees_ok own names : sees own names (where_ (is_in own) names) (map (fun e => Z.of_nat (position e own)) (filter (is_in own) names)).
Proof.
  split; [apply where_sorted|]. split.
  - intros i. rewrite where_In. split; intros [e [H1 H2]]; exists e; (split; [exact H1|now apply is_in_In]).
  - pose proof (mapM_get_where (is_in own) names) as H. apply mapM_Forall2 in H.
    assert (HI : forall e, In e (filter (is_in own) names) -> In e own) by (intros e He; apply filter_In in He; apply is_in_In; tauto).
    revert HI. induction H as [|i e is es Hi H IH]; intros HI; cbn [map]; constructor; [|apply IH; intros; apply HI; now right].
    exists e, (position e own). split; [now apply get_Some|]. split; [reflexivity|]. apply position_nth, HI. now left.
Qed.
Lemma where_all own names : incl names own -> where_ (is_in own) names = seq 0 (length names) /\ filter (is_in own) names = names.
Proof.
  intros H. unfold where_. generalize 0. induction names as [|e names IH]; intros k; [split; reflexivity|]. cbn [where_from filter length seq]. replace (is_in own e) with true by (symmetry; apply is_in_In, H; now left).
  destruct (IH (fun x Hx => H x (or_intror Hx)) (S k)) as [-> E]. rewrite E. split; reflexivity.
Qed.
Lemma in_order_ok els l : incl l els -> ascending els l -> in_order els l.
Proof.
  intros HI HA i j a b Hij Ha Hb. exists (position a els), (position b els). split; [|split; apply position_nth, HI; eapply nth_error_In; eauto].
  clear HI. revert i j Hij Ha Hb. induction HA as [|x l HA IH HF]; intros i j Hij Ha Hb; [destruct i; discriminate|]. destruct j as [|j]; [lia|]. cbn in Hb. destruct i as [|i]; cbn in Ha.
  - injection Ha as ->. rewrite Forall_forall in HF. apply HF. eapply nth_error_In; eauto.
  - apply (IH i j); [lia|assumption|assumption].
Qed.
Lemma set_unique_ok subs els : 2 <= length subs -> first_longest subs els -> NoDup els -> Forall (sound els) subs ->
  exists outs, set_unique subs = Ok outs /\ Forall2 (fun s t => Permutation (u_elements (t_sub t)) (u_elements s) /\ ascending els (u_elements (t_sub t)) /\ u_pairs (t_sub t) = u_pairs s /\
    ((u_elements (t_sub t) = els /\ t_full t = true) \/ (t_full t = false /\ t_indices t = map (fun e => position e els) (u_elements (t_sub t))))) subs outs.
Proof.
  intros HL HF HN HS. unfold set_unique, common. destruct subs as [|s0 subs0] eqn:ES; [cbn in HL; lia|]. rewrite <- ES in *. clear ES s0 subs0. cbn [bind]. rewrite (longest_ok _ _ HF), (n_type_ok _ _ HF HS).
  replace (length subs <=? 1) with false by (symmetry; apply Nat.leb_gt; lia). clear HL HF. induction HS as [|s subs [H1 [H2 H3]] HS IH]; [exists []; split; [reflexivity|constructor]|]. cbn [mapM].
  destruct (sorted_elements_ok els (u_elements s) H2 H1) as [l [E [HP HA]]]. rewrite E. cbn [bind]. destruct IH as [outs [EO HO]]. destruct (mapM _ subs) as [subs'|] eqn:EM; [|discriminate]. cbn [bind] in *. cbn [mapM u_n_type u_elements].
  assert (HI : incl l els) by (intros x Hx; apply H2; eapply Permutation_in; eauto). rewrite (mapM_py_index els l HI). cbn [bind]. rewrite EO.
  destruct (Nat.eqb_spec (u_n_type s) (length els)) as [EN|NE]; cbn [bind]; (eexists; split; [reflexivity|]); (constructor; [|exact HO]); cbn [t_sub u_elements u_pairs t_full t_indices]; (split; [exact HP|]); (split; [exact HA|]); (split; [reflexivity|]).
  - left. split; [|reflexivity]. apply full_elements; auto; [eapply Permutation_NoDup; [symmetry; exact HP|exact H1]|]. rewrite (Permutation_length HP). congruence.
  - right. split; reflexivity.
Qed.

(** Every sub-model sees exactly the atoms of its elements, numbered by its own element list, which is brought into the order of the whole model. *)
Theorem C28_select subs els names types : 2 <= length subs -> first_longest subs els -> NoDup els -> Forall (sound els) subs -> numbered els names types ->
  exists outs, set_unique subs = Ok outs /\
    Forall2 (fun s t => Permutation (u_elements (t_sub t)) (u_elements s) /\ in_order els (u_elements (t_sub t)) /\
      let '(active, types') := cxx_active (t_full t) (t_indices t) types in sees (u_elements (t_sub t)) names active types') subs outs.
Proof.
  intros HL HF HN HS HT. destruct (numbered_map _ _ _ HN HT) as [-> HI]. destruct (set_unique_ok subs els HL HF HN HS) as [outs [EO HO]]. exists outs. split; [exact EO|]. clear - HO HS HI HN.
  induction HO as [|s t subs outs [HP [HA [_ HC]]] HO IH]; [constructor|]. inversion HS as [|? ? [H1 [H2 H3]] HS2]; subst. constructor; [|now apply IH]. split; [exact HP|].
  assert (HI2 : incl (u_elements (t_sub t)) els) by (intros x Hx; apply H2; eapply Permutation_in; eauto). split; [now apply in_order_ok|].
  destruct HC as [[HE ->]|[-> ->]].
  - unfold cxx_active. rewrite HE. rewrite map_length. destruct (where_all els names HI) as [<- E]. pattern names at 3. rewrite <- E. apply sees_ok.
  - rewrite cxx_active_ok by assumption. apply sees_ok.
Qed.

(** Training (C++) and prediction (Python [find_active_atoms]) select and number the same atoms. *)
Theorem C28_agree {P A V : Type} (det : A -> V) subs els outs t (st : structure P A V) : 2 <= length subs -> first_longest subs els -> NoDup els -> Forall (sound els) subs ->
  length (positions st) = length (elements st) -> numbered els (elements st) (types st) -> set_unique subs = Ok outs -> In t outs ->
  exists sts atoms flags, find_active_atoms P A V det [st] (u_elements (t_sub t)) = Ok (sts, atoms, flags) /\
    (concat atoms, concat (map types sts)) = cxx_active (t_full t) (t_indices t) (types st).
Proof.
  intros HL HF HN HS HW HT EO Ht. destruct (numbered_map _ _ _ HN HT) as [ET HI]. destruct (set_unique_ok subs els HL HF HN HS) as [outs' [EO' HO]]. assert (outs' = outs) by congruence. subst outs'.
  assert (HX : exists s, In s subs /\ Permutation (u_elements (t_sub t)) (u_elements s) /\ ascending els (u_elements (t_sub t)) /\ u_pairs (t_sub t) = u_pairs s /\ ((u_elements (t_sub t) = els /\ t_full t = true) \/ (t_full t = false /\ t_indices t = map (fun e => position e els) (u_elements (t_sub t))))).
  { clear - HO Ht. induction HO as [|s t' subs outs H HO IH]; [destruct Ht|]. destruct Ht as [<-|Ht]; [exists s; split; [now left|exact H]|]. destruct (IH Ht) as [s' [Hs H']]. exists s'. split; [now right|exact H']. }
  destruct HX as [s [Hs [HP [HA [_ HC]]]]]. rewrite Forall_forall in HS. destruct (HS s Hs) as [H1 [H2 _]].
  assert (HI2 : incl (u_elements (t_sub t)) els) by (intros x Hx; apply H2; eapply Permutation_in; eauto).
  assert (HD : all_distinct (u_elements (t_sub t)) = true) by (apply all_distinct_nodup; eapply Permutation_NoDup; [symmetry; exact HP|exact H1]).
  assert (WF : Forall (wf P A V) [st]) by (constructor; [|constructor]; split; [exact HW|apply Forall2_length in HT; exact HT]).
  rewrite (find_active_all P A V det _ _ WF HD). cbn zeta. do 3 eexists. split; [reflexivity|]. set (own := u_elements (t_sub t)) in *.
  transitivity (where_ (is_in own) (elements st), map (fun e => Z.of_nat (position e own)) (filter (is_in own) (elements st))).
  - cbn [filter]. destruct (existsb (is_in own) (elements st)) eqn:EX; cbn [map concat]; [rewrite !app_nil_r; reflexivity|].
    assert (EF : filter (is_in own) (elements st) = []). { destruct (filter _ _) as [|e l] eqn:E; [reflexivity|]. assert (He : In e (filter (is_in own) (elements st))) by (rewrite E; now left). apply filter_In in He. exfalso. assert (existsb (is_in own) (elements st) = true) by (apply existsb_exists; eauto). congruence. }
    pose proof (where_length (is_in own) (elements st)) as HWL. rewrite EF in *. destruct (where_ _ _); [reflexivity|discriminate].
  - rewrite ET. destruct HC as [[HE ->]|[-> ->]].
    + unfold cxx_active. rewrite map_length. rewrite HE. destruct (where_all els (elements st) HI) as [-> ->]. reflexivity.
    + symmetry. now apply cxx_active_ok.
Qed.

(** A sub-model with an element outside the longest list is rejected. *)
Theorem C28_rejected subs els s e : 2 <= length subs -> first_longest subs els -> In s subs -> In e (u_elements s) -> ~ In e els -> set_unique subs = Err ValueError.
Proof.
  intros HL HF Hs He HN. unfold set_unique, common. destruct subs as [|s0 subs0] eqn:ES; [cbn in HL; lia|]. rewrite <- ES in *. clear ES s0 subs0. cbn [bind]. rewrite (longest_ok _ _ HF). replace (length subs <=? 1) with false by (symmetry; apply Nat.leb_gt; lia).
  assert (G : forall l, (mapM (py_index els) l = Ok (map (fun e => position e els) l)) \/ mapM (py_index els) l = Err ValueError).
  { induction l as [|x l IH]; [now left|]. cbn [mapM map]. unfold py_index at 1 3. destruct (is_in els x); [|now right]. cbn [bind]. destruct IH as [-> | ->]; [now left|now right]. }
  assert (G2 : forall l, In e l -> mapM (py_index els) l = Err ValueError).
  { induction l as [|x l IH]; intros HI; [destruct HI|]. cbn [mapM]. destruct HI as [->|HI]; [|rewrite (IH HI); unfold py_index; destruct (is_in els x); reflexivity]. unfold py_index at 1. destruct (is_in els e) eqn:E; [apply is_in_In in E; contradiction|reflexivity]. }
  enough (E : mapM (fun s => do l <- sorted_elements els (u_elements s); Ok (mk_sub l (u_n_type s) (u_pairs s))) subs = Err ValueError) by (rewrite E; reflexivity).
  clear HL HF. induction subs as [|x subs IH]; [destruct Hs|]. cbn [mapM]. unfold sorted_elements at 1. destruct Hs as [->|Hs].
  - rewrite (G2 _ He). reflexivity.
  - destruct (G (u_elements x)) as [-> | ->]; [|reflexivity]. cbn [bind]. rewrite (IH Hs). reflexivity.
Qed.

(** Pair parameters stay with their elements when the sub-model lists them in the order of the whole model. *)
Theorem C28_pairs subs els outs : 2 <= length subs -> first_longest subs els -> NoDup els -> Forall (sound els) subs -> set_unique subs = Ok outs ->
  Forall2 (fun s t => in_order els (u_elements s) -> forall e1 e2, lookup_pair (t_sub t) e1 e2 = lookup_pair s e1 e2) subs outs.
Proof.
  intros HL HF HN HS EO. destruct (set_unique_ok subs els HL HF HN HS) as [outs' [EO' HO]]. assert (outs' = outs) by congruence. subst outs'. clear EO' EO HL HF.
  induction HO as [|s t subs outs [HP [HA [EP _]]] HO IH]; [constructor|]. inversion HS as [|? ? [H1 [H2 _]] HS2]; subst. constructor; [|now apply IH]. intros HIO e1 e2.
  assert (E : u_elements (t_sub t) = u_elements s).
  { apply (ascending_unique els); [exact HA| |exact HP]. clear - HIO HN. unfold ascending. induction (u_elements s) as [|a l IH]; constructor.
    - apply IH. intros i j x y Hij Hx Hy. apply (HIO (S i) (S j)); [lia|exact Hx|exact Hy].
    - apply Forall_forall. intros b Hb. apply In_nth_error in Hb. destruct Hb as [j Hj]. destruct (HIO 0 (S j) a b ltac:(lia) eq_refl Hj) as [m [n [Hmn [Hm Hn]]]]. rewrite (position_at els m a HN Hm), (position_at els n b HN Hn). exact Hmn. }
  unfold lookup_pair. rewrite E, EP. reflexivity.
Qed.
Ltac sound_tac := split; [repeat constructor; cbn; intuition discriminate|split; [intros ? ?; cbn in *; tauto|reflexivity]].
(** In another order the table is read for the wrong elements: the O-O functions of the second sub-model are used for Mg-Mg. *)
Theorem C28_pairs_refuted : exists subs els outs s t, 2 <= length subs /\ first_longest subs els /\ NoDup els /\ Forall (sound els) subs /\ set_unique subs = Ok outs /\ nth_error subs 1 = Some s /\ nth_error outs 1 = Some t /\
  lookup_pair s "O" "O" = Some [0; 1] /\ lookup_pair (t_sub t) "Mg" "Mg" = Some [0; 1] /\ lookup_pair s "Mg" "Mg" = Some [2].
Proof.
  set (s1 := mk_sub ["Mg"; "Al"; "O"] 3 []). set (s2 := mk_sub ["O"; "Mg"] 2 [((0, 0), [0; 1]); ((0, 1), [1]); ((1, 1), [2])]).
  exists [s1; s2], ["Mg"; "Al"; "O"], [mk_typed s1 true [0; 1; 2]; mk_typed (mk_sub ["Mg"; "O"] 2 (u_pairs s2)) false [0; 2]]. do 2 eexists.
  split; [cbn; lia|]. split; [exists [], s1, [s2]; split; [reflexivity|]; split; [reflexivity|]; split; [intros x []|intros x [<-|[]]; cbn; lia]|].
  split; [repeat constructor; cbn; intuition discriminate|]. split.
  - repeat (apply Forall_cons; [sound_tac|]); apply Forall_nil.
  - split; [vm_compute; reflexivity|]. split; [reflexivity|]. split; [reflexivity|]. repeat split; vm_compute; reflexivity.
Qed.
(** The replacements rely on ascending indices: for [1; 0] both types end up equal. *)
Theorem C28_order_refuted : cxx_active false [1; 0] [1; 0]%Z = ([0; 1], [1; 1]%Z).
Proof. vm_compute. reflexivity. Qed.
(** Elements doubled for spins are not distinguished: a sub-model of both spin types of Fe loses the atoms of one of them. *)
Theorem C28_spin_refuted : exists outs t, set_unique [mk_sub ["Fe"; "Fe"; "O"] 3 []; mk_sub ["Fe"; "Fe"] 2 []] = Ok outs /\ nth_error outs 1 = Some t /\ t_indices t = [0; 0] /\
  cxx_active (t_full t) (t_indices t) [0; 1; 2]%Z = ([0], [1]%Z).
Proof. do 2 eexists. split; [vm_compute; reflexivity|]. split; [reflexivity|]. split; vm_compute; reflexivity. Qed.
Example C28_example : exists subs els names types, 2 <= length subs /\ first_longest subs els /\ NoDup els /\ Forall (sound els) subs /\ numbered els names types /\
  subs = [mk_sub ["O"] 1 []; mk_sub ["Mg"; "Al"; "O"] 3 []; mk_sub ["O"; "Mg"] 2 []] /\
  exists outs, set_unique subs = Ok outs /\ map (fun t => cxx_active (t_full t) (t_indices t) types) outs = [([1; 3], [0; 0]%Z); ([0; 1; 2; 3], types); ([1; 2; 3], [1; 0; 1]%Z)].
Proof.
  set (s1 := mk_sub ["O"] 1 []). set (s2 := mk_sub ["Mg"; "Al"; "O"] 3 []). set (s3 := mk_sub ["O"; "Mg"] 2 []). exists [s1; s2; s3], ["Mg"; "Al"; "O"], ["Al"; "O"; "Mg"; "O"], [1; 2; 0; 2]%Z.
  split; [cbn; lia|]. split; [exists [s1], s2, [s3]; split; [reflexivity|]; split; [reflexivity|]; split; [intros x [<-|[]]; cbn; lia|intros x [<-|[]]; cbn; lia]|].
  split; [repeat constructor; cbn; intuition discriminate|]. split; [repeat (apply Forall_cons; [sound_tac|]); apply Forall_nil|].
  split; [constructor; [exists 1|constructor; [exists 2|constructor; [exists 0|constructor; [exists 2|constructor]]]]; split; reflexivity|]. split; [reflexivity|]. eexists. split; [vm_compute; reflexivity|]. vm_compute. reflexivity.
Qed.
Print Assumptions C28_select.
Print Assumptions C28_agree.
Print Assumptions C28_rejected.
Print Assumptions C28_pairs.
Print Assumptions C28_pairs_refuted.
Print Assumptions C28_order_refuted.
Print Assumptions C28_spin_refuted.
