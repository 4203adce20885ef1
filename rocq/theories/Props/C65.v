(** C65: files of hybrid potentials. *)
From Verif Require Import Base Num Model.Structure Model.Properties Model.HybridTypes Model.HybridFile Proofs.Structure Proofs.StructureProps Proofs.Properties Proofs.HybridTypes Props.C04 Props.C28.
From Coq Require String.
From Coq Require Import Sorting.Sorted.
Import String.StringSyntax.
Local Open Scope string_scope.
Local Open Scope list_scope.
Local Open Scope nat_scope.

(** A sub-model of distinct elements *)
Definition proper (s : sub) : Prop := NoDup (u_elements s) /\ u_n_type s = length (u_elements s).
(** The longest element list of the sub-models contains all their elements. *)
Definition covered (subs : list sub) : Prop := exists els, first_longest subs els /\ forall s, In s subs -> incl (u_elements s) els.
(** So for every two or more of the sub-models from the first on *)
Definition loadable (subs : list sub) : Prop := forall k, 2 <= k <= length subs -> covered (firstn k subs).

(** ** What the common list makes of a sub-model *)
Definition closed (els : list string) (s : sub) : HybridTypes.typed :=
  let own := filter (is_in (u_elements s)) els in
  mk_typed (mk_sub own (u_n_type s) (u_pairs s)) (u_n_type s =? length els) (if u_n_type s =? length els then seq 0 (length els) else map (fun e => position e els) own).
Lemma filter_ascending els (p : string -> bool) : NoDup els -> ascending els (filter p els).
Proof.
  intros HN. assert (H := ascending_self els HN). revert H. unfold ascending. generalize (fun a b => position a els < position b els) as R. clear HN. intros R H.
  induction H as [|a l H IH HA]; cbn [filter]; [constructor|]. destruct (p a); [|exact IH]. constructor; [exact IH|]. rewrite Forall_forall in *. intros x Hx. apply filter_In in Hx. now apply HA.
Qed.
Lemma sorted_closed els l : NoDup els -> NoDup l -> incl l els -> sorted_elements els l = Ok (filter (is_in l) els).
Proof.
  intros HE HL HI. destruct (sorted_elements_ok els l HI HL) as [l' [-> [HP HA]]]. f_equal. apply (ascending_unique els); [exact HA|now apply filter_ascending|]. rewrite HP. apply NoDup_Permutation; [exact HL|now apply NoDup_filter|].
  intros x. rewrite filter_In, is_in_In. split; [intros H; split; [now apply HI|exact H]|tauto].
Qed.
Lemma set_unique_closed subs els : 2 <= length subs -> first_longest subs els -> NoDup els -> Forall (sound els) subs -> set_unique subs = Ok (map (closed els) subs).
Proof.
  intros HL HF HN HS. unfold set_unique, common. destruct subs as [|s0 subs0] eqn:ES; [cbn in HL; lia|]. rewrite <- ES in *. clear ES s0 subs0. cbn [bind]. rewrite (longest_ok _ _ HF), (n_type_ok _ _ HF HS).
  replace (length subs <=? 1) with false by (symmetry; apply Nat.leb_gt; lia). clear HL HF.
  induction HS as [|s subs [H1 [H2 H3]] HS IH]; [reflexivity|]. cbn [mapM map]. rewrite (sorted_closed els _ HN H1 H2). cbn [bind]. destruct (mapM _ subs) as [subs'|] eqn:EM; [|discriminate IH]. cbn [bind mapM u_n_type u_elements] in *. rewrite IH.
  rewrite mapM_py_index by (intros x Hx; apply filter_In in Hx; tauto). unfold closed at 2. destruct (u_n_type s =? length els); reflexivity.
Qed.
Lemma closed_again els els' s : NoDup els -> incl (u_elements s) els -> u_elements (t_sub (closed els s)) = filter (is_in (u_elements s)) els /\ (forall e, In e (u_elements (t_sub (closed els s))) <-> In e (u_elements s)) /\
  filter (is_in (u_elements (t_sub (closed els s)))) els' = filter (is_in (u_elements s)) els'.
Proof.
  intros HN HI. assert (G : forall e, In e (filter (is_in (u_elements s)) els) <-> In e (u_elements s)) by (intros e; rewrite filter_In, is_in_In; split; [tauto|auto]). split; [reflexivity|]. split; [exact G|]. cbn [closed t_sub u_elements].
  apply filter_ext. intros e. apply eq_true_iff_eq. rewrite !is_in_In. apply G.
Qed.
Lemma closed_length els s : NoDup els -> NoDup (u_elements s) -> incl (u_elements s) els -> length (u_elements (t_sub (closed els s))) = length (u_elements s).
Proof.
  intros HN H1 HI. apply Permutation_length. apply NoDup_Permutation; [now apply NoDup_filter|exact H1|]. intros x. apply (closed_again els els s HN HI).
Qed.

(** ** Loading step by step *)
Lemma longest_unique subs els els' : first_longest subs els -> first_longest subs els' -> els = els'.
Proof. intros H H'. rewrite <- (longest_ok _ _ H). now apply longest_ok. Qed.
Lemma first_longest_nodup subs els : Forall proper subs -> first_longest subs els -> NoDup els.
Proof. intros HP [pre [s [post [-> [<- _]]]]]. rewrite Forall_forall in HP. apply HP, in_elt. Qed.
Lemma covered_sound subs els : Forall proper subs -> first_longest subs els -> (forall s, In s subs -> incl (u_elements s) els) -> Forall (sound els) subs.
Proof. intros HP _ HI. rewrite Forall_forall in *. intros s Hs. destruct (HP s Hs) as [H1 H2]. split; [exact H1|]. split; [now apply HI|exact H2]. Qed.

Section C65.
  Context {F : Type} {N : Num F} {L : RingLaws F} {W P A V : Type}.
  Notation member := (member (W := W)).
  Notation file := (file (W := W)).
  (** The object of one sub-model after the common list has been applied *)
  Definition settled (els : list string) (m : member) : member := written m (closed els (m_given m)).
  Lemma hybrid_settled (ms : list member) els : 2 <= length ms -> Forall proper (map m_given ms) ->
    (forall m, In m ms -> Permutation (m_elements m) (u_elements (m_given m))) -> first_longest (map now_sub ms) els -> (forall m, In m ms -> incl (m_elements m) els) ->
    hybrid ms = Ok (map (settled els) ms).
  Proof.
    intros HL HP HE HF HI. unfold hybrid. replace (length ms =? 1) with false by (symmetry; apply Nat.eqb_neq; lia).
    assert (HQ : Forall proper (map now_sub ms)). { rewrite Forall_forall in *. intros s Hs. apply in_map_iff in Hs. destruct Hs as [m [<- Hm]]. destruct (HP (m_given m) (in_map _ _ _ Hm)) as [H1 H2]. split; cbn [now_sub u_elements u_n_type]; [eapply Permutation_NoDup; [symmetry; apply HE, Hm|exact H1]|]. rewrite H2. symmetry. apply Permutation_length, HE, Hm. }
    assert (HN := first_longest_nodup _ _ HQ HF). rewrite (set_unique_closed _ els); [|now rewrite map_length|exact HF|exact HN|].
    2: { apply (covered_sound _ _ HQ HF). intros s Hs. apply in_map_iff in Hs. destruct Hs as [m [<- Hm]]. now apply HI. }
    cbn [bind]. f_equal. assert (G : forall m, In m ms -> closed els (now_sub m) = closed els (m_given m)).
    { intros m Hm. unfold closed. cbn [now_sub u_elements u_n_type u_pairs]. assert (E : filter (is_in (m_elements m)) els = filter (is_in (u_elements (m_given m))) els); [|now rewrite E]. apply filter_ext. intros e. apply eq_true_iff_eq. rewrite !is_in_In. split; apply Permutation_in; [|symmetry]; apply HE, Hm. }
    clear - G. induction ms as [|m ms IH]; [reflexivity|]. cbn [map combine fst snd]. f_equal; [unfold settled; now rewrite G by now left|]. apply IH. intros x Hx. apply G. now right.
  Qed.
  Lemma settled_given els m : m_given (settled els m) = m_given m.
  Proof. reflexivity. Qed.
  Lemma settled_elements els m : NoDup els -> proper (m_given m) -> incl (u_elements (m_given m)) els -> Permutation (m_elements (settled els m)) (u_elements (m_given m)).
  Proof. intros HN [H1 H2] HI. cbn [settled written m_elements]. apply NoDup_Permutation; [now apply NoDup_filter|exact H1|]. intros x. apply (closed_again els els _ HN HI). Qed.
  (** The longest list of the settled sub-models and one more *)
  Lemma longest_settled els els' (ms : list member) m : NoDup els -> Forall proper (map m_given (ms ++ [m])) -> first_longest (map m_given ms) els -> (forall x, In x ms -> incl (u_elements (m_given x)) els) ->
    first_longest (map m_given (ms ++ [m])) els' -> m_elements m = u_elements (m_given m) -> first_longest (map now_sub (map (settled els) ms ++ [m])) els'.
  Proof.
    intros HN HP HF HI HF' EM. destruct HF as [pre [s [post [ES [EL [H1 H2]]]]]].
    assert (LN : forall x, In x ms -> length (u_elements (now_sub (settled els x))) = length (u_elements (m_given x))).
    { intros x Hx. cbn [now_sub u_elements]. apply Permutation_length, settled_elements; [exact HN| |now apply HI]. rewrite Forall_forall in HP. apply HP. apply in_map. apply in_or_app. now left. }
    assert (E' : els' = if length els <? length (u_elements (m_given m)) then u_elements (m_given m) else els).
    { rewrite <- (longest_ok _ _ HF'). rewrite map_app. unfold longest. rewrite fold_left_app. cbn [map fold_left]. fold (longest (map m_given ms)). rewrite (longest_ok (map m_given ms) els); [reflexivity|]. exists pre, s, post. auto. }
    rewrite map_app. cbn [map]. destruct (Nat.ltb_spec (length els) (length (u_elements (m_given m)))) as [HL|HL]; rewrite E'.
    - exists (map now_sub (map (settled els) ms)), (now_sub m), []. split; [reflexivity|]. split; [exact EM|]. split; [|intros x []]. intros x Hx. rewrite map_map in Hx. apply in_map_iff in Hx. destruct Hx as [y [<- Hy]]. rewrite (LN y Hy).
      assert (G : In (m_given y) (pre ++ s :: post)) by (rewrite <- ES; now apply in_map). apply in_app_or in G. destruct G as [G|[G|G]]; [apply H1 in G; lia|rewrite <- G, EL; lia|apply H2 in G; lia].
    - apply map_eq_app in ES. destruct ES as [pre0 [rest [-> [EP ER]]]]. apply map_eq_cons in ER. destruct ER as [x [post0 [-> [ES EQ]]]]. subst s. exists (map now_sub (map (settled els) pre0)), (now_sub (settled els x)), (map now_sub (map (settled els) post0) ++ [now_sub m]).
      split; [rewrite !map_app; cbn [map]; rewrite <- app_assoc; reflexivity|]. split; [|split].
      + cbn [now_sub u_elements settled written m_elements closed t_sub]. rewrite EL. assert (G : forall l : list string, incl l els -> filter (is_in els) l = l).
        { induction l as [|a l IH]; intros G; [reflexivity|]. cbn [filter]. rewrite (proj2 (is_in_In els a)) by (apply G; now left). f_equal. apply IH. intros y Hy. apply G. now right. }
        apply G, incl_refl.
      + intros y Hy. rewrite map_map in Hy. apply in_map_iff in Hy. destruct Hy as [z [<- Hz]]. rewrite LN by (apply in_or_app; now left). apply H1. rewrite <- EP. now apply in_map.
      + intros y Hy. apply in_app_or in Hy. destruct Hy as [Hy|[<-|[]]]; [|cbn [now_sub u_elements]; rewrite EM; exact HL]. rewrite map_map in Hy. apply in_map_iff in Hy. destruct Hy as [z [<- Hz]]. rewrite LN by (apply in_or_app; right; now right). apply H2. rewrite <- EQ. now apply in_map.
  Qed.
  Lemma longest_exists subs : subs <> [] -> exists els, first_longest subs els.
  Proof.
    induction subs as [|s subs IH] using rev_ind; intros H; [congruence|]. destruct subs as [|s0 subs]; [exists (u_elements s), [], s, []; repeat split; intros x []|].
    destruct IH as [els [pre [t [post [E [EL [H1 H2]]]]]]]; [discriminate|]. destruct (Nat.ltb_spec (length els) (length (u_elements s))) as [HL|HL].
    - exists (u_elements s), (s0 :: subs), s, []. split; [reflexivity|]. split; [reflexivity|]. split; [|intros x []]. rewrite E. intros x Hx. apply in_app_or in Hx. destruct Hx as [Hx|[<-|Hx]]; [apply H1 in Hx; lia|rewrite EL; lia|apply H2 in Hx; lia].
    - exists els, pre, t, (post ++ [s]). split; [rewrite E, <- app_assoc; reflexivity|]. split; [exact EL|]. split; [exact H1|]. intros x Hx. apply in_app_or in Hx. destruct Hx as [Hx|[<-|[]]]; [now apply H2|exact HL].
  Qed.
  Notation started := (fun m : member => m_elements m = u_elements (m_given m)).
  (** One [append] *)
  Lemma append_ok els els' (ms : list member) m : ms <> [] -> Forall proper (map m_given (ms ++ [m])) -> first_longest (map m_given ms) els -> (forall x, In x ms -> incl (u_elements (m_given x)) els) ->
    first_longest (map m_given (ms ++ [m])) els' -> (forall x, In x (ms ++ [m]) -> incl (u_elements (m_given x)) els') -> started m -> hybrid (map (settled els) ms ++ [m]) = Ok (map (settled els') (ms ++ [m])).
  Proof.
    intros HM HP HF HI HF' HI' EM. assert (HN : NoDup els). { apply (first_longest_nodup (map m_given ms)); [|exact HF]. rewrite map_app in HP. now apply Forall_app in HP. }
    assert (HPX : forall x, In x (ms ++ [m]) -> proper (m_given x)) by (intros x Hx; rewrite Forall_forall in HP; apply HP, in_map, Hx).
    rewrite (hybrid_settled _ els').
    - rewrite !map_app, !map_map. reflexivity.
    - rewrite app_length, map_length. destruct ms; [congruence|]. cbn. lia.
    - rewrite map_app, map_map. rewrite map_app in HP. exact HP.
    - intros x Hx. apply in_app_or in Hx. destruct Hx as [Hx|[<-|[]]]; [|rewrite EM; reflexivity]. apply in_map_iff in Hx. destruct Hx as [y [<- Hy]]. rewrite settled_given. apply settled_elements; [exact HN|apply HPX, in_or_app; now left|now apply HI].
    - now apply longest_settled.
    - intros x Hx. apply in_app_or in Hx. destruct Hx as [Hx|[<-|[]]]; [|rewrite EM; apply HI', in_or_app; right; now left]. apply in_map_iff in Hx. destruct Hx as [y [<- Hy]]. intros e He. apply (HI' y); [apply in_or_app; now left|]. revert He. apply Permutation_in, settled_elements; [exact HN|apply HPX, in_or_app; now left|now apply HI].
  Qed.
  Lemma first_append (m0 m : member) els' : Forall proper (map m_given [m0; m]) -> first_longest (map m_given [m0; m]) els' -> (forall x, In x [m0; m] -> incl (u_elements (m_given x)) els') -> started m0 -> started m ->
    hybrid [m0; m] = Ok (map (settled els') [m0; m]).
  Proof.
    intros HP HF HI E0 E1. apply hybrid_settled; [cbn; lia|exact HP| | |].
    - intros x [<-|[<-|[]]]; [rewrite E0|rewrite E1]; reflexivity.
    - assert (G : map now_sub [m0; m] = map m_given [m0; m]); [|now rewrite G]. cbn [map]. unfold now_sub. rewrite E0, E1. destruct (m_given m0), (m_given m). reflexivity.
    - intros x [<-|[<-|[]]]; [rewrite E0; apply HI; now left|rewrite E1; apply HI; right; now left].
  Qed.
  Lemma loadable_init (l : list sub) s : loadable (l ++ [s]) -> loadable l.
  Proof. intros H k Hk. specialize (H k). rewrite firstn_app in H. replace (k - length l) with 0 in H by lia. cbn [firstn] in H. rewrite app_nil_r in H. apply H. rewrite app_length. lia. Qed.
  Lemma loadable_all (l : list sub) : 2 <= length l -> loadable l -> covered l.
  Proof. intros HL H. specialize (H (length l) ltac:(lia)). now rewrite firstn_all in H. Qed.
  (** All appends *)
  Lemma appends (m0 : member) t : t <> [] -> Forall (fun m => started m) (m0 :: t) -> Forall proper (map m_given (m0 :: t)) -> loadable (map m_given (m0 :: t)) ->
    exists els, first_longest (map m_given (m0 :: t)) els /\ (forall x, In x (m0 :: t) -> incl (u_elements (m_given x)) els) /\ foldM (fun ms m => hybrid (ms ++ [m])) [m0] t = Ok (map (settled els) (m0 :: t)).
  Proof.
    induction t as [|m t IH] using rev_ind; intros HT HS HP HL; [congruence|]. destruct t as [|m1 t].
    - destruct (loadable_all (map m_given (m0 :: [m])) (le_n 2) HL) as [els [HF HI]]. cbn [app] in *. exists els. assert (HI' : forall x, In x [m0; m] -> incl (u_elements (m_given x)) els) by (intros x Hx; apply HI, in_map, Hx). split; [exact HF|]. split; [exact HI'|]. cbn [foldM app]. inversion HS as [|? ? S0 S1]; subst. inversion S1 as [|? ? S2 _]; subst. rewrite (first_append m0 m els HP HF HI' S0 S2). reflexivity.
    - assert (EA : m0 :: (m1 :: t) ++ [m] = (m0 :: m1 :: t) ++ [m]) by reflexivity. rewrite EA in *. clear EA. set (ms := m0 :: m1 :: t) in *.
      assert (LM : 2 <= length ms) by (cbn; lia). assert (HM : ms <> []) by discriminate.
      destruct IH as [els [HF [HI E]]]; [discriminate| | | |].
      { now apply Forall_app in HS. } { rewrite map_app in HP. now apply Forall_app in HP. } { rewrite map_app in HL. eapply loadable_init. exact HL. }
      destruct (loadable_all (map m_given (ms ++ [m]))) as [els' [HF' HI']]; [rewrite map_length, app_length; lia|exact HL|].
      assert (HX : forall x, In x (ms ++ [m]) -> incl (u_elements (m_given x)) els') by (intros x Hx; apply HI', in_map, Hx). exists els'. split; [exact HF'|]. split; [exact HX|].
      rewrite foldM_app. change (m0 :: m1 :: t) with ms in E. rewrite E. cbn [bind foldM]. apply Forall_app in HS. destruct HS as [_ HS]. inversion HS as [|? ? S0 _]; subst. rewrite (append_ok els els' ms m HM HP HF HI HF' HX S0). reflexivity.
  Qed.
  Lemma covered_dec subs : subs <> [] -> {covered subs} + {exists els s e, first_longest subs els /\ In s subs /\ In e (u_elements s) /\ ~ In e els}.
  Proof.
    intros HS. set (els := longest subs). destruct (forallb (fun s => forallb (is_in els) (u_elements s)) subs) eqn:E.
    - left. destruct (longest_exists subs HS) as [els' HF]. exists els'. split; [exact HF|]. assert (els = els') by now apply longest_ok. subst els'. rewrite forallb_forall in E. intros s Hs e He. specialize (E s Hs). rewrite forallb_forall in E. apply is_in_In. now apply E.
    - right. destruct (longest_exists subs HS) as [els' HF]. assert (els = els') by now apply longest_ok. subst els'.
      assert (G : forall {B} (p : B -> bool) l, forallb p l = false -> exists x, In x l /\ p x = false).
      { clear. intros B p. induction l as [|x l IH]; cbn [forallb]; intros H; [discriminate|]. destruct (p x) eqn:EP; [|exists x; split; [now left|exact EP]]. destruct (IH H) as [y [Hy Ey]]. exists y. split; [now right|exact Ey]. }
      apply G in E. destruct E as [s [Hs E]]. apply G in E. destruct E as [e [He E]]. exists els, s, e. split; [exact HF|]. split; [exact Hs|]. split; [exact He|]. intros Hx. apply is_in_In in Hx. congruence.
  Qed.
  Lemma append_fails els (ms : list member) m : ms <> [] -> Forall proper (map m_given (ms ++ [m])) -> first_longest (map m_given ms) els -> (forall x, In x ms -> incl (u_elements (m_given x)) els) ->
    ~ covered (map m_given (ms ++ [m])) -> started m -> hybrid (map (settled els) ms ++ [m]) = Err ValueError.
  Proof.
    intros HM HP HF HI HC EM. assert (HN : NoDup els). { apply (first_longest_nodup (map m_given ms)); [|exact HF]. rewrite map_app in HP. now apply Forall_app in HP. }
    destruct (covered_dec (map m_given (ms ++ [m]))) as [H|[els' [s [e [HF' [Hs [He HE]]]]]]]; [destruct ms; discriminate|contradiction|].
    unfold hybrid. replace (length (map (settled els) ms ++ [m]) =? 1) with false by (symmetry; apply Nat.eqb_neq; rewrite app_length, map_length; destruct ms; [congruence|cbn; lia]).
    apply in_map_iff in Hs. destruct Hs as [y [<- Hy]].
    assert (L2 : 2 <= length (map now_sub (map (settled els) ms ++ [m]))) by (rewrite map_length, app_length, map_length; destruct ms; [congruence|cbn; lia]).
    assert (HF2 := longest_settled els els' ms m HN HP HF HI HF' EM). apply in_app_or in Hy. destruct Hy as [Hy|[<-|[]]].
    - rewrite (C28_rejected _ els' (now_sub (settled els y)) e L2 HF2); [reflexivity| | |exact HE].
      + apply in_map, in_or_app. left. now apply in_map.
      + cbn [now_sub u_elements]. eapply Permutation_in; [symmetry; apply settled_elements; [exact HN| |now apply HI]|exact He]. rewrite Forall_forall in HP. apply HP, in_map, in_or_app. now left.
    - rewrite (C28_rejected _ els' (now_sub m) e L2 HF2); [reflexivity| | |exact HE].
      + apply in_map, in_or_app. right. now left.
      + cbn [now_sub u_elements]. now rewrite EM.
  Qed.
  Lemma loadable_last (l : list sub) s : loadable l -> covered (l ++ [s]) -> loadable (l ++ [s]).
  Proof.
    intros H HC k Hk. rewrite app_length in Hk. cbn in Hk. destruct (Nat.eq_dec k (length l + 1)) as [->|NE]; [rewrite firstn_all2 by (rewrite app_length; cbn; lia); exact HC|].
    rewrite firstn_app. replace (k - length l) with 0 by lia. cbn [firstn]. rewrite app_nil_r. apply H. lia.
  Qed.
  Lemma loadable_dec (l : list sub) : loadable l \/ ~ loadable l.
  Proof.
    induction l as [|s l IH] using rev_ind; [left; intros k Hk; cbn in Hk; lia|]. destruct IH as [IH|IH]; [|right; intros H; apply IH; eapply loadable_init; exact H].
    destruct l as [|s0 l]; [left; intros k Hk; cbn in Hk; lia|]. destruct (covered_dec ((s0 :: l) ++ [s])) as [HC|HC]; [discriminate|left; now apply loadable_last|right]. intros H. destruct (loadable_all ((s0 :: l) ++ [s])) as [els' [HF' HI]]; [cbn; rewrite app_length; cbn; lia|exact H|].
    destruct HC as [els [x [e [HF [Hx [He HE]]]]]]. rewrite (longest_unique _ _ _ HF HF') in HE. apply HE, (HI x Hx e He).
  Qed.
  Lemma foldM_err {B S} (f : S -> B -> res S) l1 l2 s e : foldM f s l1 = Err e -> foldM f s (l1 ++ l2) = Err e.
  Proof. intros H. now rewrite foldM_app, H. Qed.
  Lemma appends_fail (m0 : member) t : Forall (fun m => started m) (m0 :: t) -> Forall proper (map m_given (m0 :: t)) -> ~ loadable (map m_given (m0 :: t)) -> foldM (fun ms m => hybrid (ms ++ [m])) [m0] t = Err ValueError.
  Proof.
    induction t as [|m t IH] using rev_ind; intros HS HP HL; [destruct HL; intros k Hk; cbn in Hk; lia|]. rewrite app_comm_cons in *.
    assert (HS0 : Forall (fun m => started m) (m0 :: t)) by now apply Forall_app in HS. assert (HP0 : Forall proper (map m_given (m0 :: t))) by (rewrite map_app in HP; now apply Forall_app in HP).
    assert (S0 : started m) by (apply Forall_app in HS; destruct HS as [_ HS]; now inversion HS).
    destruct (loadable_dec (map m_given (m0 :: t))) as [D|D]; [|apply foldM_err; now apply IH].
    assert (HC : ~ covered (map m_given ((m0 :: t) ++ [m]))). { intros HC. apply HL. rewrite map_app in *. cbn [map app] in *. now apply (loadable_last (m_given m0 :: map m_given t) (m_given m)). }
    destruct t as [|m1 t].
    - cbn [app foldM]. inversion HS0 as [|? ? E0 _]; subst. destruct (covered_dec (map m_given ([m0] ++ [m]))) as [H|[els [s [e [HF [Hs [He HE]]]]]]]; [discriminate|contradiction|].
      assert (EN : map now_sub [m0; m] = map m_given ([m0] ++ [m])). { cbn [map app]. unfold now_sub. rewrite E0, S0. destruct (m_given m0), (m_given m). reflexivity. }
      unfold hybrid. cbn [length Nat.eqb]. rewrite EN, (C28_rejected (map m_given ([m0] ++ [m])) els s e (le_n 2) HF Hs He HE). reflexivity.
    - destruct (appends m0 (m1 :: t)) as [els [HF [HI E]]]; [discriminate|exact HS0|exact HP0|exact D|]. rewrite foldM_app, E. cbn [bind foldM]. rewrite (append_fails els (m0 :: m1 :: t) m); [reflexivity|discriminate|exact HP|exact HF|exact HI|exact HC|exact S0].
  Qed.
  Lemma load_folds (f : file) t : load_mlps (f :: t) = foldM (fun ms m => hybrid (ms ++ [m])) [load_one f] (map load_one t).
  Proof. unfold load_mlps. cbn [hybrid length Nat.eqb bind]. generalize [load_one f] as acc. induction t as [|g t IH]; intros acc; [reflexivity|]. cbn [map foldM]. destruct (hybrid (acc ++ [load_one g])) as [acc'|]; [|reflexivity]. cbn [bind]. apply IH. Qed.

  (** ** Reading the files back *)
  Variables (det : A -> V) (argsort : list Z -> list nat) (cart : A -> list P -> list P).
  Variable cpp : nat -> list ((nat * nat) * list nat) -> W -> evaluator P A (F := F).
  Notation eval := (Properties.eval P A V det argsort cart).
  Notation hybrid_eval := (hybrid_eval P A V det argsort cart).
  Notation hybrid_eval_multiple := (hybrid_eval_multiple P A V det argsort cart).
  Notation from_params := (from_params cpp).
  Notation from_files := (from_files cpp).
  (** New sub-models: no flags passed, attributes as given *)
  Notation news := (map (fun q : sub * W => fresh (fst q) None (snd q))).
  Lemma hybrid_news (qs : list (sub * W)) els : 2 <= length qs -> Forall proper (map fst qs) -> first_longest (map fst qs) els -> (forall q, In q qs -> incl (u_elements (fst q)) els) ->
    hybrid (news qs) = Ok (map (settled els) (news qs)).
  Proof.
    intros HL HP HF HI. apply hybrid_settled; [now rewrite map_length|now rewrite map_map| | |].
    - intros m Hm. apply in_map_iff in Hm. destruct Hm as [q [<- _]]. reflexivity.
    - rewrite map_map. replace (map _ qs) with (map fst qs); [exact HF|]. apply map_ext. intros [[e n p] w]. reflexivity.
    - intros m Hm. apply in_map_iff in Hm. destruct Hm as [q [<- Hq]]. now apply HI.
  Qed.
  Lemma saved_given (ms : list member) : map w_sub (save_mlps ms) = map m_given ms.
  Proof. unfold save_mlps. rewrite map_map. apply map_ext. intros m. unfold save_one. destruct (m_passed m) as [[b idx]|]; reflexivity. Qed.
  Lemma saved_model (ms : list member) : map w_model (save_mlps ms) = map m_model ms.
  Proof. unfold save_mlps. rewrite map_map. apply map_ext. intros m. unfold save_one. destruct (m_passed m) as [[b idx]|]; reflexivity. Qed.
  (** [load_mlps] after [save_mlps]: the same potential *)
  Theorem C65_load (qs : list (sub * W)) ms : qs <> [] -> Forall proper (map fst qs) -> loadable (map fst qs) -> hybrid (news qs) = Ok ms ->
    exists ms', load_mlps (save_mlps ms) = Ok ms' /\ map m_elements ms' = map m_elements ms /\ (2 <= length qs -> map m_full ms' = map m_full ms /\ map m_indices ms' = map m_indices ms) /\
      (forall st, hybrid_eval (from_params ms') st = hybrid_eval (from_params ms) st) /\ (forall sts, hybrid_eval_multiple (from_params ms') sts = hybrid_eval_multiple (from_params ms) sts).
  Proof.
    intros HQ HP HL EH. destruct qs as [|q0 qs]; [congruence|]. destruct qs as [|q1 qs].
    - cbn [map hybrid length Nat.eqb] in EH. assert (ms = [fresh (fst q0) None (snd q0)]) by congruence. subst ms. clear. eexists. split; [reflexivity|]. split; [reflexivity|]. split; [cbn; lia|]. split; intros; reflexivity.
    - destruct (loadable_all (map fst (q0 :: q1 :: qs))) as [els [HF HI]]; [cbn; lia|exact HL|]. rewrite (hybrid_news (q0 :: q1 :: qs) els) in EH; [|cbn; lia|exact HP|exact HF|intros q Hq; apply HI, in_map, Hq]. assert (ms = map (settled els) (news (q0 :: q1 :: qs))) by congruence. subst ms. clear EH.
      set (l := q0 :: q1 :: qs) in *. assert (EF : save_mlps (map (settled els) (news l)) = map (fun q => save_one (settled els (fresh (fst q) None (snd q)))) l) by (unfold save_mlps; rewrite !map_map; reflexivity).
      rewrite EF. set (fl := fun q : sub * W => load_one (save_one (settled els (fresh (fst q) None (snd q))))).
      assert (EG : map m_given (map fl l) = map fst l) by (rewrite map_map; reflexivity).
      destruct (appends (fl q0) (map fl (q1 :: qs))) as [els' [HF' [_ E]]]; [discriminate| | | |].
      { change (fl q0 :: map fl (q1 :: qs)) with (map fl l). apply Forall_forall. intros m Hm. apply in_map_iff in Hm. destruct Hm as [q [<- _]]. reflexivity. }
      { change (fl q0 :: map fl (q1 :: qs)) with (map fl l). now rewrite EG. } { change (fl q0 :: map fl (q1 :: qs)) with (map fl l). now rewrite EG. }
      change (fl q0 :: map fl (q1 :: qs)) with (map fl l) in *. rewrite EG in HF'. assert (els' = els) by (eapply longest_unique; eauto). subst els'. exists (map (settled els) (map fl l)).
      split; [set (sv := fun q : sub * W => save_one (settled els (fresh (fst q) None (snd q)))); change (map sv l) with (sv q0 :: map sv (q1 :: qs)); rewrite load_folds, map_map; exact E|].
      assert (EC : from_params (map (settled els) (map fl l)) = from_params (map (settled els) (news l))) by (unfold HybridFile.from_params; rewrite !map_map; reflexivity).
      split; [rewrite !map_map; reflexivity|]. split; [intros _; split; rewrite !map_map; reflexivity|]. split; intros; now rewrite EC.
  Qed.
  (** Otherwise it fails, although the complete list may be covered: the files are added one by one. *)
  Theorem C65_load_fails (ms : list member) : Forall proper (map m_given ms) -> ~ loadable (map m_given ms) -> load_mlps (save_mlps ms) = Err ValueError.
  Proof.
    intros HP HL. destruct ms as [|m0 ms]; [destruct HL; intros k Hk; cbn in Hk; lia|].
    assert (ES := saved_given (m0 :: ms)). rewrite <- ES in HP, HL. destruct (save_mlps (m0 :: ms)) as [|f fs] eqn:E; [discriminate E|]. rewrite load_folds.
    assert (E1 : map m_given (load_one f :: map load_one fs) = map w_sub (f :: fs)) by (cbn [map]; rewrite map_map; reflexivity).
    apply appends_fail; [|now rewrite E1|now rewrite E1]. change (load_one f :: map load_one fs) with (map load_one (f :: fs)). apply Forall_forall. intros m Hm. apply in_map_iff in Hm. destruct Hm as [g [<- _]]. reflexivity.
  Qed.

  (** ** The files one by one *)
  Notation wf := (wf P A V).
  Lemma mapped_types els (names : list string) (ts : list Z) : NoDup els -> length ts = length names -> (forall i e t, nth_error names i = Some e -> nth_error ts i = Some t -> (0 <= t)%Z /\ nth_error els (Z.to_nat t) = Some e) ->
    ts = map (fun e => Z.of_nat (position e els)) names.
  Proof.
    intros HN. revert ts. induction names as [|e names IH]; intros [|t ts] HL H; try discriminate HL; [reflexivity|]. cbn [map]. f_equal.
    - destruct (H 0 e t eq_refl eq_refl) as [H0 H1]. assert (G := position_at els (Z.to_nat t) e HN H1). lia.
    - apply IH; [now injection HL|]. intros i e' t' H1 H2. exact (H (S i) e' t' H1 H2).
  Qed.
  Lemma replaced own (st : structure P A V) : wf st -> NoDup own -> incl (elements st) own -> exists st', replace_types argsort st own = Ok st' /\ axis st' = axis st /\ positions st' = positions st /\ types st' = map (fun e => Z.of_nat (position e own)) (elements st).
  Proof.
    intros [H1 H2] HN HI. destruct (C04_replace_types argsort st own H2 HN HI) as [st' [E [EL [HT [_ [EP [_ [EA _]]]]]]]]. exists st'. split; [exact E|]. split; [exact EA|]. split; [exact EP|]. now apply mapped_types.
  Qed.
  Lemma filter_all {B} (p : B -> bool) l : (forall x, In x l -> p x = true) -> filter p l = l.
  Proof. induction l as [|x l IH]; intros H; [reflexivity|]. cbn [filter]. rewrite H by now left. f_equal. apply IH. intros y Hy. apply H. now right. Qed.
  Lemma where_full (p : string -> bool) l : (forall x, In x l -> p x = true) -> where_ p l = seq 0 (length l).
  Proof. unfold where_. generalize 0. induction l as [|x l IH]; intros k H; [reflexivity|]. cbn [where_from length seq]. rewrite H by now left. f_equal. apply IH. intros y Hy. apply H. now right. Qed.
  Lemma spread_all p (l : list string) (f : list (vec3 (F := F))) : (forall x, In x l -> p x = true) -> length f = length l -> spread p l f = f.
  Proof. revert f. induction l as [|x l IH]; intros [|y f] H HL; try discriminate HL; [reflexivity|]. cbn [spread]. rewrite H by now left. f_equal. apply IH; [intros z Hz; apply H; now right|now injection HL]. Qed.
  (** Where a sub-model has all elements of the structure the flag makes no difference. *)
  Lemma flag_irrelevant own fl (ev : evaluator P A) (st : structure P A V) : wf st -> elements st <> [] -> NoDup own -> incl (elements st) own -> sized P A (mk_single P A own (Some false) ev) ->
    eval (mk_single P A own fl ev) st = eval (mk_single P A own (Some false) ev) st.
  Proof.
    intros HW HE HN HI HS. assert (HA : forall x, In x (elements st) -> is_in own x = true) by (intros x Hx; apply is_in_In, HI, Hx).
    assert (G : eval (mk_single P A own (Some true) ev) st = eval (mk_single P A own (Some false) ev) st); [|destruct fl as [[|]|]; [exact G|reflexivity|rewrite <- G; reflexivity]].
    rewrite (eval_partial_ok P A V det argsort cart (mk_single P A own (Some false) ev) st HW eq_refl (all_distinct_nodup _ HN) HS). unfold Properties.eval at 1. cbn [full s_type_full s_elements]. destruct (replaced own st HW HN HI) as [st' [-> [EA [EP ET]]]]. cbn [bind].
    replace (existsb (is_in own) (elements st)) with true; [|symmetry; apply existsb_exists; destruct (elements st) as [|x l]; [congruence|exists x; split; [now left|apply HA; now left]]].
    assert (EO : obj_eval P A V cart (mk_single P A own (Some false) ev) (active_of P A V det own st) = obj_eval P A V cart (mk_single P A own (Some true) ev) st').
    { unfold obj_eval. cbn [s_pot active_of axis positions types]. rewrite EA, EP, ET, (filter_all _ _ HA). f_equal. f_equal. destruct HW as [HW _]. rewrite filter_all; [|intros [x y] Hx; apply HA; eapply in_combine_l; exact Hx]. clear - HW. revert HW. generalize (positions st) as ps. induction (elements st) as [|x l IH]; intros [|y ps] HW; try discriminate HW; [reflexivity|]. cbn [combine map snd]. f_equal. apply IH. now injection HW. }
    rewrite EO. cbn zeta. assert (LF : length (snd (fst (obj_eval P A V cart (mk_single P A own (Some true) ev) st'))) = length (elements st)). { unfold obj_eval. cbn [s_pot]. destruct (HS (axis st') (cart (axis st') (positions st')) (types st')) as [HZ _]. cbn [s_pot] in HZ. now rewrite HZ, ET, map_length. }
    destruct (obj_eval P A V cart (mk_single P A own (Some true) ev) st') as [[e f] s]. cbn [fst snd] in *. destruct HW as [HW1 HW2]. rewrite HW2.
    rewrite (put_all_spread (is_in own) (elements st) f) by (rewrite filter_all by exact HA; exact LF). cbn [bind]. rewrite spread_all by assumption. reflexivity.
  Qed.
  Lemma fold_eval_ext (l l' : list (single F P A)) st : map (fun p => eval p st) l = map (fun p => eval p st) l' -> hybrid_eval l st = hybrid_eval l' st.
  Proof.
    destruct l as [|p l], l' as [|p' l']; intros H; try discriminate H; [reflexivity|]. cbn [map] in H. assert (E0 : eval p st = eval p' st) by congruence. assert (E1 : map (fun p => eval p st) l = map (fun p => eval p st) l') by congruence. clear H.
    unfold Properties.hybrid_eval. rewrite E0. destruct (eval p' st) as [v|]; [|reflexivity]. cbn [bind]. clear E0. revert l' v E1. induction l as [|q l IH]; intros [|q' l'] v E1; try discriminate E1; [reflexivity|]. cbn [map] in E1. assert (E0 : eval q st = eval q' st) by congruence. assert (E2 : map (fun p => eval p st) l = map (fun p => eval p st) l') by congruence. clear E1.
    cbn [foldM]. rewrite E0. destruct (eval q' st) as [w|]; [|reflexivity]. cbn [bind]. destruct (add_value v w) as [u|]; [|reflexivity]. cbn [bind]. now apply IH.
  Qed.
  (** Element lists in the order of the common list *)
  Definition ordered (els : list string) (s : sub) : Prop := filter (is_in (u_elements s)) els = u_elements s.
  (** The C++ evaluator returns one force for each atom and six stress components. *)
  Definition good : Prop := forall n ps w, sized P A (mk_single P A [] None (cpp n ps w)).
  Lemma from_files_ok els (qs : list (sub * W)) : from_files (save_mlps (map (settled els) (news qs))) = map (fun q => mk_single P A (u_elements (fst q)) (Some true) (cpp (u_n_type (fst q)) (u_pairs (fst q)) (snd q))) qs.
  Proof. unfold HybridFile.from_files, save_mlps. rewrite !map_map. reflexivity. Qed.
  Lemma from_params_ok els (qs : list (sub * W)) : (forall q, In q qs -> ordered els (fst q)) ->
    from_params (map (settled els) (news qs)) = map (fun q => mk_single P A (u_elements (fst q)) (Some (u_n_type (fst q) =? length els)) (cpp (u_n_type (fst q)) (u_pairs (fst q)) (snd q))) qs.
  Proof. intros HO. unfold HybridFile.from_params. rewrite !map_map. apply map_ext_in. intros q Hq. unfold calculator. cbn [settled written m_elements m_full m_given m_model fresh closed t_sub t_full u_elements]. now rewrite (HO q Hq). Qed.
  Lemma all_settled (qs : list (sub * W)) ms els : 2 <= length qs -> Forall proper (map fst qs) -> first_longest (map fst qs) els -> hybrid (news qs) = Ok ms -> ms = map (settled els) (news qs) /\ (forall q, In q qs -> incl (u_elements (fst q)) els) /\ NoDup els.
  Proof.
    intros HL HP HF EH. destruct (covered_dec (map fst qs)) as [HC|[els' [s [e [HF' [Hs [He HE]]]]]]]; [destruct qs; [cbn in HL; lia|discriminate]| |].
    - destruct HC as [els' [HF' HI]]. rewrite (longest_unique _ _ _ HF' HF) in HI. assert (HI' : forall q, In q qs -> incl (u_elements (fst q)) els) by (intros q Hq; apply HI, in_map, Hq). rewrite (hybrid_news qs els HL HP HF HI') in EH. split; [congruence|]. split; [exact HI'|]. eapply first_longest_nodup; eauto.
    - exfalso. unfold hybrid in EH. rewrite map_length in EH. replace (length qs =? 1) with false in EH by (symmetry; apply Nat.eqb_neq; lia). rewrite map_map in EH. replace (map (fun x => now_sub (fresh (fst x) None (snd x))) qs) with (map fst qs) in EH by (apply map_ext; intros [[? ? ?] ?]; reflexivity). rewrite (C28_rejected (map fst qs) els' s e) in EH; [discriminate EH|now rewrite map_length|exact HF'|exact Hs|exact He|exact HE].
  Qed.
  (** [PropertiesHybrid(pot=[...])] with the files saved gives what the parameters give when every sub-model has all the elements of the structure ... *)
  Theorem C65_files (qs : list (sub * W)) ms els st : good -> 2 <= length qs -> Forall proper (map fst qs) -> first_longest (map fst qs) els -> Forall (ordered els) (map fst qs) -> hybrid (news qs) = Ok ms ->
    wf st -> elements st <> [] -> (forall q, In q qs -> incl (elements st) (u_elements (fst q))) -> hybrid_eval (from_files (save_mlps ms)) st = hybrid_eval (from_params ms) st.
  Proof.
    intros HG HL HP HF HO EH HW HE HI. destruct (all_settled qs ms els HL HP HF EH) as [-> _]. assert (HO' : forall q, In q qs -> ordered els (fst q)) by (intros q Hq; rewrite Forall_forall in HO; apply HO, in_map, Hq).
    rewrite from_files_ok, (from_params_ok els qs HO'). apply fold_eval_ext. rewrite !map_map. apply map_ext_in. intros q Hq.
    assert (HN : NoDup (u_elements (fst q))) by (rewrite Forall_forall in HP; apply HP, in_map, Hq). assert (HS : sized P A (mk_single P A (u_elements (fst q)) (Some false) (cpp (u_n_type (fst q)) (u_pairs (fst q)) (snd q)))) by exact (HG _ _ _).
    rewrite (flag_irrelevant _ (Some true)), (flag_irrelevant _ (Some (u_n_type (fst q) =? length els))) by auto. reflexivity.
  Qed.
  Lemma eval_full_ok own fl (ev : evaluator P A) st : wf st -> NoDup own -> incl (elements st) own -> sized P A (mk_single P A own fl ev) -> full P A (mk_single P A own fl ev) = true -> exists v, eval (mk_single P A own fl ev) st = Ok v /\ shaped (length (types st)) v.
  Proof.
    intros HW HN HI HS HF. unfold Properties.eval. rewrite HF. cbn [s_elements]. destruct (replaced own st HW HN HI) as [st' [-> [EA [EP ET]]]]. cbn [bind]. eexists. split; [reflexivity|]. unfold obj_eval. cbn [s_pot]. destruct (HS (axis st') (cart (axis st') (positions st')) (types st')) as [H1 H2]. cbn [s_pot] in H1, H2. split; [|exact H2]. unfold forces_of. rewrite H1, ET, map_length. destruct HW as [_ HW]. now rewrite HW.
  Qed.
  Lemma eval_part_ok own (ev : evaluator P A) st : wf st -> NoDup own -> sized P A (mk_single P A own (Some false) ev) -> exists v, eval (mk_single P A own (Some false) ev) st = Ok v /\ shaped (length (types st)) v.
  Proof.
    intros HW HN HS. rewrite (eval_partial_ok P A V det argsort cart (mk_single P A own (Some false) ev) st HW eq_refl (all_distinct_nodup _ HN) HS). cbn [s_elements]. destruct (existsb _ _).
    - cbn zeta. destruct (HS (axis (active_of P A V det own st)) (cart (axis (active_of P A V det own st)) (positions (active_of P A V det own st))) (types (active_of P A V det own st))) as [H1 H2].
      fold (obj_eval P A V cart (mk_single P A own (Some false) ev) (active_of P A V det own st)) in H1, H2. destruct HW as [HW1 HW2]. rewrite HW2. rewrite put_all_spread.
      + cbn [bind]. eexists. split; [reflexivity|]. split; [apply spread_length|exact H2].
      + rewrite H1. cbn [active_of types]. now rewrite map_length.
    - eexists. split; [reflexivity|]. split; cbn; [apply repeat_length|reflexivity].
  Qed.
  Lemma hybrid_fold_ok n (l : list (single F P A)) st v : shaped n v -> (forall p, In p l -> exists w, eval p st = Ok w /\ shaped n w) -> exists u, foldM (fun v p => do w <- eval p st; add_value v w) v l = Ok u /\ shaped n u.
  Proof.
    revert v. induction l as [|p l IH]; intros v Hv H; [exists v; split; [reflexivity|exact Hv]|]. cbn [foldM]. destruct (H p (or_introl eq_refl)) as [w [-> Hw]]. cbn [bind]. destruct (add_value_ok n v w Hv Hw) as [u [-> [Hu _]]]. cbn [bind]. apply IH; [exact Hu|]. intros q Hq. apply H. now right.
  Qed.
  (** ... and fails as soon as one sub-model lacks an element of the structure, while the parameters give a result. *)
  Theorem C65_files_fails (qs : list (sub * W)) ms els st q : good -> 2 <= length qs -> Forall proper (map fst qs) -> first_longest (map fst qs) els -> Forall (ordered els) (map fst qs) -> hybrid (news qs) = Ok ms ->
    wf st -> incl (elements st) els -> In q qs -> ~ incl (elements st) (u_elements (fst q)) ->
    hybrid_eval (from_files (save_mlps ms)) st = Err RuntimeError /\ exists v, hybrid_eval (from_params ms) st = Ok v.
  Proof.
    intros HG HL HP HF HO EH HW HI Hq HX. destruct (all_settled qs ms els HL HP HF EH) as [-> [HIN HNE]]. assert (HO' : forall q, In q qs -> ordered els (fst q)) by (intros x Hx; rewrite Forall_forall in HO; apply HO, in_map, Hx).
    assert (HN : forall q, In q qs -> proper (fst q)) by (intros x Hx; rewrite Forall_forall in HP; apply HP, in_map, Hx).
    rewrite from_files_ok, (from_params_ok els qs HO'). split.
    - set (mk := fun q : sub * W => mk_single P A (u_elements (fst q)) (Some true) (cpp (u_n_type (fst q)) (u_pairs (fst q)) (snd q))).
      assert (D : forall x, In x qs -> (exists v, eval (mk x) st = Ok v /\ shaped (length (types st)) v) \/ eval (mk x) st = Err RuntimeError).
      { intros x Hx. destruct (HN x Hx) as [N1 _]. destruct (forallb (is_in (u_elements (fst x))) (elements st)) eqn:E.
        - left. apply eval_full_ok; [exact HW|exact N1| |exact (HG _ _ _)|reflexivity]. intros e He. rewrite forallb_forall in E. apply is_in_In. now apply E.
        - right. unfold Properties.eval. cbn [mk full s_type_full s_elements]. rewrite (proj2 (C04_replace_types_rejects argsort st (u_elements (fst x)) (proj2 HW) N1)); [reflexivity|].
          assert (G : forall l, forallb (is_in (u_elements (fst x))) l = false -> exists e, In e l /\ ~ In e (u_elements (fst x))).
          { clear. induction l as [|e l IH]; cbn [forallb]; intros H; [discriminate|]. destruct (is_in (u_elements (fst x)) e) eqn:EP; [|exists e; split; [now left|intros Hx; apply is_in_In in Hx; congruence]]. destruct (IH H) as [y [Hy Ey]]. exists y. split; [now right|exact Ey]. }
          now apply G. }
      assert (B : eval (mk q) st = Err RuntimeError). { destruct (D q Hq) as [[v [E _]]|E]; [|exact E]. exfalso. apply HX. unfold Properties.eval in E. cbn [mk full s_type_full s_elements] in E. intros e He. destruct (is_in (u_elements (fst q)) e) eqn:EE; [now apply is_in_In|]. exfalso.
        rewrite (proj2 (C04_replace_types_rejects argsort st (u_elements (fst q)) (proj2 HW) (proj1 (HN q Hq)))) in E; [discriminate E|]. exists e. split; [exact He|]. intros H. apply is_in_In in H. congruence. }
      assert (G : forall l v, shaped (length (types st)) v -> incl l qs -> In q l -> foldM (fun v p => do w <- eval p st; add_value v w) v (map mk l) = Err RuntimeError).
      { induction l as [|x l IH]; intros v Hv HS HM; [destruct HM|]. cbn [map foldM]. destruct (D x (HS x (or_introl eq_refl))) as [[w [E Hw]]|E]; rewrite E; cbn [bind]; [|reflexivity]. destruct HM as [->|HM]; [congruence|]. destruct (add_value_ok _ v w Hv Hw) as [u [-> [Hu _]]]. cbn [bind]. apply IH; [exact Hu|intros y Hy; apply HS; now right|exact HM]. }
      destruct qs as [|q0 qs]; [destruct Hq|]. cbn [map]. unfold Properties.hybrid_eval. fold (mk q0). destruct (D q0 (or_introl eq_refl)) as [[v [E Hv]]|E]; rewrite E; cbn [bind]; [|reflexivity]. destruct Hq as [->|Hq]; [congruence|]. apply G; [exact Hv|intros y Hy; now right|exact Hq].
    - set (mk := fun q : sub * W => mk_single P A (u_elements (fst q)) (Some (u_n_type (fst q) =? length els)) (cpp (u_n_type (fst q)) (u_pairs (fst q)) (snd q))).
      assert (D : forall x, In x qs -> exists v, eval (mk x) st = Ok v /\ shaped (length (types st)) v).
      { intros x Hx. destruct (HN x Hx) as [N1 N2]. unfold mk. destruct (Nat.eqb_spec (u_n_type (fst x)) (length els)) as [E|NE].
        - apply eval_full_ok; [exact HW|exact N1| |exact (HG _ _ _)|reflexivity]. intros e He. apply HI in He. revert e He. apply NoDup_length_incl; [exact N1|rewrite <- N2; lia|now apply HIN].
        - apply eval_part_ok; [exact HW|exact N1|exact (HG _ _ _)]. }
      destruct qs as [|q0 qs]; [destruct Hq|]. cbn [map]. unfold Properties.hybrid_eval. fold (mk q0). destruct (D q0 (or_introl eq_refl)) as [v [E Hv]]. rewrite E. cbn [bind]. destruct (hybrid_fold_ok (length (types st)) (map mk qs) st v Hv) as [u [EU _]]; [|exists u; exact EU]. intros p Hp. apply in_map_iff in Hp. destruct Hp as [x [<- Hx]]. apply D. now right.
  Qed.
End C65.
Print Assumptions C65_load.
Print Assumptions C65_load_fails.
Print Assumptions C65_files.
Print Assumptions C65_files_fails.

(** Evaluators over Z: energy and forces depend on the types. *)
Definition cpp_z (n : nat) (ps : list ((nat * nat) * list nat)) (w : Z) : evaluator nat unit (F := Z) := fun _ pos ty => ((w * fold_right Z.add 1 ty)%Z, map (fun t => (t, w, 0)%Z) ty, repeat (Z.of_nat (n + length ps)) 6).
Notation hev := (hybrid_eval nat unit unit (fun _ => tt) (fun l => seq 0 (length l)) (fun _ l => l)).
Notation news := (map (fun q : sub * Z => fresh (fst q) None (snd q))).
Definition mgo : sub * Z := (mk_sub ["Mg"; "O"] 2 [((0, 0), [0])], 3%Z).
Definition o_only : sub * Z := (mk_sub ["O"] 1 [], 10%Z).
Definition omg : sub * Z := (mk_sub ["O"; "Mg"] 2 [], 10%Z).
Definition st_o : structure nat unit unit := mk_structure tt [7; 8] [2] ["O"; "O"] [0; 0]%Z tt None.
Definition st_mgo : structure nat unit unit := mk_structure tt [7; 8] [1; 1] ["Mg"; "O"] [0; 1]%Z tt None.
Lemma good_z : good (A := unit) (P := nat) cpp_z.
Proof. intros n ps w ax pos ty. cbn [s_pot cpp_z fst snd]. now rewrite map_length, repeat_length. Qed.
Lemma proper_examples : proper (fst mgo) /\ proper (fst o_only) /\ proper (fst omg).
Proof. repeat split; try reflexivity; repeat constructor; cbn; intuition discriminate. Qed.
Lemma longest_examples : first_longest (map fst [mgo; o_only]) ["Mg"; "O"] /\ first_longest (map fst [mgo; omg]) ["Mg"; "O"].
Proof. split; [exists [], (fst mgo), [fst o_only]|exists [], (fst mgo), [fst omg]]; (split; [reflexivity|split; [reflexivity|split; [intros x []|intros x [<-|[]]; cbn; lia]]]). Qed.
Lemma loadable_example : loadable (map fst [mgo; o_only]).
Proof. intros k Hk. cbn in Hk. assert (k = 2) by lia. subst k. exists ["Mg"; "O"]. split; [apply longest_examples|]. intros s [<-|[<-|[]]] x Hx; cbn in *; tauto. Qed.
(** Magnesium oxide with a second sub-model of oxygen: what the saved files give *)
Example C65_example : exists ms, hybrid (news [mgo; o_only]) = Ok ms /\ Forall proper (map fst [mgo; o_only]) /\ loadable (map fst [mgo; o_only]) /\ Forall (ordered ["Mg"; "O"]) (map fst [mgo; o_only]) /\
  map w_full (save_mlps ms) = [true; true] /\ map m_full ms = [Some true; Some false] /\
  (do ms' <- load_mlps (save_mlps ms); hev (from_params cpp_z ms') st_mgo) = Ok (16%Z, [(0, 3, 0); (1, 13, 0)]%Z, [4; 4; 4; 4; 4; 4]%Z) /\
  hev (from_params cpp_z ms) st_mgo = Ok (16%Z, [(0, 3, 0); (1, 13, 0)]%Z, [4; 4; 4; 4; 4; 4]%Z) /\ hev (from_files cpp_z (save_mlps ms)) st_mgo = Err RuntimeError /\
  hev (from_params cpp_z ms) st_o = hev (from_files cpp_z (save_mlps ms)) st_o.
Proof.
  destruct proper_examples as [P1 [P2 P3]]. eexists. split; [vm_compute; reflexivity|]. split; [repeat (apply Forall_cons; [assumption|]); apply Forall_nil|]. split; [apply loadable_example|].
  split; [repeat (apply Forall_cons; [reflexivity|]); apply Forall_nil|]. repeat split; vm_compute; reflexivity.
Qed.
(** A list that is covered as a whole but not from the front: saved without complaint, not loaded *)
Theorem C65_prefix_refuted : exists (qs : list (sub * Z)) ms, Forall proper (map fst qs) /\ covered (map fst qs) /\ hybrid (news qs) = Ok ms /\ load_mlps (save_mlps ms) = Err ValueError.
Proof.
  set (l := [(mk_sub ["Mg"; "O"] 2 [], 1%Z); (mk_sub ["O"; "Al"] 2 [], 2%Z); (mk_sub ["Mg"; "O"; "Al"] 3 [], 3%Z)]). exists l. eexists. split; [|split; [|split; [vm_compute; reflexivity|vm_compute; reflexivity]]].
  - repeat (apply Forall_cons; [split; [repeat constructor; cbn; intuition discriminate|reflexivity]|]); apply Forall_nil.
  - exists ["Mg"; "O"; "Al"]. split; [exists [mk_sub ["Mg"; "O"] 2 []; mk_sub ["O"; "Al"] 2 []], (mk_sub ["Mg"; "O"; "Al"] 3 []), []; split; [reflexivity|split; [reflexivity|split; [intros x [<-|[<-|[]]]; cbn; lia|intros x []]]]|]. intros s [<-|[<-|[<-|[]]]] x Hx; cbn in *; tauto.
Qed.
(** Element lists in another order: the files keep it and the masses do not; a file read on its own counts the types in the order of the file. *)
Theorem C65_order_refuted : exists ms, hybrid (news [mgo; omg]) = Ok ms /\ Forall proper (map fst [mgo; omg]) /\ loadable (map fst [mgo; omg]) /\
  map (fun f => (u_elements (w_sub f), w_mass f)) (save_mlps ms) = [(["Mg"; "O"], ["Mg"; "O"]); (["O"; "Mg"], ["Mg"; "O"])] /\
  hev (from_params cpp_z ms) st_o = Ok (39%Z, [(2, 13, 0); (2, 13, 0)]%Z, repeat 5%Z 6) /\ hev (from_files cpp_z (save_mlps ms)) st_o = Ok (19%Z, [(1, 13, 0); (1, 13, 0)]%Z, repeat 5%Z 6).
Proof.
  destruct proper_examples as [P1 [P2 P3]]. eexists. split; [vm_compute; reflexivity|]. split; [repeat (apply Forall_cons; [assumption|]); apply Forall_nil|].
  split; [intros k Hk; cbn in Hk; assert (k = 2) by lia; subst k; exists ["Mg"; "O"]; split; [apply longest_examples|]; intros s [<-|[<-|[]]] x Hx; cbn in *; tauto|]. repeat split; vm_compute; reflexivity.
Qed.
