(** Evaluation of many structures and by many potentials. *)
From Verif Require Import Base Num Model.Structure Model.Properties Proofs.Structure Proofs.GridOptimal Proofs.Divide.
From Coq Require String.

Section Eval.
  Context {F : Type} {N : Num F}.
  Variables (P A V : Type) (det : A -> V) (argsort : list Z -> list nat) (cart : A -> list P -> list P).
  Definition wf (st : structure P A V) : Prop := length (positions st) = length (elements st) /\ length (types st) = length (elements st).
  Definition sized (p : single F P A) : Prop := forall ax pos ty, length (snd (fst (s_pot P A p ax pos ty))) = length ty /\ length (snd (s_pot P A p ax pos ty)) = 6.

  Lemma is_in_In l e : is_in l e = true <-> In e l.
  Proof. exact (listed_In l e). Qed.
  Lemma position_nth e l : In e l -> nth_error l (position e l) = Some e.
  Proof. induction l as [|x l IH]; intros H; [destruct H|]. cbn [position]. destruct (String.eqb_spec e x) as [->|NE]; [reflexivity|]. destruct H as [->|H]; [congruence|]. cbn. auto. Qed.
  Lemma position_lt e l : In e l -> position e l < length l.
  Proof. intros H. apply nth_error_Some. rewrite (position_nth e l H). discriminate. Qed.
  Lemma mapM_get_where {B} (p : B -> bool) (l : list B) : mapM (get l) (where_ p l) = Ok (filter p l).
  Proof.
    unfold where_. assert (G : forall l pre, mapM (get (pre ++ l)) (where_from (length pre) p l) = Ok (filter p l)); [|exact (G l [])].
    clear l. induction l as [|a l IH]; intros pre; cbn [where_from filter mapM]; [reflexivity|]. specialize (IH (pre ++ [a])). rewrite <- app_assoc, app_length, Nat.add_1_r in IH. cbn [app] in IH.
    destruct (p a); [|exact IH]. cbn [mapM]. unfold get at 1. rewrite nth_error_app2, Nat.sub_diag by lia. cbn [nth_error bind]. rewrite IH. reflexivity.
  Qed.
  (** Positions of the atoms whose element satisfies p. *)
  Lemma mapM_get_where2 {B C} (p : B -> bool) (l : list B) (m : list C) : length m = length l -> mapM (get m) (where_ p l) = Ok (map snd (filter (fun q => p (fst q)) (combine l m))).
  Proof.
    unfold where_. intros HL. assert (G : forall l (m2 pre : list C), length m2 = length l -> mapM (get (pre ++ m2)) (where_from (length pre) p l) = Ok (map snd (filter (fun q => p (fst q)) (combine l m2)))); [|exact (G l m [] HL)].
    clear. induction l as [|a l IH]; intros [|c m] pre HL; cbn in HL; try discriminate; [reflexivity|]. cbn [where_from combine filter fst]. specialize (IH m (pre ++ [c]) ltac:(lia)). rewrite <- app_assoc, app_length, Nat.add_1_r in IH. cbn [app] in IH.
    destruct (p a); [|exact IH]. cbn [mapM map snd]. unfold get at 1. rewrite nth_error_app2, Nat.sub_diag by lia. cbn [nth_error bind]. rewrite IH. reflexivity.
  Qed.
  Lemma where_length {B} (p : B -> bool) (l : list B) : length (where_ p l) = length (filter p l).
  Proof. pose proof (mapM_get_where p l) as H. apply mapM_length in H. lia. Qed.
  Lemma count_sum (ty : list nat) n : (forall t, In t ty -> t < n) -> sum (map (fun i => length (filter (Nat.eqb i) ty)) (seq 0 n)) = length ty.
  Proof.
    intros H. assert (G : forall n b, sum (map (fun i => length (filter (Nat.eqb i) ty)) (seq b n)) = length (filter (fun t => (b <=? t) && (t <? b + n)) ty)).
    { clear. induction n as [|n IH]; intros b; cbn [seq map].
      - cbn [sum fold_right]. symmetry. replace (filter _ ty) with (@nil nat); [reflexivity|]. induction ty as [|t ty IH]; [reflexivity|]. cbn [filter]. destruct (b <=? t) eqn:E1; destruct (t <? b + 0) eqn:E2; cbn [andb]; auto. apply Nat.leb_le in E1. apply Nat.ltb_lt in E2. lia.
      - cbn [sum fold_right]. fold (sum (map (fun i => length (filter (Nat.eqb i) ty)) (seq (S b) n))). rewrite IH. clear. induction ty as [|t ty IH]; [reflexivity|]. cbn [filter].
        destruct (Nat.eqb_spec b t) as [E|NE]; destruct (Nat.leb_spec (S b) t); destruct (Nat.leb_spec b t); destruct (Nat.ltb_spec t (S b + n)); destruct (Nat.ltb_spec t (b + S n)); cbn [andb length]; lia. }
    rewrite G. clear G. f_equal. induction ty as [|t ty IH]; [reflexivity|]. cbn [filter]. replace (t <? 0 + n) with true by (symmetry; apply Nat.ltb_lt; cbn; apply H; now left). cbn [Nat.leb andb]. f_equal. apply IH. intros; apply H; now right.
  Qed.
  (** The active structure of a well-formed structure *)
  Definition active_of (els : list string) (st : structure P A V) : structure P A V :=
    let names := filter (is_in els) (elements st) in
    mk_structure (axis st) (map snd (filter (fun q => is_in els (fst q)) (combine (elements st) (positions st))))
      (map (fun i => length (filter (Nat.eqb i) (map (fun e => position e els) names))) (seq 0 (length els))) names (map (fun e => Z.of_nat (position e els)) names) (det (axis st)) None.
  Lemma find_active_ok els st : wf st -> find_active P A V det els st = Ok (if existsb (is_in els) (elements st) then Some (active_of els st, where_ (is_in els) (elements st)) else None).
  Proof.
    intros [H1 H2]. unfold find_active. rewrite mapM_get_where. cbn [bind]. assert (HE : existsb (is_in els) (elements st) = match where_ (is_in els) (elements st) with [] => false | _ => true end).
    { pose proof (where_length (is_in els) (elements st)) as HW. destruct (where_ _ _) as [|x w] eqn:E.
      - destruct (existsb _ _) eqn:EX; [|reflexivity]. apply existsb_exists in EX. destruct EX as [e [He Hi]]. assert (HI : In e (filter (is_in els) (elements st))) by (apply filter_In; auto). destruct (filter _ _); [destruct HI|discriminate].
      - apply existsb_exists. destruct (filter (is_in els) (elements st)) as [|e w2] eqn:EF; [discriminate|]. exists e. apply filter_In. rewrite EF. now left. }
    rewrite HE. destruct (where_ (is_in els) (elements st)) as [|x w] eqn:EW; [reflexivity|]. rewrite <- EW. rewrite (mapM_get_where2 _ _ _ H1). cbn [bind].
    unfold new_structure. set (names := filter (is_in els) (elements st)).
    assert (L1 : length (map snd (filter (fun q : string * P => is_in els (fst q)) (combine (elements st) (positions st)))) = length names).
    { pose proof (mapM_get_where2 (is_in els) _ _ H1) as HX. apply mapM_length in HX. rewrite HX, where_length. reflexivity. }
    rewrite L1, Nat.eqb_refl. cbn [py_assert bind]. rewrite !map_length, Nat.eqb_refl. cbn [py_assert bind].
    rewrite count_sum.
    - rewrite map_length, Nat.eqb_refl. cbn [py_assert bind]. unfold active_of. fold names. rewrite map_map. reflexivity.
    - intros t Ht. apply in_map_iff in Ht. destruct Ht as [e [<- He]]. apply position_lt. apply filter_In in He. apply is_in_In. tauto.
  Qed.
  Lemma find_active_all els sts : Forall wf sts -> all_distinct els = true ->
    find_active_atoms P A V det sts els = let act := filter (fun st => existsb (is_in els) (elements st)) sts in
      Ok (map (active_of els) act, map (fun st => where_ (is_in els) (elements st)) act, map (fun st => existsb (is_in els) (elements st)) sts).
  Proof.
    intros HW HD. unfold find_active_atoms. rewrite HD. cbn [negb].
    rewrite (mapM_Ok _ (fun st => if existsb (is_in els) (elements st) then Some (active_of els st, where_ (is_in els) (elements st)) else None)).
    - cbn [bind]. cbn zeta. rewrite !map_map. f_equal. f_equal; [f_equal|].
      + clear HW. induction sts as [|st sts IH]; [reflexivity|]. cbn [map concat filter]. destruct (existsb _ _); cbn [app map fst]; [f_equal|]; exact IH.
      + clear HW. induction sts as [|st sts IH]; [reflexivity|]. cbn [map concat filter]. destruct (existsb _ _); cbn [app map snd]; [f_equal|]; exact IH.
      + apply map_ext. intros st. destruct (existsb _ _); reflexivity.
    - intros st Hst. rewrite Forall_forall in HW. now apply find_active_ok, HW.
  Qed.
  Lemma put_all_ok els st (p : single F P A) : wf st -> sized p -> exists f, put_all (length (types st)) (where_ (is_in els) (elements st)) (snd (fst (obj_eval P A V cart p (active_of els st)))) = Ok f.
  Proof.
    intros [H1 H2] HS. unfold put_all. destruct (forallb _ _) eqn:E.
    - cbn [negb]. destruct (HS (axis (active_of els st)) (cart (axis (active_of els st)) (positions (active_of els st))) (types (active_of els st))) as [HL _]. unfold obj_eval. rewrite HL. cbn [active_of types]. rewrite map_length, where_length, Nat.eqb_refl. eauto.
    - exfalso. assert (HT : forallb (fun a => a <? length (types st)) (where_ (is_in els) (elements st)) = true); [|congruence]. apply forallb_forall. intros x Hx. apply where_In in Hx. destruct Hx as [a [Ha _]]. apply Nat.ltb_lt. rewrite H2. apply nth_error_Some. congruence.
  Qed.
  Lemma eval_partial_ok (p : single F P A) st : wf st -> s_type_full P A p = Some false -> all_distinct (s_elements P A p) = true -> sized p ->
    eval P A V det argsort cart p st = if existsb (is_in (s_elements P A p)) (elements st)
      then let v := obj_eval P A V cart p (active_of (s_elements P A p) st) in do f <- put_all (length (types st)) (where_ (is_in (s_elements P A p)) (elements st)) (snd (fst v)); Ok (fst (fst v), f, snd v)
      else Ok (zero_value (length (types st))).
  Proof.
    intros HW HF HD HS. unfold eval, full. rewrite HF. rewrite (find_active_all _ [st]) by (auto). cbn [bind]. cbn zeta. cbn [filter map]. destruct (existsb _ _); cbn [map]; [|reflexivity].
    destruct (obj_eval P A V cart p (active_of (s_elements P A p) st)) as [[e f] s]. reflexivity.
  Qed.
  Lemma reinsert_ok (p : single F P A) sts els i atoms vals : Forall wf sts -> sized p -> let act := filter (fun st => existsb (is_in els) (elements st)) sts in
    skipn i atoms = map (fun st => where_ (is_in els) (elements st)) act -> skipn i vals = map (obj_eval P A V cart p) (map (active_of els) act) ->
    reinsert P A V sts (map (fun st => existsb (is_in els) (elements st)) sts) atoms vals i =
    mapM (fun st => if existsb (is_in els) (elements st) then let v := obj_eval P A V cart p (active_of els st) in do f <- put_all (length (types st)) (where_ (is_in els) (elements st)) (snd (fst v)); Ok (fst (fst v), f, snd v) else Ok (zero_value (length (types st)))) sts.
  Proof.
    intros HW HS. revert i. induction HW as [|st sts Hst HW IH]; intros i act HA HV; [reflexivity|]. cbn [map reinsert mapM]. unfold act in *. clear act. cbn [filter] in HA, HV. destruct (existsb (is_in els) (elements st)) eqn:E.
    - cbn [map] in HA, HV.
      assert (G : forall {B} (l : list B) k x t, skipn k l = x :: t -> nth_error l k = Some x /\ skipn (S k) l = t).
      { clear. intros B l. induction l as [|b l IH]; intros [|k] x t H; cbn in *; try discriminate; [injection H as -> ->; split; reflexivity|now apply IH]. }
      destruct (G _ _ _ _ _ HA) as [HA1 HA2]. destruct (G _ _ _ _ _ HV) as [HV1 HV2]. unfold get. rewrite HA1, HV1. cbn [bind]. rewrite (IH (S i) HA2 HV2).
      destruct (put_all_ok els st p Hst HS) as [f Hf]. destruct (obj_eval P A V cart p (active_of els st)) as [[e f0] s]. cbn [fst snd] in *. rewrite Hf. cbn [bind]. reflexivity.
    - rewrite (IH i HA HV). reflexivity.
  Qed.
End Eval.

(** Forces spread over the atoms of the caller's structure. *)
Section Spread.
  Context {F : Type} {N : Num F}.
  Fixpoint spread (p : string -> bool) (l : list string) (f : list (vec3 (F:=F))) : list vec3 :=
    match l with [] => [] | a :: l => if p a then match f with x :: f => x :: spread p l f | [] => v0 :: spread p l [] end else v0 :: spread p l f end.
  Lemma put_at_app pre x t v : put_at (F:=F) (pre ++ x :: t) (length pre) v = pre ++ v :: t.
  Proof. induction pre as [|y pre IH]; cbn; [reflexivity|]. f_equal. exact IH. Qed.
  Lemma put_all_spread p l f : length f = length (filter p l) -> put_all (length l) (where_ p l) f = Ok (spread p l f).
  Proof.
    intros HL. unfold put_all. assert (HW := where_length p l). rewrite HL, HW, Nat.eqb_refl.
    replace (forallb _ _) with true.
    - cbn [negb]. f_equal. unfold where_.
      assert (G : forall l f pre, length f = length (filter p l) -> fold_left (fun l0 iv => put_at l0 (fst iv) (snd iv)) (combine (where_from (length pre) p l) f) (pre ++ repeat v0 (length l)) = pre ++ spread p l f); [|exact (G l f [] HL)].
      clear. induction l as [|a l IH]; intros f pre HL; cbn [where_from length repeat spread]; [destruct f; reflexivity|]. cbn [filter] in HL. destruct (p a).
      + destruct f as [|x f]; [discriminate|]. cbn [combine fold_left fst snd]. rewrite put_at_app. specialize (IH f (pre ++ [x]) ltac:(cbn in HL; lia)). rewrite <- !app_assoc, app_length, Nat.add_1_r in IH. exact IH.
      + specialize (IH f (pre ++ [v0]) HL). rewrite <- !app_assoc, app_length, Nat.add_1_r in IH. exact IH.
    - symmetry. apply forallb_forall. intros x Hx. apply where_In in Hx. destruct Hx as [a [Ha _]]. apply Nat.ltb_lt, nth_error_Some. congruence.
  Qed.
  Lemma spread_length p l f : length (spread p l f) = length l.
  Proof. revert f. induction l as [|a l IH]; intros f; [reflexivity|]. cbn. destruct (p a); [destruct f|]; cbn; f_equal; auto. Qed.
  Lemma spread_out p l f i e : nth_error l i = Some e -> p e = false -> nth_error (spread p l f) i = Some v0.
  Proof. revert f i. induction l as [|a l IH]; intros f [|i] H HP; cbn in H; try discriminate; [injection H as ->; cbn; rewrite HP; reflexivity|]. cbn. destruct (p a); [destruct f|]; cbn; auto. Qed.
  Lemma spread_in p l f i e : length f = length (filter p l) -> nth_error l i = Some e -> p e = true -> nth_error (spread p l f) i = nth_error f (length (filter p (firstn i l))).
  Proof.
    revert f i. induction l as [|a l IH]; intros f [|i] HL H HP; cbn [nth_error] in H; try discriminate.
    - injection H as ->. cbn [spread filter firstn length]. cbn [filter] in HL. rewrite HP in *. destruct f; [discriminate|reflexivity].
    - cbn [spread firstn filter]. cbn [filter] in HL. destruct (p a); [|exact (IH f i HL H HP)]. destruct f as [|x f]; [discriminate|]. cbn in HL. cbn [nth_error length]. exact (IH f i ltac:(lia) H HP).
  Qed.
End Spread.

(** Sums of values of equal shapes. *)
Section Sums.
  Context {F : Type} {N : Num F} {L : RingLaws F}.
  Local Open Scope num_scope.
  Add Ring Fring : (ring_laws (F:=F)).
  Notation value := (value (F:=F)).
  Definition energy_of (v : value) : F := fst (fst v).
  Definition forces_of (v : value) : list vec3 := snd (fst v).
  Definition stress_of (v : value) : list F := snd v.
  Definition shaped (n : nat) (v : value) : Prop := length (forces_of v) = n /\ length (stress_of v) = 6%nat.
  Lemma vadd_assoc (a b c : vec3 (F:=F)) : vadd a (vadd b c) = vadd (vadd a b) c.
  Proof. destruct a as [[? ?] ?], b as [[? ?] ?], c as [[? ?] ?]. cbn. f_equal; [f_equal|]; ring. Qed.
  Lemma vadd_0 (a : vec3 (F:=F)) : vadd a v0 = a.
  Proof. destruct a as [[? ?] ?]. cbn. f_equal; [f_equal|]; ring. Qed.
  Definition vsum (l : list (vec3 (F:=F))) : vec3 := fold_right vadd v0 l.
  Lemma add_lists_nth {B} (add : B -> B -> B) (a b : list B) n d : add d d = d -> length a = n -> length b = n -> exists c, add_lists add a b = Ok c /\ length c = n /\ forall i, nth i c d = add (nth i a d) (nth i b d).
  Proof.
    intros HD HA HB. unfold add_lists. rewrite HA, HB, Nat.eqb_refl. eexists. split; [reflexivity|]. split; [rewrite map_length, combine_length; lia|]. intros i.
    set (g := fun q : B * B => add (fst q) (snd q)). transitivity (nth i (map g (combine a b)) (g (d, d))); [f_equal; symmetry; exact HD|]. rewrite map_nth. rewrite combine_nth by congruence. reflexivity.
  Qed.
  Lemma add_value_ok n (v w : value) : shaped n v -> shaped n w -> exists u, add_value v w = Ok u /\ shaped n u /\ energy_of u = energy_of v + energy_of w /\
    (forall i, nth i (forces_of u) v0 = vadd (nth i (forces_of v) v0) (nth i (forces_of w) v0)) /\ (forall i, nth i (stress_of u) 0 = nth i (stress_of v) 0 + nth i (stress_of w) 0).
  Proof.
    destruct v as [[e f] s], w as [[e' f'] s']. intros [H1 H2] [H3 H4]. cbn in H1, H2, H3, H4. assert (H00 : 0 + 0 = (0 : F)) by ring.
    destruct (add_lists_nth vadd f f' n v0 (vadd_0 v0) H1 H3) as [c [E1 [E2 E3]]]. destruct (add_lists_nth (fun x y : F => x + y) s s' 6%nat 0 H00 H2 H4) as [d [E4 [E5 E6]]].
    exists (e + e', c, d). unfold add_value. rewrite E1. cbn [bind]. rewrite E4. cbn [bind]. split; [reflexivity|]. split; [split; assumption|]. split; [reflexivity|]. split; assumption.
  Qed.
  Lemma fold_add_ok n vs v : shaped n v -> Forall (shaped n) vs -> exists u, foldM add_value v vs = Ok u /\ shaped n u /\ energy_of u = energy_of v + nsumf energy_of vs /\
    (forall i, nth i (forces_of u) v0 = vadd (nth i (forces_of v) v0) (vsum (map (fun w => nth i (forces_of w) v0) vs))) /\ (forall i, nth i (stress_of u) 0 = nth i (stress_of v) 0 + nsumf (fun w => nth i (stress_of w) 0) vs).
  Proof.
    intros Hv HV. revert v Hv. induction HV as [|w vs Hw HV IH]; intros v Hv.
    - exists v. cbn [foldM map vsum fold_right]. split; [reflexivity|]. split; [exact Hv|]. assert (G : forall (f : value -> F) (x : F), x = x + nsumf f []) by (intros; unfold nsumf; cbn; ring). split; [apply G|]. split; intros i; [rewrite vadd_0; reflexivity|apply (G (fun w => nth i (stress_of w) 0))].
    - destruct (add_value_ok n v w Hv Hw) as [u [E1 [E2 [E3 [E4 E5]]]]]. destruct (IH u E2) as [t [F1 [F2 [F3 [F4 F5]]]]]. exists t. cbn [foldM]. rewrite E1. cbn [bind]. split; [exact F1|]. split; [exact F2|].
      split; [|split]. + rewrite F3, E3, nsumf_cons. ring. + intros i. rewrite F4, E4. cbn [map vsum fold_right]. symmetry. apply vadd_assoc. + intros i. rewrite F5, E5, nsumf_cons. ring.
  Qed.
End Sums.
