(** C35: reordering a structure by type. *)
From Verif Require Import Base Num Model.Structure Model.StructureUtils Proofs.Structure Proofs.StructureSpin Proofs.StructureUtils.
Import String.StringSyntax.
Local Open Scope string_scope.
Local Open Scope list_scope.

Definition of_type {X} (t : Z) (a : Z * X) : bool := (t =? fst a)%Z.

(** [reorder] sorts stably by type: types ascend, the atoms of every type keep their relative order, the counts are those of
    the distinct types in ascending order, cell, volume and name are kept; a sorted structure is returned as it is. *)
Theorem C35_reorder {P A V} (st : structure P A V) :
  length (types st) = length (positions st) -> length (elements st) = length (positions st) ->
  exists st', reorder st = Ok st' /\
    StronglySorted Z.le (types st') /\
    (forall t, filter (of_type t) (combine (types st') (positions st')) = filter (of_type t) (combine (types st) (positions st))) /\
    Permutation (combine (types st') (positions st')) (combine (types st) (positions st)) /\
    (exists u, StronglySorted Z.lt u /\ (forall t, In t u <-> In t (types st)) /\ n_atoms st' = map (count_occ Z.eq_dec (types st)) u) /\
    axis st' = axis st /\ volume st' = volume st /\ name st' = name st /\
    (StronglySorted Z.le (types st) -> types st' = types st /\ positions st' = positions st).
Proof.
  intros HT HE. destruct (sort_wrt_types_ok st HT HE) as (st' & ids & E & E1 & E2 & _ & E4 & _ & E6 & E7 & E8).
  exists st'. unfold reorder. rewrite E. split; [reflexivity|].
  set (L := atoms st) in *. set (u := np_unique (types st)) in *. set (g := fun a : Z * (string * (P * nat)) => (fst a, fst (snd (snd a)))).
  assert (C : forall l : list (Z * (string * (P * nat))), combine (map fst l) (map (fun a => fst (snd (snd a))) l) = map g l) by (induction l as [|a l IH]; cbn; [reflexivity|now rewrite IH]).
  assert (C0 : combine (types st) (positions st) = map g L) by (rewrite <- C; unfold L; rewrite atoms_types, atoms_positions by assumption; reflexivity).
  assert (C1 : combine (types st') (positions st') = map g (zgroup fst u L)) by (rewrite E1, E2; apply C).
  assert (SU : StronglySorted Z.lt u) by apply np_unique_sorted.
  assert (IU : forall i, In i u <-> In i (map fst L)) by (intros i; now apply types_u).
  assert (ST : forall t, filter (of_type t) (combine (types st') (positions st')) = filter (of_type t) (combine (types st) (positions st))).
  { intros t. rewrite C0, C1. change (of_type t) with (isz (T := Z * P) fst t). rewrite !(filter_map_isz g fst fst) by reflexivity. f_equal. now apply zgroup_stable. }
  assert (SS : StronglySorted Z.le (types st')) by (rewrite E1; now apply zgroup_sorted).
  split; [exact SS|]. split; [exact ST|]. split; [|split; [|split; [exact E6|split; [exact E7|split; [exact E8|]]]]].
  - apply (filter_perm_all fst). exact ST.
  - exists u. split; [exact SU|]. split; [intros t; unfold L in IU; now rewrite IU, atoms_types|]. rewrite E4. apply map_ext. intros i.
    unfold L. rewrite <- (atoms_types st HT HE). generalize (atoms st). intros l. induction l as [|a l IH]; cbn; [reflexivity|]. unfold isz at 1. destruct (Z.eqb_spec i (fst a)) as [->|N].
    + cbn. destruct (Z.eq_dec (fst a) (fst a)); [now rewrite IH|congruence].
    + destruct (Z.eq_dec (fst a) i); [congruence|exact IH].
  - intros S. assert (U : zgroup fst u L = L).
    { apply (sorted_unique fst); [rewrite <- E1; exact SS|unfold L; rewrite atoms_types by assumption; exact S|]. intros i. now apply zgroup_stable. }
    rewrite E1, E2, U. unfold L. now rewrite atoms_types, atoms_positions by assumption.
Qed.
Print Assumptions C35_reorder.

(** If atoms of one type have one element, every atom keeps its element as well; [sort_wrt_types] also returns the permutation. *)
Theorem C35_sort_wrt_types {P A V} (st : structure P A V) :
  length (types st) = length (positions st) -> length (elements st) = length (positions st) ->
  (forall t e e', In (t, e) (combine (types st) (elements st)) -> In (t, e') (combine (types st) (elements st)) -> e = e') ->
  exists st' ids, sort_wrt_types st = Ok (st', ids) /\ reorder st = Ok st' /\
    Permutation ids (seq 0 (length (positions st))) /\
    mapM (get (positions st)) ids = Ok (positions st') /\ mapM (get (types st)) ids = Ok (types st') /\ mapM (get (elements st)) ids = Ok (elements st').
Proof.
  intros HT HE HF. destruct (sort_wrt_types_ok st HT HE) as (st' & ids & E & E1 & E2 & E3 & _ & E5 & _).
  exists st', ids. unfold reorder. rewrite E. split; [reflexivity|]. split; [reflexivity|].
  set (L := atoms st) in *. set (u := np_unique (types st)) in *. set (G := zgroup fst u L) in *.
  assert (PG : Permutation G L). { apply (filter_perm_all fst). apply zgroup_stable; [apply np_unique_sorted|]. intros i. now apply types_u. }
  split. { rewrite E3. unfold L in PG. rewrite <- (atoms_ids st HT HE). now apply Permutation_map. }
  assert (R : forall a, In a G -> exists t e p k, a = (t, (e, (p, k))) /\ nth_error (types st) k = Some t /\ nth_error (elements st) k = Some e /\ nth_error (positions st) k = Some p).
  { intros a Ha. apply (Permutation_in _ PG) in Ha. unfold L, atoms in Ha. apply In_nth_error in Ha. destruct Ha as [k Hk]. destruct a as [t [e [p k']]]. exists t, e, p, k'. split; [reflexivity|].
    assert (Z : forall (X Y : Type) (a : list X) (b : list Y) k x y, nth_error (combine a b) k = Some (x, y) -> nth_error a k = Some x /\ nth_error b k = Some y).
    { clear. induction a as [|x a IH]; intros [|y b] [|k] x' y' H; try discriminate; cbn in *; [injection H as -> ->; auto|]. now apply IH in H. }
    apply Z in Hk. destruct Hk as [H1 Hk]. apply Z in Hk. destruct Hk as [H2 Hk]. apply Z in Hk. destruct Hk as [H3 H4].
    assert (Hlt : k < length (positions st)) by (apply nth_error_Some; congruence). pose proof (nth_error_nth _ _ 0 H4) as Hn. rewrite seq_nth in Hn by exact Hlt. cbn in Hn. subst k'. auto. }
  assert (M : forall (X : Type) (l : list X) (f : Z * (string * (P * nat)) -> X), (forall t e p k, In (t, (e, (p, k))) G -> nth_error l k = Some (f (t, (e, (p, k))))) -> mapM (get l) ids = Ok (map f G)).
  { intros X l f H. rewrite E3. clear -H. revert H. generalize G. intros g H. induction g as [|a g IH]; [reflexivity|]. destruct a as [t [e [p k]]]. cbn.
    pose proof (H t e p k (or_introl eq_refl)) as H0. unfold get at 1. rewrite H0. cbn [bind]. rewrite IH by (intros; apply H; now right). reflexivity. }
  split; [|split].
  - rewrite E2. apply M. intros t e p k Hin. destruct (R _ Hin) as (t' & e' & p' & k' & Q & _ & _ & Q3). injection Q as -> -> -> ->. exact Q3.
  - rewrite E1. apply M. intros t e p k Hin. destruct (R _ Hin) as (t' & e' & p' & k' & Q & Q1 & _ & _). injection Q as -> -> -> ->. exact Q1.
  - rewrite (M _ (elements st) (fun a => fst (snd a))); [f_equal|].
    + rewrite E1 in E5. assert (IG : forall a, In a G -> In (fst a, fst (snd a)) (combine (types st) (elements st))).
      { intros a Ha. destruct (R _ Ha) as (t' & e' & p' & k' & -> & Q1 & Q2 & _). cbn. clear -Q1 Q2. revert Q1 Q2. generalize (types st) (elements st). intros l m. revert m k'. induction l as [|x l IH]; intros [|y m] [|k] H1 H2; try discriminate; cbn in *; [left; congruence|right; eapply IH; eassumption]. }
      revert E5 IG. clear -HF. generalize G (elements st'). intros g. induction g as [|a g IH]; intros es F2 IG; inversion F2 as [|x e l l' Hx Hl]; subst; [reflexivity|]. cbn. f_equal; [|apply IH; [exact Hl|intros; apply IG; now right]].
      eapply HF; [apply IG; now left|exact Hx].
    + intros t e p k Hin. destruct (R _ Hin) as (t' & e' & p' & k' & Q & _ & Q2 & _). injection Q as -> -> -> ->. exact Q2.
Qed.
Print Assumptions C35_sort_wrt_types.

(** Types 1 0 1 0 with positions 10 20 30 40. *)
Example C35_example :
  let st := mk_structure tt [10; 20; 30; 40]%Z [2; 2] ["O"; "Mg"; "O"; "Mg"] [1; 0; 1; 0]%Z tt None in
  reorder st = Ok (mk_structure tt [20; 40; 10; 30]%Z [2; 2] ["Mg"; "Mg"; "O"; "O"] [0; 0; 1; 1]%Z tt None).
Proof. reflexivity. Qed.
(** Without the condition the elements of one type are all set to that of its last atom. *)
Example C35_mixed_element :
  let st := mk_structure tt [10; 20]%Z [2] ["Mg"; "Ca"] [0; 0]%Z tt None in
  reorder st = Ok (mk_structure tt [10; 20]%Z [2] ["Ca"; "Ca"] [0; 0]%Z tt None).
Proof. reflexivity. Qed.
