From Verif Require Import Base Num Model.Structure Model.StructureUtils Proofs.Structure Proofs.StructureSpin.
From Coq Require Import ZifyBool ZifyNat.

(** ** Sorting by type *)
Section SortZ.
  Context {T : Type} (key : T -> Z).
  Definition isz (i : Z) (a : T) : bool := (i =? key a)%Z.
  Definition zgroup (u : list Z) (L : list T) : list T := flat_map (fun i => filter (isz i) L) u.
  Lemma zgroup_app u v L : zgroup (u ++ v) L = zgroup u L ++ zgroup v L.
  Proof. apply flat_map_app. Qed.
  Lemma zgroup_cons j u L : zgroup (j :: u) L = filter (isz j) L ++ zgroup u L.
  Proof. reflexivity. Qed.
  Lemma filter_isz i j (L : list T) : filter (isz i) (filter (isz j) L) = if (i =? j)%Z then filter (isz i) L else [].
  Proof.
    induction L as [|a L IH]; cbn; [now destruct (i =? j)%Z|]. destruct (isz j a) eqn:E1; destruct (isz i a) eqn:E2; cbn; rewrite ?E2, IH; unfold isz in *; destruct (Z.eqb_spec i j); try reflexivity; lia.
  Qed.
  Lemma filter_zgroup_out i u L : ~ In i u -> filter (isz i) (zgroup u L) = [].
  Proof.
    intros H. induction u as [|j u IH]; [reflexivity|]. rewrite zgroup_cons, filter_app, filter_isz. destruct (Z.eqb_spec i j) as [->|E]; [exfalso; apply H; now left|].
    apply IH. intros I. apply H. now right.
  Qed.
  Lemma filter_zgroup i u L : NoDup u -> In i u -> filter (isz i) (zgroup u L) = filter (isz i) L.
  Proof.
    intros N. induction N as [|j u Hj N IH]; intros H; [destruct H|]. rewrite zgroup_cons, filter_app, filter_isz. destruct (Z.eqb_spec i j) as [->|E].
    - rewrite filter_zgroup_out by exact Hj. apply app_nil_r.
    - apply IH. destruct H as [H|H]; [congruence|exact H].
  Qed.
  Lemma filter_none i (L : list T) : ~ In i (map key L) -> filter (isz i) L = [].
  Proof.
    intros H. induction L as [|a L IH]; cbn; [reflexivity|]. unfold isz at 1. destruct (Z.eqb_spec i (key a)) as [->|E]; [exfalso; apply H; now left|].
    apply IH. intros I. apply H. now right.
  Qed.
  Lemma zgroup_stable u L : StronglySorted Z.lt u -> (forall i, In i u <-> In i (map key L)) -> forall i, filter (isz i) (zgroup u L) = filter (isz i) L.
  Proof.
    intros S H i. destruct (in_dec Z.eq_dec i u) as [I|I].
    - apply filter_zgroup; [|exact I]. clear -S. induction S as [|a u S IH F]; constructor; [|exact IH]. intros I. rewrite Forall_forall in F. specialize (F a I). lia.
    - rewrite filter_zgroup_out by exact I. symmetry. apply filter_none. now rewrite <- H.
  Qed.
  Lemma zgroup_sorted u L : StronglySorted Z.lt u -> StronglySorted Z.le (map key (zgroup u L)).
  Proof.
    induction 1 as [|j u S IH Fa]; [constructor|]. rewrite zgroup_cons, map_app.
    assert (C : forall a, In a (map key (filter (isz j) L)) -> a = j).
    { intros a Ha. apply in_map_iff in Ha. destruct Ha as [x [<- Hx]]. apply filter_In in Hx. unfold isz in Hx. lia. }
    assert (D : Forall (fun b => (j < b)%Z) (map key (zgroup u L))).
    { apply Forall_forall. intros b Hb. apply in_map_iff in Hb. destruct Hb as [x [<- Hx]]. apply in_flat_map in Hx. destruct Hx as [i [Hi Hx]]. apply filter_In in Hx. unfold isz in Hx. rewrite Forall_forall in Fa. specialize (Fa i Hi). lia. }
    revert C. generalize (map key (filter (isz j) L)). intros l C. induction l as [|a l IHl]; cbn; [exact IH|].
    constructor; [apply IHl; intros; apply C; now right|]. apply Forall_app. split.
    - apply Forall_forall. intros b Hb. pose proof (C a (or_introl eq_refl)). pose proof (C b (or_intror Hb)). lia.
    - rewrite (C a (or_introl eq_refl)). eapply Forall_impl; [|exact D]. cbn. intros; lia.
  Qed.
  (** A list is determined by its order of keys and its parts of equal key. *)
  Lemma sorted_unique (L M : list T) : StronglySorted Z.le (map key L) -> StronglySorted Z.le (map key M) -> (forall i, filter (isz i) L = filter (isz i) M) -> L = M.
  Proof.
    revert M. induction L as [|a L IH]; intros M SL SM H.
    - destruct M as [|b M]; [reflexivity|]. specialize (H (key b)). cbn in H. unfold isz at 1 in H. rewrite Z.eqb_refl in H. discriminate.
    - destruct M as [|b M]; [specialize (H (key a)); cbn in H; unfold isz at 1 in H; rewrite Z.eqb_refl in H; discriminate|].
      cbn in SL, SM. inversion SL as [|x l SL' FL]; subst. inversion SM as [|x l SM' FM]; subst.
      assert (K : key a = key b).
      { assert (I1 : In a (b :: M)). { assert (I : In a (filter (isz (key a)) (b :: M))). { rewrite <- H. cbn. unfold isz at 1. rewrite Z.eqb_refl. now left. } now apply filter_In in I. }
        assert (I2 : In b (a :: L)). { assert (I : In b (filter (isz (key b)) (a :: L))). { rewrite H. cbn. unfold isz at 1. rewrite Z.eqb_refl. now left. } now apply filter_In in I. }
        rewrite Forall_forall in FL, FM. destruct I1 as [->|I1]; [reflexivity|]. destruct I2 as [->|I2]; [reflexivity|].
        pose proof (FM _ (in_map key _ _ I1)). pose proof (FL _ (in_map key _ _ I2)). lia. }
      assert (E : a = b /\ (forall i, filter (isz i) L = filter (isz i) M)).
      { assert (X : isz (key a) a = true) by (unfold isz; lia). assert (Y : isz (key a) b = true) by (unfold isz; lia).
        pose proof (H (key a)) as H0. cbn in H0. rewrite X, Y in H0. injection H0 as -> H0. split; [reflexivity|].
        intros i. destruct (Z.eqb_spec i (key b)) as [->|N]; [exact H0|]. specialize (H i). cbn in H.
        assert (Z : isz i b = false) by (unfold isz; lia). now rewrite Z in H. }
      destruct E as [-> E]. f_equal. now apply IH.
  Qed.
  Lemma filter_perm_all (L M : list T) : (forall i, filter (isz i) L = filter (isz i) M) -> Permutation L M.
  Proof.
    revert M. induction L as [|a L IH]; intros M H.
    - destruct M as [|b M]; [constructor|]. specialize (H (key b)). cbn in H. unfold isz at 1 in H. rewrite Z.eqb_refl in H. discriminate.
    - assert (I : In a M). { assert (I : In a (filter (isz (key a)) M)). { rewrite <- H. cbn. unfold isz at 1. rewrite Z.eqb_refl. now left. } now apply filter_In in I. }
      assert (S : exists M1 M2, M = M1 ++ a :: M2 /\ filter (isz (key a)) M1 = []).
      { specialize (H (key a)). cbn in H. unfold isz at 1 in H. rewrite Z.eqb_refl in H. clear -H. revert H. induction M as [|b M IHM]; cbn; [discriminate|]. unfold isz at 2.
        destruct (Z.eqb_spec (key a) (key b)) as [E|E].
        - intros [= <- _]. now exists [], M.
        - intros HH. destruct (IHM HH) as [M1 [M2 [-> F]]]. exists (b :: M1), M2. split; [reflexivity|]. cbn. unfold isz at 1. destruct (Z.eqb_spec (key a) (key b)); [lia|exact F]. }
      destruct S as [M1 [M2 [-> F]]]. apply Permutation_cons_app. apply IH. intros i. specialize (H i). cbn in H. rewrite filter_app in *. cbn in H.
      destruct (isz i a) eqn:N; [|exact H]. assert (i = key a) by (unfold isz in N; lia). subst i. rewrite F in *. cbn in *. now injection H.
  Qed.
End SortZ.

Lemma filter_map_isz {T U} (g : T -> U) (kt : T -> Z) (ku : U -> Z) i L : (forall x, ku (g x) = kt x) -> filter (isz ku i) (map g L) = map g (filter (isz kt i) L).
Proof. intros H. induction L as [|a L IH]; cbn; [reflexivity|]. replace (isz ku i (g a)) with (isz kt i a) by (unfold isz; now rewrite H). destruct (isz kt i a); cbn; now rewrite IH. Qed.

Section Reorder.
  Context {P A V : Type}.
  Notation structure := (structure P A V).
  (** atoms as (type, (element, (position, index))) *)
  Definition atoms (st : structure) : list (Z * (string * (P * nat))) :=
    combine (types st) (combine (elements st) (combine (positions st) (seq 0 (length (positions st))))).
  Variable st : structure.
  Hypothesis HT : length (types st) = length (positions st).
  Hypothesis HE : length (elements st) = length (positions st).
  Let L := atoms st.
  Let u := np_unique (types st).
  Lemma combine_fst {X Y} (a : list X) (b : list Y) : length a = length b -> map fst (combine a b) = a.
  Proof. revert b; induction a as [|x a IH]; intros [|y b] H; try discriminate; [reflexivity|]. cbn. f_equal. apply IH. now injection H. Qed.
  Lemma combine_snd {X Y} (a : list X) (b : list Y) : length a = length b -> map snd (combine a b) = b.
  Proof. revert b; induction a as [|x a IH]; intros [|y b] H; try discriminate; [reflexivity|]. cbn. f_equal. apply IH. now injection H. Qed.
  Lemma atoms_length : length L = length (positions st).
  Proof. unfold L, atoms. rewrite !combine_length, seq_length. lia. Qed.
  Lemma atoms_types : map fst L = types st.
  Proof. apply combine_fst. rewrite !combine_length, seq_length. lia. Qed.
  Lemma atoms_rest : map snd L = combine (elements st) (combine (positions st) (seq 0 (length (positions st)))).
  Proof. apply combine_snd. rewrite !combine_length, seq_length. lia. Qed.
  Lemma atoms_elements : map (fun a => fst (snd a)) L = elements st.
  Proof. rewrite <- (map_map snd fst), atoms_rest. apply combine_fst. rewrite combine_length, seq_length. lia. Qed.
  Lemma atoms_positions : map (fun a => fst (snd (snd a))) L = positions st.
  Proof. rewrite <- (map_map snd (fun b => fst (snd b))), atoms_rest. rewrite <- (map_map snd fst), combine_snd by (rewrite combine_length, seq_length; lia). apply combine_fst. now rewrite seq_length. Qed.
  Lemma atoms_ids : map (fun a => snd (snd (snd a))) L = seq 0 (length (positions st)).
  Proof. rewrite <- (map_map snd (fun b => snd (snd b))), atoms_rest. rewrite <- (map_map snd snd), combine_snd by (rewrite combine_length, seq_length; lia). apply combine_snd. now rewrite seq_length. Qed.
  Lemma mask_is i : type_mask i (types st) = map (isz fst i) L.
  Proof. unfold type_mask. rewrite <- atoms_types, map_map. reflexivity. Qed.
  Lemma where_is i : where_ (fun b => b) (type_mask i (types st)) = map (fun a => snd (snd (snd a))) (filter (isz fst i) L).
  Proof.
    rewrite mask_is. rewrite <- (select_map (fun a => snd (snd (snd a))) (isz fst i) L). rewrite atoms_ids.
    pose proof (select_where (map (isz fst i) L) (seq 0 (length (positions st)))) as W. rewrite map_length, seq_length, atoms_length in W. specialize (W eq_refl).
    assert (G : forall l, Forall (fun k => k < length (positions st)) l -> mapM (get (seq 0 (length (positions st)))) l = Ok l).
    { induction l as [|k l IH]; intros F; [reflexivity|]. inversion F; subst. cbn. rewrite (get_Ok _ _ 0) by now rewrite seq_length. rewrite seq_nth by assumption. cbn. now rewrite IH. }
    rewrite G in W; [now injection W|]. apply Forall_forall. intros k Hk. apply where_from_spec in Hk. destruct Hk as [_ [x [Hn _]]]. rewrite Nat.sub_0_r in Hn.
    assert (Hlt : k < length (map (isz fst i) L)) by (apply nth_error_Some; congruence). rewrite map_length, atoms_length in Hlt. lia.
  Qed.
  Lemma sort_loop v s : foldM (sort_step st) s v =
    let '(na, pos, ty, ids) := s in
    Ok (na ++ map (fun i => length (filter (isz fst i) L)) v, pos ++ map (fun a => fst (snd (snd a))) (zgroup fst v L),
        ty ++ map fst (zgroup fst v L), ids ++ map (fun a => snd (snd (snd a))) (zgroup fst v L)).
  Proof.
    revert s. induction v as [|i v IH]; intros [[[na pos] ty] ids]; [cbn; now rewrite !app_nil_r|].
    cbn [foldM]. unfold sort_step at 1. rewrite where_is.
    assert (S1 : np_select (type_mask i (types st)) (positions st) = Ok (map (fun a => fst (snd (snd a))) (filter (isz fst i) L))).
    { unfold np_select. unfold type_mask at 1. rewrite map_length, HT, Nat.eqb_refl. f_equal. rewrite mask_is, <- atoms_positions. apply select_map. }
    assert (S2 : np_select (type_mask i (types st)) (types st) = Ok (map fst (filter (isz fst i) L))).
    { unfold np_select. unfold type_mask at 1. rewrite map_length, Nat.eqb_refl. f_equal. rewrite mask_is. rewrite <- atoms_types at 1. apply select_map. }
    rewrite S1, S2. cbn [bind]. rewrite IH. rewrite mask_is, count_true_map. cbn. rewrite !map_app, <- !app_assoc. reflexivity.
  Qed.
  Lemma lookup_In t : In t (types st) -> exists e, lookup (map_elements (types st) (elements st)) t = Ok e /\ In (t, e) (combine (types st) (elements st)).
  Proof.
    intros H. unfold lookup, map_elements. destruct (find _ (rev (combine (types st) (elements st)))) as [[t' e]|] eqn:E.
    - apply find_some in E. destruct E as [E1 E2]. cbn in E2. apply Z.eqb_eq in E2. subst t'. exists e. split; [reflexivity|]. now apply in_rev.
    - exfalso. rewrite <- (combine_fst (types st) (elements st)) in H by lia. apply in_map_iff in H. destruct H as [te [<- Hte]].
      pose proof (find_none _ _ E te (proj1 (in_rev _ _) Hte)) as F. cbv beta in F. rewrite Z.eqb_refl in F. discriminate.
  Qed.
  Lemma types_u i : In i u <-> In i (map fst L).
  Proof. rewrite atoms_types. unfold u. now rewrite np_unique_In. Qed.
  Theorem sort_wrt_types_ok : exists st' ids, sort_wrt_types st = Ok (st', ids) /\
    types st' = map fst (zgroup fst u L) /\ positions st' = map (fun a => fst (snd (snd a))) (zgroup fst u L) /\
    ids = map (fun a => snd (snd (snd a))) (zgroup fst u L) /\ n_atoms st' = map (fun i => length (filter (isz fst i) L)) u /\
    Forall2 (fun t e => In (t, e) (combine (types st) (elements st))) (types st') (elements st') /\
    axis st' = axis st /\ volume st' = volume st /\ name st' = name st.
  Proof.
    unfold sort_wrt_types. rewrite sort_loop. fold u. cbn [bind app].
    assert (M : forall l, incl l (types st) -> exists es, mapM (lookup (map_elements (types st) (elements st))) l = Ok es /\ Forall2 (fun t e => In (t, e) (combine (types st) (elements st))) l es).
    { induction l as [|t l IH]; intros I; [exists []; split; [reflexivity|constructor]|]. destruct (lookup_In t (I t (or_introl eq_refl))) as [e [E1 E2]]. destruct IH as [es [E3 E4]]; [intros x Hx; apply I; now right|].
      exists (e :: es). cbn. rewrite E1. cbn. rewrite E3. cbn. split; [reflexivity|now constructor]. }
    destruct (M (map fst (zgroup fst u L))) as [es [E1 E2]].
    { intros t Ht. apply in_map_iff in Ht. destruct Ht as [a [<- Ha]]. apply in_flat_map in Ha. destruct Ha as [i [_ Ha]]. apply filter_In in Ha. rewrite <- atoms_types. now apply in_map. }
    rewrite E1. cbn. eexists _, _. split; [reflexivity|]. cbn. auto 10.
  Qed.
End Reorder.
