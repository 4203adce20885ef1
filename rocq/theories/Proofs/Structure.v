From Verif Require Import Base Model.Structure.
From Coq Require Import ZifyBool ZifyNat.

(** Generic facts about grouping by a string key. *)
Section Group.
  Context {T : Type} (key : T -> string).
  Definition isk (e : string) (a : T) : bool := String.eqb e (key a).

  Lemma isk_true e a : isk e a = true <-> key a = e.
  Proof. unfold isk. rewrite String.eqb_eq. split; congruence. Qed.

  Lemma mask_map e (L : list T) : mask e (map key L) = map (isk e) L.
  Proof. unfold mask. rewrite map_map. reflexivity. Qed.

  Lemma select_map {B} (f : T -> B) p (L : list T) :
    select (map p L) (map f L) = map f (filter p L).
  Proof.
    induction L as [|a L IH]; cbn; [reflexivity|].
    destruct (p a); cbn; rewrite IH; reflexivity.
  Qed.

  Lemma count_true_map p (L : list T) : count_true (map p L) = length (filter p L).
  Proof.
    induction L as [|a L IH]; cbn; [reflexivity|].
    unfold count_true in *. cbn. destruct (p a); cbn; rewrite IH; reflexivity.
  Qed.

  Definition group (order : list string) (L : list T) : list T :=
    flat_map (fun e => filter (isk e) L) order.

  Lemma group_app o1 o2 L : group (o1 ++ o2) L = group o1 L ++ group o2 L.
  Proof. unfold group. apply flat_map_app. Qed.

  Lemma In_group order L a : In a (group order L) <-> In a L /\ In (key a) order.
  Proof.
    unfold group. rewrite in_flat_map. split.
    - intros [e [He Ha]]. apply filter_In in Ha. destruct Ha as [Ha Hk].
      apply isk_true in Hk. subst. auto.
    - intros [Ha Ho]. exists (key a). split; [exact Ho|].
      apply filter_In. split; [exact Ha|]. apply isk_true. reflexivity.
  Qed.

  Lemma filter_filter_neq e e' (L : list T) : e <> e' ->
    filter (isk e) (filter (isk e') L) = [].
  Proof.
    intros N. induction L as [|a L IH]; cbn; [reflexivity|].
    destruct (isk e' a) eqn:E; cbn; [|exact IH].
    destruct (isk e a) eqn:E2; [|exact IH].
    apply isk_true in E, E2. congruence.
  Qed.

  Lemma filter_idem e (L : list T) : filter (isk e) (filter (isk e) L) = filter (isk e) L.
  Proof.
    induction L as [|a L IH]; cbn; [reflexivity|].
    destruct (isk e a) eqn:E; cbn; rewrite ?E, ?IH; reflexivity.
  Qed.

  Lemma filter_group_notin e order L : ~ In e order -> filter (isk e) (group order L) = [].
  Proof.
    induction order as [|e' order IH]; cbn; intros H; [reflexivity|].
    rewrite filter_app, filter_filter_neq by (intros ->; apply H; auto).
    apply IH. intros ?; apply H; auto.
  Qed.

  Lemma filter_group e order L : NoDup order -> In e order ->
    filter (isk e) (group order L) = filter (isk e) L.
  Proof.
    induction 1 as [|e' order Hn Hd IH]; cbn; intros H; [contradiction|].
    rewrite filter_app. destruct H as [->|H].
    - rewrite filter_idem. fold (group order L).
      rewrite filter_group_notin by assumption. apply app_nil_r.
    - rewrite filter_filter_neq by (intros ->; contradiction). apply IH, H.
  Qed.

  Lemma split_by (p : T -> bool) L :
    Permutation L (filter p L ++ filter (fun a => negb (p a)) L).
  Proof.
    induction L as [|a L IH]; cbn; [constructor|].
    destruct (p a); cbn; [constructor; exact IH|].
    etransitivity; [constructor; exact IH|]. apply Permutation_middle.
  Qed.

  Lemma filter_comm (p q : T -> bool) L : filter p (filter q L) = filter q (filter p L).
  Proof.
    induction L as [|a L IH]; cbn; [reflexivity|].
    destruct (q a) eqn:Q, (p a) eqn:E; cbn; rewrite ?Q, ?E, IH; reflexivity.
  Qed.

  Lemma filter_filter_and (p q : T -> bool) L :
    filter p (filter q L) = filter (fun a => p a && q a) L.
  Proof.
    induction L as [|a L IH]; cbn; [reflexivity|].
    destruct (q a) eqn:Q, (p a) eqn:E; cbn; rewrite ?Q, ?E, ?IH; reflexivity.
  Qed.

  (** A duplicate-free order selects a sub-multiset; the rest has keys outside. *)
  Lemma group_split order L : NoDup order ->
    Permutation L (group order L ++
                   filter (fun a => negb (existsb (String.eqb (key a)) order)) L).
  Proof.
    intros Hd. revert L. induction Hd as [|e order Hn Hd IH]; intros L.
    - cbn. induction L as [|a L IHL]; cbn; [constructor|]. constructor. exact IHL.
    - cbn [group flat_map]. fold (group order L).
      rewrite (split_by (isk e) L) at 1. rewrite <- app_assoc. apply Permutation_app_head.
      rewrite (IH (filter (fun a => negb (isk e a)) L)) at 1.
      assert (G : group order (filter (fun a => negb (isk e a)) L) = group order L).
      { unfold group. clear IH Hd.
        assert (forall o, In o order -> o <> e) as Ho by (intros o Ho ->; contradiction).
        induction order as [|o order IHo]; cbn; [reflexivity|].
        rewrite IHo; [|intros ?; apply Hn; right; assumption|intros; apply Ho; right; assumption].
        f_equal. clear IHo. specialize (Ho o (or_introl eq_refl)).
        induction L as [|a L IHL]; cbn; [reflexivity|].
        destruct (isk e a) eqn:E1; cbn.
        - destruct (isk o a) eqn:E2; [apply isk_true in E1, E2; congruence|exact IHL].
        - destruct (isk o a); rewrite IHL; reflexivity. }
      rewrite G. apply Permutation_app_head.
      rewrite filter_filter_and.
      rewrite (filter_ext _ (fun a => negb (existsb (String.eqb (key a)) (e :: order)))); [reflexivity|].
      intros a. cbn [existsb]. unfold isk. rewrite (String.eqb_sym e (key a)).
      destruct (String.eqb (key a) e), (existsb (String.eqb (key a)) order); reflexivity.
  Qed.
End Group.

(** Facts about the numpy-assignment model. *)
Lemma np_assign_app {B} (l1 l2 v : list B) b e :
  b = length l1 -> e = length l1 + length v -> length v <= length l2 ->
  np_assign (l1 ++ l2) b e v = Ok (l1 ++ v ++ skipn (length v) l2).
Proof.
  intros -> -> H. unfold np_assign. rewrite app_length.
  replace (Nat.min (length l1 + length v) (length l1 + length l2)) with (length l1 + length v) by lia.
  replace (length l1 + length v - length l1) with (length v) by lia.
  rewrite Nat.eqb_refl. f_equal.
  rewrite firstn_app, firstn_all, Nat.sub_diag, firstn_O, app_nil_r. f_equal. f_equal.
  rewrite skipn_app. rewrite skipn_all2 by lia. cbn. f_equal. lia.
Qed.

Lemma skipn_repeat {B} (x : B) n k : skipn k (repeat x n) = repeat x (n - k).
Proof.
  revert k; induction n as [|n IH]; intros [|k]; cbn; auto.
Qed.

Lemma enumerate_from_app {B} (l1 l2 : list B) k :
  combine (seq k (length (l1 ++ l2))) (l1 ++ l2)
  = combine (seq k (length l1)) l1 ++ combine (seq (k + length l1) (length l2)) l2.
Proof.
  revert k; induction l1 as [|a l1 IH]; intros k; cbn.
  - now rewrite Nat.add_0_r.
  - rewrite IH. replace (k + S (length l1)) with (S k + length l1) by lia. reflexivity.
Qed.

Lemma foldM_app {B S} (f : S -> B -> res S) l1 l2 s :
  foldM f s (l1 ++ l2) = do s' <- foldM f s l1; foldM f s' l2.
Proof.
  revert s; induction l1 as [|a l1 IH]; intros s; cbn; [reflexivity|].
  destruct (f s a); cbn; auto.
Qed.

Lemma sum_map_length_flat {A B} (f : A -> list B) l :
  sum (map (fun a => length (f a)) l) = length (flat_map f l).
Proof.
  unfold sum. induction l as [|a l IH]; cbn; [reflexivity|]. rewrite app_length, IH. reflexivity.
Qed.

Section PermuteAtoms.
  Context {P A V : Type} (pzero : P) (det : A -> V).
  Variables (st : structure P A V).
  (** atoms as records: element, position, force *)
  Notation atom := (string * P * P)%type.
  Definition a_ele (a : atom) := fst (fst a).
  Definition a_pos (a : atom) := snd (fst a).
  Definition a_for (a : atom) := snd a.
  Variable L : list atom.
  Variable hasf : bool.
  Let force := if hasf then Some (map a_for L) else None.
  Hypothesis Hel : elements st = map a_ele L.
  Hypothesis Hpos : positions st = map a_pos L.
  Hypothesis Hty : length (types st) = length L.

  Let grp := group a_ele.
  Let N := length L.

  Definition typed (k : nat) (order : list string) : list Z :=
    flat_map (fun ie => repeat (Z.of_nat (fst ie)) (length (filter (isk a_ele (snd ie)) L)))
             (combine (seq k (length order)) order).

  Lemma typed_length k order : length (typed k order) = length (grp order L).
  Proof.
    revert k; induction order as [|e order IH]; intros k; cbn; [reflexivity|].
    rewrite !app_length, repeat_length. f_equal. apply IH.
  Qed.

  Definition inv_state (done : list string) : pstate P :=
    mk_pstate (map a_pos (grp done L) ++ repeat pzero (N - length (grp done L)))
              (typed 0 done ++ repeat 0%Z (N - length (grp done L)))
              (map a_ele (grp done L))
              (map (fun e => length (filter (isk a_ele e) L)) done)
              (if hasf then Some (map a_for (grp done L) ++ repeat pzero (N - length (grp done L)))
               else None)
              (length (grp done L)).

  Lemma grp_le order : NoDup order -> length (grp order L) <= N.
  Proof.
    intros H. pose proof (Permutation_length (group_split a_ele order L H)) as E.
    rewrite app_length in E. unfold N, grp. lia.
  Qed.

  Lemma map_ele_filter e : map a_ele (filter (isk a_ele e) L)
                           = repeat e (length (filter (isk a_ele e) L)).
  Proof.
    clear. induction L as [|a l IH]; cbn; [reflexivity|].
    destruct (isk a_ele e a) eqn:E; cbn; [|exact IH].
    apply isk_true in E. rewrite E, IH. reflexivity.
  Qed.

  Lemma permute_step_inv done e : NoDup (done ++ [e]) ->
    permute_step st force (inv_state done) (length done, e) = Ok (inv_state (done ++ [e])).
  Proof.
    intros Hd. pose proof (grp_le _ Hd) as Hle.
    unfold grp in *. rewrite group_app, app_length in Hle. cbn in Hle. rewrite app_nil_r in Hle.
    set (F := filter (isk a_ele e) L) in *.
    unfold permute_step. rewrite Hel, Hpos, mask_map, count_true_map.
    unfold np_select at 1. rewrite !map_length, Nat.eqb_refl. cbn [bind].
    rewrite select_map. fold F. cbn [inv_state p_pos p_begin p_typ p_for p_ele p_nat].
    unfold grp.
    rewrite np_assign_app; [|now rewrite map_length|now rewrite !map_length
                            |rewrite map_length, repeat_length; lia].
    cbn [bind]. rewrite app_length, typed_length, repeat_length. unfold grp.
    replace (Nat.min (length (group a_ele done L) + length F)
               (length (group a_ele done L) + (N - length (group a_ele done L)))
             - length (group a_ele done L)) with (length F) by lia.
    rewrite np_assign_app; [|now rewrite typed_length|now rewrite typed_length, repeat_length
                            |rewrite !repeat_length; lia].
    cbn [bind].
    assert (Hn : forall B (z : B), skipn (length F) (repeat z (N - length (group a_ele done L)))
                 = repeat z (N - length (group a_ele (done ++ [e]) L))).
    { intros. rewrite skipn_repeat. f_equal. rewrite group_app, app_length. cbn.
      rewrite app_nil_r. fold F. lia. }
    assert (Hg : group a_ele (done ++ [e]) L = group a_ele done L ++ F).
    { rewrite group_app. cbn. now rewrite app_nil_r. }
    assert (Ht : typed 0 (done ++ [e]) = typed 0 done ++ repeat (Z.of_nat (length done)) (length F)).
    { unfold typed. rewrite enumerate_from_app, flat_map_app. cbn. now rewrite app_nil_r. }
    assert (forall X, X = inv_state (done ++ [e]) -> @Ok (pstate P) X = Ok (inv_state (done ++ [e]))) as K
      by (intros; subst; reflexivity).
    unfold force. destruct hasf eqn:Hf.
    - unfold np_select. rewrite !map_length, Nat.eqb_refl. cbn [bind].
      rewrite select_map. fold F.
      rewrite np_assign_app; [|now rewrite map_length|now rewrite !map_length
                              |rewrite map_length, repeat_length; lia].
      cbn [bind]. apply K. unfold inv_state, grp. rewrite ?Hf.
      rewrite !map_length, !repeat_length, !Hn.
      rewrite Ht, !Hg, !map_app, !app_length, <- !app_assoc.
      rewrite (map_ele_filter e : map a_ele F = _). reflexivity.
    - cbn [bind]. apply K. unfold inv_state, grp. rewrite ?Hf.
      rewrite !map_length, !repeat_length, !Hn.
      rewrite Ht, !Hg, !map_app, !app_length, <- !app_assoc.
      rewrite (map_ele_filter e : map a_ele F = _). reflexivity.
  Qed.

  Lemma permute_fold_inv todo done : NoDup (done ++ todo) ->
    foldM (permute_step st force) (inv_state done)
          (combine (seq (length done) (length todo)) todo)
    = Ok (inv_state (done ++ todo)).
  Proof.
    revert done; induction todo as [|e todo IH]; intros done Hd; cbn [length seq combine foldM].
    - now rewrite app_nil_r.
    - rewrite permute_step_inv.
      + cbn [bind]. replace (S (length done)) with (length (done ++ [e]))
          by (rewrite app_length; cbn; lia).
        rewrite IH; rewrite <- app_assoc; [reflexivity|exact Hd].
      + replace (done ++ e :: todo) with ((done ++ [e]) ++ todo) in Hd by now rewrite <- app_assoc.
        revert Hd. generalize (done ++ [e]). clear. intros l H.
        induction l as [|x l IH]; [constructor|]. cbn in H. inversion H; subst.
        constructor; [|auto]. intros ?. apply H2, in_or_app. auto.
  Qed.

  Definition out_structure (order : list string) : structure P A V :=
    mk_structure (axis st) (map a_pos (grp order L))
                 (map (fun e => length (filter (isk a_ele e) L)) order)
                 (map a_ele (grp order L)) (typed 0 order) (det (axis st)) None.

  Lemma permute_atoms_ok order : NoDup order ->
    (forall a, In a L -> In (a_ele a) order) ->
    permute_atoms pzero det st order force
    = Ok (out_structure order, if hasf then Some (map a_for (grp order L)) else None).
  Proof.
    intros Hd Hc.
    assert (Hlen : length (grp order L) = N).
    { pose proof (group_split a_ele order L Hd) as E. apply Permutation_length in E.
      rewrite app_length in E. unfold N, grp.
      replace (filter _ L) with (@nil atom) in E; [cbn in E; lia|].
      symmetry. clear -Hc. induction L as [|a l IH]; cbn; [reflexivity|].
      replace (existsb (String.eqb (a_ele a)) order) with true.
      - cbn. apply IH. intros; apply Hc; right; assumption.
      - symmetry. apply existsb_exists. exists (a_ele a). split; [apply Hc; left; reflexivity|].
        apply String.eqb_refl. }
    unfold permute_atoms.
    match goal with |- context [foldM _ ?s _] => replace s with (inv_state []) end.
    2:{ unfold inv_state. cbn. rewrite Hpos, Hty, map_length, Nat.sub_0_r.
        unfold force, N. destruct hasf; [|reflexivity]. now rewrite map_length. }
    unfold enumerate. change (seq 0) with (seq (length (@nil string))).
    rewrite permute_fold_inv by exact Hd. cbn [bind app].
    unfold new_structure, inv_state. cbn [p_pos p_nat p_ele p_typ p_for].
    rewrite Hlen, Nat.sub_diag. cbn [repeat]. rewrite !app_nil_r.
    rewrite !map_length, typed_length, Nat.eqb_refl. cbn [py_assert bind].
    unfold grp, group. rewrite sum_map_length_flat, Nat.eqb_refl. cbn [py_assert bind].
    unfold out_structure, grp, group. destruct hasf; rewrite ?app_nil_r; reflexivity.
  Qed.

  Lemma permute_atoms_err order : NoDup order ->
    (exists a, In a L /\ ~ In (a_ele a) order) ->
    permute_atoms pzero det st order force = Err AssertionError.
  Proof.
    intros Hd [a [Ha Hn]].
    assert (Hlen : length (grp order L) < N).
    { pose proof (group_split a_ele order L Hd) as E. apply Permutation_length in E.
      rewrite app_length in E. unfold N, grp.
      destruct (filter (fun a => negb (existsb (String.eqb (a_ele a)) order)) L) eqn:F;
        [|cbn in E; lia].
      exfalso. assert (In a []) as []. rewrite <- F. apply filter_In. split; [exact Ha|].
      apply negb_true_iff. destruct (existsb _ order) eqn:X; [|reflexivity].
      apply existsb_exists in X. destruct X as [x [X1 X2]]. apply String.eqb_eq in X2.
      subst. contradiction. }
    unfold permute_atoms.
    match goal with |- context [foldM _ ?s _] => replace s with (inv_state []) end.
    2:{ unfold inv_state. cbn. rewrite Hpos, Hty, map_length, Nat.sub_0_r.
        unfold force, N. destruct hasf; [|reflexivity]. now rewrite map_length. }
    unfold enumerate. change (seq 0) with (seq (length (@nil string))).
    rewrite permute_fold_inv by exact Hd. cbn [bind app].
    unfold new_structure, inv_state. cbn [p_pos p_nat p_ele p_typ p_for].
    rewrite app_length, !map_length, repeat_length.
    replace (_ =? _) with false by lia. reflexivity.
  Qed.

  Lemma typed_nth_aux k order i : NoDup order ->
    forall t a, nth_error (typed k order) i = Some t ->
    nth_error (grp order L) i = Some a ->
    exists j, t = Z.of_nat (k + j) /\ nth_error order j = Some (a_ele a).
  Proof.
    intros _. revert k i. induction order as [|e order IH]; intros k i t a; cbn.
    - destruct i; discriminate.
    - set (F := filter (isk a_ele e) L).
      destruct (Nat.lt_ge_cases i (length F)) as [Hi|Hi].
      + rewrite !nth_error_app1 by (rewrite ?repeat_length; exact Hi).
        intros H1 H2. apply nth_error_In in H1, H2. apply repeat_spec in H1.
        apply filter_In in H2. destruct H2 as [_ H2]. apply isk_true in H2.
        exists 0. cbn. rewrite H2, Nat.add_0_r. auto.
      + rewrite !nth_error_app2 by (rewrite ?repeat_length; exact Hi). rewrite repeat_length.
        intros H1 H2. destruct (IH (S k) (i - length F) t a H1 H2) as [j [E1 E2]].
        exists (S j). split; [rewrite E1; f_equal; lia|exact E2].
  Qed.
End PermuteAtoms.

Lemma typed_sorted {P} (L : list (string * P * P)) k order :
  StronglySorted Z.le (typed L k order) /\ Forall (fun t => (Z.of_nat k <= t)%Z) (typed L k order).
Proof.
  revert k; induction order as [|e order IH]; intros k; cbn; [split; constructor|].
  destruct (IH (S k)) as [H1 H2]. fold (typed L (S k) order).
  set (n := length (filter (isk a_ele e) L)). clearbody n.
  induction n as [|n [IHn1 IHn2]]; cbn.
  - split; [exact H1|]. eapply Forall_impl; [|exact H2]. cbn; intros; lia.
  - split; [constructor; [exact IHn1|]|constructor; [lia|]]; exact IHn2.
Qed.

(** ** Recovering atom records from the arrays *)
Definition atoms {P A V} (st : structure P A V) (f : list P) : list (string * P * P) :=
  combine (combine (elements st) (positions st)) f.

Lemma combine_maps {X Y} (l1 : list X) (l2 : list Y) : length l1 = length l2 ->
  l1 = map fst (combine l1 l2) /\ l2 = map snd (combine l1 l2).
Proof.
  revert l2; induction l1 as [|x l1 IH]; intros [|y l2]; cbn; intros H; try discriminate; [auto|].
  injection H as H. destruct (IH l2 H) as [E1 E2]. split; f_equal; assumption.
Qed.

Lemma combine_map {X Y Z'} (f : Z' -> X) (g : Z' -> Y) l :
  combine (map f l) (map g l) = map (fun z => (f z, g z)) l.
Proof. induction l; cbn; f_equal; assumption. Qed.

(** Decoding: arrays of equal length are the projections of the atom list. *)
Lemma atoms_decode {P A V} (st : structure P A V) (f : list P) :
  length (positions st) = length (elements st) -> length f = length (elements st) ->
  elements st = map a_ele (atoms st f) /\ positions st = map a_pos (atoms st f)
  /\ f = map a_for (atoms st f) /\ length (atoms st f) = length (elements st).
Proof.
  intros H1 H2. unfold atoms.
  destruct (combine_maps (elements st) (positions st)) as [E1 E2]; [lia|].
  assert (Hc : length (combine (elements st) (positions st)) = length f)
    by (rewrite combine_length; lia).
  destruct (combine_maps _ f Hc) as [E3 E4].
  split; [|split; [|split]].
  - rewrite E1 at 1. rewrite E3 at 1. rewrite map_map. reflexivity.
  - rewrite E2 at 1. rewrite E3 at 1. rewrite map_map. reflexivity.
  - exact E4.
  - rewrite combine_length. lia.
Qed.

Lemma map_proj {P} (L : list (string * P * P)) :
  combine (combine (map a_ele L) (map a_pos L)) (map a_for L) = L.
Proof.
  rewrite combine_map, combine_map. rewrite <- (map_id L) at 2. apply map_ext.
  intros [[e p] f]. reflexivity.
Qed.

(** ** replace_types for distinct elements *)
Lemma fromkeys_nodup l : NoDup l -> fromkeys l = l.
Proof.
  intros H. unfold fromkeys.
  assert (G : forall acc, NoDup (acc ++ l) ->
     fold_left (fun acc x => if existsb (String.eqb x) acc then acc else acc ++ [x]) l acc = acc ++ l).
  { clear H. induction l as [|x l IH]; intros acc H; cbn.
    - now rewrite app_nil_r.
    - replace (existsb (String.eqb x) acc) with false.
      + rewrite IH; rewrite <- app_assoc; [reflexivity|exact H].
      + symmetry. destruct (existsb (String.eqb x) acc) eqn:E; [|reflexivity].
        apply existsb_exists in E. destruct E as [y [Hy He]]. apply String.eqb_eq in He. subst y.
        exfalso. apply NoDup_remove_2 in H. apply H, in_or_app. auto. }
  rewrite (G [] H). reflexivity.
Qed.

Lemma all_distinct_nodup l : NoDup l -> all_distinct l = true.
Proof. intros H. unfold all_distinct. rewrite fromkeys_nodup by exact H. apply Nat.eqb_refl. Qed.

Fixpoint index_of (e : string) (l : list string) : option nat :=
  match l with
  | [] => None
  | x :: t => if String.eqb e x then Some 0
              else match index_of e t with Some k => Some (S k) | None => None end
  end.

Lemma index_of_nth e l j : index_of e l = Some j -> nth_error l j = Some e.
Proof.
  revert j; induction l as [|x l IH]; cbn; intros j H; [discriminate|].
  destruct (String.eqb_spec e x) as [->|N].
  - injection H as <-. reflexivity.
  - destruct (index_of e l) as [k|] eqn:E; [|discriminate]. injection H as <-. cbn. auto.
Qed.

Lemma index_of_In e l : In e l <-> exists j, index_of e l = Some j.
Proof.
  induction l as [|x l IH]; cbn.
  - split; [contradiction|intros [j H]; discriminate].
  - destruct (String.eqb_spec e x) as [->|N].
    + split; eauto.
    + rewrite IH. split.
      * intros [H|[j Hj]]; [congruence|]. rewrite Hj. eauto.
      * intros [j H]. destruct (index_of e l); [|discriminate]. eauto.
Qed.

Lemma index_of_unique e l j : NoDup l -> nth_error l j = Some e -> index_of e l = Some j.
Proof.
  revert j; induction l as [|x l IH]; intros j Hd H; [destruct j; discriminate|].
  inversion Hd; subst. destruct j as [|j]; cbn in *.
  - injection H as ->. now rewrite String.eqb_refl.
  - destruct (String.eqb_spec e x) as [->|N].
    + exfalso. apply H2. eapply nth_error_In; eassumption.
    + rewrite (IH j); auto.
Qed.

Definition new_type (k : nat) (els : list string) (e : string) (old : Z) : Z :=
  match index_of e els with Some j => Z.of_nat (k + j) | None => old end.

Definition map2 {X Y Z'} (f : X -> Y -> Z') (l1 : list X) (l2 : list Y) :=
  map (fun p => f (fst p) (snd p)) (combine l1 l2).

Lemma mask_write_map2 e v el ty : length el = length ty ->
  mask_write (mask e el) v ty = map2 (fun x t => if String.eqb e x then v else t) el ty.
Proof.
  revert ty; induction el as [|x el IH]; intros [|t ty]; cbn; intros H; try discriminate; [reflexivity|].
  injection H as H. unfold map2 in *. cbn. now rewrite IH.
Qed.

Lemma map2_length {X Y Z'} (f : X -> Y -> Z') l1 l2 : length l1 = length l2 ->
  length (map2 f l1 l2) = length l1.
Proof. intros. unfold map2. rewrite map_length, combine_length. lia. Qed.

Lemma map2_map2 {X} (f g : X -> Z -> Z) l1 l2 : length l1 = length l2 ->
  map2 f l1 (map2 g l1 l2) = map2 (fun x t => f x (g x t)) l1 l2.
Proof.
  revert l2; induction l1 as [|x l1 IH]; intros [|t l2]; cbn; intros H; try discriminate; [reflexivity|].
  injection H as H. unfold map2 in *. cbn. now rewrite IH.
Qed.

Lemma map2_ext {X} (f g : X -> Z -> Z) l1 l2 : (forall x t, f x t = g x t) ->
  map2 f l1 l2 = map2 g l1 l2.
Proof. intros H. unfold map2. apply map_ext. intros; apply H. Qed.

Lemma map2_id {X} (l1 : list X) (l2 : list Z) : length l1 = length l2 ->
  map2 (fun _ t => t) l1 l2 = l2.
Proof.
  intros H. unfold map2. destruct (combine_maps l1 l2 H) as [_ E]. symmetry. exact E.
Qed.

Definition listed (els : list string) (e : string) : bool := existsb (String.eqb e) els.
Lemma listed_In els e : listed els e = true <-> In e els.
Proof.
  unfold listed. rewrite existsb_exists. split.
  - intros [x [H E]]. apply String.eqb_eq in E. now subst.
  - intros H. exists e. split; [exact H|apply String.eqb_refl].
Qed.

Lemma replace_fold el els : NoDup els -> forall k ty c, length el = length ty ->
  foldM (fun (s : list Z * nat) (ie : nat * string) =>
                 let m := mask (snd ie) el in
                 if length m =? length (fst s)
                 then Ok (mask_write m (Z.of_nat (fst ie)) (fst s), snd s + count_true m)
                 else Err IndexError)
        (ty, c) (combine (seq k (length els)) els)
  = Ok (map2 (new_type k els) el ty, c + length (filter (listed els) el)).
Proof.
  induction 1 as [|e els Hn Hd IH]; intros k ty c Hl; cbn [length seq combine foldM].
  - f_equal. f_equal.
    + symmetry. apply map2_id, Hl.
    + replace (filter (listed []) el) with (@nil string); [cbn; lia|].
      clear. induction el; cbn; auto.
  - cbn [fst snd]. unfold mask at 1. rewrite map_length, Hl, Nat.eqb_refl. cbn [bind].
    rewrite mask_write_map2 by exact Hl. rewrite IH by (rewrite map2_length; auto).
    rewrite map2_map2 by exact Hl. f_equal. f_equal.
    + apply map2_ext. intros x t. unfold new_type. cbn.
      rewrite (String.eqb_sym x e).
      destruct (String.eqb_spec e x) as [->|N].
      * destruct (index_of x els) eqn:E; [exfalso; apply Hn, index_of_In; eauto|].
        lia.
      * destruct (index_of x els); [lia|reflexivity].
    + clear IH Hl. unfold mask. rewrite count_true_map.
      rewrite <- Nat.add_assoc. f_equal.
      induction el as [|x el IHel]; cbn [filter]; [reflexivity|].
      change (listed (e :: els) x) with (String.eqb x e || listed els x).
      rewrite (String.eqb_sym x e).
      destruct (String.eqb_spec e x) as [->|N]; cbn [orb].
      * destruct (listed els x) eqn:E; [apply listed_In in E; contradiction|]. cbn. lia.
      * destruct (listed els x); cbn; lia.
Qed.

Lemma filter_length_le {X} (p : X -> bool) l : length (filter p l) <= length l.
Proof. induction l as [|x l IH]; cbn; [lia|]. destruct (p x); cbn; lia. Qed.

Lemma filter_length_all {X} (p : X -> bool) l : length (filter p l) = length l <-> forallb p l = true.
Proof.
  induction l as [|x l IH]; cbn; [tauto|].
  destruct (p x); cbn.
  - rewrite <- IH. lia.
  - pose proof (filter_length_le p l). split; [lia|discriminate].
Qed.

Lemma replace_types_distinct {P A V} argsort (st : structure P A V) els :
  length (types st) = length (elements st) -> NoDup els ->
  replace_types argsort st els =
    if forallb (listed els) (elements st)
    then Ok (mk_structure (axis st) (positions st) (n_atoms st) (elements st)
               (map2 (new_type 0 els) (elements st) (types st)) (volume st) (name st))
    else Err RuntimeError.
Proof.
  intros Hl Hd. unfold replace_types. rewrite all_distinct_nodup by exact Hd.
  unfold enumerate. rewrite replace_fold by (auto; lia). cbn [bind fst snd].
  rewrite Nat.add_0_l.
  destruct (forallb (listed els) (elements st)) eqn:E.
  - apply filter_length_all in E. rewrite E, Nat.eqb_refl. reflexivity.
  - destruct (Nat.eqb_spec (length (filter (listed els) (elements st))) (length (elements st))) as [X|X];
      [|reflexivity].
    apply filter_length_all in X. congruence.
Qed.

Lemma map2_nth {X} (f : X -> Z -> Z) l1 l2 i x t : nth_error l1 i = Some x ->
  nth_error l2 i = Some t -> nth_error (map2 f l1 l2) i = Some (f x t).
Proof.
  revert l2 i; induction l1 as [|a l1 IH]; intros [|b l2] [|i]; cbn; try discriminate.
  - intros [= ->] [= ->]. reflexivity.
  - apply IH.
Qed.
