From Coq Require Import Reals Lra.
From Verif Require Import Base Num NumR Model.Structure Model.Properties Model.HybridTypes Model.GridOptimal Model.GaussParams Proofs.Structure Proofs.GridOptimal Proofs.Properties Proofs.HybridTypes.
From Coq Require String.
Local Open Scope nat_scope.

Section Dict.
  Variables (K B : Type) (eqb : K -> K -> bool).
  Hypothesis eqb_eq : forall a b, eqb a b = true <-> a = b.
  Lemma eqb_same a : eqb a a = true.
  Proof. now apply eqb_eq. Qed.
  Lemma dget_dset (d : list (K * B)) k v k' : dget eqb (dset eqb d k v) k' = if eqb k' k then Some v else dget eqb d k'.
  Proof.
    induction d as [|[k0 v0] d IH]; cbn [dset]; unfold dget; cbn [find fst].
    - destruct (eqb k' k); reflexivity.
    - destruct (eqb k k0) eqn:E1; cbn [find fst].
      + apply eqb_eq in E1. subst k0. destruct (eqb k' k); reflexivity.
      + destruct (eqb k' k0) eqn:E2; [|exact IH]. destruct (eqb k' k) eqn:E3; [|reflexivity]. apply eqb_eq in E2, E3. subst. rewrite eqb_same in E1. discriminate.
  Qed.
  Lemma dset_new (d : list (K * B)) k v : ~ In k (map fst d) -> dset eqb d k v = d ++ [(k, v)].
  Proof. induction d as [|[k0 v0] d IH]; intros H; cbn [dset]; [reflexivity|]. destruct (eqb k k0) eqn:E; [apply eqb_eq in E; subst; exfalso; apply H; now left|]. cbn [app]. f_equal. apply IH. intros Hi. apply H. now right. Qed.
  Lemma fold_dset {X} (key : X -> K) (val : X -> B) ks acc : NoDup (map key ks) -> (forall x, In x ks -> ~ In (key x) (map fst acc)) ->
    fold_left (fun acc x => dset eqb acc (key x) (val x)) ks acc = acc ++ map (fun x => (key x, val x)) ks.
  Proof.
    revert acc. induction ks as [|x ks IH]; intros acc HN HD; cbn [fold_left map]; [now rewrite app_nil_r|]. cbn [map] in HN. inversion HN; subst. rewrite dset_new by (apply HD; now left). rewrite IH; [now rewrite <- app_assoc|assumption|].
    intros y Hy. rewrite map_app, in_app_iff. cbn. intros [H|[H|[]]]; [exact (HD y (or_intror Hy) H)|]. apply H1. rewrite H. now apply in_map.
  Qed.
End Dict.
Lemma pair_eqb_eq a b : pair_eqb a b = true <-> a = b.
Proof. destruct a, b. unfold pair_eqb. cbn [fst snd]. rewrite andb_true_iff, !String.eqb_eq. split; [intros [-> ->]; reflexivity|intros [= -> ->]; auto]. Qed.
Lemma key_eqb_eq a b : key_eqb a b = true <-> a = b.
Proof. destruct a, b. unfold key_eqb. cbn [fst snd]. rewrite andb_true_iff, !Nat.eqb_eq. split; [intros [-> ->]; reflexivity|intros [= -> ->]; auto]. Qed.

Lemma comb_In {A} (l : list A) a b : In (a, b) (combinations l) <-> exists i j, i <= j /\ nth_error l i = Some a /\ nth_error l j = Some b.
Proof.
  induction l as [|x l IH]; cbn [combinations]; [split; [intros []|intros [i [j [_ [H _]]]]; destruct i; discriminate]|]. rewrite in_app_iff, IH, in_map_iff. split.
  - intros [[y [[= <- <-] Hy]]|[i [j [H1 [H2 H3]]]]].
    + apply In_nth_error in Hy. destruct Hy as [j Hj]. exists 0, j. split; [lia|]. split; [reflexivity|exact Hj].
    + exists (S i), (S j). split; [lia|]. split; assumption.
  - intros [i [j [H1 [H2 H3]]]]. destruct i as [|i].
    + cbn in H2. injection H2 as ->. left. exists b. split; [reflexivity|]. eapply nth_error_In; eauto.
    + destruct j as [|j]; [lia|]. right. exists i, j. split; [lia|]. split; assumption.
Qed.
Lemma comb_nodup {A} (l : list A) : NoDup l -> NoDup (combinations l).
Proof.
  induction 1 as [|x l Hx HN IH]; cbn [combinations]; [constructor|].
  assert (G : forall (m : list A), NoDup m -> NoDup (map (fun b => (x, b)) m)) by (intros m Hm; apply FinFun.Injective_map_NoDup; [intros a b [= ->]; reflexivity|exact Hm]).
  assert (HM : NoDup (map (fun b => (x, b)) (x :: l))) by (apply G; now constructor).
  assert (HD : forall q, In q (map (fun b => (x, b)) (x :: l)) -> ~ In q (combinations l)).
  { intros [a b] Hq Hc. apply in_map_iff in Hq. destruct Hq as [y [[= <- <-] _]]. apply comb_In in Hc. destruct Hc as [i [j [_ [H _]]]]. apply Hx. eapply nth_error_In; eauto. }
  revert HM HD. generalize (map (fun b => (x, b)) (x :: l)). intros m HM HD. induction HM as [|q m Hq HM IHm]; [exact IH|]. cbn [app]. constructor.
  - rewrite in_app_iff. intros [H|H]; [contradiction|]. exact (HD q (or_introl eq_refl) H).
  - apply IHm. intros; apply HD; now right.
Qed.
Lemma atomtype_ok els i e : NoDup els -> nth_error els i = Some e -> atomtype els e = i.
Proof.
  intros HN Hi. unfold atomtype.
  assert (G : forall els b acc, NoDup els -> fold_left (fun acc q => if String.eqb e (snd q) then fst q else acc) (combine (seq b (length els)) els) acc = if is_in els e then b + position e els else acc).
  { clear. induction els as [|x els IH]; intros b acc HN; cbn [length seq combine fold_left]; [reflexivity|]. inversion HN; subst. rewrite IH by assumption. cbn [snd fst]. unfold is_in. cbn [existsb position]. fold (is_in els e).
    destruct (String.eqb_spec e x) as [->|NE]; cbn [orb]; [|destruct (is_in els e); lia]. destruct (is_in els x) eqn:E; [apply is_in_In in E; contradiction|lia]. }
  rewrite G by exact HN. replace (is_in els e) with true by (symmetry; apply is_in_In; eapply nth_error_In; eauto). cbn. now apply position_at.
Qed.
Lemma linspace_ok (a b : R) (n : nat) : exists l, linspace a b (Z.of_nat n) = Ok l /\ length l = n /\ forall i, i < n -> nth_error l i = Some (if n =? 1 then a else a + INR i * ((b - a) / INR (n - 1)))%R.
Proof.
  unfold linspace. replace (Z.of_nat n <? 0)%Z with false by (symmetry; apply Z.ltb_ge; lia). rewrite Nat2Z.id. destruct (Nat.eqb_spec n 1) as [->|NE].
  - eexists. split; [reflexivity|]. split; [reflexivity|]. intros i Hi. assert (i = 0) by lia. subst. reflexivity.
  - eexists. split; [reflexivity|]. split; [rewrite map_length, seq_length; reflexivity|]. intros i Hi. erewrite map_nth_error; [|apply (nth_error_nth' _ 0); rewrite seq_length; exact Hi]. rewrite seq_nth by exact Hi. cbn [Nat.add]. rewrite !nnat_INR. reflexivity.
Qed.
Lemma prod_nth {A B} (l : list A) (m : list B) i j a b : nth_error l i = Some a -> nth_error m j = Some b -> nth_error (list_prod l m) (i * length m + j) = Some (a, b).
Proof.
  intros Ha Hb. assert (Hj : j < length m) by (apply nth_error_Some; congruence). revert i Ha. induction l as [|x l IH]; intros i Ha; [destruct i; discriminate|]. cbn [list_prod]. destruct i as [|i]; cbn in Ha.
  - injection Ha as ->. cbn [Nat.mul Nat.add]. rewrite nth_error_app1 by (rewrite map_length; exact Hj). erewrite map_nth_error; [reflexivity|exact Hb].
  - rewrite nth_error_app2 by (rewrite map_length; cbn; lia). rewrite map_length. replace (S i * length m + j - length m) with (i * length m + j) by (cbn; lia). now apply IH.
Qed.

Section Distance.
  Notation dist := (list ((string * string) * list R)).
  Definition norm (els : list string) (k : string * string) : string * string := if position (fst k) els <=? position (snd k) els then k else (snd k, fst k).
  Lemma replace_ok els (d acc : dist) : (forall q, In q d -> In (fst (fst q)) els /\ In (snd (fst q)) els) ->
    exists d', replace_keys els d acc = Ok d' /\ forall k, dget pair_eqb d' k = match find (fun q => pair_eqb k (norm els (fst q))) (rev d) with Some q => Some (snd q) | None => dget pair_eqb acc k end.
  Proof.
    revert acc. induction d as [|[k v] d IH]; intros acc H; cbn [replace_keys]; [exists acc; split; [reflexivity|]; reflexivity|].
    destruct (H _ (or_introl eq_refl)) as [H1 H2]. cbn [fst] in H1, H2. unfold sort_pair, py_index. replace (is_in els (fst k)) with true by (symmetry; now apply is_in_In). replace (is_in els (snd k)) with true by (symmetry; now apply is_in_In). cbn [bind].
    destruct (IH (dset pair_eqb acc (if position (fst k) els <=? position (snd k) els then k else (snd k, fst k)) v)) as [d' [E HD]]; [intros; apply H; now right|]. exists d'. split; [exact E|]. intros k'. rewrite HD. cbn [rev].
    assert (FA : forall (p : (string * string) * list R -> bool) l x, find p (l ++ [x]) = match find p l with Some q => Some q | None => if p x then Some x else None end) by (clear; intros p l x; induction l as [|y l IH]; cbn; [reflexivity|]; destruct (p y); [reflexivity|exact IH]).
    rewrite FA. cbn [fst snd]. destruct (find _ (rev d)) as [q|]; [reflexivity|]. rewrite (dget_dset _ _ _ pair_eqb_eq). unfold norm. destruct (pair_eqb k' _); reflexivity.
  Qed.
End Distance.
