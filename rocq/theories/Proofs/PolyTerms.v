(** Polynomial terms of a type: columns, factors, ranges. *)
From Verif Require Import Base Num Spec.ModelParams Model.Cxx Model.Mapping Model.ModelParams Model.Features
  Proofs.Cxx Proofs.Mapping Proofs.ModelParams Proofs.FeatureVals.

Lemma map1_set c1 : map1 c1 = set_map (map (fun x => [x]) c1).
Proof.
  unfold map1, set_map. rewrite map_length. generalize (seq 0 (length c1)) as s. generalize (@nil (list nat * nat)) as m.
  induction c1 as [|x c1 IH]; intros m [|k s]; cbn; auto.
Qed.
Lemma map1_get c1 x : NoDup c1 -> In x c1 -> um_get [x] (map1 c1) < length c1 /\ nth (um_get [x] (map1 c1)) c1 0 = x.
Proof.
  intros Hd Hx. rewrite map1_set.
  assert (Hd' : NoDup (map (fun x => [x]) c1)) by (apply NoDup_map_inj_in; [intros ? ? _ _ E; now injection E|exact Hd]).
  destruct (set_map_get (map (fun x => [x]) c1) [x] [] Hd' (in_map (fun x => [x]) _ _ Hx)) as [H1 H2]. rewrite map_length in H1.
  split; [exact H1|]. rewrite (nth_mapd _ _ _ 0) in H2 by exact H1. now injection H2.
Qed.

(** Linear features multiplied in column [g]. *)
Definition factors (nl : nat) (mp : model_params) (g : nat) : list nat :=
  if g <? nl then [g]
  else if g <? nl + length (mp_comb2 mp) then nth (g - nl) (mp_comb2 mp) []
  else nth (g - nl - length (mp_comb2 mp)) (mp_comb3 mp) [].
Definition combs_ok (nt k nl : nat) (A : nat -> nat -> bool) (comb ind : list (list nat)) : Prop :=
  (forall c, In c comb -> length c = k /\ Forall (fun i => i < nl) c) /\
  forall t, t < nt -> nth t ind [] = filter (fun j => forallb (A t) (nth j comb [])) (seq 0 (length comb)).
Record poly_ok (nt nl : nat) (A : nat -> nat -> bool) (mp : model_params) : Prop := {
  pk_1 : forall t, t < nt -> nth t (mp_comb1 mp) [] = filter (A t) (seq 0 nl);
  pk_2 : combs_ok nt 2 nl A (mp_comb2 mp) (mp_ind2 mp);
  pk_3 : combs_ok nt 3 nl A (mp_comb3 mp) (mp_ind3 mp) }.

Lemma combs_complete_ok nt k nl A P comb ind : combs_complete nt k A P comb ind -> (forall i, In i P -> i < nl) -> combs_ok nt k nl A comb ind.
Proof.
  intros [_ [H1 [_ H2]]] HP. split; [|exact H2]. intros c Hc. apply H1 in Hc. destruct Hc as [L [_ [I _]]]. split; [exact L|].
  rewrite Forall_forall in *. intros i Hi. apply HP, I, Hi.
Qed.
Lemma no_combs_ok nt k nl A : combs_ok nt k nl A [] (repeat [] nt).
Proof. split; [intros c []|]. intros t _. cbn. apply nth_repeat_nil. Qed.
Lemma poly_ok_gtinv nt mt maxp lts : types_ok nt lts -> mt <= 4 ->
  poly_ok nt (length lts) (adm_gtinv lts) (model_params_gtinv nt mt maxp lts).
Proof.
  intros H1 H2. destruct (gtinv_combinations nt mt maxp lts H1 H2) as [[_ C1] [C2 C3]].
  assert (HP : forall i, In i (poly_indices mt lts) -> i < length lts) by (intros i Hi; apply filter_In in Hi; destruct Hi as [Hi _]; apply in_seq in Hi; lia).
  constructor; [exact C1| |].
  - destruct ((1 <? mt) && (1 <? maxp)) eqn:E; [eapply combs_complete_ok; eassumption|].
    unfold model_params_gtinv, model_poly. rewrite E. cbn. apply no_combs_ok.
  - destruct ((1 <? mt) && (2 <? maxp)) eqn:E; [eapply combs_complete_ok; eassumption|].
    unfold model_params_gtinv, model_poly. rewrite E. cbn. apply no_combs_ok.
Qed.
Lemma poly_ok_pair nt mt maxp ntp : mt <= 2 -> poly_ok nt (length ntp) (adm_pair nt ntp) (model_params_pair nt mt maxp ntp).
Proof.
  intros Hm. destruct (pair_combinations nt maxp ntp) as [[_ C1] [C2 C3]].
  assert (HP : forall i, In i (seq 0 (length ntp)) -> i < length ntp) by (intros i Hi; apply in_seq in Hi; lia).
  assert (E1 : mp_comb1 (model_params_pair nt mt maxp ntp) = mp_comb1 (model_params_pair nt 2 maxp ntp)) by reflexivity.
  assert (Hm' : mt = 2 \/ (1 <? mt) = false) by (destruct mt as [|[|[|]]]; try (right; reflexivity); [now left|lia]).
  constructor; [rewrite E1; exact C1| |].
  - destruct Hm' as [->|E]; [|unfold model_params_pair, model_poly; rewrite E; cbn; apply no_combs_ok].
    destruct (1 <? maxp) eqn:E; [eapply combs_complete_ok; eassumption|].
    unfold model_params_pair, model_poly. rewrite E, andb_false_r. cbn. apply no_combs_ok.
  - destruct Hm' as [->|E]; [|unfold model_params_pair, model_poly; rewrite E; cbn; apply no_combs_ok].
    destruct (2 <? maxp) eqn:E; [eapply combs_complete_ok; eassumption|].
    unfold model_params_pair, model_poly. rewrite E, andb_false_r. cbn. apply no_combs_ok.
Qed.

Lemma filter_shift (p : nat -> bool) b n : filter p (seq b n) = map (fun j => b + j) (filter (fun j => p (b + j)) (seq 0 n)).
Proof.
  replace (seq b n) with (map (fun j => b + j) (seq 0 n)).
  - generalize (seq 0 n) as l. induction l as [|x l IH]; cbn; [reflexivity|]. destruct (p (b + x)); cbn; now rewrite IH.
  - revert b. induction n as [|n IH]; intros b; [reflexivity|]. cbn [seq map]. rewrite Nat.add_0_r. f_equal.
    rewrite <- (IH (S b)), <- seq_shift, map_map. apply map_ext. intros; lia.
Qed.
Lemma filter_in_ext {A} (p q : A -> bool) l : (forall x, In x l -> p x = q x) -> filter p l = filter q l.
Proof. induction l as [|x l IH]; intros H; cbn; [reflexivity|]. rewrite H by now left. rewrite IH; [reflexivity|intros; apply H; now right]. Qed.

Section Terms.
  Variables (nt nl : nat) (A : nat -> nat -> bool) (mp : model_params).
  Hypothesis PK : poly_ok nt nl A mp.
  Variable t : nat.
  Hypothesis Ht : t < nt.
  Let c1 := nth t (mp_comb1 mp) [].
  Lemma c1_nodup : NoDup c1.
  Proof. unfold c1. rewrite (pk_1 _ _ _ _ PK t Ht). apply NoDup_filter, seq_NoDup. Qed.
  Lemma c1_In i : In i c1 <-> i < nl /\ A t i = true.
  Proof. unfold c1. rewrite (pk_1 _ _ _ _ PK t Ht), filter_In, in_seq. intuition lia. Qed.
  Lemma loc_ok i : i < nl -> A t i = true -> um_get [i] (map1 c1) < length c1 /\ nth (um_get [i] (map1 c1)) c1 0 = i.
  Proof. intros H1 H2. apply map1_get; [apply c1_nodup|]. apply c1_In. auto. Qed.

  (** The columns of a type are those whose factors the type admits, in order. *)
  Theorem term_columns : map pt_gid (set_polynomial nl mp t) = filter (fun g => forallb (A t) (factors nl mp g)) (seq 0 (n_variables nl mp)).
  Proof.
    unfold set_polynomial, n_variables. rewrite !map_app, !map_map. cbn [pt_gid]. fold c1.
    rewrite !seq_app, !filter_app, Nat.add_0_l, <- app_assoc. f_equal; [|f_equal].
    - transitivity c1; [|].
      + generalize 0 as b. clear. induction c1 as [|x l IH]; intros b; cbn; [reflexivity|]. now rewrite IH.
      + unfold c1. rewrite (pk_1 _ _ _ _ PK t Ht). apply filter_in_ext. intros g Hg. apply in_seq in Hg. unfold factors.
        destruct (Nat.ltb_spec g nl); [|lia]. cbn. now rewrite andb_true_r.
    - destruct (pk_2 _ _ _ _ PK) as [_ H2]. rewrite (H2 t Ht), (filter_shift _ nl). f_equal. apply filter_in_ext. intros j Hj. apply in_seq in Hj.
      unfold factors. destruct (Nat.ltb_spec (nl + j) nl); [lia|]. destruct (Nat.ltb_spec (nl + j) (nl + length (mp_comb2 mp))); [|lia].
      now replace (nl + j - nl) with j by lia.
    - destruct (pk_3 _ _ _ _ PK) as [_ H3]. rewrite (H3 t Ht), (filter_shift _ (nl + length (mp_comb2 mp))). f_equal. apply filter_in_ext. intros j Hj. apply in_seq in Hj.
      unfold factors. destruct (Nat.ltb_spec (nl + length (mp_comb2 mp) + j) nl); [lia|].
      destruct (Nat.ltb_spec (nl + length (mp_comb2 mp) + j) (nl + length (mp_comb2 mp))); [lia|].
      now replace (nl + length (mp_comb2 mp) + j - nl - length (mp_comb2 mp)) with j by lia.
  Qed.
  Theorem term_factors x : In x (set_polynomial nl mp t) ->
    pt_gid x < n_variables nl mp /\ Forall (fun i => i < length c1) (pt_ids x) /\
    map (fun i => nth i c1 0) (pt_ids x) = factors nl mp (pt_gid x).
  Proof.
    unfold set_polynomial, n_variables. fold c1. rewrite !in_app_iff. intros [H|[H|H]]; apply in_map_iff in H.
    - destruct H as [[i k] [<- H]]. cbn [pt_gid pt_ids fst snd map].
      assert (E : k < length c1 /\ nth k c1 0 = i).
      { assert (G : forall b l, In (i, k) (combine l (seq b (length l))) -> b <= k < b + length l /\ nth (k - b) l 0 = i).
        { clear. intros b l. revert b. induction l as [|x l IH]; intros b H; cbn in H; [contradiction|]. destruct H as [E|H].
          - injection E as <- <-. cbn. split; [lia|]. now rewrite Nat.sub_diag.
          - destruct (IH _ H) as [H1 H2]. cbn [length]. split; [lia|]. now replace (k - b) with (S (k - S b)) by lia. }
        destruct (G 0 c1 H) as [G1 G2]. split; [lia|]. now rewrite Nat.sub_0_r in G2. }
      destruct E as [E1 E2]. assert (Hi : i < nl) by (apply c1_In; rewrite <- E2; now apply nth_In).
      split; [lia|]. split; [repeat constructor; exact E1|]. rewrite E2. unfold factors. destruct (Nat.ltb_spec i nl); [reflexivity|lia].
    - destruct H as [j [<- H]]. cbn [pt_gid pt_ids map]. destruct (pk_2 _ _ _ _ PK) as [H1 H2]. rewrite (H2 t Ht) in H. apply filter_In in H.
      destruct H as [Hj Ha]. apply in_seq in Hj. destruct (H1 (nth j (mp_comb2 mp) [])) as [L Q]; [apply nth_In; lia|].
      unfold factors. destruct (Nat.ltb_spec (nl + j) nl); [lia|]. destruct (Nat.ltb_spec (nl + j) (nl + length (mp_comb2 mp))); [|lia].
      replace (nl + j - nl) with j by lia. destruct (nth j (mp_comb2 mp) []) as [|u [|v [|]]]; cbn [length] in L; try lia.
      cbn [forallb nth] in *. rewrite !andb_true_iff in Ha. inversion Q as [|? ? Q1 Q']; subst. inversion Q' as [|? ? Q2 _]; subst.
      destruct (loc_ok u Q1 ltac:(tauto)) as [U1 U2]. destruct (loc_ok v Q2 ltac:(tauto)) as [V1 V2].
      split; [lia|]. split; [repeat constructor; assumption|]. now rewrite U2, V2.
    - destruct H as [j [<- H]]. cbn [pt_gid pt_ids map]. destruct (pk_3 _ _ _ _ PK) as [H1 H2]. rewrite (H2 t Ht) in H. apply filter_In in H.
      destruct H as [Hj Ha]. apply in_seq in Hj. destruct (H1 (nth j (mp_comb3 mp) [])) as [L Q]; [apply nth_In; lia|].
      unfold factors. destruct (Nat.ltb_spec (nl + length (mp_comb2 mp) + j) nl); [lia|].
      destruct (Nat.ltb_spec (nl + length (mp_comb2 mp) + j) (nl + length (mp_comb2 mp))); [lia|].
      replace (nl + length (mp_comb2 mp) + j - nl - length (mp_comb2 mp)) with j by lia.
      destruct (nth j (mp_comb3 mp) []) as [|u [|v [|w [|]]]]; cbn [length] in L; try lia.
      cbn [forallb nth] in *. rewrite !andb_true_iff in Ha. inversion Q as [|? ? Q1 Q']; subst. inversion Q' as [|? ? Q2 Q'']; subst. inversion Q'' as [|? ? Q3 _]; subst.
      destruct (loc_ok u Q1 ltac:(tauto)) as [U1 U2]. destruct (loc_ok v Q2 ltac:(tauto)) as [V1 V2]. destruct (loc_ok w Q3 ltac:(tauto)) as [W1 W2].
      split; [lia|]. split; [repeat constructor; assumption|]. now rewrite U2, V2, W2.
  Qed.
End Terms.
