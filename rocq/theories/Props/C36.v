(** C36: automatic division of calculations into data sets. *)
From Coq Require Import Reals Lra.
From Verif Require Import Base Num NumR Model.Split Model.Divide Proofs.Split Proofs.GridOptimal Proofs.Divide Proofs.DivideAlloy.
Local Open Scope nat_scope.

Lemma ok_inj {A} (a b : A) : Ok a = Ok b -> a = b.
Proof. congruence. Qed.

Section C36.
  Variables (pow2 : R -> R) (w01 : R) (File K : Type) (keqb : K -> K -> bool) (is_end : K -> bool).
  Hypothesis keqb_eq : forall a b, keqb a b = true <-> a = b.
  Definition energy (c : calc R K) : R := (c_energy K c / INR (c_natoms K c))%R.
  Definition mean (l : list R) : R := (fold_right Rplus 0 l / INR (length l))%R.
  (** Root of the mean squared deviation of the forces from their mean *)
  Definition spread (c : calc R K) : R := sqrt (mean (map (fun x => (x - mean (c_forces K c)) ^ 2)%R (c_forces K c))).
  Definition sound (c : calc R K) : Prop := length (c_forces K c) = 3 * c_natoms K c /\ 1 <= c_natoms K c.
  (** The k-th level (k >= 1) of n: energy below a share (k-1)/(n-1) of the lowest one or forces below a multiple of their mean. *)
  Definition level (n : nat) (cs : list (calc R K)) (c : calc R K) (k : nat) : Prop :=
    k = 0 \/ (1 <= k < n /\ ((exists m, In m (map energy cs) /\ (forall c', In c' cs -> (m <= energy c')%R) /\ (energy c <= m * (INR (k - 1) / INR (n - 1)))%R) \/
                            (spread c <= mean (map spread cs) * pow2 (2 - 6 * (INR (k - 1) / INR (n - 1))))%R)).
  (** Every file is copied to exactly one directory; the directories are distinct, not empty, and have the right weights. *)
  Definition divided (n : nat) (files : list File) (out : list (entry R File)) : Prop :=
    Permutation (concat (map (en_files _) out)) files /\ NoDup (map (fun e => (en_train _ e, en_id _ e)) out) /\
    Forall (fun e => en_files _ e <> [] /\ 1 <= en_id _ e /\ en_weight _ e = if (n =? 1) || negb ((en_id _ e - 1) mod n =? 0) then 1%R else w01) out.

  Lemma nsum_Rsum (l : list R) : nsum l = fold_right Rplus 0%R l.
  Proof. reflexivity. Qed.
  Lemma average_mean (l : list R) : np_average l = mean l.
  Proof. unfold np_average, mean. rewrite nsum_Rsum, nnat_INR. reflexivity. Qed.
  Lemma e_all_energy cs : e_all K cs = map energy cs.
  Proof. unfold e_all, energy. apply map_ext. intros c. rewrite nnat_INR. reflexivity. Qed.
  Lemma std_spread c : np_std (c_forces K c) = spread c.
  Proof.
    unfold np_std, spread. cbn [nsqrt R_ord]. f_equal. rewrite !average_mean. f_equal. apply map_ext. intros x. cbn [nmul nsub R_num]. ring.
  Qed.
  Lemma f_all_spread cs : Forall sound cs -> f_std_all K cs = map spread cs.
  Proof.
    intros H. unfold f_std_all.
    assert (G : forall cs pre, Forall sound cs -> f_std_from (length pre) (map (c_natoms K) cs) (pre ++ concat (map (c_forces K) cs)) = map spread cs).
    { clear. induction cs as [|c cs IH]; intros pre H; cbn [map f_std_from concat]; [reflexivity|]. inversion H as [|? ? [H1 H0] H2]; subst. rewrite <- H1. f_equal.
      - rewrite <- std_spread. unfold slice. f_equal. rewrite firstn_app_2, skipn_app, skipn_all, Nat.sub_diag. cbn [app skipn]. rewrite firstn_app, Nat.sub_diag, firstn_all. cbn [firstn]. apply app_nil_r.
      - rewrite app_assoc, <- app_length. now apply IH. }
    exact (G cs [] H).
  Qed.
  Lemma np_min_spec (l : list R) m : np_min l = Ok m -> In m l /\ forall x, In x l -> (m <= x)%R.
  Proof.
    destruct l as [|a l]; [discriminate|]. cbn [np_min]. set (step := fun m x : R => if nltb x m then x else m). intros HM.
    assert (E : fold_left step l a = m) by congruence. rewrite <- E. clear HM E m. revert a. induction l as [|b l IH]; intros a; cbn [fold_left].
    - split; [now left|]. intros x [<-|[]]. lra.
    - destruct (IH (step a b)) as [H1 H2]. assert (HS : step a b = b /\ (b < a)%R \/ step a b = a /\ (a <= b)%R).
      { unfold step. destruct (nltb b a) eqn:E; [left; apply Rltb_true in E|right; apply Rltb_false in E]; auto. }
      pose proof (H2 (step a b) (or_introl eq_refl)) as H3. destruct HS as [[HS Hab]|[HS Hab]]; rewrite HS in *.
      + split; [destruct H1 as [H1|H1]; [rewrite <- H1; right; now left|right; now right]|]. intros x [<-|[<-|Hx]]; [lra|lra|apply H2; now right].
      + split; [destruct H1 as [H1|H1]; [rewrite <- H1; now left|right; now right]|]. intros x [<-|[<-|Hx]]; [lra|lra|apply H2; now right].
  Qed.
  (** The group of a value is its last level. *)
  Lemma group_of_spec (ths : list R) x k : 1 <= k -> (k <= group_of ths x -> exists j t, k <= j /\ j = group_of ths x /\ nth_error ths (j - 1) = Some t /\ (x <= t)%R) /\ (forall t, nth_error ths (k - 1) = Some t -> (x <= t)%R -> k <= group_of ths x).
  Proof.
    unfold group_of. set (step := fun g it => if nltb (snd it) x then g else S (fst it)).
    assert (G : forall l b g, g <= b -> let r := fold_left step (combine (seq b (length l)) l) g in
      g <= r /\ (r = g \/ exists i t, nth_error l i = Some t /\ (x <= t)%R /\ r = S (b + i)) /\ forall i t, nth_error l i = Some t -> (x <= t)%R -> S (b + i) <= r).
    { induction l as [|t l IH]; intros b g Hg; cbn [length seq combine fold_left].
      - split; [lia|]. split; [now left|]. intros [|i] ? H; discriminate.
      - cbn zeta. assert (ES : step g (b, t) = if nltb t x then g else S b) by reflexivity. rewrite ES. clear ES. destruct (nltb t x) eqn:E.
        + destruct (IH (S b) g ltac:(lia)) as [H1 [H2 H3]]. split; [exact H1|]. split.
          * destruct H2 as [H2|[i [t' [Hi [Hx Hr]]]]]; [now left|]. right. exists (S i), t'. cbn. repeat split; [exact Hi|exact Hx|lia].
          * intros [|i] t' Hi Hx; cbn in Hi; [injection Hi as ->; apply Rltb_true in E; lra|]. specialize (H3 i t' Hi Hx). lia.
        + apply Rltb_false in E. destruct (IH (S b) (S b) ltac:(lia)) as [H1 [H2 H3]]. split; [lia|]. split.
          * right. destruct H2 as [H2|[i [t' [Hi [Hx Hr]]]]]; [exists 0, t; cbn; repeat split; [lra|lia]|]. exists (S i), t'. cbn. repeat split; [exact Hi|exact Hx|lia].
          * intros [|i] t' Hi Hx; [lia|]. specialize (H3 i t' Hi Hx). lia. }
    destruct (G ths 0 0 ltac:(lia)) as [_ [H2 H3]]. intros Hk. split.
    - intros HK. destruct H2 as [H2|[i [t [Hi [Hx Hr]]]]]; [lia|]. exists (S i), t. cbn [Nat.add] in Hr. repeat split; [lia|lia|cbn; rewrite Nat.sub_0_r; exact Hi|exact Hx].
    - intros t Ht Hx. specialize (H3 _ t Ht Hx). lia.
  Qed.
  Lemma linspace_nth (a b : R) n i : nth_error (linspace_init a b n) i = if i <? n - 1 then Some (a + INR i * (b - a) / INR (n - 1))%R else None.
  Proof.
    unfold linspace_init. rewrite nth_error_map. destruct (i <? n - 1) eqn:E.
    - apply Nat.ltb_lt in E. rewrite (nth_error_nth' (seq 0 (n - 1)) 0) by (rewrite seq_length; lia). rewrite seq_nth by lia. cbn [option_map Nat.add]. rewrite !nnat_INR. reflexivity.
    - apply Nat.ltb_ge in E. assert (H : nth_error (seq 0 (n - 1)) i = None) by (apply nth_error_None; rewrite seq_length; lia). now rewrite H.
  Qed.
  (** Groups are the greatest levels, below n. *)
  Lemma split_levels cs n gs : Forall sound cs -> split pow2 (map energy cs) (map spread cs) n = Ok gs -> Forall2 (fun c g => level n cs c g /\ forall k, level n cs c k -> k <= g) cs gs.
  Proof.
    intros HS. unfold split. destruct (np_min (map energy cs)) as [m|] eqn:EM; cbn [bind]; [|discriminate]. intros EQ. apply ok_inj in EQ. subst gs. apply np_min_spec in EM. destruct EM as [M1 M2].
    assert (EC : combine (map energy cs) (map spread cs) = map (fun c => (energy c, spread c)) cs) by (clear; induction cs as [|c cs IH]; cbn; [reflexivity|]; now rewrite IH). rewrite EC, map_map. clear EC.
    set (the := map (fun r => nmul m r) (linspace_init n0 n1 n)). set (thf := map (fun r => nmul (np_average (map spread cs)) r) (map pow2 (linspace_init (nadd n1 n1) (nopp (nadd (nadd (nadd n1 n1) n1) n1)) n))).
    assert (HE : forall k t, 1 <= k -> nth_error the (k - 1) = Some t <-> k < n /\ t = (m * (INR (k - 1) / INR (n - 1)))%R).
    { intros k t Hk. unfold the. rewrite nth_error_map, linspace_nth. destruct (k - 1 <? n - 1) eqn:E; cbn [option_map].
      - apply Nat.ltb_lt in E. split; [intros [= <-]; split; [lia|]|intros [_ ->]; f_equal]; cbn; unfold Rdiv; ring.
      - apply Nat.ltb_ge in E. split; [discriminate|lia]. }
    assert (HF : forall k t, 1 <= k -> nth_error thf (k - 1) = Some t <-> k < n /\ t = (mean (map spread cs) * pow2 (2 - 6 * (INR (k - 1) / INR (n - 1))))%R).
    { intros k t Hk. unfold thf. rewrite nth_error_map, nth_error_map, linspace_nth, average_mean. destruct (k - 1 <? n - 1) eqn:E; cbn [option_map].
      - apply Nat.ltb_lt in E. assert (EX : (nadd n1 n1 + INR (k - 1) * (nopp (nadd (nadd (nadd n1 n1) n1) n1) - nadd n1 n1) / INR (n - 1))%R = (2 - 6 * (INR (k - 1) / INR (n - 1)))%R) by (cbn; unfold Rdiv; ring).
        rewrite EX. split; [intros [= <-]; split; [lia|reflexivity]|intros [_ ->]; reflexivity].
      - apply Nat.ltb_ge in E. split; [discriminate|lia]. }
    assert (HM : forall m', In m' (map energy cs) -> (forall c', In c' cs -> (m' <= energy c')%R) -> m' = m).
    { intros m' H1 H2. apply in_map_iff in H1. destruct H1 as [c1 [<- Hc1]]. pose proof (M2 _ (in_map energy _ _ Hc1)). apply in_map_iff in M1. destruct M1 as [c2 [E2 Hc2]]. specialize (H2 c2 Hc2). lra. }
    cbn [fst snd]. clearbody the thf.
    assert (HL : forall l, (forall c, In c l -> In c cs) -> Forall2 (fun c g => level n cs c g /\ forall k, level n cs c k -> k <= g) l (map (fun x => Nat.max (group_of the (energy x)) (group_of thf (spread x))) l)); [|apply HL; auto].
    induction l as [|c l IH]; intros Hl; cbn [map]; constructor; [|apply IH; intros; apply Hl; now right].
    split.
    - unfold level. set (g := Nat.max _ _). destruct (Nat.eq_dec g 0) as [->|Hg]; [now left|right].
      destruct (Nat.max_spec (group_of the (energy c)) (group_of thf (spread c))) as [[_ HX]|[_ HX]]; fold g in HX; clearbody g; subst g.
      + destruct (proj1 (group_of_spec thf (spread c) (group_of thf (spread c)) ltac:(lia)) (le_n _)) as [j [t [Hj [-> [Ht Hx]]]]]. apply HF in Ht; [|lia]. destruct Ht as [Hn ->]. split; [lia|right; exact Hx].
      + destruct (proj1 (group_of_spec the (energy c) (group_of the (energy c)) ltac:(lia)) (le_n _)) as [j [t [Hj [-> [Ht Hx]]]]]. apply HE in Ht; [|lia]. destruct Ht as [Hn ->]. split; [lia|left]. exists m. split; [exact M1|]. split; [intros c' Hc'; apply M2; now apply in_map|exact Hx].
    - intros k [->|[Hk [[m' [Hm1 [Hm2 Hx]]]|Hx]]]; [lia| |].
      + rewrite (HM m' Hm1 Hm2) in Hx. etransitivity; [|apply Nat.le_max_l]. eapply (proj2 (group_of_spec the (energy c) k ltac:(lia))); [apply HE; [lia|]; split; [lia|reflexivity]|exact Hx].
      + etransitivity; [|apply Nat.le_max_r]. eapply (proj2 (group_of_spec thf (spread c) k ltac:(lia))); [apply HF; [lia|]; split; [lia|reflexivity]|exact Hx].
  Qed.
  Lemma read_concat (read : File -> res (list (calc R K))) files cs : Forall2 (fun f c => read f = Ok [c]) files cs -> exists parsed, mapM read files = Ok parsed /\ concat parsed = cs /\ length cs = length files.
  Proof.
    induction 1 as [|f c files cs Hf HF IH]; cbn [mapM]; [exists []; repeat split|]. rewrite Hf. cbn [bind]. destruct IH as [p [-> [E L]]]. cbn [bind]. eexists. split; [reflexivity|]. cbn. rewrite E, L. split; reflexivity.
  Qed.
  Lemma get_weights_nth n i : 1 <= n -> i < n -> nth_error (get_weights w01 n) i = Some (if (n =? 1) || negb (i =? 0) then 1%R else w01).
  Proof.
    intros Hn Hi. unfold get_weights. destruct (n =? 1) eqn:E; [apply Nat.eqb_eq in E; assert (i = 0) by lia; subst; reflexivity|]. destruct i as [|i]; [reflexivity|]. cbn [nth_error orb negb Nat.eqb].
    assert (HI : i < n - 1) by lia. revert HI. generalize (n - 1). clear. intros m. revert i. induction m as [|m IH]; intros [|i] H; cbn; try lia; [reflexivity|apply IH; lia].
  Qed.
  Lemma get_weights_length n : 1 <= n -> length (get_weights w01 n) = n.
  Proof. intros Hn. unfold get_weights. destruct (n =? 1) eqn:E; [apply Nat.eqb_eq in E; subst; reflexivity|]. cbn. rewrite repeat_length. lia. Qed.

  (** One element: every file with one calculation each goes to exactly one directory, that of its last level. *)
  Theorem C36_single read files cs n : Forall2 (fun f c => read f = Ok [c]) files cs -> Forall sound cs -> files <> [] -> 2 <= n ->
    exists out, auto_divide pow2 w01 File K keqb is_end read files 1 n = Ok out /\ divided n files out /\
      forall e f, In e out -> In f (en_files _ e) -> exists i c, nth_error files i = Some f /\ nth_error cs i = Some c /\ level n cs c (en_id _ e - 1) /\ forall k, level n cs c k -> k <= en_id _ e - 1.
  Proof.
    intros HR HS HN Hn. destruct (read_concat read files cs HR) as [parsed [EP [EC EL]]]. unfold auto_divide. rewrite EP. cbn [bind]. rewrite EC. cbn [Nat.eqb Nat.ltb Nat.leb].
    unfold split_datasets. assert (En : n <? 2 = false) by (apply Nat.ltb_ge; lia). rewrite En, e_all_energy, (f_all_spread cs HS).
    destruct (split_ok pow2 (map energy cs) (map spread cs) n) as [gs [EG [LG BG]]]; [destruct cs; [destruct files; [congruence|discriminate]|discriminate]|now rewrite !map_length|lia|]. rewrite EG. cbn [bind].
    rewrite map_length in LG. destruct (cut_groups_ok gs n) as [attrs [EA _]]. rewrite EA. cbn [bind].
    destruct (output_partition files (get_weights w01 n) gs n attrs BG ltac:(lia) EA) as [out [EO [HP [ND HF]]]]; [rewrite get_weights_length; lia|].
    exists out. split; [exact EO|]. split.
    - split; [exact HP|]. split; [exact ND|]. rewrite Forall_forall in *. intros e He. destruct (HF e He) as [H1 [H2 [H3 _]]]. split; [exact H3|]. split; [lia|]. rewrite get_weights_nth in H2 by lia. rewrite Nat.mod_small by lia. congruence.
    - intros e f He Hf. rewrite Forall_forall in HF. destruct (HF e He) as [_ [_ [_ HX]]]. destruct (HX f Hf) as [x [Hx Hg]]. pose proof (split_levels cs n gs HS EG) as HL.
      assert (G : forall l1 l2 k g, Forall2 (fun c g => level n cs c g /\ forall k, level n cs c k -> k <= g) l1 l2 -> nth_error l2 k = Some g -> exists c, nth_error l1 k = Some c /\ level n cs c g /\ forall k, level n cs c k -> k <= g).
      { clear. intros l1 l2 k g H. revert k. induction H; intros [|k]; cbn; try discriminate; [intros [= <-]; eauto|eauto]. }
      destruct (G _ _ _ _ HL Hg) as [c [Hc HL2]]. exists x, c. auto.
  Qed.

  Lemma tile_nth (w : list R) n q i : length w = n -> i < q * n -> nth_error (concat (repeat w q)) i = nth_error w (i mod n).
  Proof.
    intros HW. revert i. induction q as [|q IH]; intros i Hi; cbn [repeat concat]; [lia|]. destruct (Nat.lt_ge_cases i n) as [H|H].
    - rewrite nth_error_app1 by lia. now rewrite Nat.mod_small by lia.
    - rewrite nth_error_app2 by lia. rewrite IH by lia. rewrite HW. replace i with (i - n + 1 * n) at 2 by lia. rewrite Nat.mod_add by lia. reflexivity.
  Qed.
  Lemma tile_length (w : list R) q : length (concat (repeat w q)) = q * length w.
  Proof. induction q as [|q IH]; cbn; [reflexivity|]. now rewrite app_length, IH. Qed.
  Lemma mapM_get_filter {A B} (f : A -> B) (p : A -> bool) l : mapM (get (map f l)) (where_ p l) = Ok (map f (filter p l)).
  Proof.
    unfold where_. assert (G : forall l pre, mapM (get (map f (pre ++ l))) (where_from (length pre) p l) = Ok (map f (filter p l))); [|exact (G l [])].
    clear l. induction l as [|a l IH]; intros pre; cbn [where_from filter map mapM]; [reflexivity|]. specialize (IH (pre ++ [a])). rewrite <- app_assoc, app_length, Nat.add_1_r in IH. cbn [app] in IH.
    destruct (p a); [|exact IH]. cbn [mapM map]. unfold get at 1. rewrite nth_error_map, nth_error_app2, Nat.sub_diag by lia. cbn [nth_error option_map bind]. rewrite IH. reflexivity.
  Qed.
  Lemma end_find n keys k : 1 <= n -> forall s, match find (fun kn => keqb k (fst kn)) (end_comp K is_end s n keys) with Some (k', v) => k' = k /\ is_end k = true /\ s <= v /\ In (k, v) (end_comp K is_end s n keys) | None => ~ (In k keys /\ is_end k = true) end.
  Proof.
    intros Hn. induction keys as [|k1 keys IH]; intros s; cbn [end_comp find]; [intros [[] _]|]. destruct (is_end k1) eqn:E.
    - cbn [find fst]. destruct (keqb k k1) eqn:EK.
      + apply keqb_eq in EK. subst k1. repeat split; [exact E|lia|now left].
      + specialize (IH (s + n)). destruct (find _ _) as [[k' v]|].
        * destruct IH as [H1 [H2 [H3 H4]]]. repeat split; [exact H1|exact H2|lia|now right].
        * intros [[->|H1] H2]; [assert (keqb k k = true) by (now apply keqb_eq); congruence|tauto].
    - specialize (IH s). destruct (find _ _) as [[k' v]|]; [exact IH|]. intros [[->|H1] H2]; [congruence|tauto].
  Qed.
  Lemma end_inj n keys : 1 <= n -> forall s k1 k2 v, (forall k v, In (k, v) (end_comp K is_end s n keys) -> s <= v) /\ (In (k1, v) (end_comp K is_end s n keys) -> In (k2, v) (end_comp K is_end s n keys) -> k1 = k2).
  Proof.
    intros Hn. induction keys as [|k keys IH]; intros s k1 k2 v; cbn [end_comp]; [split; intros; tauto|]. destruct (is_end k).
    - destruct (IH (s + n) k1 k2 v) as [H1 H2]. split.
      + intros k' v' [[= -> ->]|H]; [lia|]. specialize (H1 _ _ H). lia.
      + intros [[= -> ->]|Ha] [Hb|Hb]; [congruence|apply H1 in Hb; lia|injection Hb as -> ->; apply H1 in Ha; lia|auto].
    - apply IH.
  Qed.
  (** The energies of a composition. *)
  Definition same_key (cs : list (calc R K)) (c : calc R K) : list (calc R K) := filter (fun c' => keqb (c_key K c) (c_key K c')) cs.

  (** Several elements: the same if each composition has a structure with non-positive energy (then its highest group is not
      empty). Each end member has its own directories; within a composition files are placed by their last level. *)
  Theorem C36_alloy read files cs n ne : Forall2 (fun f c => read f = Ok [c]) files cs -> Forall sound cs -> files <> [] -> 1 <= n -> 2 <= ne ->
    (forall c, In c cs -> exists c', In c' cs /\ c_key K c' = c_key K c /\ (c_energy K c' <= 0)%R) ->
    exists out, auto_divide pow2 w01 File K keqb is_end read files ne n = Ok out /\ divided n files out /\
      exists where_f : File -> nat -> calc R K -> Prop,
        (forall f i c, where_f f i c <-> nth_error files i = Some f /\ nth_error cs i = Some c) /\
        (forall e f, In e out -> In f (en_files _ e) -> exists i c, where_f f i c /\ level n (same_key cs c) c ((en_id _ e - 1) mod n) /\ (forall k, level n (same_key cs c) c k -> k <= (en_id _ e - 1) mod n) /\
          ((en_id _ e - 1) / n = 0 <-> is_end (c_key K c) = false) /\
          (is_end (c_key K c) = true -> forall e' f', In e' out -> In f' (en_files _ e') -> (en_id _ e' - 1) / n = (en_id _ e - 1) / n -> exists i' c', where_f f' i' c' /\ c_key K c' = c_key K c)).
  Proof.
    intros HR HS HN Hn Hne HE. destruct (read_concat read files cs HR) as [parsed [EP [EC EL]]]. unfold auto_divide. rewrite EP. cbn [bind]. rewrite EC.
    replace (ne =? 1) with false by (symmetry; apply Nat.eqb_neq; lia). replace (1 <? ne) with true by (symmetry; apply Nat.ltb_lt; lia). replace (n =? 0) with false by (symmetry; apply Nat.eqb_neq; lia).
    unfold split_datasets_alloy, alloy_groups. rewrite e_all_energy, (f_all_spread cs HS), map_length.
    set (d := comp_ids K keqb cs). set (ec := end_comp K is_end n n (map fst d)).
    pose proof (comp_ids_entry R K keqb keqb_eq cs) as HEn. fold d in HEn.
    destruct (alloy_loop_ok pow2 K keqb (map energy cs) (map spread cs) ec n d (repeat 0 (length cs))) as [gs [EG [LG [_ HG]]]].
    { exact Hn. } { now rewrite map_length, repeat_length. } { now rewrite map_length, repeat_length. } { exact (comp_ids_disjoint R K keqb keqb_eq cs). } { exact (proj2 (comp_ids_good R K keqb keqb_eq cs)). }
    { intros i Hi. rewrite repeat_length. apply in_concat in Hi. destruct Hi as [l [Hl Hi]]. apply in_map_iff in Hl. destruct Hl as [[k ids] [<- Hd]]. cbn [snd] in Hi. destruct (HEn k ids Hd) as [-> _]. apply where_In in Hi. destruct Hi as [a [Ha _]]. apply nth_error_Some. congruence. }
    rewrite EG. cbn [bind]. rewrite repeat_length in LG.
    (* group of each calculation *)
    assert (HC : forall i c, nth_error cs i = Some c -> exists g, nth_error gs i = Some (g + offset K keqb ec (c_key K c)) /\ g < n /\ level n (same_key cs c) c g /\ forall k, level n (same_key cs c) c k -> k <= g).
    { intros i c Hc. destruct (comp_ids_all R K keqb keqb_eq cs i c Hc) as [ids [Hd Hi]]. fold d in Hd. destruct (HG _ _ Hd) as [e [f [local [E1 [E2 [E3 [E4 [E5 E6]]]]]]]]. destruct (HEn _ _ Hd) as [EI _].
      rewrite EI, mapM_get_filter in E1, E2. apply ok_inj in E1, E2. subst e f.
      assert (HSF : Forall sound (same_key cs c)). { unfold same_key. rewrite Forall_forall in *. intros x Hx. apply filter_In in Hx. apply HS. tauto. }
      pose proof (split_levels _ n local HSF E3) as HL. apply In_nth_error in Hi. destruct Hi as [j Hj].
      assert (Hjl : j < length local) by (rewrite E4; apply nth_error_Some; congruence). apply nth_error_Some in Hjl. destruct (nth_error local j) as [g|] eqn:Eg; [|congruence].
      exists g. split; [exact (E6 _ _ _ Hj Eg)|]. split; [apply E5; eapply nth_error_In; eassumption|].
      assert (HJ : nth_error (same_key cs c) j = Some c).
      { pose proof (mapM_get_filter (fun c => c) (fun c' => keqb (c_key K c) (c_key K c')) cs) as HM. rewrite !map_id in HM. rewrite <- EI in HM. destruct (mapM_get_spec _ _ _ HM) as [_ HM2]. destruct (HM2 j i Hj) as [HM3 _]. unfold same_key. congruence. }
      assert (G : forall (P : calc R K -> nat -> Prop) l1 l2 k x y, Forall2 P l1 l2 -> nth_error l1 k = Some x -> nth_error l2 k = Some y -> P x y).
      { clear. intros P l1 l2 k x y H. revert k. induction H; intros [|k]; cbn; try discriminate; [congruence|eauto]. }
      exact (G _ _ _ _ _ _ HL HJ Eg). }
    assert (Hm : exists m, np_max gs = Ok m /\ (forall g, In g gs -> g <= m) /\ In m gs).
    { clear - LG HN EL. destruct gs as [|g0 gs]; [destruct files; [congruence|cbn in *; lia]|]. exists (fold_right Nat.max 0 (g0 :: gs)). split; [reflexivity|]. clear. revert g0. induction gs as [|g gs IH]; intros g0.
      - cbn. split; [intros g [<-|[]]; lia|left; lia].
      - destruct (IH g) as [H1 H2]. change (fold_right Nat.max 0 (g0 :: g :: gs)) with (Nat.max g0 (fold_right Nat.max 0 (g :: gs))). set (M := fold_right Nat.max 0 (g :: gs)) in *. split.
        + intros x [<-|Hx]; [lia|]. specialize (H1 x Hx). lia.
        + destruct (Nat.max_spec g0 M) as [[_ ->]|[_ ->]]; [right; exact H2|now left]. }
    destruct Hm as [m [Em [Hm1 Hm2]]]. rewrite Em. cbn [bind].
    assert (HO : forall k, exists q, offset K keqb ec k = q * n) by (intros k; apply offset_multiple).
    (* the last directory number is a multiple of n *)
    assert (HQ : exists q, m + 1 = q * n).
    { apply In_nth_error in Hm2. destruct Hm2 as [i Hi]. assert (Hil : i < length cs) by (rewrite <- LG; apply nth_error_Some; congruence). apply nth_error_Some in Hil. destruct (nth_error cs i) as [c|] eqn:Ec; [|congruence].
      destruct (HC i c Ec) as [g [Hg [Hgn _]]]. rewrite Hi in Hg. injection Hg as Eq. destruct (HE c (nth_error_In _ _ Ec)) as [c' [Hc' [Hk' He']]].
      (* the lowest energy of the composition *)
      assert (Hmin : exists c1, In c1 (same_key cs c) /\ (forall c2, In c2 (same_key cs c) -> (energy c1 <= energy c2)%R)).
      { assert (Hne2 : map energy (same_key cs c) <> []) by (assert (Hin : In c' (same_key cs c)) by (apply filter_In; split; [exact Hc'|apply keqb_eq; congruence]); destruct (same_key cs c); [destruct Hin|discriminate]).
        destruct (np_min (map energy (same_key cs c))) as [mm|] eqn:EM; [|destruct (map energy (same_key cs c)); [congruence|discriminate]]. apply np_min_spec in EM. destruct EM as [EM1 EM2]. apply in_map_iff in EM1. destruct EM1 as [c1 [E1 Hc1]]. exists c1. split; [exact Hc1|]. intros c2 Hc2. rewrite E1. apply EM2. now apply in_map. }
      destruct Hmin as [c1 [Hc1 Hmin]]. assert (Hc1s := Hc1). apply filter_In in Hc1s. destruct Hc1s as [Hc1s Hk1]. apply keqb_eq in Hk1.
      apply In_nth_error in Hc1s. destruct Hc1s as [i1 Hi1]. destruct (HC i1 c1 Hi1) as [g1 [Hg1 [Hg1n [_ Hmax]]]].
      assert (ESK : same_key cs c1 = same_key cs c) by (unfold same_key; rewrite Hk1; reflexivity). rewrite ESK in Hmax.
      assert (HT : g1 = n - 1).
      { assert (HLv : level n (same_key cs c) c1 (n - 1)); [|specialize (Hmax _ HLv); lia]. unfold level. destruct (Nat.eq_dec n 1) as [->|Hn1]; [now left|right]. split; [lia|]. left. exists (energy c1). split; [now apply in_map|]. split; [exact Hmin|].
        assert (Hneg : (energy c1 <= 0)%R).
        { specialize (Hmin c' ltac:(apply filter_In; split; [exact Hc'|apply keqb_eq; congruence])). rewrite Forall_forall in HS. destruct (HS c' Hc') as [_ Hat]. apply le_INR in Hat. cbn [INR] in Hat. unfold energy in *. 
          assert (HD : (c_energy K c' / INR (c_natoms K c') <= 0)%R); [|lra]. unfold Rdiv. assert (0 < / INR (c_natoms K c'))%R by (apply Rinv_0_lt_compat; lra). nra. }
        assert (HRr : (0 <= INR (n - 1 - 1) / INR (n - 1) <= 1)%R).
        { assert (H1 : (0 < INR (n - 1))%R) by (apply lt_0_INR; lia). assert (H2 : (INR (n - 1 - 1) <= INR (n - 1))%R) by (apply le_INR; lia). pose proof (pos_INR (n - 1 - 1)) as H3. split.
          - apply Rmult_le_pos; [exact H3|]. apply Rlt_le, Rinv_0_lt_compat, H1.
          - apply (Rmult_le_reg_r (INR (n - 1))); [exact H1|]. unfold Rdiv. rewrite Rmult_assoc, Rinv_l by lra. lra. }
        nra. }
      pose proof (Hm1 _ (nth_error_In _ _ Hg1)) as HM. rewrite <- Hk1 in HM. destruct (HO (c_key K c)) as [q Hq]. rewrite Hq in *. exists (q + 1). lia. }
    destruct HQ as [q HQ]. destruct (cut_groups_ok gs (m + 1)) as [attrs [EA [LA _]]]. rewrite EA. cbn [bind]. rewrite LA, HQ, Nat.div_mul by lia.
    set (ws := concat (repeat (get_weights w01 n) q)).
    assert (LW : length ws = m + 1) by (unfold ws; rewrite tile_length, get_weights_length; lia).
    destruct (output_partition files ws gs (m + 1) attrs) as [out [EO [HP [ND HF]]]]; [intros g Hg; specialize (Hm1 g Hg); lia|lia|exact EA|lia|].
    exists out. split; [exact EO|]. rewrite Forall_forall in HF. split.
    - split; [exact HP|]. split; [exact ND|]. rewrite Forall_forall. intros e He. destruct (HF e He) as [H1 [H2 [H3 _]]]. split; [exact H3|]. split; [lia|].
      unfold ws in H2. rewrite (tile_nth _ n) in H2; [|apply get_weights_length; lia|lia]. rewrite get_weights_nth in H2; [congruence|lia|apply Nat.mod_upper_bound; lia].
    - exists (fun f i c => nth_error files i = Some f /\ nth_error cs i = Some c). split; [tauto|].
      assert (HX : forall e f, In e out -> In f (en_files _ e) -> exists i c g, nth_error files i = Some f /\ nth_error cs i = Some c /\ en_id _ e - 1 = g + offset K keqb ec (c_key K c) /\ g < n /\ level n (same_key cs c) c g /\ (forall k, level n (same_key cs c) c k -> k <= g) /\ In (c_key K c) (map fst d)).
      { intros e f He Hf. destruct (HF e He) as [_ [_ [_ HX]]]. destruct (HX f Hf) as [i [Hi Hg]]. assert (Hil : i < length cs) by (rewrite <- LG; apply nth_error_Some; congruence). apply nth_error_Some in Hil. destruct (nth_error cs i) as [c|] eqn:Ec; [|congruence].
        destruct (HC i c Ec) as [g [Hg2 [Hgn [HL1 HL2]]]]. exists i, c, g. rewrite Hg in Hg2. destruct (comp_ids_all R K keqb keqb_eq cs i c Ec) as [ids [Hd _]]. repeat split; [exact Hi|exact Ec|congruence|exact Hgn|exact HL1|exact HL2|exact (in_map fst _ _ Hd)]. }
      assert (HOff : forall k, In k (map fst d) -> (offset K keqb ec k = 0 /\ is_end k = false) \/ (is_end k = true /\ n <= offset K keqb ec k /\ In (k, offset K keqb ec k) ec)).
      { intros k Hk. pose proof (end_find n (map fst d) k Hn n) as HX2. fold ec in HX2. unfold offset. destruct (find _ ec) as [[k' v]|].
        - right. tauto.
        - left. split; [reflexivity|]. destruct (is_end k); [exfalso; tauto|reflexivity]. }
      assert (HDM : forall g k, g < n -> (g + offset K keqb ec k) mod n = g /\ ((g + offset K keqb ec k) / n) * n = offset K keqb ec k).
      { intros g k Hg. destruct (HO k) as [q2 ->]. rewrite Nat.mod_add, Nat.mod_small by lia. split; [reflexivity|]. rewrite Nat.div_add, Nat.div_small by lia. lia. }
      intros e f He Hf. destruct (HX e f He Hf) as [i [c [g [Hi [Hc [Eg [Hg [HL1 [HL2 HK]]]]]]]]]. exists i, c. split; [split; assumption|]. destruct (HDM g (c_key K c) Hg) as [HD1 HD2]. rewrite Eg, HD1. split; [exact HL1|]. split; [exact HL2|]. split.
      + destruct (HOff _ HK) as [[H0 H1]|[H1 [H2 _]]]; split; intros H; [exact H1|rewrite Nat.div_small; lia|rewrite H in HD2; lia|congruence].
      + intros HEnd e' f' He' Hf' Ed. destruct (HX e' f' He' Hf') as [i' [c' [g' [Hi' [Hc' [Eg' [Hg' [_ [_ HK']]]]]]]]]. exists i', c'. split; [split; assumption|]. destruct (HDM g' (c_key K c') Hg') as [_ HD2']. rewrite Eg' in Ed. rewrite Ed in HD2'. rewrite HD2 in HD2'.
        destruct (HOff _ HK) as [[_ H1]|[_ [H2 H3]]]; [congruence|]. destruct (HOff _ HK') as [[H0 _]|[_ [_ H4]]]; [lia|]. rewrite <- HD2' in H4. destruct (end_inj n (map fst d) Hn n (c_key K c) (c_key K c') (offset K keqb ec (c_key K c))) as [_ HI]. symmetry. exact (HI H3 H4).
  Qed.
End C36.
Print Assumptions C36_single.
Print Assumptions C36_alloy.

(** Counterexamples, computed with rationals. *)
From Coq Require Import QArith Qcanon.
Local Open Scope nat_scope.
Definition p2 (x : Qc) : Qc := if Qc_eq_dec x (Q2Qc 2) then Q2Qc 4 else Q2Qc (1 # 2).
Definition ex_calc (e : Q) (k : nat) : calc Qc nat := mk_calc nat (Q2Qc e) 1 [Q2Qc 1; Q2Qc (-1); Q2Qc 0] k.
Definition names (r : res (list (entry Qc nat))) : res (list (bool * nat * list nat)) := match r with Ok l => Ok (map (fun e => (en_train _ e, en_id _ e, en_files _ e)) l) | Err e => Err e end.
(** An unconverged file (number 0) gives no calculation: it is copied and the usable last file is not. *)
Theorem C36_skipped_refuted :
  let read f := if f =? 0 then Ok [] else Ok [ex_calc (-1) 0] in
  names (auto_divide p2 (Q2Qc (1 # 10)) nat nat Nat.eqb (fun _ => false) read [0; 1; 2] 1 2) = Ok [(true, 2, [0; 1])].
Proof. vm_compute. reflexivity. Qed.
(** A molecular-dynamics file gives several calculations: division fails. *)
Theorem C36_md_refuted :
  let read f := Ok [ex_calc (-1) 0; ex_calc (-2) 0] in
  names (auto_divide p2 (Q2Qc (1 # 10)) nat nat Nat.eqb (fun _ => false) read [0] 1 2) = Err IndexError.
Proof. vm_compute. reflexivity. Qed.
(** Alloys with positive energies only: the highest group is empty, the weights are too short, division fails. *)
Theorem C36_positive_refuted :
  let read f := Ok [ex_calc 1 0] in
  names (auto_divide p2 (Q2Qc (1 # 10)) nat nat Nat.eqb (fun _ => false) read [0] 2 3) = Err IndexError.
Proof. vm_compute. reflexivity. Qed.
(** One group only: the result is a tuple without attributes. *)
Theorem C36_one_group_refuted :
  let read f := Ok [ex_calc (-1) 0] in
  names (auto_divide p2 (Q2Qc (1 # 10)) nat nat Nat.eqb (fun _ => false) read [0] 1 1) = Err AttributeError.
Proof. vm_compute. reflexivity. Qed.
(** A division of ten files over two compositions, one an end member. *)
Example C36_example :
  let read f := Ok [ex_calc (if f <? 4 then 1 else -1) (if Nat.even f then 0 else 1)] in
  names (auto_divide p2 (Q2Qc (1 # 10)) nat nat Nat.eqb (fun k => k =? 1) read (seq 0 10) 2 3) =
  Ok [(true, 2, [0; 2]); (true, 3, [4; 6; 8]); (true, 5, [1; 3]); (true, 6, [5; 7; 9])].
Proof. vm_compute. reflexivity. Qed.
(** Nothing to divide: no minimum of the energies, no largest group. *)
Theorem C36_empty {F} {N : Num F} {O : NumOrd F} pow2 w01 File K keqb is_end (read : File -> res (list (calc F K))) files ne n :
  (forall f, In f files -> read f = Ok []) -> n <> 0 -> ne <> 1 \/ 2 <= n ->
  auto_divide pow2 w01 File K keqb is_end read files ne n = Err ValueError.
Proof.
  intros H Hn Hc. unfold auto_divide. assert (E : mapM read files = Ok (repeat [] (length files))).
  { clear -H. induction files as [|f l IH]; [reflexivity|]. cbn [mapM length repeat]. rewrite (H f) by now left. cbn [bind]. rewrite IH; [reflexivity|]. intros g Hg. apply H. now right. }
  rewrite E. cbn [bind]. assert (E2 : concat (repeat (@nil (calc F K)) (length files)) = []) by (clear; induction files; [reflexivity|assumption]). rewrite E2.
  destruct (Nat.eqb_spec ne 1) as [->|Hne].
  - destruct Hc as [|Hc]; [congruence|]. unfold split_datasets. destruct (Nat.ltb_spec n 2); [lia|]. reflexivity.
  - reflexivity.
Qed.
Print Assumptions C36_empty.
(** The hypotheses of the theorems are met. *)
Example C36_sound : exists cs : list (calc R nat), Forall2 (fun f c => (fun f : nat => Ok [mk_calc nat (-1)%R 1 [1; 0; 0]%R f]) f = Ok [c]) [0; 1] cs /\ Forall (sound nat) cs /\ (forall c, In c cs -> exists c', In c' cs /\ c_key nat c' = c_key nat c /\ (c_energy nat c' <= 0)%R).
Proof.
  exists (map (fun f => mk_calc nat (-1)%R 1 [1; 0; 0]%R f) [0; 1]). split; [repeat constructor|]. split; [repeat constructor|].
  intros c [<-|[<-|[]]]; eexists; (split; [|split; [reflexivity|cbn; lra]]); cbn; auto.
Qed.
