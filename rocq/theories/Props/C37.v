(** C37: selection of optimal models. *)
From Verif Require Import Base Num Model.GridOptimal Proofs.GridOptimal.
From Coq Require String.

Section C37.
  Context {F : Type} {N : Num F} {O : NumOrd F} {OL : OrdLaws F}.
  Definition target (scale : F -> F) (use_force use_log : bool) (d : mlp F) : F * F :=
    (if use_log then scale (g_time d) else g_time d, if use_force then g_rmse_f d else g_rmse_e d).
  (** [d2] is cheaper and has smaller energy and force errors. *)
  Definition dominates (d2 d1 : mlp F) : Prop := nltb (g_time d2) (g_time d1) = true /\ nltb (g_rmse_e d2) (g_rmse_e d1) = true /\ nltb (g_rmse_f d2) (g_rmse_f d1) = true.
  Definition on_hull (simplices : list (list nat)) (i : nat) : Prop := exists s, In s simplices /\ In i s.

  Lemma better_iff (d2 d1 : mlp F) : better d2 d1 = true <-> dominates d2 d1.
  Proof. unfold better, dominates. rewrite !andb_true_iff. tauto. Qed.

  (** The kept models are, in the order of the array, exactly the hull vertices below the error threshold that no other
      hull vertex dominates. The selection fails only if the hull routine does. *)
  Theorem C37_selected thirty hull scale use_force use_log (d_array : list (mlp F)) simplices :
    hull (map (target scale use_force use_log) d_array) = Ok simplices -> concat simplices <> [] -> (forall i, on_hull simplices i -> i < length d_array) ->
    exists ids out, find_convex_mlps thirty hull scale use_force use_log d_array = Ok out /\
      StronglySorted Nat.lt ids /\ map Some out = map (nth_error d_array) ids /\
      forall i, In i ids <-> exists d, nth_error d_array i = Some d /\ on_hull simplices i /\ nltb (g_rmse_e d) thirty = true /\
        ~ exists j d', on_hull simplices j /\ nth_error d_array j = Some d' /\ dominates d' d.
  Proof.
    intros HH HN HB. unfold find_convex_mlps. change (fun d => (if use_log then scale (g_time d) else g_time d, if use_force then g_rmse_f d else g_rmse_e d)) with (target scale use_force use_log).
    rewrite HH. cbn [bind]. set (v := nunique (concat simplices)).
    assert (HV : forall i, In i v <-> on_hull simplices i). { intros i. unfold v, on_hull. rewrite nunique_In, in_concat. reflexivity. }
    destruct (mapM_get_ok d_array v) as [data ED]; [intros i Hi; apply HB; now apply HV|]. rewrite ED. cbn [bind].
    destruct (mapM_get_spec d_array v data ED) as [HL HG].
    assert (HNE : data <> []). { intros ->. destruct v as [|x v'] eqn:E; [|discriminate]. destruct (concat simplices) as [|y c] eqn:EC; [congruence|]. assert (In y v) by (unfold v; apply nunique_In; now left). fold v in E. rewrite E in H. destruct H. }
    pose proof (lower_nonempty data HNE) as HLN. destruct (find_lower_convex data) as [|n0 ns] eqn:EL; [congruence|]. rewrite <- EL.
    set (q := fun i1d1 : nat * mlp F => negb (existsb (fun i2d2 : nat * mlp F => negb (fst i1d1 =? fst i2d2) && better (snd i2d2) (snd i1d1)) (combine (seq 0 (length data)) data))).
    assert (HM : mapM (get data) (find_lower_convex data) = Ok (map snd (filter q (combine (seq 0 (length data)) data)))) by exact (mapM_where q data []).
    rewrite HM. cbn [bind].
    set (th := fun d : mlp F => nltb (g_rmse_e d) thirty).
    set (T := combine v (combine (seq 0 (length data)) data)).
    assert (ET : map fst T = v /\ map snd T = combine (seq 0 (length data)) data).
    { unfold T. assert (LE : length v = length (combine (seq 0 (length data)) data)) by (rewrite combine_length, seq_length; lia). clear - LE. revert LE. generalize (combine (seq 0 (length data)) data). induction v as [|x v IH]; intros [|y w] LE; cbn in *; try lia; [split; reflexivity|]. destruct (IH w) as [-> ->]; [lia|]. split; reflexivity. }
    destruct ET as [ET1 ET2].
    set (keep := fun t : nat * (nat * mlp F) => q (snd t) && th (snd (snd t))).
    assert (EO : filter th (map snd (filter q (combine (seq 0 (length data)) data))) = map (fun t => snd (snd t)) (filter keep T)).
    { rewrite <- ET2. clear. induction T as [|t T IH]; [reflexivity|]. cbn [map filter]. unfold keep at 1. destruct (q (snd t)); cbn [map filter andb]; [|exact IH]. destruct (th (snd (snd t))); cbn [map]; [f_equal; exact IH|exact IH]. }
    assert (HT : forall t, In t T -> nth_error data (fst (snd t)) = Some (snd (snd t)) /\ nth_error v (fst (snd t)) = Some (fst t) /\ nth_error d_array (fst t) = Some (snd (snd t))).
    { intros [i [n d]] Ht. apply In_nth_error in Ht. destruct Ht as [k Hk]. cbn [fst snd].
      assert (H1 : nth_error v k = Some i). { rewrite <- ET1. rewrite nth_error_map, Hk. reflexivity. }
      assert (H2 : nth_error (combine (seq 0 (length data)) data) k = Some (n, d)). { rewrite <- ET2. rewrite nth_error_map, Hk. reflexivity. }
      rewrite nth_error_enum in H2. destruct (nth_error data k) as [d0|] eqn:E0; cbn in H2; [|discriminate]. injection H2 as <- <-. destruct (HG k i H1) as [H3 _]. split; [exact E0|]. split; [exact H1|congruence]. }
    exists (map fst (filter keep T)), (map (fun t => snd (snd t)) (filter keep T)). split; [now rewrite EO|].
    split; [apply sorted_filter; rewrite ET1; apply nunique_sorted|].
    split.
    { rewrite !map_map. apply map_ext_in. intros t Ht. apply filter_In in Ht. destruct (HT t (proj1 Ht)) as [_ [_ ->]]. reflexivity. }
    intros i. rewrite in_map_iff. split.
    - intros [t [<- Ht]]. apply filter_In in Ht. destruct Ht as [Ht Hk]. destruct (HT t Ht) as [H1 [H2 H3]]. exists (snd (snd t)). split; [exact H3|]. apply andb_true_iff in Hk. destruct Hk as [Hq Hth].
      split; [apply HV; eapply nth_error_In; eassumption|]. split; [exact Hth|]. intros [j [d' [Hj [Hd HD]]]]. apply HV in Hj. apply In_nth_error in Hj. destruct Hj as [n Hn].
      destruct (HG n j Hn) as [Hn2 _]. rewrite Hd in Hn2. apply better_iff in HD.
      assert (HLo : In (fst (snd t)) (find_lower_convex data)). { unfold find_lower_convex. apply where_In. exists (snd t). split; [rewrite nth_error_enum, H1; destruct t as [? [? ?]]; reflexivity|exact Hq]. }
      apply lower_In in HLo. destruct HLo as [d0 [Hd0 HLo]]. assert (d0 = snd (snd t)) by congruence. subst d0.
      destruct (Nat.eq_dec n (fst (snd t))) as [->|NE]; [|rewrite (HLo n d' NE Hn2) in HD; discriminate]. assert (d' = snd (snd t)) by congruence. subst d'. now rewrite better_irrefl in HD.
    - intros [d [Hd [Hi [Hth HD]]]]. apply HV in Hi. apply In_nth_error in Hi. destruct Hi as [n Hn]. destruct (HG n i Hn) as [Hn2 _].
      exists (i, (n, d)). split; [reflexivity|]. apply filter_In. split.
      + apply (nth_error_In _ n). unfold T. assert (HC : forall {A B} (a : list A) (b : list B) k x y, nth_error a k = Some x -> nth_error b k = Some y -> nth_error (combine a b) k = Some (x, y)).
        { clear. induction a as [|? a IH]; intros [|? b] [|k] x y; cbn; try discriminate; [congruence|apply IH]. }
        apply HC; [exact Hn|]. rewrite nth_error_enum, Hn2, Hd. reflexivity.
      + apply andb_true_iff. split; [|exact Hth]. cbn [snd].
        assert (HLo : In n (find_lower_convex data)). { apply lower_In. exists d. split; [congruence|]. intros j d' Hj Hd'. destruct (better d' d) eqn:EB; [|reflexivity]. exfalso. apply HD.
          assert (Hjl : j < length v) by (rewrite <- HL; apply nth_error_Some; congruence). apply nth_error_Some in Hjl. destruct (nth_error v j) as [k|] eqn:Ek; [|congruence]. destruct (HG j k Ek) as [Hk _].
          exists k, d'. split; [apply HV; eapply nth_error_In; eassumption|]. split; [congruence|now apply better_iff]. }
        unfold find_lower_convex in HLo. apply where_In in HLo. destruct HLo as [a [Ha Hq]]. rewrite nth_error_enum in Ha. rewrite Hn2, Hd in Ha. cbn in Ha. injection Ha as <-. exact Hq.
  Qed.
  (** So kept models are inputs and none of them dominates another. *)
  Theorem C37_kept thirty hull scale use_force use_log (d_array : list (mlp F)) simplices out :
    hull (map (target scale use_force use_log) d_array) = Ok simplices -> concat simplices <> [] -> (forall i, on_hull simplices i -> i < length d_array) ->
    find_convex_mlps thirty hull scale use_force use_log d_array = Ok out ->
    (forall d, In d out -> In d d_array) /\ (forall d d', In d out -> In d' out -> ~ dominates d' d).
  Proof.
    intros H1 H2 H3 H4. destruct (C37_selected thirty hull scale use_force use_log d_array simplices H1 H2 H3) as [ids [out' [E [_ [EM HI]]]]]. rewrite H4 in E. injection E as <-.
    assert (HX : forall d, In d out -> exists i, In i ids /\ nth_error d_array i = Some d).
    { intros d Hd. apply (in_map Some) in Hd. rewrite EM in Hd. apply in_map_iff in Hd. destruct Hd as [i [Hi Hin]]. eauto. }
    split.
    - intros d Hd. destruct (HX d Hd) as [i [_ Hi]]. eapply nth_error_In; eassumption.
    - intros d d' Hd Hd' HD. destruct (HX d Hd) as [i [Hin Hi]]. destruct (HX d' Hd') as [j [Hjn Hj]]. apply HI in Hin. destruct Hin as [d0 [E0 [_ [_ HN]]]]. assert (d0 = d) by congruence. subst d0.
      apply HI in Hjn. destruct Hjn as [d1 [_ [Hh _]]]. apply HN. exists j, d'. auto.
  Qed.
  (** The table of all models: the directories with both files, cheapest first. *)
  Theorem C37_table (dirs : list (dirinfo F)) : let rows := concat (map (fun d => match i_errors d, i_costs d with Some (e, f), Some (t1, tm, _) => [mk_mlp t1 tm e f (i_name d)] | _, _ => [] end) dirs) in
    (rows <> [] -> exists tab sys, parse_errors_costs dirs = Ok (tab, sys) /\ Permutation tab rows /\ StronglySorted (fun a b => nltb (g_time b) (g_time a) = false) tab) /\
    (rows = [] -> parse_errors_costs dirs = Err UnboundLocalError).
  Proof.
    intros rows.
    assert (G : forall s, fold_left parse_dir dirs s = (fst s ++ rows, snd (fold_left parse_dir dirs s)) /\ (snd (fold_left parse_dir dirs s) = None <-> snd s = None /\ rows = [])).
    { unfold rows. clear rows. induction dirs as [|d ds IH]; intros [l o]; cbn [fold_left map concat app fst snd].
      - rewrite app_nil_r. split; [reflexivity|intuition].
      - unfold parse_dir at 2 4 6. destruct (i_errors d) as [[e f]|]; [|apply (IH (l, o))]. destruct (i_costs d) as [[[t1 tm] sys]|]; [|apply (IH (l, o))].
        destruct (IH (l ++ [mk_mlp t1 tm e f (i_name d)], Some sys)) as [E1 E2]. cbn [fst snd] in *. split; [rewrite E1 at 1; cbn [app]; now rewrite <- app_assoc|]. rewrite E2. split; [intros [H _]; discriminate|intros [_ H]; discriminate]. }
    destruct (G ([], None)) as [E1 E2]. cbn [fst snd app] in *. unfold parse_errors_costs. rewrite E1. destruct (snd (fold_left parse_dir dirs ([], None))) as [sys|].
    - split; [|intros H; destruct E2 as [_ E2]; specialize (E2 (conj eq_refl H)); discriminate]. intros _. exists (tsort rows), sys. split; [reflexivity|]. split; [apply tsort_perm|apply tsort_sorted].
    - destruct E2 as [E2 _]. destruct (E2 eq_refl) as [_ H]. split; [intros HN; congruence|reflexivity].
  Qed.
End C37.
Print Assumptions C37_selected.
Print Assumptions C37_kept.
Print Assumptions C37_table.

(** The statement for all inputs is false: a model inside the hull may be cheaper and more accurate than a kept vertex. *)
From Coq Require Import Reals Lra.
From Verif Require Import NumR.
Local Open Scope R_scope.
(** x is a weighted mean of the points numbered ids. *)
Definition weighted_mean (pts : list (R * R)) (ids : list nat) (x : R * R) : Prop := exists w : nat -> R, (forall i, In i ids -> 0 <= w i) /\
  nsumf w ids = 1 /\ nsumf (fun i => w i * fst (nth i pts (0, 0))) ids = fst x /\ nsumf (fun i => w i * snd (nth i pts (0, 0))) ids = snd x.
(** ids are the vertices of the convex hull of pts. *)
Definition hull_vertices (pts : list (R * R)) (ids : list nat) : Prop :=
  (forall x, In x pts -> weighted_mean pts ids x) /\
  (forall i, In i ids -> exists x, nth_error pts i = Some x /\ ~ weighted_mean pts (filter (fun j => negb (j =? i)) (seq 0 (length pts))) x).
Definition four : list (mlp R) := map (fun te => mk_mlp (fst te) (fst te) (snd te) (snd te) String.EmptyString) [(0, 15); (8, 8); (10, 10); (15, 0)].
Lemma four_hull : hull_vertices (map (target (fun t => t) false false) four) [0; 2; 3]%nat.
Proof.
  split.
  - intros x Hx. cbn in Hx. destruct Hx as [<-|[<-|[<-|[<-|[]]]]].
    + exists (fun i => match i with O => 1 | _ => 0 end). cbn. repeat split; try lra. intros i [<-|[<-|[<-|[]]]]; lra.
    + exists (fun i => match i with O => 2 / 5 | 2%nat => 1 / 5 | _ => 2 / 5 end). cbn. repeat split; try lra. intros i [<-|[<-|[<-|[]]]]; lra.
    + exists (fun i => match i with 2%nat => 1 | _ => 0 end). cbn. repeat split; try lra. intros i [<-|[<-|[<-|[]]]]; lra.
    + exists (fun i => match i with 3%nat => 1 | _ => 0 end). cbn. repeat split; try lra. intros i [<-|[<-|[<-|[]]]]; lra.
  - intros i [<-|[<-|[<-|[]]]]; eexists; (split; [reflexivity|]); intros [w [Hw [H1 [H2 H3]]]]; cbn in H1, H2, H3;
      pose proof (fun j => Hw j) as HW; cbn in HW.
    + pose proof (HW 1%nat ltac:(auto)). pose proof (HW 2%nat ltac:(auto)). pose proof (HW 3%nat ltac:(auto)). lra.
    + pose proof (HW 0%nat ltac:(auto)). pose proof (HW 1%nat ltac:(auto)). pose proof (HW 3%nat ltac:(auto)). lra.
    + pose proof (HW 0%nat ltac:(auto)). pose proof (HW 1%nat ltac:(auto)). pose proof (HW 2%nat ltac:(auto)). lra.
Qed.
Definition four_simplices : list (list nat) := [[0; 2]; [2; 3]; [3; 0]]%nat.
Theorem C37_dominated_refuted : hull_vertices (map (target (fun t => t) false false) four) (nunique (concat four_simplices)) /\
  exists out kept other, find_convex_mlps 30 (fun _ => Ok four_simplices) (fun t => t) false false four = Ok out /\ In kept out /\ In other four /\ dominates other kept.
Proof.
  split; [exact four_hull|].
  destruct (C37_selected 30 (fun _ => Ok four_simplices) (fun t => t) false false four four_simplices eq_refl) as [ids [out [E [_ [EM HI]]]]]; [discriminate| |].
  - intros i [s [Hs Hi]]. cbn in Hs. destruct Hs as [<-|[<-|[<-|[]]]]; cbn in Hi; destruct Hi as [<-|[<-|[]]]; cbn; lia.
  - pose (kept := mk_mlp 10 10 10 10 String.EmptyString). exists out, kept, (mk_mlp 8 8 8 8 String.EmptyString). split; [exact E|].
    assert (H2 : In 2%nat ids).
    { apply HI. exists kept. split; [reflexivity|]. split; [exists [0; 2]%nat; split; [now left|right; now left]|]. split; [apply Rltb_true; cbn; lra|].
      intros [j [d' [[s [Hs Hj]] [Hd [D1 [D2 D3]]]]]]. apply Rltb_true in D1, D2, D3.
      assert (HJ : j = 0%nat \/ j = 2%nat \/ j = 3%nat) by (cbn in Hs; destruct Hs as [<-|[<-|[<-|[]]]]; cbn in Hj; lia).
      destruct HJ as [-> | [-> | -> ]]; cbn in Hd; injection Hd as <-; cbn in *; lra. }
    split.
    + apply (in_map (nth_error four)) in H2. rewrite <- EM in H2. cbn in H2. apply in_map_iff in H2. destruct H2 as [x [Hx Hin]]. injection Hx as ->. exact Hin.
    + split; [right; now left|]. repeat split; apply Rltb_true; cbn; lra.
Qed.
Print Assumptions C37_dominated_refuted.
(** The same array meets the hypotheses of C37_selected; row 0 is kept, row 1 is not a vertex. *)
Example C37_example : exists ids out, find_convex_mlps 30 (fun _ => Ok four_simplices) (fun t => t) false false four = Ok out /\ map Some out = map (nth_error four) ids /\ ~ In 1%nat ids.
Proof.
  destruct (C37_selected 30 (fun _ => Ok four_simplices) (fun t => t) false false four four_simplices eq_refl) as [ids [out [E [_ [EM HI]]]]]; [discriminate| |].
  - intros i [s [Hs Hi]]. cbn in Hs. destruct Hs as [<-|[<-|[<-|[]]]]; cbn in Hi; destruct Hi as [<-|[<-|[]]]; cbn; lia.
  - exists ids, out. split; [exact E|]. split; [exact EM|]. intros H. apply HI in H. destruct H as [d [_ [[s [Hs Hj]] _]]]. cbn in Hs. destruct Hs as [<-|[<-|[<-|[]]]]; cbn in Hj; lia.
Qed.
