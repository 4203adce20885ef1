From Verif Require Import Base Num NumR Model.Structure Model.Readers Model.Equilibrium Spec.Equilibrium Proofs.Readers.
From Coq Require Import Reals Lra Psatz.
From Coquelicot Require Import Coquelicot.
Local Open Scope R_scope.

(** ** The largest volume *)
Lemma fold_max l : forall x, is_max (x :: l) (fold_left (fun m y => if nltb (F:=R) m y then y else m) l x).
Proof.
  induction l as [|y l IH]; intros x; cbn [fold_left].
  - split; [now left|]. intros z [<-|[]]. lra.
  - destruct (IH (if nltb x y then y else x)) as [H1 H2]. cbn [nltb R_ord] in *. destruct (Rltb x y) eqn:E.
    + apply Rltb_true in E. split; [destruct H1 as [<-|H1]; [right; now left|right; now right]|].
      intros z [<-|[<-|Hz]]; [|apply H2; now left|apply H2; now right]. specialize (H2 y (or_introl eq_refl)). lra.
    + apply Rltb_false in E. split; [destruct H1 as [<-|H1]; [now left|right; now right]|].
      intros z [<-|[<-|Hz]]; [apply H2; now left| |apply H2; now right]. specialize (H2 x (or_introl eq_refl)). lra.
Qed.
Lemma is_max_unique l a b : is_max l a -> is_max l b -> a = b.
Proof. intros [A1 A2] [B1 B2]. specialize (A2 b B1). specialize (B2 a A1). lra. Qed.
Lemma py_max_Ok (l : list R) m : py_max l = Ok m <-> is_max l m.
Proof.
  destruct l as [|x l]; cbn [py_max].
  - split; [discriminate|]. intros [[] _].
  - split; [intros H|intros H]; [assert (E : fold_left (fun m0 y => if nltb (F:=R) m0 y then y else m0) l x = m) by congruence; rewrite <- E; apply fold_max|].
    f_equal. eapply is_max_unique; [apply fold_max|exact H].
Qed.

Lemma item_Ok {X} (l : list X) i x : item l i = Ok x <-> nth_error l i = Some x.
Proof. apply some_Ok. Qed.
Lemma mapM_seq {X} (f : nat -> res X) a n ys : mapM f (seq a n) = Ok ys <->
  length ys = n /\ forall i, (i < n)%nat -> exists y, nth_error ys i = Some y /\ f (a + i)%nat = Ok y.
Proof.
  rewrite mapM_Ok_iff. revert a ys. induction n as [|n IH]; intros a ys; cbn [seq].
  - split; [intros H; inversion H; split; [reflexivity|intros i Hi; lia]|intros [H _]; destruct ys; [constructor|discriminate]].
  - split.
    + intros H. inversion H as [|? y ? ys' H1 H2]. subst. apply IH in H2. destruct H2 as [H2 H3]. split; [cbn; now rewrite H2|].
      intros [|i] Hi; [exists y; split; [reflexivity|now rewrite Nat.add_0_r]|].
      destruct (H3 i ltac:(lia)) as [y' [H4 H5]]. exists y'. split; [exact H4|]. rewrite <- H5. f_equal. lia.
    + intros [H1 H2]. destruct ys as [|y ys]; [discriminate|]. destruct (H2 0%nat ltac:(lia)) as [y' [H3 H4]]. cbn in H3.
      assert (y = y') by congruence. subst y'. constructor; [now rewrite Nat.add_0_r in H4|]. apply IH. split; [cbn in H1; lia|].
      intros i Hi. destruct (H2 (S i) ltac:(lia)) as [y' [H5 H6]]. exists y'. split; [exact H5|]. rewrite <- H6. f_equal. lia.
Qed.

(** ** Mean values *)
Lemma central f f' a b x h : 0 < h -> a <= x - h -> x + h <= b -> has_derivative f f' a b ->
  exists c, x - h < c < x + h /\ (f (x + h) - f (x - h)) / (2 * h) = f' c.
Proof.
  intros H1 H2 H3 H4. destruct (MVT_cor2 f f' (x - h) (x + h)) as [c [E1 E2]]; [lra| |].
  - intros c Hc. apply is_derive_Reals. apply H4. lra.
  - exists c. split; [exact E2|]. rewrite E1. field. lra.
Qed.
Lemma slope f f' a b x y : a <= x -> x < y -> y <= b -> has_derivative f f' a b -> exists c, x < c < y /\ (f y - f x) / (y - x) = f' c.
Proof.
  intros H1 H2 H3 H4. destruct (MVT_cor2 f f' x y) as [c [E1 E2]]; [lra| |].
  - intros c Hc. apply is_derive_Reals. apply H4. lra.
  - exists c. split; [exact E2|]. rewrite E1. field. lra.
Qed.
Lemma increment f f' a b x y : a <= x <= b -> a <= y <= b -> has_derivative f f' a b ->
  exists c, Rmin x y <= c <= Rmax x y /\ f y - f x = f' c * (y - x).
Proof.
  intros Hx Hy H. destruct (MVT_gen f x y f') as [c [E1 E2]].
  - intros c Hc. apply H. unfold Rmin, Rmax in Hc. destruct (Rle_dec x y); lra.
  - intros c Hc. apply continuity_pt_filterlim. apply (ex_derive_continuous (V:=R_NormedModule)). exists (f' c). apply H. unfold Rmin, Rmax in Hc. destruct (Rle_dec x y); lra.
  - exists c. now split.
Qed.
(** Convexity: the tangent is below. *)
Lemma tangent f f' a b M c v : has_derivative f f' a b -> stiff f' a b M -> a <= c <= b -> a <= v <= b ->
  0 <= f v - f c - f' c * (v - c) <= M * ((v - c) * (v - c)).
Proof.
  intros H1 H2 Hc Hv. destruct (increment f f' a b c v Hc Hv H1) as [d [Hd E]]. rewrite E.
  replace (f' d * (v - c) - f' c * (v - c)) with ((f' d - f' c) * (v - c)) by ring.
  unfold Rmin, Rmax in Hd. destruct (Rle_dec c v) as [L|L].
  - destruct (H2 c d ltac:(lra) ltac:(lra) ltac:(lra)) as [A1 A2].
    assert (A3 : 0 <= M * (v - c)). { destruct (H2 c v ltac:(lra) ltac:(lra) ltac:(lra)). lra. }
    split; [apply Rmult_le_pos; lra|]. destruct (Req_dec v c) as [->|NE]; [replace (c - c) with 0 by ring; lra|].
    assert (0 < v - c) by lra. assert (0 <= M). { apply Rnot_lt_le. intros N. assert (M * (v - c) < 0) by (apply Ropp_lt_cancel; rewrite Ropp_0, <- Ropp_mult_distr_l_reverse; apply Rmult_lt_0_compat; lra). lra. }
    replace (M * ((v - c) * (v - c))) with (M * (v - c) * (v - c)) by ring. apply Rmult_le_compat_r; [lra|].
    eapply Rle_trans; [exact A2|]. apply Rmult_le_compat_l; lra.
  - destruct (H2 d c ltac:(lra) ltac:(lra) ltac:(lra)) as [A1 A2].
    assert (A3 : 0 <= M * (c - v)). { destruct (H2 v c ltac:(lra) ltac:(lra) ltac:(lra)). lra. }
    replace ((f' d - f' c) * (v - c)) with ((f' c - f' d) * (c - v)) by ring.
    split; [apply Rmult_le_pos; lra|].
    assert (0 < c - v) by lra. assert (0 <= M). { apply Rnot_lt_le. intros N. assert (M * (c - v) < 0) by (apply Ropp_lt_cancel; rewrite Ropp_0, <- Ropp_mult_distr_l_reverse; apply Rmult_lt_0_compat; lra). lra. }
    replace (M * ((v - c) * (v - c))) with (M * (c - v) * (c - v)) by ring. apply Rmult_le_compat_r; [lra|].
    eapply Rle_trans; [exact A2|]. apply Rmult_le_compat_l; lra.
Qed.

(** ** The derivative of the entropy along equilibrium volumes *)
Lemma along s w t sv st w' : differentiable_pt_lim s (w t) t sv st -> is_derive w t w' -> is_derive (fun u => s (w u) u) t (sv * w' + st).
Proof.
  intros H1 H2. apply is_derive_Reals. replace (sv * w' + st) with (sv * w' + st * 1) by ring.
  apply (derivable_pt_lim_comp_2d s w (fun u => u) t sv st w' 1); [exact H1|now apply is_derive_Reals|apply derivable_pt_lim_id].
Qed.
Lemma along_equilibrium s pr w t sv st pv pt w' : state_functions s pr (w t) t sv st pv pt -> equilibrium pr w t -> is_derive w t w' -> pv <> 0 ->
  w' = sv / pv /\ is_derive (fun u => s (w u) u) t (st + sv * sv / pv).
Proof.
  intros [H1 H2 H3] H4 H5 H6. pose proof (along pr w t pv pt w' H2 H5) as D.
  assert (D0 : is_derive (fun u => pr (w u) u) t 0).
  { apply (is_derive_ext_loc (fun _ => 0)); [|apply (is_derive_const (V:=R_NormedModule))]. eapply filter_imp; [|exact H4]. intros u Hu. now rewrite Hu. }
  apply is_derive_unique in D. apply is_derive_unique in D0. rewrite D0 in D.
  assert (E : w' = sv / pv). { apply (Rmult_eq_reg_l pv); [|exact H6]. replace (pv * (sv / pv)) with sv by (field; exact H6). lra. }
  split; [exact E|]. replace (st + sv * sv / pv) with (sv * w' + st) by (rewrite E; field; exact H6). now apply along.
Qed.

(** ** Files *)
Lemma mapM_nth {X Y} (f : X -> res Y) l ys : mapM f l = Ok ys <->
  length ys = length l /\ forall i x, nth_error l i = Some x -> exists y, nth_error ys i = Some y /\ f x = Ok y.
Proof.
  rewrite mapM_Ok_iff. revert ys. induction l as [|a l IH]; intros ys.
  - split; [intros H; inversion H; split; [reflexivity|intros [|i] x Hx; discriminate]|intros [H _]; destruct ys; [constructor|discriminate]].
  - split.
    + intros H. inversion H as [|? y ? ys' H1 H2]. subst. apply IH in H2. destruct H2 as [H2 H3]. split; [cbn; now rewrite H2|].
      intros [|i] x Hx; [|now apply H3]. cbn in Hx. assert (a = x) by congruence. subst. exists y. now split.
    + intros [H1 H2]. destruct ys as [|y ys]; [discriminate|]. destruct (H2 0%nat a eq_refl) as [y' [H3 H4]]. cbn in H3. assert (y = y') by congruence. subst.
      constructor; [exact H4|]. apply IH. split; [cbn in H1; lia|]. intros i x Hx. now apply (H2 (S i)).
Qed.
Lemma enumerate_from {X} (l : list X) : forall a i, nth_error (combine (seq a (length l)) l) i = option_map (fun x => ((a + i)%nat, x)) (nth_error l i).
Proof.
  induction l as [|x l IH]; intros a [|i]; cbn; try reflexivity; [now rewrite Nat.add_0_r|]. rewrite IH. destruct (nth_error l i); cbn; [|reflexivity]. do 2 f_equal. lia.
Qed.
Lemma enumerate_nth {X} (l : list X) i : nth_error (enumerate l) i = option_map (fun x => (i, x)) (nth_error l i).
Proof. apply enumerate_from. Qed.
Lemma enumerate_length {X} (l : list X) : length (enumerate l) = length l.
Proof. unfold enumerate. rewrite combine_length, seq_length. lia. Qed.
Lemma combine_nth_error {X Y} (l : list X) (l' : list Y) : forall i x y, nth_error l i = Some x -> nth_error l' i = Some y -> nth_error (combine l l') i = Some (x, y).
Proof. revert l'. induction l as [|a l IH]; intros [|b l'] [|i] x y; cbn; try discriminate; [congruence|apply IH]. Qed.
Lemma map_fst_combine {X Y} (l : list X) (l' : list Y) : length l' = length l -> map fst (combine l l') = l.
Proof. revert l'. induction l as [|a l IH]; intros [|b l'] H; try discriminate; [reflexivity|]. cbn in *. f_equal. apply IH. lia. Qed.
Lemma map_snd_combine {X Y} (l : list X) (l' : list Y) : length l' = length l -> map snd (combine l l') = l'.
Proof. revert l'. induction l as [|a l IH]; intros [|b l'] H; try discriminate; [reflexivity|]. cbn in *. f_equal. apply IH. lia. Qed.
Lemma combine_map_self {X Y} (f : X -> Y) l : combine l (map f l) = map (fun v => (v, f v)) l.
Proof. induction l as [|x l IH]; [reflexivity|]. cbn. now rewrite IH. Qed.
Lemma combine_split_self {X Y} (l : list (X * Y)) : combine (map fst l) (map snd l) = l.
Proof. induction l as [|[x y] l IH]; [reflexivity|]. cbn. now rewrite IH. Qed.
(** Rows with their temperatures *)
Lemma labelled {X Y} (g : X -> Y) (temps : list R) (rows : list X) : length rows = length temps ->
  mapM (fun q : nat * R => do l <- item rows (fst q); Ok (snd q, g l)) (enumerate temps) = Ok (combine temps (map g rows)).
Proof.
  intros L. apply mapM_nth. split; [rewrite combine_length, map_length, enumerate_length; lia|]. intros i q Hq. rewrite enumerate_nth in Hq.
  destruct (nth_error temps i) as [t|] eqn:E; [|discriminate]. assert (Q : q = (i, t)) by (cbn in Hq; congruence). subst q.
  destruct (nth_error rows i) as [r|] eqn:E2; [|apply nth_error_None in E2; assert ((i < length temps)%nat) by (apply nth_error_Some; congruence); lia].
  exists (t, g r). split; [apply combine_nth_error; [exact E|now rewrite nth_error_map, E2]|]. cbn [fst snd]. unfold item. now rewrite E2.
Qed.
Lemma mapM_some {X Y} (g : X -> Y) ex (l : list X) : mapM (fun f => do f <- some ex f; Ok (g f)) (map Some l) = Ok (map g l).
Proof. induction l as [|x l IH]; [reflexivity|]. cbn [map mapM some bind]. now rewrite IH. Qed.
Lemma mapM_none {X Y} (g : X -> Y) ex (l : list (option X)) : In None l -> mapM (fun f => do f <- some ex f; Ok (g f)) l = Err ex.
Proof.
  induction l as [|[x|] l IH]; intros H; [destruct H| |reflexivity]. cbn [mapM some bind]. destruct H as [H|H]; [discriminate|]. now rewrite (IH H).
Qed.
