(** Values and derivatives of features computed from the tables of one type. *)
From Verif Require Import Base Num Complex Spec.Poly Model.Cxx Model.Mapping Model.ModelParams Model.Features Model.Compute
  Proofs.Cxx Proofs.Sums.
From Coq Require Import Ring.

Lemma combine_seq_In {A} (l : list A) b k x d : In (k, x) (combine (seq b (length l)) l) -> b <= k < b + length l /\ nth (k - b) l d = x.
Proof.
  revert b. induction l as [|y l IH]; intros b H; cbn in H; [contradiction|]. destruct H as [E|H].
  - injection E as <- <-. cbn. split; [lia|]. now rewrite Nat.sub_diag.
  - destruct (IH (S b) H) as [H1 H2]. cbn [length]. split; [lia|]. now replace (k - b) with (S (k - S b)) by lia.
Qed.

Lemma nth_mapd {A B} (f : A -> B) l i d d' : i < length l -> nth i (map f l) d' = f (nth i l d).
Proof. revert i. induction l as [|x l IH]; intros [|i] H; cbn in *; try lia; [reflexivity|]. apply IH. lia. Qed.

Section Vals.
  Context {F : Type} {N : Num F} {NO : NumOrd F} {L : RingLaws F}.
  Local Open Scope num_scope.
  Add Ring Fring : (ring_laws (F:=F)).

  Lemma add0l (x : F) : 0 + x = x.
  Proof. ring. Qed.
  Lemma compute_product_real_spec p (el : nat -> Cx F) : compute_product_real p el = re (nprod (map el p)).
  Proof.
    destruct p as [|a [|b [|c [|d [|e p]]]]]; try (cbn; unfold prod_real, cmul, re, im; cbn; ring).
    - unfold compute_product_real. rewrite (fold_prod (T:=Cx F)). unfold prod_real.
      set (r := nprod (map el (c :: d :: e :: p))).
      transitivity (re (nmul (nmul (el b) r) (el a))); [reflexivity|].
      f_equal. cbn [map nprod fold_right].
      subst r. cbn [map nprod fold_right].
      generalize (el a) (el b) (el c) (el d) (el e) (fold_right nmul n1 (map el p)).
      intros [? ?] [? ?] [? ?] [? ?] [? ?] [? ?]. cbn [fold_left]. apply cx_eq; cbn; ring.
  Qed.

  (** Reading a product by its key. *)
  Lemma keyed {T} {NT : Num T} (LT : RingLaws T) (s : list (list nat)) k (el : nat -> T) d : NoDup s -> In k s ->
    nth (um_get k (set_map s)) (map (fun p => compute_product p el) s) d = nprod (map el k).
  Proof.
    intros Hd Hk. destruct (set_map_get s k [] Hd Hk) as [H1 H2].
    rewrite (nth_mapd _ _ _ []) by exact H1. rewrite H2. apply compute_product_spec.
  Qed.

  (** Entries of the map of one feature. *)
  Lemma feature_map_sum pm sf (g : nat -> F) :
    nsumf (fun kv => snd kv * g (hd 0%nat (fst kv))) (feature_map pm sf) = nsumf (fun st => fst st * g (um_get (snd st) pm)) sf.
  Proof.
    unfold feature_map. rewrite (fold_plus_at (fun k => g (hd 0%nat k)) (fun st : sterm F => [um_get (snd st) pm]) fst).
    rewrite nsumf_nil. apply add0l.
  Qed.

  Lemma nonequiv_In features sf st : In sf features -> In st sf -> In (snd st) (nonequiv_ids (F:=F) features).
  Proof.
    intros H1 H2. unfold nonequiv_ids. apply lexn_In. apply in_flat_map. exists sf. split; [exact H1|]. now apply in_map.
  Qed.

  (** Algorithm 2. *)
  Lemma algo2_value reps a i : i < length reps ->
    let prod := nonequiv_ids reps in
    nth i (map (fun mf => fold_left (fun s ci => s + fst ci * nth (snd ci) (map (fun p => compute_product_real p a) prod) 0) mf 0)
                (mapped_algo2 reps (set_map prod))) 0
    = fval (nth i reps []) a.
  Proof.
    intros Hi prod. unfold mapped_algo2. rewrite map_map.
    rewrite (nth_mapd _ _ _ ([] : sfeature F)) by exact Hi.
    rewrite fold_sum, nsumf_map. cbn [fst snd].
    rewrite (feature_map_sum _ _ (fun k => nth k (map (fun p => compute_product_real p a) prod) 0)).
    unfold fval, pval. rewrite re_sum. transitivity (nsumf (fun st : sterm F => fst st * nth (um_get (snd st) (set_map prod)) (map (fun p => compute_product_real p a) prod) 0) (nth i reps [])); [apply add0l|].
    apply nsumf_ext. intros st Hst. rewrite re_scale. f_equal.
    assert (Hk : In (snd st) prod) by (eapply nonequiv_In; [apply nth_In; exact Hi|exact Hst]).
    destruct (set_map_get prod (snd st) [] (lexn_nodup _) Hk) as [H1 H2].
    rewrite (nth_mapd _ _ _ []) by exact H1. rewrite H2. apply compute_product_real_spec.
  Qed.

  (** Algorithm 1. *)
  Lemma fold_flat {A B C} (f : A -> C -> A) (g : B -> list C) l a :
    fold_left (fun a x => fold_left f (g x) a) l a = fold_left f (flat_map g l) a.
  Proof. revert a. induction l as [|x l IH]; intros a; cbn [fold_left flat_map]; [reflexivity|]. now rewrite fold_left_app, IH. Qed.
  Lemma fold_left_ext {A B} (f g : A -> B -> A) l a : (forall a b, In b l -> f a b = g a b) -> fold_left f l a = fold_left g l a.
  Proof. revert a. induction l as [|x l IH]; intros a H; cbn; [reflexivity|]. rewrite H by now left. apply IH. intros; apply H; now right. Qed.
  Lemma fold_left_map {A B C} (f : A -> C -> A) (g : B -> C) l a : fold_left f (map g l) a = fold_left (fun a x => f a (g x)) l a.
  Proof. revert a. induction l as [|x l IH]; intros a; cbn; [reflexivity|]. apply IH. Qed.

  Definition algo1_updates (reps : list (sfeature F)) (pm : umap nat) : list (nat * (F * nat)) :=
    flat_map (fun fs : nat * sfeature F => map (fun kv => (hd 0%nat (fst kv), (snd kv, fst fs))) (feature_map pm (snd fs)))
      (combine (seq 0 (length reps)) reps).
  Lemma mapped_algo1_group reps pm n : mapped_algo1 reps pm n = group n fst snd (algo1_updates reps pm).
  Proof.
    unfold mapped_algo1, group, algo1_updates. rewrite <- fold_flat. apply fold_left_ext. intros v fs _.
    rewrite fold_left_map. reflexivity.
  Qed.
  Lemma add_fold_nth {A} (key : A -> nat) (val : A -> F) l v i :
    i < length v -> nth i (fold_left (fun v x => add_at (key x) (val x) v) l v) 0 = nth i v 0 + nsumf (fun x => if key x =? i then val x else 0) l.
  Proof.
    revert v. induction l as [|x l IH]; intros v Hi; cbn [fold_left]; rewrite ?nsumf_nil, ?nsumf_cons; [ring|].
    rewrite IH by (unfold add_at; now rewrite upd_length). unfold add_at. destruct (Nat.eqb_spec (key x) i) as [E|E].
    - subst i. rewrite upd_nth_eq by exact Hi. ring.
    - rewrite upd_nth_neq by congruence. ring.
  Qed.
  Lemma add_fold_length {A} (key : A -> nat) (val : A -> F) l v : length (fold_left (fun v x => add_at (key x) (val x) v) l v) = length v.
  Proof. revert v. induction l as [|x l IH]; intros v; cbn [fold_left]; [reflexivity|]. rewrite IH. unfold add_at. apply upd_length. Qed.

  Lemma feature_map_keys pm sf kv : In kv (feature_map (F:=F) pm sf) -> exists st, In st sf /\ fst kv = [um_get (snd st) pm].
  Proof.
    unfold feature_map. intros H. apply (in_map fst) in H.
    assert (G : forall m, In (fst kv) (map fst (fold_left (fun m (st : sterm F) => plus_at [um_get (snd st) pm] (fst st) m) sf m)) ->
      In (fst kv) (map fst m) \/ exists st, In st sf /\ fst kv = [um_get (snd st) pm]).
    { clear. induction sf as [|st sf IH]; intros m H; cbn [fold_left] in H; [now left|].
      destruct (IH _ H) as [H1|[s [H1 H2]]]; [|right; exists s; split; [now right|exact H2]].
      unfold plus_at in H1. apply um_alter_keys_in in H1. destruct H1 as [H1|H1]; [right; exists st; split; [now left|exact H1]|now left]. }
    destruct (G [] H) as [[]|H']; exact H'.
  Qed.

  Lemma algo1_value tol reps a n i : i < length reps ->
    (forall x, nltb tol (nabs x) = false -> x = 0) ->
    let prod := nonequiv_ids reps in
    length reps = n ->
    nth i (fold_left (fun v pm =>
          let val := compute_product_real (fst pm) a in
          if nltb tol (nabs val) then fold_left (fun v (mf : F * nat) => add_at (snd mf) (fst mf * val) v) (snd pm) v else v)
        (combine prod (mapped_algo1 reps (set_map prod) (length prod))) (repeat 0 n)) 0
    = fval (nth i reps []) a.
  Proof.
    intros Hi Htol prod Hn.
    set (W := combine prod _).
    transitivity (nth i (fold_left (fun v x => add_at (snd (snd x)) (fst (snd x) * compute_product_real (fst x) a) v)
       (flat_map (fun pm : list nat * list (F * nat) => map (fun mf => (fst pm, mf)) (if nltb tol (nabs (compute_product_real (fst pm) a)) then snd pm else [])) W) (repeat 0 n)) 0).
    { rewrite <- fold_flat. f_equal. apply fold_left_ext. intros v pm _. cbv zeta. rewrite fold_left_map. cbn [fst snd].
      destruct (nltb tol _); reflexivity. }
    rewrite add_fold_nth by (rewrite repeat_length; lia).
    assert (E0 : nth i (repeat 0 n) 0 = 0 :> F) by (clear; revert i; induction n; intros [|i]; cbn; auto).
    rewrite E0, nsumf_flat_map.
    rewrite (nsumf_ext' _ (fun pm => nsumf (fun mf : F * nat => if snd mf =? i then fst mf * compute_product_real (fst pm) a else 0) (snd pm))).
    2:{ intros pm. rewrite nsumf_map. cbn [fst snd]. destruct (nltb tol _) eqn:E; [reflexivity|].
        apply Htol in E. rewrite E, nsumf_nil. symmetry. rewrite (nsumf_ext' _ (fun _ => 0)); [apply nsumf_zero|].
        intros mf. destruct (_ =? i); ring. }
    subst W. rewrite mapped_algo1_group.
    set (U := algo1_updates reps (set_map prod)).
    assert (EW : combine prod (group (length prod) fst snd U) =
      map (fun k => (nth k prod [], map snd (filter (fun x : nat * (F * nat) => fst x =? k) U))) (seq 0 (length prod))).
    { apply nth_ext with (d := ([], [])) (d' := ([], [])).
      - rewrite combine_length, group_length, map_length, seq_length. lia.
      - intros k Hk. rewrite combine_length, group_length in Hk.
        rewrite combine_nth by (now rewrite group_length).
        rewrite (nth_mapd _ _ _ 0%nat) by (rewrite seq_length; lia). rewrite seq_nth by lia. cbn [Nat.add]. rewrite group_nth by lia. reflexivity. }
    rewrite EW, nsumf_map. cbn [fst snd].
    rewrite (nsumf_ext' _ (fun k => nsumf (fun x : nat * (F * nat) => if fst x =? k then (if snd (snd x) =? i then fst (snd x) * compute_product_real (nth k prod []) a else 0) else 0) U)).
    2:{ intros k. rewrite nsumf_map, nsumf_filter. reflexivity. }
    rewrite nsumf_swap.
    rewrite (nsumf_ext _ (fun x : nat * (F * nat) => if snd (snd x) =? i then fst (snd x) * compute_product_real (nth (fst x) prod []) a else 0)).
    2:{ intros x Hx. apply (nsumf_delta (length prod) (fun k => if snd (snd x) =? i then fst (snd x) * compute_product_real (nth k prod []) a else 0)).
        subst U. unfold algo1_updates in Hx. apply in_flat_map in Hx. destruct Hx as [[k sf] [H1 H2]]. apply in_map_iff in H2.
        destruct H2 as [kv [<- H2]]. cbn [fst]. destruct (feature_map_keys _ _ _ H2) as [st [H3 H4]]. rewrite H4. cbn [hd fst snd] in *.
        apply (set_map_get prod (snd st) []); [apply lexn_nodup|]. eapply nonequiv_In; [eapply in_combine_r; exact H1|exact H3]. }
    subst U. unfold algo1_updates. rewrite nsumf_flat_map.
    rewrite (nsumf_ext' _ (fun fs : nat * sfeature F => if fst fs =? i then nsumf (fun st : sterm F => fst st * compute_product_real (nth (um_get (snd st) (set_map prod)) prod []) a) (snd fs) else 0)).
    2:{ intros fs. rewrite nsumf_map. cbn [fst snd]. destruct (fst fs =? i).
        - apply (feature_map_sum _ _ (fun k => compute_product_real (nth k prod []) a)).
        - apply nsumf_zero. }
    rewrite (nsumf_combine_seq (fun k sf => if k =? i then nsumf (fun st : sterm F => fst st * compute_product_real (nth (um_get (snd st) (set_map prod)) prod []) a) sf else 0) reps []).
    rewrite (nsumf_ext' _ (fun k => if i =? k then nsumf (fun st : sterm F => fst st * compute_product_real (nth (um_get (snd st) (set_map prod)) prod []) a) (nth k reps []) else 0)).
    2:{ intros k. now rewrite Nat.eqb_sym. }
    rewrite nsumf_delta by exact Hi.
    unfold fval, pval. rewrite re_sum.
    rewrite (nsumf_ext _ (fun st : sterm F => re (nmul (of_real (fst st)) (nprod (map a (snd st)))))); [apply add0l|].
    intros st Hst. rewrite re_scale. f_equal.
    assert (Hk : In (snd st) prod) by (eapply nonequiv_In; [apply nth_In; exact Hi|exact Hst]).
    destruct (set_map_get prod (snd st) [] (lexn_nodup _) Hk) as [_ H2].
    rewrite H2. apply compute_product_real_spec.
  Qed.

  (** The value of a linear feature of a gtinv model. *)
  Theorem gtinv_feature_value tol gt sd elim fs reps poly a i :
    i < length reps -> length fs = length reps ->
    (gt = true) ->
    (threshold_prod < length (nonequiv_ids reps) -> forall x, nltb tol (nabs x) = false -> x = 0) ->
    nth i (compute_features_gtinv tol (build_ftype gt sd elim fs reps poly) a) 0 = fval (nth i reps []) a.
  Proof.
    intros Hi Hl -> Htol. unfold compute_features_gtinv, build_ftype. cbn [f_prod f_mapped f_features andb].
    destruct (threshold_prod <? length (nonequiv_ids reps)) eqn:E.
    - apply algo1_value; [exact Hi|apply Htol; now apply Nat.ltb_lt|now symmetry].
    - now apply algo2_value.
  Qed.

  (** Derivatives. *)
  Lemma deriv_map_sum dm sf (g : nat -> nat -> F) :
    nsumf (fun kv => snd kv * g (nth 0 (fst kv) 0%nat) (nth 1 (fst kv) 0%nat)) (deriv_map dm sf) =
    nsumf (fun st : sterm F => nsumf (fun j => fst st * g (nth j (snd st) 0%nat) (um_get (erase_a_key (snd st) j) dm)) (seq 0 (length (snd st)))) sf.
  Proof.
    unfold deriv_map.
    transitivity (nsumf (fun kv => snd kv * g (nth 0 (fst kv) 0%nat) (nth 1 (fst kv) 0%nat))
      (fold_left (fun m (x : sterm F * nat) => plus_at [nth (snd x) (snd (fst x)) 0%nat; um_get (erase_a_key (snd (fst x)) (snd x)) dm] (fst (fst x)) m)
         (flat_map (fun st : sterm F => map (fun j => (st, j)) (seq 0 (length (snd st)))) sf) [])).
    { rewrite <- fold_flat. f_equal. apply fold_left_ext. intros m st _. now rewrite fold_left_map. }
    rewrite (fold_plus_at (fun k => g (nth 0 k 0%nat) (nth 1 k 0%nat))
      (fun x : sterm F * nat => [nth (snd x) (snd (fst x)) 0%nat; um_get (erase_a_key (snd (fst x)) (snd x)) dm]) (fun x => fst (fst x))).
    rewrite nsumf_nil, nsumf_flat_map. cbn [nth].
    rewrite (nsumf_ext' _ (fun st : sterm F => nsumf (fun j => fst st * g (nth j (snd st) 0%nat) (um_get (erase_a_key (snd st) j) dm)) (seq 0 (length (snd st))))); [apply add0l|].
    intros st. rewrite nsumf_map. reflexivity.
  Qed.
  Lemma deriv_In elim features sf st j : In sf features -> In st sf -> j < length (snd st) -> elim (nth j (snd st) 0%nat) = false ->
    In (erase_a_key (snd st) j) (nonequiv_deriv_ids (F:=F) elim features).
  Proof.
    intros H1 H2 Hj He. unfold nonequiv_deriv_ids. apply lexn_In. apply in_flat_map. exists sf. split; [exact H1|].
    apply in_flat_map. exists st. split; [exact H2|]. apply in_map. apply filter_In. split; [apply in_seq; lia|]. now rewrite He.
  Qed.

  Lemma fder_expand sf (a d : nat -> Cx F) : fder sf a d =
    nsumf (fun st : F * list nat => nsumf (fun j => fst st * prod_real (nprod (map a (erase j (snd st)))) (d (nth j (snd st) 0%nat))) (seq 0 (length (snd st)))) sf.
  Proof.
    unfold fder, pval. rewrite dder_sum, re_sum. apply nsumf_ext'. intros st. cbn [nmul dual_num dder dval].
    rewrite dder_prod. cbn [dval dder]. rewrite dval_prod.
    transitivity (fst st * re (nsumf (fun j => nmul (nprod (map a (erase j (snd st)))) (d (nth j (snd st) 0%nat))) (seq 0 (length (snd st))))).
    { cbn. ring. }
    rewrite re_sum, <- nsumf_scale_l. reflexivity.
  Qed.

  Theorem gtinv_feature_deriv gt fs reps poly a d i : i < length fs ->
    nth i (compute_features_deriv (build_ftype gt true (fun _ => false) fs reps poly) a d) 0 = fder (nth i fs []) a d.
  Proof.
    intros Hi. unfold compute_features_deriv, build_ftype. cbn [f_mapped_d f_dprod].
    unfold mapped_deriv. rewrite map_map. set (dp := nonequiv_deriv_ids _ fs).
    rewrite (nth_mapd _ _ _ ([] : sfeature F)) by exact Hi.
    rewrite fold_sum. rewrite (nsumf_perm _ _ _ (sort_by_perm deriv_leb _)), nsumf_map. cbn [dt_coeff dt_prod dt_head].
    rewrite (nsumf_ext' _ (fun kv : list nat * F => snd kv * prod_real (nth (nth 1 (fst kv) 0%nat) (compute_products dp a) (0, 0)) (d (nth 0 (fst kv) 0%nat)))).
    2:{ intros kv. unfold prod_real, cscale. cbn [re im fst snd]. ring. }
    rewrite (deriv_map_sum _ _ (fun h p => prod_real (nth p (compute_products dp a) (0, 0)) (d h))).
    rewrite fder_expand.
    match goal with |- _ + ?X = ?Y => assert (E : X = Y); [|rewrite E; apply add0l] end.
    apply nsumf_ext. intros st Hst. apply nsumf_ext. intros j Hj. apply in_seq in Hj.
    f_equal. f_equal. unfold compute_products.
    rewrite (keyed _ dp); [apply nprod_erase_key|apply lexn_nodup|].
    eapply deriv_In; [apply nth_In; exact Hi|exact Hst|lia|reflexivity].
  Qed.

  (** Polynomial terms of order 1, 2, 3. *)
  Lemma order_e_spec (v : nat -> F) ids : 1 <= length ids <= 3 -> order_e v ids = mval v ids.
  Proof. destruct ids as [|a [|b [|c [|d ids]]]]; cbn [length]; intros H; try lia; unfold mval; cbn; ring. Qed.
  Lemma order_d_spec (v d : nat -> F) ids : 1 <= length ids <= 3 -> order_d v d ids = mder v d ids.
  Proof. destruct ids as [|a [|b [|c [|e ids]]]]; cbn [length]; intros H; try lia; unfold mder; cbn; ring. Qed.

  (** The polynomial terms have 1 to 3 factors. *)
  Lemma set_polynomial_sizes nl mp t x : In x (set_polynomial nl mp t) -> 1 <= length (pt_ids x) <= 3.
  Proof.
    unfold set_polynomial. rewrite !in_app_iff, !in_map_iff.
    intros [[? [<- _]]|[[? [<- _]]|[? [<- _]]]]; cbn; lia.
  Qed.
End Vals.
