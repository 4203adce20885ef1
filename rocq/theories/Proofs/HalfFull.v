(** The half neighbour list, mirrored, is the full neighbour list. *)
From Verif Require Import Base Num NumR Model.Cxx Model.Neighbor Spec.Neighbor Proofs.NeighborList Proofs.Mirrored.
From Coq Require Import Reals Lra.

(** Rounding down in the real numbers. *)
Global Instance R_int : NumInt R := Int_part.

Lemma filter_map {A B} (f : A -> B) p l : filter p (map f l) = map f (filter (fun x => p (f x)) l).
Proof. induction l as [|x l IH]; [reflexivity|]. cbn. destruct (p (f x)); cbn; now rewrite IH. Qed.
Lemma filter_perm {A} (p : A -> bool) l l' : Permutation l l' -> Permutation (filter p l) (filter p l').
Proof.
  induction 1 as [|x l l' H IH|x y l|l l' l'' H1 IH1 H2 IH2]; cbn; [constructor| | |now transitivity (filter p l')].
  - destruct (p x); [now constructor|exact IH].
  - destruct (p x), (p y); try reflexivity. apply perm_swap.
Qed.
Lemma filter_split {A} (p q : A -> bool) l : (forall x, In x l -> p x = negb (q x)) -> Permutation l (filter p l ++ filter q l).
Proof.
  induction l as [|x l IH]; intros H; [constructor|]. cbn. rewrite (H x) by now left. destruct (q x); cbn.
  - apply Permutation_cons_app, IH. intros y Hy. apply H. now right.
  - constructor. apply IH. intros y Hy. apply H. now right.
Qed.
Lemma filter_filter {A} (p q : A -> bool) l : filter p (filter q l) = filter (fun x => q x && p x) l.
Proof. induction l as [|x l IH]; [reflexivity|]. cbn. destruct (q x); cbn; [destruct (p x); now rewrite IH|exact IH]. Qed.

Section Symmetric.
  Local Open Scope R_scope.
  Variable tol : R.
  Hypothesis Htol : 0 < tol.
  Variables (trans pos : list (v3 R)) (cutoff : R).
  Hypothesis Hneg : Permutation (map vneg trans) trans.
  Hypothesis Hbig : forall t, In t trans -> tol * tol < norm2 t -> tol <= Rabs (vx t) \/ tol <= Rabs (vy t) \/ tol <= Rabs (vz t).

  Lemma vneg_vneg (d : v3 R) : vneg (vneg d) = d.
  Proof. destruct d. unfold vneg. cbn. f_equal; ring. Qed.
  Lemma norm2_vneg (d : v3 R) : norm2 (vneg d) = norm2 d.
  Proof. unfold norm2, vdot, vneg. cbn. ring. Qed.
  Lemma in_range_vneg d : in_range tol cutoff (vneg d) = in_range tol cutoff d.
  Proof. unfold in_range. now rewrite norm2_vneg. Qed.
  Lemma pair_rows_sym i j : Permutation (pair_rows tol trans pos cutoff i j) (map (fun jd => (j, vneg (snd jd))) (pair_rows tol trans pos cutoff j i)).
  Proof.
    unfold pair_rows. rewrite map_map. cbn [snd]. set (d := vsub (nth j pos v0) (nth i pos v0)). set (d' := vsub (nth i pos v0) (nth j pos v0)).
    assert (E : forall t, vadd d (vneg t) = vneg (vadd d' t)). { intros t. unfold vadd, vneg, d, d', vsub. cbn. f_equal; ring. }
    rewrite <- (map_map vneg (pair j)). apply Permutation_map.
    rewrite (filter_perm _ _ (map (vadd d) (map vneg trans))) by (apply Permutation_map; now symmetry).
    rewrite map_map, (map_ext _ _ E), <- (map_map (vadd d') vneg), filter_map. rewrite (filter_ext _ (in_range tol cutoff)) by (intros; apply in_range_vneg). reflexivity.
  Qed.
  Lemma keep_xor t : In t trans -> in_range tol cutoff t = true -> keep tol t = negb (keep tol (vneg t)).
  Proof.
    intros Ht H. apply andb_true_iff in H. destruct H as [_ H]. apply Rltb_true in H. specialize (Hbig t Ht H).
    unfold keep, vneg. cbn [vx vy vz]. change (@nltb R R_ord) with Rltb. change (@nabs R R_ord) with Rabs. change (@nopp R R_num) with Ropp. rewrite !Rabs_Ropp.
    unfold Rltb. repeat (destruct (Rlt_dec _ _); cbn [negb andb]); try reflexivity; exfalso; unfold Rabs in *;
      repeat match goal with H : context [Rcase_abs ?x] |- _ => destruct (Rcase_abs x) end; lra.
  Qed.
  Lemma self_perm : Permutation (filter (in_range tol cutoff) trans)
    (filter (fun t => in_range tol cutoff t && keep tol t) trans ++ map vneg (filter (fun t => in_range tol cutoff t && keep tol t) trans)).
  Proof.
    rewrite (filter_split (keep tol) (fun t => keep tol (vneg t)) (filter (in_range tol cutoff) trans)).
    - rewrite !filter_filter. apply Permutation_app_head.
      rewrite (filter_perm _ _ (map vneg trans)) by now symmetry. rewrite filter_map. apply Permutation_map.
      rewrite (filter_ext _ (fun t => in_range tol cutoff t && keep tol t)); [reflexivity|]. intros t. now rewrite in_range_vneg, vneg_vneg.
    - intros t Ht. apply filter_In in Ht. now apply keep_xor.
  Qed.
  Lemma vadd_0 (t : v3 R) (p : v3 R) : vadd (vsub p p) t = t.
  Proof. destruct t. unfold vadd, vsub. cbn. f_equal; ring. Qed.
  Let n := length pos.
  Let rows := half_rows tol trans pos cutoff.
  Lemma half_row k : (k < n)%nat -> nth k rows [] = flat_map (pair_rows tol trans pos cutoff k) (seq 0 k)
    ++ map (pair k) (filter (fun t => in_range tol cutoff t && keep tol t) trans).
  Proof.
    intros Hk. unfold rows, half_rows. fold n. rewrite (nth_indep _ [] (flat_map (pair_rows tol trans pos cutoff 0) (seq 0 0) ++ map (pair 0%nat) (filter (fun t => in_range tol cutoff t && keep tol t) trans)))
      by (rewrite map_length, seq_length; exact Hk).
    rewrite (map_nth (fun i => flat_map (pair_rows tol trans pos cutoff i) (seq 0 i) ++ map (pair i) (filter (fun t => in_range tol cutoff t && keep tol t) trans))).
    now rewrite seq_nth.
  Qed.
  Lemma rows_len : length rows = n.
  Proof. unfold rows, half_rows. now rewrite map_length, seq_length. Qed.
  Lemma pair_rows_fst i j e : In e (pair_rows tol trans pos cutoff i j) -> fst e = j.
  Proof. unfold pair_rows. intros H. apply in_map_iff in H. now destruct H as [d [<- _]]. Qed.
  Lemma rows_half : half_list rows.
  Proof. clear Htol Hneg Hbig.
    intros i j d Hi Hj. rewrite rows_len in Hi |- *. rewrite half_row in Hj by exact Hi. apply in_app_or in Hj. destruct Hj as [Hj|Hj].
    - apply in_flat_map in Hj. destruct Hj as [k [Hk Hj]]. apply in_seq in Hk. apply pair_rows_fst in Hj. cbn in Hj. lia.
    - apply in_map_iff in Hj. destruct Hj as [t [E _]]. injection E as <- _. exact Hi.
  Qed.
  (** entries of row [k] that list atom [i] *)
  Lemma listed i k : (i < n)%nat -> (k < n)%nat ->
    Permutation (flat_map (fun jd => if (fst jd =? i)%nat then [(k, vneg (snd jd))] else []) (nth k rows []))
      (if (k <=? i)%nat then (if (k =? i)%nat then map (pair i) (map vneg (filter (fun t => in_range tol cutoff t && keep tol t) trans)) else [])
       else pair_rows tol trans pos cutoff i k).
  Proof.
    intros Hi Hk. rewrite half_row by exact Hk. rewrite flat_map_app, flat_map_flat_map.
    assert (P : flat_map (fun x => flat_map (fun jd => if (fst jd =? i)%nat then [(k, vneg (snd jd))] else []) (pair_rows tol trans pos cutoff k x)) (seq 0 k)
                = flat_map (fun x => if (x =? i)%nat then map (fun jd => (k, vneg (snd jd))) (pair_rows tol trans pos cutoff k x) else []) (seq 0 k)).
    { apply flat_map_ext. intros x. pose proof (pair_rows_fst k x) as Hf. destruct (Nat.eqb_spec x i) as [->|E].
      - induction (pair_rows tol trans pos cutoff k i) as [|e l IH]; [reflexivity|]. cbn [flat_map map]. rewrite (Hf e) by now left. rewrite Nat.eqb_refl. cbn. f_equal. apply IH. intros; apply Hf; now right.
      - apply flat_map_nil. intros e He. rewrite (Hf e He). destruct (Nat.eqb_spec x i); [contradiction|reflexivity]. }
    rewrite P. rewrite flat_map_map2. cbn [fst snd]. destruct (Nat.leb_spec k i) as [L|L].
    - rewrite (flat_map_nil _ (seq 0 k)) by (intros x Hx; apply in_seq in Hx; destruct (Nat.eqb_spec x i); [lia|reflexivity]). cbn [app].
      destruct (Nat.eqb_spec k i) as [->|E].
      + generalize (filter (fun t => in_range tol cutoff t && keep tol t) trans). intros l. induction l as [|t l IH]; [constructor|]. cbn. now constructor.
      + rewrite flat_map_nil; [constructor|]. reflexivity.
    - rewrite (flat_map_nil _ (filter _ trans)) by (intros t _; destruct (Nat.eqb_spec k i); [lia|reflexivity]). rewrite app_nil_r.
      rewrite flat_map_pick by lia. symmetry. apply pair_rows_sym.
  Qed.
  Lemma flat_seq_split {T} (f : nat -> list T) i : (i < n)%nat ->
    Permutation (flat_map f (seq 0 n)) (flat_map f (seq 0 i) ++ f i ++ flat_map f (seq (S i) (n - S i))).
  Proof.
    intros Hi. replace n with (i + (1 + (n - S i)))%nat at 1 by lia. rewrite seq_app, flat_map_app. apply Permutation_app_head. rewrite seq_app, flat_map_app.
    cbn [seq flat_map]. rewrite app_nil_r. replace (0 + i + 1)%nat with (S i) by lia. reflexivity.
  Qed.
  Theorem mirrored_full i : (i < n)%nat -> Permutation (mirrored rows i) (nth i (full_rows tol trans pos cutoff) []).
  Proof.
    intros Hi. assert (E : nth i (full_rows tol trans pos cutoff) [] = flat_map (pair_rows tol trans pos cutoff i) (seq 0 n)).
    { unfold full_rows. fold n. rewrite (nth_indep _ [] (flat_map (pair_rows tol trans pos cutoff 0) (seq 0 n))) by (rewrite map_length, seq_length; exact Hi).
      rewrite (map_nth (fun i => flat_map (pair_rows tol trans pos cutoff i) (seq 0 n))). now rewrite seq_nth. }
    rewrite E. unfold mirrored. rewrite rows_len, half_row by exact Hi.
    rewrite (flat_map_perm_in _ (fun k => if (k <=? i)%nat then (if (k =? i)%nat then map (pair i) (map vneg (filter (fun t => in_range tol cutoff t && keep tol t) trans)) else [])
       else pair_rows tol trans pos cutoff i k) (seq 0 n)) by (intros k Hk; apply in_seq in Hk; apply listed; lia).
    rewrite (flat_seq_split (pair_rows tol trans pos cutoff i) i Hi), (flat_seq_split _ i Hi).
    rewrite <- !app_assoc. apply Permutation_app_head.
    rewrite (flat_map_nil _ (seq 0 i)) by (intros k Hk; apply in_seq in Hk; destruct (Nat.leb_spec k i), (Nat.eqb_spec k i); try lia; reflexivity).
    rewrite Nat.leb_refl, Nat.eqb_refl. cbn [app]. rewrite app_assoc. apply Permutation_app.
    - rewrite <- map_app. unfold pair_rows. apply Permutation_map. rewrite (map_ext (vadd (vsub (nth i pos v0) (nth i pos v0))) (fun t => t)) by (intros; apply vadd_0). rewrite (map_id trans). symmetry. apply self_perm.
    - apply flat_map_perm_in. intros k Hk. apply in_seq in Hk. destruct (Nat.leb_spec k i); [lia|reflexivity].
  Qed.
End Symmetric.

(** The translations of a cell are closed under negation. *)
Lemma zrange_opp m : map Z.opp (zrange m) = rev (zrange m).
Proof.
  unfold zrange. rewrite map_map, <- map_rev. set (k := Z.to_nat (2 * m + 1)).
  assert (E : rev (seq 0 k) = map (fun i => k - 1 - i) (seq 0 k)).
  { clearbody k. induction k as [|k IH]; [reflexivity|]. rewrite seq_S at 1. rewrite rev_app_distr, IH. cbn [rev app map seq]. f_equal; [lia|].
    rewrite <- seq_shift, map_map. apply map_ext. intros; lia. }
  rewrite E, map_map. apply map_ext_in. intros i Hi. apply in_seq in Hi. unfold k in *. lia.
Qed.
Definition opp3 (t : Z * Z * Z) : Z * Z * Z := let '(i, j, k) := t in (- i, - j, - k)%Z.
Lemma box_opp a b c : Permutation (map opp3 (box a b c)) (box a b c).
Proof.
  assert (S : forall T (f : Z -> list T) m, Permutation (flat_map (fun i => f (Z.opp i)) (zrange m)) (flat_map f (zrange m))).
  { intros T f m. rewrite <- (flat_map_map2 Z.opp f), zrange_opp. apply Permutation_flat_map. symmetry. apply Permutation_rev. }
  unfold box. assert (M : forall T U (g : T -> U) (f : Z -> list T) l, map g (flat_map f l) = flat_map (fun x => map g (f x)) l).
  { intros T U g f l. induction l as [|x l IH]; [reflexivity|]. cbn. now rewrite map_app, IH. }
  rewrite M. rewrite <- (S _ (fun i => flat_map (fun j => map (fun k => (i, j, k)) (zrange c)) (zrange b)) a). apply flat_map_perm_in. intros i _.
  rewrite M. rewrite <- (S _ (fun j => map (fun k => (Z.opp i, j, k)) (zrange c)) b). apply flat_map_perm_in. intros j _.
  rewrite map_map. cbn [opp3]. rewrite <- (map_map Z.opp (fun k => (Z.opp i, Z.opp j, k))), zrange_opp. apply Permutation_map. symmetry. apply Permutation_rev.
Qed.
Lemma nz_opp (z : Z) : nz (Z.opp z) = Ropp (nz z).
Proof. destruct z; cbn; ring. Qed.
Lemma cart_opp (A : cell R) i j k : cart_z A (- i) (- j) (- k) = vneg (cart_z A i j k).
Proof. unfold cart_z, to_cartesian. rewrite !nz_opp. unfold vneg, vadd, vscale. cbn. f_equal; ring. Qed.
Lemma translations_opp (A : cell R) cutoff : Permutation (map vneg (translations A cutoff)) (translations A cutoff).
Proof.
  unfold translations. set (p := fun t => nltb (norm t) _). assert (P : forall t, p (vneg t) = p t). { intros t. unfold p, norm. now rewrite norm2_vneg. }
  clearbody p. set (b := box _ _ _). set (f := fun ijk : Z * Z * Z => let '(i, j, k) := ijk in cart_z A i j k).
  assert (E : map vneg (filter p (map f b)) = filter p (map vneg (map f b))). { rewrite (filter_map vneg). f_equal. apply filter_ext. intros t. now rewrite P. }
  rewrite E. apply filter_perm. rewrite map_map. rewrite (map_ext _ (fun x => f (opp3 x))) by (intros [[i j] k]; symmetry; apply cart_opp).
  rewrite <- (map_map opp3 f). apply Permutation_map, box_opp.
Qed.

Lemma half_full (tol : R) (A : cell R) pos cutoff : (0 < tol)%R ->
  (forall t, In t (fst (neighbor_cell A pos cutoff)) -> (tol * tol < norm2 t)%R -> (tol <= Rabs (vx t) \/ tol <= Rabs (vy t) \/ tol <= Rabs (vz t))%R) ->
  forall i, i < length pos ->
    Permutation (row (get_full_list (length pos) (neighbor_half tol A pos cutoff)) i) (row (neighbor_full tol A pos cutoff) i).
Proof.
  intros Ht HB i Hi. unfold neighbor_half, neighbor_full, neighbor_cell in *. destruct (ref_any A).
  - cbn [fst] in HB. set (A' := refine_axis A) in *. replace (length pos) with (length (half_rows tol (translations A' cutoff) (map (wrap A') pos) cutoff)) by (rewrite rows_len; apply map_length).
    rewrite mirrored_perm; [|apply rows_half; assumption|rewrite rows_len, map_length; exact Hi]. rewrite row_csr by (unfold full_rows; rewrite map_length, seq_length, map_length; exact Hi).
    apply mirrored_full; try assumption; [apply translations_opp|now rewrite map_length].
  - cbn [fst] in HB. replace (length pos) with (length (half_rows tol (translations A cutoff) pos cutoff)) by apply rows_len.
    rewrite mirrored_perm; [|apply rows_half; assumption|rewrite rows_len; exact Hi]. rewrite row_csr by (unfold full_rows; rewrite map_length, seq_length; exact Hi).
    apply mirrored_full; try assumption. apply translations_opp.
Qed.
