(** The polynomial of one atom: directional derivatives, homogeneity, conjugate and parity symmetry. *)
From Verif Require Import Base Num Complex Spec.Poly Model.Cxx Model.Mapping Model.ModelParams Model.Features Model.Potential
  Proofs.Cxx Proofs.Sums Proofs.FeatureVals Proofs.Potential.
From Coq Require Import Ring Field.

Lemma erase_incl {A} j (l : list A) x : In x (erase j l) -> In x l.
Proof. revert j. induction l as [|y l IH]; intros [|j]; cbn; intuition eauto. Qed.
Lemma NoDup_map_inj {A B} (f : A -> B) l : (forall x y, In x l -> In y l -> f x = f y -> x = y) -> NoDup l -> NoDup (map f l).
Proof.
  intros H. induction 1 as [|x l Hx Hl IH]; cbn; constructor.
  - intros C. apply in_map_iff in C. destruct C as [y [E Hy]]. apply Hx. rewrite (H x y) by (cbn; auto). exact Hy.
  - apply IH. intros u v Hu Hv. apply H; now right.
Qed.
Lemma nsumf_forall2 {T} {NT : Num T} {A B} (R : A -> B -> Prop) (f : B -> T) (g : A -> T) l l' :
  Forall2 R l l' -> (forall x y, In x l -> R x y -> f y = g x) -> nsumf f l' = nsumf g l.
Proof.
  induction 1 as [|x y l l' Hxy H IH]; intros E; [reflexivity|].
  unfold nsumf in *. cbn [map nsum fold_right]. rewrite (E x y) by (cbn; auto). f_equal. apply IH. intros; apply E; cbn; auto.
Qed.

Section PerAtom.
  Context {F : Type} {N : Num F} {L : RingLaws F}.
  Local Open Scope num_scope.
  Add Ring Fring : (ring_laws (F:=F)).
  Variable fs : list (sfeature F).
  Variable poly : list polyTerm.
  Variable nh : nat.
  Hypothesis ids_lt : forall term i, In term poly -> In i (pt_ids term) -> i < length fs.
  Hypothesis heads_lt : forall i st h, i < length fs -> In st (nth i fs []) -> In h (snd st) -> h < nh.

  Definition phi (a : nat -> Cx F) (i : nat) : F := fval (nth i fs []) a.
  Definition pd (w : polyTerm -> F) (a : nat -> Cx F) (h : nat) : Cx F := partial of_real w fs poly (phi a) a h.

  Lemma mder_expand (v d : nat -> F) ids : mder v d ids = nsumf (fun j => mval v (erase j ids) * d (nth j ids 0%nat)) (seq 0 (length ids)).
  Proof. unfold mder. rewrite dder_prod. reflexivity. Qed.

  Lemma partial_dir w (v : nat -> F) (a d : nat -> Cx F) :
    nsumf (fun h => prod_real (d h) (partial of_real w fs poly v a h)) (seq 0 nh) =
    nsumf (fun term => w term * mder v (fun i => fder (nth i fs []) a d) (pt_ids term)) poly.
  Proof.
    transitivity (re (nsumf (fun h => d h * partial of_real w fs poly v a h) (seq 0 nh))).
    { rewrite re_sum. reflexivity. }
    unfold partial.
    rewrite (nsumf_ext' _ (fun h => nsumf (fun term => of_real (w term) * nsumf (fun i => of_real (mval v (erase i (pt_ids term))) *
      nsumf (fun st : sterm F => of_real (fst st) * nsumf (fun j => if nth j (snd st) 0%nat =? h then nprod (map a (erase j (snd st))) * d h else 0) (seq 0 (length (snd st))))
        (nth (nth i (pt_ids term) 0%nat) fs [])) (seq 0 (length (pt_ids term)))) poly)).
    2:{ intros h. rewrite <- nsumf_scale_l. apply nsumf_ext'. intros term.
        rewrite <- !nsumf_scale_l. apply nsumf_ext'. intros i. rewrite <- !nsumf_scale_l. apply nsumf_ext'. intros st.
        rewrite <- !nsumf_scale_l. apply nsumf_ext'. intros j. destruct (_ =? h); apply cx_eq; cbn; ring. }
    rewrite nsumf_swap, re_sum. apply nsumf_ext. intros term Hterm.
    rewrite nsumf_scale_l, re_scale. f_equal. rewrite mder_expand, nsumf_swap, re_sum. apply nsumf_ext. intros i Hi. apply in_seq in Hi.
    rewrite nsumf_scale_l, re_scale. f_equal. rewrite fder_expand, nsumf_swap, re_sum. apply nsumf_ext. intros st Hst.
    rewrite nsumf_scale_l, re_scale, nsumf_scale_l. f_equal. rewrite nsumf_swap, re_sum. apply nsumf_ext. intros j Hj. apply in_seq in Hj.
    rewrite (nsumf_delta nh (fun h => nprod (map a (erase j (snd st))) * d h)).
    - reflexivity.
    - eapply heads_lt; [|exact Hst|apply nth_In; lia]. eapply ids_lt; [exact Hterm|apply nth_In; lia].
  Qed.

  (** Homogeneity: every product of a feature has the same number of factors. *)
  Hypothesis same_size : forall i st, i < length fs -> In st (nth i fs []) -> length (snd st) = feature_size fs i.
  Lemma fder_self i a : i < length fs -> fder (nth i fs []) a a = nnat (feature_size fs i) * phi a i.
  Proof.
    intros Hi. rewrite fder_expand. unfold phi, fval, pval. rewrite re_sum, <- nsumf_scale_l. apply nsumf_ext. intros st Hst.
    rewrite re_scale, nsumf_scale_l.
    transitivity (fst st * re (nsumf (fun j => nprod (map a (erase j (snd st))) * a (nth j (snd st) 0%nat)) (seq 0 (length (snd st))))).
    { rewrite re_sum. reflexivity. }
    rewrite euler, (same_size i st Hi Hst).
    assert (E : forall n, nnat n = of_real (nnat n) :> Cx F).
    { induction n as [|n IH]; [reflexivity|]. cbn [nnat]. rewrite IH. apply cx_eq; cbn; ring. }
    rewrite E, re_scale. ring.
  Qed.
  Lemma fold_sizes ids s : fold_left (fun s id => (s + feature_size fs id)%nat) ids s = (s + list_sum (map (feature_size fs) ids))%nat.
  Proof. revert s. induction ids as [|i ids IH]; intros s; cbn; [lia|]. rewrite IH. unfold list_sum. lia. Qed.
  Lemma mder_self a term : In term poly ->
    mder (phi a) (fun i => fder (nth i fs []) a a) (pt_ids term) = nnat (n_prods fs term) * mval (phi a) (pt_ids term).
  Proof.
    intros Ht. rewrite mder_expand.
    rewrite (nsumf_ext _ (fun j => nnat (feature_size fs (nth j (pt_ids term) 0%nat)) * mval (phi a) (pt_ids term))).
    2:{ intros j Hj. apply in_seq in Hj. rewrite fder_self by (eapply ids_lt; [exact Ht|apply nth_In; lia]).
        unfold mval. rewrite (nprod_erase (phi a) (pt_ids term) j) by lia. ring. }
    rewrite nsumf_scale_r. f_equal. unfold n_prods. rewrite fold_sizes. cbn [Nat.add].
    rewrite (nsumf_seq_nth (fun i => nnat (feature_size fs i)) (pt_ids term) 0%nat).
    generalize (pt_ids term). intros ids. induction ids as [|i ids IH]; [reflexivity|].
    cbn [map]. rewrite nsumf_cons, IH. change (list_sum (feature_size fs i :: map (feature_size fs) ids)) with (feature_size fs i + list_sum (map (feature_size fs) ids))%nat.
    now rewrite nnat_add.
  Qed.

  (** A linear change of order parameters [a' h = s h * a (r h)] under which the features are mapped to themselves. *)
  Lemma erase_map {A B} (f : A -> B) l j : erase j (map f l) = map f (erase j l).
  Proof. revert j. induction l as [|x l IH]; intros [|j]; cbn; try reflexivity. now rewrite IH. Qed.
  Lemma erase_nth_perm (f : nat -> Cx F) (p : nat -> bool) ids ids' : Permutation ids ids' ->
    nsumf (fun j => if p (nth j ids 0%nat) then nprod (map f (erase j ids)) else 0) (seq 0 (length ids)) =
    nsumf (fun j => if p (nth j ids' 0%nat) then nprod (map f (erase j ids')) else 0) (seq 0 (length ids')).
  Proof.
    (* the derivative in the direction of the indicator of p *)
    set (d := fun h : nat => if p h then n1 else n0 : Cx F).
    assert (G : forall ids, nsumf (fun j => if p (nth j ids 0%nat) then nprod (map f (erase j ids)) else 0) (seq 0 (length ids))
      = dder (nprod (map (fun h => D (f h) (d h)) ids))).
    { intros l. rewrite dder_prod. apply nsumf_ext'. intros j. unfold d. destruct (p _); apply cx_eq; cbn; ring. }
    intros P. rewrite !G. f_equal. apply nprod_perm, Permutation_map, P.
  Qed.

  (** Conjugation. *)
  Variable cj : nat -> nat.
  Variable cc : nat -> F.
  Hypothesis cj_lt : forall h, h < nh -> cj h < nh.
  Hypothesis cj_cj : forall h, h < nh -> cj (cj h) = h.
  Hypothesis cc_sq : forall h, cc h * cc h = 1.
  Hypothesis closed : forall i, i < length fs -> exists g, Permutation (nth i fs []) g /\
    Forall2 (fun st st' : sterm F => fst st' = fst st /\ Permutation (snd st') (map cj (snd st))) (nth i fs []) g.
  Hypothesis cc_prod : forall i st, i < length fs -> In st (nth i fs []) -> nprod (map cc (snd st)) = 1.
  Lemma of_real_prod (f : nat -> F) ids : nprod (map (fun h => of_real (f h)) ids) = of_real (nprod (map f ids)) :> Cx F.
  Proof. induction ids as [|i ids IH]; [reflexivity|]. cbn [map nprod fold_right]. fold (nprod (map f ids)). rewrite of_real_mul, <- IH. reflexivity. Qed.
  Lemma conj_prod (a : nat -> Cx F) ids : nprod (map (fun h => conj (a h)) ids) = conj (nprod (map a ids)).
  Proof. induction ids as [|i ids IH]; [symmetry; apply conj_one|]. cbn [map nprod fold_right]. fold (nprod (map a ids)). rewrite conj_mul, <- IH. reflexivity. Qed.

  Lemma partial_conj w v a h : h < nh -> (forall h, h < nh -> a (cj h) = of_real (cc h) * conj (a h)) ->
    partial of_real w fs poly v a (cj h) = of_real (cc h) * conj (partial of_real w fs poly v a h).
  Proof.
    intros Hh Ha. unfold partial. rewrite conj_sum, <- nsumf_scale_l. apply nsumf_ext. intros term Hterm.
    rewrite conj_mul, conj_real, conj_sum.
    transitivity (of_real (w term) * (of_real (cc h) * nsumf (fun x => conj (of_real (mval v (erase x (pt_ids term))) *
       nsumf (fun st : sterm F => of_real (fst st) * nsumf (fun j => if nth j (snd st) 0%nat =? h then nprod (map a (erase j (snd st))) else 0) (seq 0 (length (snd st))))
        (nth (nth x (pt_ids term) 0%nat) fs []))) (seq 0 (length (pt_ids term))))); [|apply cx_eq; cbn; ring].
    f_equal. rewrite <- nsumf_scale_l. apply nsumf_ext. intros i Hi. apply in_seq in Hi. rewrite conj_mul, conj_real.
    transitivity (of_real (mval v (erase i (pt_ids term))) * (of_real (cc h) * conj (nsumf (fun st : sterm F => of_real (fst st) * nsumf (fun j => if nth j (snd st) 0%nat =? h then nprod (map a (erase j (snd st))) else 0) (seq 0 (length (snd st))))
        (nth (nth i (pt_ids term) 0%nat) fs [])))); [|apply cx_eq; cbn; ring].
    f_equal. rewrite conj_sum, <- nsumf_scale_l.
    assert (Hf : nth i (pt_ids term) 0%nat < length fs) by (eapply ids_lt; [exact Hterm|apply nth_In; lia]).
    set (sf := nth (nth i (pt_ids term) 0%nat) fs []). destruct (closed _ Hf) as [g [Pg F2]]. fold sf in Pg, F2.
    rewrite (nsumf_perm _ sf g Pg).
    apply (nsumf_forall2 _ _ _ _ _ F2). intros st st' Hst [Ec Pp].
    rewrite conj_mul, conj_real, Ec.
    transitivity (of_real (fst st) * (of_real (cc h) * conj (nsumf (fun j => if nth j (snd st) 0%nat =? h then nprod (map a (erase j (snd st))) else 0) (seq 0 (length (snd st))))));
      [|apply cx_eq; cbn; ring].
    f_equal. rewrite (erase_nth_perm a (fun x => x =? cj h) _ _ Pp), map_length.
    rewrite conj_sum, <- nsumf_scale_l. apply nsumf_ext. intros j Hj. apply in_seq in Hj.
    assert (Hlt : forall x, In x (snd st) -> x < nh) by (intros x Hx; eapply heads_lt; [exact Hf|exact Hst|exact Hx]).
    rewrite (nth_mapd _ _ _ 0%nat) by lia.
    replace (cj (nth j (snd st) 0%nat) =? cj h) with (nth j (snd st) 0%nat =? h).
    2:{ destruct (Nat.eqb_spec (nth j (snd st) 0%nat) h) as [Q|Q]; [rewrite Q; symmetry; apply Nat.eqb_refl|].
        symmetry. apply Nat.eqb_neq. intros C. apply Q. rewrite <- (cj_cj (nth j (snd st) 0%nat)), C by (apply Hlt, nth_In; lia). now apply cj_cj. }
    destruct (Nat.eqb_spec (nth j (snd st) 0%nat) h) as [Q|Q]; [|rewrite conj_zero; apply cx_eq; cbn; ring].
    rewrite erase_map, map_map.
    rewrite (map_ext_in _ (fun x => of_real (cc x) * conj (a x))) by (intros x Hx; apply Ha, Hlt; eapply erase_incl; exact Hx).
    rewrite nprod_map_mul, of_real_prod, conj_prod. f_equal. f_equal.
    pose proof (cc_prod _ st Hf Hst) as Hp. rewrite (nprod_erase cc (snd st) j) in Hp by lia. rewrite Q in Hp.
    transitivity (nprod (map cc (erase j (snd st))) * (cc h * cc h)); [rewrite cc_sq; ring|].
    transitivity ((nprod (map cc (erase j (snd st))) * cc h) * cc h); [ring|]. rewrite Hp. ring.
  Qed.

  (** Sum over all order parameters from those with m <= 0. *)
  Variable low : nat -> bool.      (** m < 0 *)
  Variable noc : nat -> bool.      (** m <= 0 *)
  Hypothesis low_conj : forall h, h < nh -> negb (noc (cj h)) = low h.
  Hypothesis low_noc : forall h, h < nh -> low h = true -> noc h = true.
  Lemma cj_perm : Permutation (map cj (seq 0 nh)) (seq 0 nh).
  Proof.
    apply NoDup_Permutation_bis.
    - apply NoDup_map_inj; [|apply seq_NoDup]. intros x y Hx Hy E. apply in_seq in Hx, Hy.
      rewrite <- (cj_cj x), <- (cj_cj y) by lia. now rewrite E.
    - now rewrite map_length.
    - intros x Hx. apply in_map_iff in Hx. destruct Hx as [y [<- Hy]]. apply in_seq in Hy. apply in_seq. specialize (cj_lt y). lia.
  Qed.
  Lemma sum_noconj (f : nat -> F) : (forall h, h < nh -> f (cj h) = f h) ->
    nsumf f (seq 0 nh) = nsumf (fun h => if noc h then (if low h then f h + f h else f h) else 0) (seq 0 nh).
  Proof.
    intros Hf.
    transitivity (nsumf (fun h => if noc h then f h else 0) (seq 0 nh) + nsumf (fun h => if negb (noc h) then f h else 0) (seq 0 nh)).
    { rewrite <- nsumf_add. apply nsumf_ext'. intros h. destruct (noc h); cbn [negb]; ring. }
    rewrite <- (nsumf_perm (fun h => if negb (noc h) then f h else 0) _ _ cj_perm), nsumf_map, <- nsumf_add.
    apply nsumf_ext. intros h Hh. apply in_seq in Hh. rewrite (low_conj h), Hf by lia.
    destruct (low h) eqn:E; [rewrite (low_noc h) by (lia || exact E); ring|]. destruct (noc h); ring.
  Qed.
  Lemma sum_noconj_real (d p : nat -> Cx F) :
    (forall h, h < nh -> d (cj h) = of_real (cc h) * conj (d h)) -> (forall h, h < nh -> p (cj h) = of_real (cc h) * conj (p h)) ->
    nsumf (fun h => prod_real (d h) (p h)) (seq 0 nh) =
    nsumf (fun h => if noc h then (if low h then 1 + 1 else 1) * prod_real (d h) (p h) else 0) (seq 0 nh).
  Proof.
    intros Hd Hp. rewrite sum_noconj.
    - apply nsumf_ext'. intros h. destruct (noc h), (low h); ring.
    - intros h Hh. rewrite Hd, Hp by exact Hh. unfold prod_real.
      transitivity ((cc h * cc h) * (re (d h) * re (p h) - im (d h) * im (p h))); [cbn; ring|]. rewrite cc_sq. ring.
  Qed.

  (** Representatives have the same value. *)
  Lemma rep_value (a : nat -> Cx F) ids : (forall h, h < nh -> a (cj h) = of_real (cc h) * conj (a h)) ->
    (forall x, In x ids -> x < nh) -> nprod (map cc ids) = 1 ->
    re (nprod (map a (map cj ids))) = re (nprod (map a ids)).
  Proof.
    intros Ha Hlt Hp. rewrite map_map.
    rewrite (map_ext_in _ (fun x => of_real (cc x) * conj (a x))) by (intros x Hx; apply Ha, Hlt, Hx).
    rewrite nprod_map_mul, of_real_prod, conj_prod, Hp, re_scale. cbn. ring.
  Qed.

  (** Parity. *)
  Variable sg : nat -> F.
  Hypothesis sg_sq : forall h, sg h * sg h = 1.
  Hypothesis sg_prod : forall i st, i < length fs -> In st (nth i fs []) -> nprod (map sg (snd st)) = 1.
  Lemma phi_parity a i : i < length fs -> phi (fun h => of_real (sg h) * a h) i = phi a i.
  Proof.
    intros Hi. unfold phi, fval, pval. f_equal. apply nsumf_ext. intros st Hst. f_equal.
    rewrite nprod_map_mul, of_real_prod, (sg_prod i st Hi Hst). apply cx_eq; cbn; ring.
  Qed.
  Lemma mval_ext (v v' : nat -> F) ids : (forall i, In i ids -> v i = v' i) -> mval v ids = mval v' ids.
  Proof. intros H. unfold mval. f_equal. now apply map_ext_in. Qed.
  Lemma partial_parity w v a h :
    partial of_real w fs poly v (fun h => of_real (sg h) * a h) h = of_real (sg h) * partial of_real w fs poly v a h.
  Proof.
    unfold partial. rewrite <- nsumf_scale_l. apply nsumf_ext. intros term Hterm.
    rewrite <- !nsumf_scale_l. apply nsumf_ext. intros i Hi. apply in_seq in Hi.
    assert (Hf : nth i (pt_ids term) 0%nat < length fs) by (eapply ids_lt; [exact Hterm|apply nth_In; lia]).
    rewrite <- !nsumf_scale_l. apply nsumf_ext. intros st Hst.
    rewrite <- !nsumf_scale_l. apply nsumf_ext. intros j Hj. apply in_seq in Hj.
    destruct (Nat.eqb_spec (nth j (snd st) 0%nat) h) as [Q|Q]; [|apply cx_eq; cbn; ring].
    rewrite nprod_map_mul, of_real_prod.
    pose proof (sg_prod _ st Hf Hst) as Hp. rewrite (nprod_erase sg (snd st) j) in Hp by lia. rewrite Q in Hp.
    replace (nprod (map sg (erase j (snd st)))) with (sg h); [apply cx_eq; cbn; ring|].
    transitivity (nprod (map sg (erase j (snd st))) * (sg h * sg h)); [|rewrite sg_sq; ring].
    transitivity ((nprod (map sg (erase j (snd st))) * sg h) * sg h); [|ring]. rewrite Hp. ring.
  Qed.
  Lemma partial_ext w v v' a a' h : (forall i, i < length fs -> v i = v' i) -> (forall h, h < nh -> a h = a' h) ->
    partial of_real w fs poly v a h = partial of_real w fs poly v' a' h.
  Proof.
    intros Hv Ha. unfold partial. apply nsumf_ext. intros term Hterm. f_equal. apply nsumf_ext. intros i Hi. apply in_seq in Hi.
    assert (Hf : nth i (pt_ids term) 0%nat < length fs) by (eapply ids_lt; [exact Hterm|apply nth_In; lia]).
    f_equal.
    - f_equal. apply mval_ext. intros x Hx. apply Hv. eapply ids_lt; [exact Hterm|]. eapply erase_incl; exact Hx.
    - apply nsumf_ext. intros st Hst. f_equal. apply nsumf_ext. intros j Hj. apply in_seq in Hj. destruct (_ =? h); [|reflexivity].
      f_equal. apply map_ext_in. intros x Hx. apply Ha. eapply heads_lt; [exact Hf|exact Hst|eapply erase_incl; exact Hx].
  Qed.
End PerAtom.
