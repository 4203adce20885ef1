(** The terms of the potential: sums over them are derivatives of the polynomial. *)
From Verif Require Import Base Num Complex Spec.Poly Model.Cxx Model.Mapping Model.ModelParams Model.Features Model.Potential
  Proofs.Cxx Proofs.Sums Proofs.FeatureVals.
From Coq Require Import Ring.

(** Rows of a flattened list of lists. *)
Lemma flat_offsets_from {A} (m : list (list A)) off0 : off0 <> [] ->
  fold_left (fun off l => off ++ [(last off 0 + length l)%nat]) m off0 =
  off0 ++ map (fun k => (last off0 0 + length (concat (firstn (S k) m)))%nat) (seq 0 (length m)).
Proof.
  revert off0. induction m as [|l m IH]; intros off0 H; cbn [fold_left length seq map]; [now rewrite app_nil_r|].
  rewrite IH by (intros C; apply app_eq_nil in C; destruct C; discriminate). rewrite last_last, <- app_assoc. f_equal. cbn [app firstn concat].
  f_equal; [rewrite app_nil_r; lia|]. rewrite <- seq_shift, map_map. apply map_ext. intros k. cbn [firstn concat]. rewrite app_length. lia.
Qed.
Lemma flat_offsets_nth {A} (m : list (list A)) k : k <= length m ->
  nth k (flat_offsets m) 0 = length (concat (firstn k m)) /\ length (flat_offsets m) = S (length m).
Proof.
  intros H. unfold flat_offsets. rewrite flat_offsets_from by discriminate. cbn [last app]. split.
  - destruct k as [|k]; [reflexivity|]. cbn [nth]. rewrite (nth_mapd _ _ _ 0) by (rewrite seq_length; lia).
    rewrite seq_nth by lia. reflexivity.
  - cbn [length]. now rewrite map_length, seq_length.
Qed.
Lemma nth_concat_row {A} (m : list (list A)) k j d : k < length m -> j < length (nth k m []) ->
  nth (length (concat (firstn k m)) + j) (concat m) d = nth j (nth k m []) d.
Proof.
  revert k. induction m as [|l m IH]; intros [|k] Hk Hj; cbn [length nth firstn concat] in *; try lia.
  - now rewrite app_nth1.
  - rewrite app_length, app_nth2 by lia. rewrite <- (IH k) by (cbn in *; lia || assumption). f_equal. lia.
Qed.
Lemma firstn_S_concat {A} (m : list (list A)) k : k < length m ->
  length (concat (firstn (S k) m)) = length (concat (firstn k m)) + length (nth k m []).
Proof.
  revert k. induction m as [|l m IH]; intros [|k] H; cbn [length] in H; try lia.
  - cbn. rewrite app_nil_r. lia.
  - change (firstn (S (S k)) (l :: m)) with (l :: firstn (S k) m). change (firstn (S k) (l :: m)) with (l :: firstn k m).
    cbn [concat nth]. rewrite !app_length, IH by lia. lia.
Qed.

Lemma map_add_seq b c n : map (fun j => b + j) (seq c n) = seq (b + c) n.
Proof. revert c. induction n as [|n IH]; intros c; cbn [seq map]; [reflexivity|]. f_equal. rewrite IH. f_equal. lia. Qed.

Section Terms.
  Context {F : Type} {N : Num F} {NO : NumOrd F} {L : RingLaws F}.
  Context {T : Type} {NT : Num T} {LT : RingLaws T}.
  Local Open Scope num_scope.
  Add Ring Tring : (ring_laws (F:=T)).

  Lemma sum_flat {A} (f : A -> T) m k d : k < length m ->
    nsumf (fun j => f (nth j (concat m) d)) (seq (nth k (flat_offsets m) 0%nat) (nth (S k) (flat_offsets m) 0%nat - nth k (flat_offsets m) 0%nat))
    = nsumf f (nth k m []).
  Proof.
    intros H. destruct (flat_offsets_nth m k) as [-> _]; [lia|]. destruct (flat_offsets_nth m (S k)) as [-> _]; [lia|].
    rewrite firstn_S_concat by exact H.
    replace (_ + _ - _)%nat with (length (nth k m [])) by lia.
    rewrite <- (nsumf_seq_nth f (nth k m []) d).
    set (b := length (concat (firstn k m))).
    replace (seq b (length (nth k m []))) with (map (fun j => (b + j)%nat) (seq 0 (length (nth k m [])))).
    - rewrite nsumf_map. apply nsumf_ext. intros j Hj. apply in_seq in Hj. unfold b. rewrite nth_concat_row by lia. reflexivity.
    - rewrite map_add_seq. f_equal. lia.
  Qed.

  (** The updates made to the map of terms. *)
  Definition pot_updates (f : ftype F) (elim : nat -> bool) (pot : list F) : list (list nat * (F * F)) :=
    flat_map (fun term =>
      let ids := pt_ids term in
      let n_prods := fold_left (fun s id => (s + feature_size (f_features f) id)%nat) ids 0%nat in
      flat_map (fun i => flat_map (fun st : sterm F =>
        map (fun j => ([nth j (snd st) 0%nat; um_get (erase_a_key (snd st) j) (f_dmap f); um_get (erase_a_key ids i) (f_pmap f)],
                       (nth (pt_gid term) pot 0 * fst st / nnat n_prods, nth (pt_gid term) pot 0 * fst st)))
          (filter (fun j => negb (elim (nth j (snd st) 0%nat))) (seq 0 (length (snd st)))))
        (nth (nth i ids 0%nat) (f_features f) [])) (seq 0 (length ids))) (f_poly f).
  Lemma fold_filter {A B} (g : A -> B -> A) (p : B -> bool) l a :
    fold_left (fun a x => if p x then a else g a x) l a = fold_left g (filter (fun x => negb (p x)) l) a.
  Proof. revert a. induction l as [|x l IH]; intros a; cbn; [reflexivity|]. destruct (p x); cbn; apply IH. Qed.
  Lemma terms_map_updates f elim pot :
    terms_map f elim pot = fold_left (fun m kc => plus2_at (fst kc) (snd kc) m) (pot_updates f elim pot) [].
  Proof.
    unfold terms_map, pot_updates. rewrite <- fold_flat. apply fold_left_ext. intros m term _. cbv zeta.
    rewrite <- fold_flat. apply fold_left_ext. intros m1 i _.
    rewrite <- fold_flat. apply fold_left_ext. intros m2 st _.
    rewrite fold_left_map. cbn [fst snd]. rewrite <- fold_filter. reflexivity.
  Qed.
  Lemma fold_plus2 (sel : F * F -> T) (g : list nat -> T) l m :
    (forall a b, sel (fst a + fst b, snd a + snd b) = sel a + sel b) ->
    nsumf (fun kc => sel (snd kc) * g (fst kc)) (fold_left (fun m kc => plus2_at (fst kc) (snd kc) m) l m) =
    nsumf (fun kc => sel (snd kc) * g (fst kc)) m + nsumf (fun kc => sel (snd kc) * g (fst kc)) l.
  Proof.
    intros Hs. revert m. induction l as [|kc l IH]; intros m; cbn [fold_left]; rewrite ?nsumf_nil, ?nsumf_cons; [ring|].
    rewrite IH. unfold plus2_at.
    rewrite (um_alter_sum sel g (fun c o => match o with None => c | Some x => (fst x + fst c, snd x + snd c) end)); [ring|reflexivity|].
    intros x. apply Hs.
  Qed.
  Lemma terms_map_sum f elim pot (sel : F * F -> T) (g : list nat -> T) :
    (forall a b, sel (fst a + fst b, snd a + snd b) = sel a + sel b) ->
    nsumf (fun kc => sel (snd kc) * g (fst kc)) (terms_map f elim pot) = nsumf (fun kc => sel (snd kc) * g (fst kc)) (pot_updates f elim pot).
  Proof. intros Hs. rewrite terms_map_updates, fold_plus2 by exact Hs. rewrite nsumf_nil. ring. Qed.

  Definition mk_term (kc : list nat * (F * F)) : potTerm F := PoT (fst (snd kc)) (snd (snd kc)) (nth 1 (fst kc) 0%nat) (nth 2 (fst kc) 0%nat).
  Lemma terms_of_group n_head elim target (m : umap (F * F)) :
    terms_of n_head elim target m = group n_head (fun kc => target (nth 0 (fst kc) 0%nat)) mk_term (filter (fun kc => negb (elim (nth 0 (fst kc) 0%nat))) m).
  Proof. unfold terms_of, group. rewrite <- fold_filter. reflexivity. Qed.

  (** Sum over the terms of one head. *)
  Lemma terms_row_sum n_head elim target f pot (sel : F * F -> T) (g : nat -> nat -> T) k :
    (forall a b, sel (fst a + fst b, snd a + snd b) = sel a + sel b) -> k < n_head ->
    nsumf (fun t => sel (po_e t, po_f t) * g (po_prod t) (po_pf t)) (nth k (map (sort_by pot_leb) (terms_of n_head elim target (terms_map f elim pot))) []) =
    nsumf (fun kc => sel (snd kc) * (if negb (elim (nth 0 (fst kc) 0%nat)) && (target (nth 0 (fst kc) 0%nat) =? k) then g (nth 1 (fst kc) 0%nat) (nth 2 (fst kc) 0%nat) else 0))
      (pot_updates f elim pot).
  Proof.
    intros Hs Hk.
    rewrite <- (terms_map_sum f elim pot sel (fun key => if negb (elim (nth 0 key 0%nat)) && (target (nth 0 key 0%nat) =? k) then g (nth 1 key 0%nat) (nth 2 key 0%nat) else 0) Hs).
    rewrite terms_of_group.
    rewrite (nth_mapd _ _ _ []) by (now rewrite group_length).
    rewrite (nsumf_perm _ _ _ (sort_by_perm pot_leb _)), group_nth by exact Hk. rewrite nsumf_map. cbn [mk_term po_e po_f po_prod po_pf].
    rewrite !nsumf_filter. apply nsumf_ext'. intros [key [ce cf]]. cbn [fst snd].
    destruct (elim (nth 0 key 0%nat)); cbn [negb andb]; [ring|]. destruct (target (nth 0 key 0%nat) =? k); ring.
  Qed.
End Terms.

Section Deriv.
  Context {F : Type} {N : Num F} {NO : NumOrd F} {L : RingLaws F}.
  Context {T : Type} {NT : Num T} {LT : RingLaws T}.
  Variable inj : F -> T.
  Hypothesis inj_add : forall x y, inj (nadd x y) = nadd (inj x) (inj y).
  Hypothesis inj_mul : forall x y, inj (nmul x y) = nmul (inj x) (inj y).
  Local Open Scope num_scope.
  Add Ring Tring2 : (ring_laws (F:=T)).

  (** Partial derivative with respect to order parameter [h] of the polynomial with weights [w]. *)
  Definition partial (w : polyTerm -> F) (fs : list (sfeature F)) (poly : list polyTerm) (phi : nat -> F) (a : nat -> T) (h : nat) : T :=
    nsumf (fun term => inj (w term) * nsumf (fun i => inj (mval phi (erase i (pt_ids term))) *
      nsumf (fun st : sterm F => inj (fst st) * nsumf (fun j => if nth j (snd st) 0%nat =? h then nprod (map a (erase j (snd st))) else 0) (seq 0 (length (snd st))))
        (nth (nth i (pt_ids term) 0%nat) fs [])) (seq 0 (length (pt_ids term)))) poly.

  Definition n_prods (fs : list (sfeature F)) (term : polyTerm) : nat :=
    fold_left (fun s id => (s + feature_size fs id)%nat) (pt_ids term) 0%nat.
  Definition w_f (pot : list F) (term : polyTerm) : F := nth (pt_gid term) pot 0.

  Lemma poly_prods_In poly term i : In term poly -> i < length (pt_ids term) -> In (erase_a_key (pt_ids term) i) (poly_prods poly).
  Proof.
    intros H1 H2. apply lexn_In. apply in_flat_map. exists term. split; [exact H1|]. unfold erased. apply in_map, in_seq. lia.
  Qed.

  Lemma updates_sum gt sd fs reps poly elim pot (target : nat -> nat) (phi : nat -> F) (a : nat -> T) (sel : F * F -> T) (wt : polyTerm -> F) h k :
    (forall term x, In term poly -> sel (nth (pt_gid term) pot 0 * x / nnat (n_prods fs term), nth (pt_gid term) pot 0 * x) = inj (wt term) * inj x) ->
    (forall term i, In term poly -> In i (pt_ids term) -> i < length fs) ->
    elim h = false ->
    (forall i st h', i < length fs -> In st (nth i fs []) -> In h' (snd st) -> elim h' = false -> (target h' =? k) = (h' =? h)) ->
    let f := build_ftype gt sd (fun _ => false) fs reps poly in
    let fvals := map (fun p => compute_product p phi) (f_pprod f) in
    let derivs := map (fun p => compute_product p a) (f_dprod f) in
    nsumf (fun kc : list nat * (F * F) => sel (snd kc) * (if negb (elim (nth 0 (fst kc) 0%nat)) && (target (nth 0 (fst kc) 0%nat) =? k)
        then inj (nth (nth 2 (fst kc) 0%nat) fvals 0) * nth (nth 1 (fst kc) 0%nat) derivs 0 else 0)) (pot_updates f elim pot)
    = partial wt fs poly phi a h.
  Proof.
    intros Hsel Hids Hh Htg f fvals derivs. unfold pot_updates, partial. cbn [f f_features f_dmap f_pmap f_poly build_ftype].
    rewrite nsumf_flat_map. apply nsumf_ext. intros term Hterm. rewrite nsumf_flat_map, <- nsumf_scale_l.
    apply nsumf_ext. intros i Hi. apply in_seq in Hi. rewrite nsumf_flat_map, <- nsumf_scale_l, <- nsumf_scale_l.
    apply nsumf_ext. intros st Hst. rewrite nsumf_map, nsumf_filter. cbn [fst snd nth].
    rewrite <- !nsumf_scale_l. apply nsumf_ext. intros j Hj. apply in_seq in Hj.
    assert (Hf : nth i (pt_ids term) 0%nat < length fs) by (eapply Hids; [exact Hterm|apply nth_In; lia]).
    destruct (elim (nth j (snd st) 0%nat)) eqn:E; cbn [negb andb].
    - destruct (Nat.eqb_spec (nth j (snd st) 0%nat) h) as [Q|Q]; [congruence|ring].
    - assert (Hin : In (nth j (snd st) 0%nat) (snd st)) by (apply nth_In; lia).
      rewrite (Htg _ st _ Hf Hst Hin E).
      destruct (nth j (snd st) 0%nat =? h); [|ring].
      fold (n_prods fs term). rewrite Hsel by exact Hterm.
      replace (nth (um_get (erase_a_key (pt_ids term) i) (set_map (poly_prods poly))) fvals 0) with (mval phi (erase i (pt_ids term))).
      2:{ symmetry. unfold fvals. cbn [f f_pprod build_ftype]. rewrite (keyed _ (poly_prods poly)); [apply nprod_erase_key|apply lexn_nodup|].
          apply poly_prods_In; [exact Hterm|lia]. }
      replace (nth (um_get (erase_a_key (snd st) j) (set_map (nonequiv_deriv_ids (fun _ => false) fs))) derivs 0) with (nprod (map a (erase j (snd st)))).
      2:{ symmetry. unfold derivs. cbn [f f_dprod build_ftype]. rewrite (keyed _ (nonequiv_deriv_ids (fun _ => false) fs)); [apply nprod_erase_key|apply lexn_nodup|].
          eapply deriv_In; [apply nth_In; exact Hf|exact Hst|lia|reflexivity]. }
      ring.
  Qed.
End Deriv.
