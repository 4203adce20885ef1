(** Unit conversion of a potential. *)
From Verif Require Import Base Num NumR Complex Model.Cxx Model.Mapping Model.ModelParams Model.Features Model.Potential
  Model.Neighbor Model.Compute Model.Eval Proofs.Sums.
From Coq Require Import Reals Lra FunctionalExtensionality.

Lemma upd_map {A B} (f : A -> B) (g : A -> A) (h : B -> B) i l : (forall x, f (g x) = h (f x)) -> map f (upd i g l) = upd i h (map f l).
Proof. intros E. revert i. induction l as [|x l IH]; intros [|i]; cbn; congruence. Qed.

Lemma put_map {A B} (f : A -> B) i x l : put i (f x) (map f l) = map f (put i x l).
Proof. unfold put. symmetry. now apply upd_map. Qed.

(** Neighbour lists with scaled displacements. *)
Section ScaleCsr.
  Context {F : Type} {N : Num F}.
  Variable sc : v3 F -> v3 F.
  Hypothesis sc_neg : forall d, sc (vneg d) = vneg (sc d).
  Hypothesis sc_0 : sc v0 = v0.
  Definition scale_csr (c : csr F) : csr F := CSR (cs_neigh c) (map sc (cs_d c)) (cs_off c).
  Definition sc2 (jd : nat * v3 F) : nat * v3 F := (fst jd, sc (snd jd)).
  Lemma row_scale c i : row (scale_csr c) i = map sc2 (row c i).
  Proof.
    unfold row. cbn [scale_csr cs_neigh cs_d cs_off]. rewrite map_map. apply map_ext. intros k. unfold sc2. cbn. f_equal. rewrite <- sc_0 at 1. apply map_nth.
  Qed.
  Lemma pairs_scale n c : half_pairs n (scale_csr c) = map (fun e => (fst e, sc (snd e))) (half_pairs n c).
  Proof.
    unfold half_pairs. induction (seq 0 n) as [|i l IH]; [reflexivity|]. cbn [flat_map]. rewrite map_app, <- IH. f_equal. rewrite row_scale, !map_map. reflexivity.
  Qed.
  Lemma degrees_scale n c : degrees n (scale_csr c) = degrees n c.
  Proof.
    unfold degrees. cbn [scale_csr cs_off]. generalize (repeat 0 n). induction (seq 0 n) as [|i l IH]; intros deg; [reflexivity|]. cbn [fold_left]. rewrite IH. f_equal.
    rewrite row_scale. generalize (upd i (fun x => x + (nth (S i) (cs_off c) 0 - nth i (cs_off c) 0)) deg). induction (row c i) as [|jd r IHr]; intros u; [reflexivity|]. cbn [map fold_left]. now rewrite IHr.
  Qed.
  Lemma write_scale l pos nb ds :
    fold_left write2 (map (fun e : nat * nat * v3 F => (fst e, sc (snd e))) l) (pos, nb, map sc ds) =
    let '(pos', nb', ds') := fold_left write2 l (pos, nb, ds) in (pos', nb', map sc ds').
  Proof.
    revert pos nb ds. induction l as [|[[i j] d] l IH]; intros; [reflexivity|]. cbn [map fold_left fst snd]. unfold write2, write1.
    rewrite <- sc_neg. rewrite !put_map. apply IH.
  Qed.
  Lemma full_scale n c : get_full_list n (scale_csr c) = scale_csr (get_full_list n c).
  Proof.
    unfold get_full_list. rewrite degrees_scale, pairs_scale. set (off := offsets (degrees n c)). set (nnz := nth n off 0).
    assert (E : repeat v0 nnz = map sc (repeat v0 nnz)). { induction nnz as [|k IH]; [reflexivity|]. cbn. now rewrite sc_0, <- IH. }
    rewrite E at 1. rewrite write_scale. destruct (fold_left write2 _ _) as [[p nb] ds]. reflexivity.
  Qed.
End ScaleCsr.

Section Convert.
  Local Open Scope R_scope.
  Variables (tol : R) (B B' : basis R) (fp : fparams R) (pot : list R) (types : nat -> nat) (n : nat) (H : csr R).
  Variables (e len inv : R).
  Hypothesis Hlen : 0 < len.
  Hypothesis Hinv : len * inv = 1.
  Hypothesis Hfn : forall p r, b_fn B' (convert_param len inv p) (len * r) = b_fn B p r.
  Hypothesis Hfn_d : forall p r, b_fn_d B' (convert_param len inv p) (len * r) = inv * b_fn_d B p r.
  Hypothesis Hylm : forall key d, b_ylm B' key (vscale len d) = b_ylm B key d.
  Hypothesis Hylm_d : forall c key d, b_ylm_d B' c key (vscale len d) = cscale inv (b_ylm_d B c key d).
  Let A := set_potential_model fp pot.
  Let A' := convert_unit e len inv A.
  Let H' := scale_csr (vscale len) H.

  Lemma mapping_conv : mapping (convert_fp len inv fp) = mapping fp.
  Proof. unfold mapping. cbn. now rewrite map_length. Qed.
  Lemma features_conv b : features (convert_fp len inv fp) b = features fp b.
  Proof.
    unfold features. rewrite mapping_conv. unfold n_linear, modelp, linear_features_gtinv, fp_linear. rewrite mapping_conv. cbn. rewrite map_length.
    destruct (fp_gtinv fp); [|reflexivity]. apply map_ext. intros t. f_equal; f_equal;
    unfold linear_features_gtinv, lin_gtinv_feature, fp_linear, fp_tp_combs; cbn; rewrite ?map_length; reflexivity.
  Qed.
  Lemma potential_conv : potential (convert_fp len inv fp) pot = potential fp pot.
  Proof. unfold potential. rewrite features_conv, mapping_conv. reflexivity. Qed.
  Lemma pmodel_conv t : pmodel A' t = convert_unit_type e (pmodel A t).
  Proof.
    unfold pmodel, A', A, convert_unit, set_potential_model. cbn [ap_model ap_fp ap_pot]. rewrite potential_conv.
    change (@ptype0 R) with (convert_unit_type e ptype0) at 1. apply map_nth.
  Qed.
  Lemma vneg_scale d : vscale len (vneg d) = vneg (vscale len d).
  Proof. unfold vneg, vscale. cbn. f_equal; ring. Qed.
  Lemma vscale_0 : vscale len v0 = v0.
  Proof. unfold vscale, v0. cbn. f_equal; ring. Qed.
  Lemma norm_scale d : norm (vscale len d) = len * norm d.
  Proof.
    unfold norm. replace (norm2 (vscale len d)) with (len * len * norm2 d) by (unfold norm2, vdot, vscale; cbn; ring). cbn [nsqrt R_ord].
    rewrite sqrt_mult_alt by (apply Rle_0_sqr). now rewrite sqrt_square by lra.
  Qed.
  Lemma fp'_is : ap_fp A' = convert_fp len inv fp.
  Proof. reflexivity. Qed.
  Lemma inside_scale d : inside (ap_fp A') (vscale len d) = inside fp d.
  Proof.
    unfold inside. rewrite norm_scale. cbn -[norm]. destruct (Rltb (norm d) (fp_cutoff fp)) eqn:T.
    - apply Rltb_true in T. apply Rltb_true. rewrite (Rmult_comm (fp_cutoff fp)). now apply Rmult_lt_compat_l.
    - apply Rltb_false in T. apply Rltb_false. rewrite (Rmult_comm (fp_cutoff fp)). apply Rmult_le_compat_l; lra.
  Qed.
  Lemma params_conv tp k : tp_params (ap_fp A') tp k = convert_param len inv (tp_params fp tp k).
  Proof.
    unfold tp_params. cbn [ap_fp A' A convert_unit set_potential_model convert_fp fp_n_type fp_cond fp_params].
    generalize (nth tp (tp_to_n (fp_n_type fp) (fp_cond fp)) []). intros l. change (@nil R) with (convert_param len inv []) at 1 2.
    revert k. induction l as [|x l IH]; intros k; [destruct k; reflexivity|]. cbn [map]. destruct k; cbn [nth]; [apply map_nth|apply IH].
  Qed.
  Lemma fn_conv tp k d : fn B' (ap_fp A') tp k (norm (vscale len d)) = fn B fp tp k (norm d).
  Proof. unfold fn. now rewrite params_conv, norm_scale, Hfn. Qed.
  Lemma fn_d_conv tp k d : fn_d B' (ap_fp A') tp k (norm (vscale len d)) = inv * fn_d B fp tp k (norm d).
  Proof. unfold fn_d. now rewrite params_conv, norm_scale, Hfn_d. Qed.
  Lemma row_loop_conv {T} (r : T -> T) t rows (body body' : nat -> nat -> v3 R -> list T) :
    (forall j tp d, body' j tp (vscale len d) = map r (body j tp d)) ->
    row_loop A' types t (map (sc2 (vscale len)) rows) body' = map r (row_loop A types t rows body).
  Proof.
    intros E. unfold row_loop. induction rows as [|[j d] rows IH]; [reflexivity|]. cbn [map flat_map sc2 fst snd]. rewrite IH, map_app. f_equal.
    rewrite <- vneg_scale, inside_scale. change (inside (ap_fp A) (vneg d)) with (inside fp (vneg d)). destruct (inside fp (vneg d)); [apply E|reflexivity].
  Qed.
  Lemma map_idf {T} (l : list T) : map (fun x => x) l = l.
  Proof. apply map_id. Qed.

  (** order parameters *)
  Lemma full_row i : row (get_full_list n H') i = map (sc2 (vscale len)) (row (get_full_list n H) i).
  Proof. unfold H'. rewrite full_scale by (apply vneg_scale || apply vscale_0). apply row_scale, vscale_0. Qed.
  Lemma pair_tp_conv t tp : pair_tp A' t tp = pair_tp A t tp.
  Proof. unfold pair_tp. now rewrite fp'_is, mapping_conv. Qed.
  Lemma gt_tp_conv t tp : gt_tp A' t tp = gt_tp A t tp.
  Proof. unfold gt_tp. now rewrite fp'_is, mapping_conv. Qed.
  Lemma antp_conv i : antp B' A' types n H' i = antp B A types n H i.
  Proof.
    unfold antp. f_equal. rewrite full_row. rewrite (row_loop_conv (fun x => x) _ _ (fun j tp d => map (fun a => (pc_il a, fn B (ap_fp A) tp (pc_n_id a) (norm d))) (pair_tp A (types i) tp))); [apply map_idf|].
    intros j tp d. rewrite map_idf, pair_tp_conv. apply map_ext. intros a. now rewrite fn_conv.
  Qed.
  Lemma anlmtp_nc_conv i : anlmtp_nc tol B' A' types n H' i = anlmtp_nc tol B A types n H i.
  Proof.
    unfold anlmtp_nc. rewrite full_row.
    rewrite (row_loop_conv (fun x => x) _ _ (fun j tp d => map (fun a => (c_inc a, cscale (fn B (ap_fp A) tp (c_n_id a) (norm d)) (b_ylm B (c_key a) d)))
       (filter (fun a => negb (nltb (fn B (ap_fp A) tp (c_n_id a) (norm d)) tol)) (gt_tp A (types i) tp)))); [apply map_idf|].
    intros j tp d. rewrite map_idf, gt_tp_conv. rewrite (filter_ext _ (fun a => negb (nltb (fn B (ap_fp A) tp (c_n_id a) (norm d)) tol))) by (intros a; now rewrite fn_conv).
    apply map_ext. intros a. now rewrite fn_conv, Hylm.
  Qed.
  Lemma anlmtp_conv i : anlmtp tol B' A' types n H' i = anlmtp tol B A types n H i.
  Proof. unfold anlmtp. rewrite anlmtp_nc_conv. unfold conjugate, nc_attrs. now rewrite fp'_is, mapping_conv. Qed.

  Lemma fold_scaled {X} (c : R) (f g : X -> R) l : (forall x, f x = c * g x) -> fold_left (fun s x => s + f x) l 0 = c * fold_left (fun s x => s + g x) l 0.
  Proof.
    intros E. assert (G : forall z, fold_left (fun s x => s + f x) l (c * z) = c * fold_left (fun s x => s + g x) l z).
    { induction l as [|x l IH]; intros z; [reflexivity|]. cbn [fold_left]. rewrite <- IH, E. f_equal. ring. }
    rewrite <- G. f_equal. ring.
  Qed.
  Lemma fold_scaled_map {X Y} (h : Y -> X) (c : R) (f : X -> R) (u : Y -> R) l : (forall x, f (h x) = c * u x) ->
    fold_left (fun s x => s + f x) (map h l) 0 = c * fold_left (fun s x => s + u x) l 0.
  Proof.
    intros E. rewrite <- (fold_scaled c (fun x => f (h x)) u) by exact E. generalize 0. induction l as [|x l IH]; intros z; [reflexivity|]. apply IH.
  Qed.
  Lemma sums_pair_conv i k : nth k (fst (sums_pair B' A' types n H' i)) 0 = e * nth k (fst (sums_pair B A types n H i)) 0 /\
    nth k (snd (sums_pair B' A' types n H' i)) 0 = e * nth k (snd (sums_pair B A types n H i)) 0.
  Proof.
    unfold sums_pair, sum_of_prod_antp. rewrite antp_conv, pmodel_conv. cbn [convert_unit_type p_ft p_model fst snd].
    set (f := p_ft (pmodel A (types i))). set (v := antp B A types n H i).
    set (P := fun t : potTerm R => nmul (nth (po_pf t) (compute_prod_features f (compute_features_pair f v)) n0) (nth (po_prod t) (compute_products (f_dprod f) v) n0)).
    assert (G : forall c : potTerm R -> R, (forall a b u v, c (PoT (a * e) (b * e) u v) = e * c (PoT a b u v)) ->
      nth k (map (fun ts => half * fold_left (fun s t => s + c t * P t) ts 0) (convert_terms e (p_model (pmodel A (types i))))) 0 =
      e * nth k (map (fun ts => half * fold_left (fun s t => s + c t * P t) ts 0) (p_model (pmodel A (types i)))) 0).
    { intros c Ec. generalize (p_model (pmodel A (types i))). intros m. revert k. induction m as [|ts m IH]; intros k; [destruct k; cbn; ring|].
      destruct k; cbn [convert_terms map nth]; [|apply IH].
      rewrite (fold_scaled_map _ e _ (fun t => c t * P t)); [ring|].
      intros [a b u w]. unfold P. cbn [po_e po_f po_prod po_pf]. change nmul with Rmult. rewrite Ec. ring. }
    split; apply G; intros; cbn; ring.
  Qed.
  Lemma sums_gtinv_conv i : sums_gtinv tol B' A' types n H' i = sums_gtinv tol B A types n H i.
  Proof. unfold sums_gtinv. now rewrite anlmtp_conv, pmodel_conv. Qed.

  Lemma vc_scale c d : vc c (vscale len d) = len * vc c d.
  Proof. destruct c as [|[|c]]; reflexivity. Qed.
  Lemma inv_is : inv = / len.
  Proof. apply (Rmult_eq_reg_l len); [rewrite Hinv; field; lra|lra]. Qed.
  Lemma pair_contrib_conv i j tp d c : norm d <> 0 ->
    fst (pair_contrib B' A' types n H' i j tp (vscale len d)) = e * fst (pair_contrib B A types n H i j tp d) /\
    snd (pair_contrib B' A' types n H' i j tp (vscale len d)) c = e * inv * snd (pair_contrib B A types n H i j tp d) c.
  Proof.
    intros Hn. unfold pair_contrib. cbn [fst snd]. rewrite pair_tp_conv. split.
    - apply fold_scaled. intros a. rewrite fn_conv, (proj1 (sums_pair_conv i _)), (proj1 (sums_pair_conv j _)). change nmul with Rmult. change nadd with Rplus. change (@n0 R R_num) with 0. change (ap_fp A) with fp. ring.
    - match goal with |- nmul (nmul ?S' _) _ = e * inv * (nmul (nmul ?S _) _) => assert (K : S' = e * inv * S); [|rewrite K; generalize S; intros s] end.
      + apply fold_scaled. intros a. rewrite fn_d_conv, (proj2 (sums_pair_conv i _)), (proj2 (sums_pair_conv j _)). change nmul with Rmult. change nadd with Rplus. change (@n0 R R_num) with 0. change (ap_fp A) with fp. ring.
      + rewrite vc_scale, norm_scale, inv_is. cbn -[norm]. field. split; lra.
  Qed.
  Lemma gt_val_d_conv c tp k key d : norm d <> 0 -> gt_val_d B' (ap_fp A') c tp k key (vscale len d) = cscale inv (gt_val_d B fp c tp k key d).
  Proof.
    intros Hn. unfold gt_val_d. rewrite fn_conv, fn_d_conv, Hylm, Hylm_d, vc_scale, norm_scale, inv_is.
    generalize (b_ylm B key d), (b_ylm_d B c key d). intros [y1 y2] [z1 z2]. apply cx_eq; cbn -[norm fn fn_d]; field; split; lra.
  Qed.
  Lemma gtinv_contrib_conv i j tp d c : norm d <> 0 ->
    fst (gtinv_contrib tol B' A' types n H' i j tp (vscale len d)) = fst (gtinv_contrib tol B A types n H i j tp d) /\
    snd (gtinv_contrib tol B' A' types n H' i j tp (vscale len d)) c = inv * snd (gtinv_contrib tol B A types n H i j tp d) c.
  Proof.
    intros Hn. unfold gtinv_contrib. cbn [fst snd]. rewrite gt_tp_conv, !sums_gtinv_conv. change (ap_fp A) with fp.
    rewrite (filter_ext _ (fun a => negb (nltb (fn B fp tp (c_n_id a) (norm d)) tol))) by (intros a; now rewrite fn_conv). split.
    - rewrite <- Rmult_1_l. apply fold_scaled. intros a. rewrite Rmult_1_l. f_equal. unfold gt_val. now rewrite fn_conv, Hylm.
    - apply fold_scaled. intros a. rewrite gt_val_d_conv by exact Hn. generalize (gt_val_d B fp c tp (c_n_id a) (c_key a) d). intros [u v].
      unfold prod_real. cbn. ring.
  Qed.

  (** pairs within the cutoff have a non-zero distance *)
  Hypothesis Hsep : forall i j d, (i < n)%nat -> In (j, d) (row H i) -> norm d <> 0.
  Definition gfac : R := if fp_gtinv fp then 1 else e.
  Definition tr (p : nat * nat * v3 R * (R * (nat -> R))) : nat * nat * v3 R * (R * (nat -> R)) :=
    let '(i, j, d, c) := p in (i, j, vscale len d, (gfac * fst c, fun k => gfac * inv * snd c k)).
  Lemma norm_vneg d : norm (vneg d) = norm d.
  Proof. unfold norm. f_equal. unfold norm2, vdot, vneg. cbn. ring. Qed.
  Lemma pairs_conv : pairs tol B' A' types n H' = map tr (pairs tol B A types n H).
  Proof.
    unfold pairs. assert (S : forall i, In i (seq 0 n) -> (i < n)%nat) by (intros i Hi; apply in_seq in Hi; lia).
    induction (seq 0 n) as [|i l IH]; [reflexivity|]. cbn [flat_map]. rewrite map_app, IH by (intros; apply S; now right). f_equal.
    unfold H'. rewrite row_scale by apply vscale_0. fold H'. pose proof (Hsep i) as Hi. specialize (S i (or_introl eq_refl)). revert Hi.
    unfold row_loop. induction (row H i) as [|[j d] rows IHr]; intros Hi; [reflexivity|]. cbn [map flat_map sc2 fst snd]. rewrite map_app, IHr by (intros; eapply Hi; [exact S|right; eassumption]). f_equal.
    rewrite <- vneg_scale, inside_scale. change (inside (ap_fp A) (vneg d)) with (inside fp (vneg d)). destruct (inside fp (vneg d)); [|reflexivity].
    cbn [map tr]. assert (Hd : norm (vneg d) <> 0) by (rewrite norm_vneg; apply (Hi j d); [exact S|now left]).
    change (ap_fp A') with (convert_fp len inv fp). cbn [convert_fp fp_n_type]. change (fp_n_type (ap_fp A)) with (fp_n_type fp). set (tp := tpair _ _ _).
    f_equal. f_equal. unfold contrib. change (fp_gtinv (ap_fp A')) with (fp_gtinv fp). change (fp_gtinv (ap_fp A)) with (fp_gtinv fp). unfold gfac. destruct (fp_gtinv fp).
    - pose proof (gtinv_contrib_conv i j tp (vneg d)) as G. destruct (gtinv_contrib tol B' A' types n H' i j tp (vscale len (vneg d))) as [x f].
      f_equal; [rewrite Rmult_1_l; apply (G 0%nat Hd)|]. apply functional_extensionality. intros c. rewrite Rmult_1_l. apply (G c Hd).
    - pose proof (pair_contrib_conv i j tp (vneg d)) as G. destruct (pair_contrib B' A' types n H' i j tp (vscale len (vneg d))) as [x f].
      f_equal; [apply (G 0%nat Hd)|]. apply functional_extensionality. intros c. apply (G c Hd).
  Qed.
  Lemma fold_pairs (f : nat * nat * v3 R * (R * (nat -> R)) -> R) c l : (forall p, f (tr p) = c * f p) ->
    fold_left (fun s p => s + f p) (map tr l) 0 = c * fold_left (fun s p => s + f p) l 0.
  Proof. apply fold_scaled_map. Qed.
  Lemma fold_dest (f : nat -> nat -> v3 R -> R * (nat -> R) -> R) l x :
    fold_left (fun s p => let '(i, j, d, c) := p in nadd s (f i j d c)) l x = fold_left (fun s p => s + (let '(i, j, d, c) := p in f i j d c)) l x.
  Proof. revert x. induction l as [|[[[i j] d] c] l IH]; intros x; [reflexivity|]. cbn [fold_left]. apply IH. Qed.
  Lemma energy_conv : energy tol B' A' types n H' = gfac * energy tol B A types n H.
  Proof.
    unfold energy. rewrite pairs_conv, !fold_dest. apply fold_pairs. intros [[[i j] d] c]. reflexivity.
  Qed.
  Lemma stress_conv k : stress tol B' A' types n H' k = gfac * stress tol B A types n H k.
  Proof.
    unfold stress. destruct (stress_comp k) as [c c']. rewrite pairs_conv, !fold_dest. apply fold_pairs. intros [[[i j] d] f]. cbn [tr snd fst]. rewrite vc_scale, inv_is. cbn. field. lra.
  Qed.
  Lemma forces_conv c k : forces tol B' A' types n H' c k = gfac * inv * forces tol B A types n H c k.
  Proof.
    unfold forces. rewrite pairs_conv, !(accum_spec (T := R)). rewrite !nsumf_flat_map, nsumf_map. refine (eq_trans _ (nsumf_scale_l _ _ _)). apply nsumf_ext'. intros [[[i j] d] f].
    cbn [tr]. rewrite !nsumf_cons, !nsumf_nil. cbn [fst snd]. destruct (i =? k), (j =? k); cbn; ring.
  Qed.
End Convert.
