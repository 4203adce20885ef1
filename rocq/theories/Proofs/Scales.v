From Verif Require Import Base Num NumR Model.Dataset Model.Regress Spec.Dataset Spec.Structure Spec.Regress
  Proofs.RegressFinal Proofs.Select.
From Coq Require Import Ring Field Reals Lra.

Section Scales.
  Context {F : Type} {N : Num F} {O : NumOrd F} {L : FieldLaws F}.
  Local Open Scope num_scope.
  Add Field Ffield : (field_laws (F:=F)).

  Lemma predict_rescaled p (off : nat -> bool) (sc x c : vec F) :
    (forall j, (j < p)%nat -> off j = true -> c j = 0) ->
    dot p x (fun j => c j / sc j) = dot p (fun j => if off j then 0 else x j / sc j) c.
  Proof.
    intros H. apply sumn_ext. intros j Hj. rewrite (Fdiv_def (field_laws (F:=F))). destruct (off j) eqn:E.
    - rewrite H by assumption. ring.
    - rewrite (Fdiv_def (field_laws (F:=F))). ring.
  Qed.

  Lemma field_integral (a b : F) : a * b = 0 -> a <> 0 -> b = 0.
  Proof.
    intros H Ha. transitivity (ninv a * (a * b)); [field; exact Ha|]. rewrite H. ring.
  Qed.

  (** Rows of zeros give zero coefficients as soon as the penalty is not zero. *)
  Lemma ridge_off p (m : mat F) (v c : vec F) (alpha : F) j :
    alpha <> 0 -> (j < p)%nat -> (forall l, (l < p)%nat -> m j l = 0) -> v j = 0 ->
    dot p (m j) c + alpha * c j = v j -> c j = 0.
  Proof.
    intros Ha Hj Hm Hv He. apply (field_integral alpha); [|exact Ha].
    assert (Hd : dot p (m j) c = 0).
    { transitivity (sumn p (fun _ => 0 * 0)); [apply sumn_ext; intros l Hl; rewrite Hm by exact Hl; ring|].
      unfold sumn. rewrite nsumf_scale_l. ring. }
    rewrite Hd, Hv in He. rewrite <- He. ring.
  Qed.
End Scales.

Lemma usable_scale_nonzero (threshold : R) inc s : (0 < threshold)%R -> usable_scale threshold inc s <> 0%R.
Proof.
  intros Ht. unfold usable_scale, tiny. cbn [nltb nabs n1 nmul R_ord R_num].
  destruct (Rltb (Rabs s) _) eqn:E; [lra|]. apply Rltb_false in E.
  assert (0 < if inc then threshold else threshold * threshold)%R by (destruct inc; [lra|apply Rmult_lt_0_compat; lra]).
  intros ->. rewrite Rabs_R0 in E. lra.
Qed.
(** Scales that have been made usable stay as they are (the test data get the scales of the
    training data). *)
Lemma usable_scale_idem (threshold : R) inc inc' s : (0 < threshold <= 1)%R -> (inc' = inc \/ inc = true) ->
  usable_scale threshold inc' (usable_scale threshold inc s) = usable_scale threshold inc s.
Proof.
  intros Ht Hi. unfold usable_scale, tiny. cbn [nltb nabs n1 nmul R_ord R_num].
  set (t := if inc then threshold else (threshold * threshold)%R). set (t' := if inc' then threshold else (threshold * threshold)%R).
  assert (Htt : (0 < t' <= t /\ t <= 1)%R).
  { assert (0 < threshold * threshold <= threshold)%R.
    { split; [apply Rmult_lt_0_compat; lra|]. rewrite <- (Rmult_1_r threshold) at 3. apply Rmult_le_compat_l; lra. }
    unfold t, t'. destruct Hi as [->| ->]; [destruct inc; lra|]. destruct inc'; lra. }
  destruct (Rltb (Rabs s) t) eqn:E.
  - replace (Rltb (Rabs 1) t') with false; [reflexivity|]. symmetry. apply Rltb_false. rewrite Rabs_R1. lra.
  - apply Rltb_false in E. replace (Rltb (Rabs s) t') with false; [reflexivity|]. symmetry. apply Rltb_false. lra.
Qed.
Lemma usable_scale_on (threshold : R) inc inc' s : (0 < threshold <= 1)%R -> (inc' = inc \/ inc = true) ->
  tiny threshold inc' (usable_scale threshold inc s) = false.
Proof.
  intros Ht Hi. pose proof (usable_scale_idem threshold inc inc' s Ht Hi) as H. unfold usable_scale at 1 in H.
  destruct (tiny threshold inc' (usable_scale threshold inc s)) eqn:E; [|reflexivity].
  exfalso. cbn [n1 R_num] in H. rewrite <- H in E. unfold tiny in E. cbn [nltb nabs nmul R_ord R_num] in E.
  apply Rltb_true in E. rewrite Rabs_R1 in E.
  assert (0 < threshold * threshold <= threshold)%R.
  { split; [apply Rmult_lt_0_compat; lra|]. rewrite <- (Rmult_1_r threshold) at 3. apply Rmult_le_compat_l; lra. }
  destruct inc'; lra.
Qed.

Lemma variance_nonneg (Q : list (vec R)) j : Rltb (variance Q j) 0 = false.
Proof.
  apply Rltb_false. unfold variance. cbn [ndiv R_num]. rewrite nnat_INR.
  apply Rmult_le_pos.
  - apply nsumf_nonneg. intros x _. cbn. apply Rle_0_sqr.
  - destruct Q as [|q Q]; [cbn [length INR]; rewrite Rinv_0; lra|]. left. apply Rinv_0_lt_compat. apply lt_0_INR. cbn. lia.
Qed.

Section Fit.
  Context {F : Type} {N : Num F} {O : NumOrd F} {L : FieldLaws F} {OL : OrdLaws F} {C0 : Char0 F} {St : Type}.
  Local Open Scope num_scope.
  Variables (s_natoms : St -> list nat) (fe : St -> vec F) (ff fs : St -> list (vec F)).
  Variables (weight_e : F -> F -> nat -> F) (weight_f weight_s : F -> F) (big threshold : F).
  Variables (p n_threshold n_batch : nat).

  (** Coefficients that solve the accumulated ridge equations predict, divided by the scales
      and applied to raw features, what they predict on the scaled features of the fit. *)
  Lemma fit_predict (r0 : vec F) argsort part ps scales min_energy weight_stress b :
    sorts argsort -> (1 <= b)%nat -> ps <> [] -> Forall (usable ff fs s_natoms) ps ->
    exists r, calc_xtx_xty s_natoms fe ff fs r0 weight_e weight_f weight_s big threshold p n_threshold n_batch
                argsort part (map fst ps) scales min_energy weight_stress (Z.of_nat b) = Ok r /\
      let raw := fun j => match scales with Some s => s j
                          | None => nsqrt (if nltb (variance (energy_rows fe ps) j) 0 then 1 else variance (energy_rows fe ps) j) end in
      let off := fun j => tiny threshold (any_force ps) (raw j) in
      forall alpha c, alpha <> 0 ->
        (forall i, (i < p)%nat -> dot p (m_xtx r i) c + alpha * c i = m_xty r i) ->
        (forall j, (j < p)%nat -> off j = true -> c j = 0) /\
        forall x : vec F, dot p x (fun j => c j / m_scales r j) = dot p (fun j => if off j then 0 else x j / raw j) c.
  Proof.
    intros H1 H2 H3 H4.
    destruct (seq_final s_natoms fe ff fs r0 weight_e weight_f weight_s big threshold p n_threshold n_batch argsort part
                ps scales min_energy weight_stress b H1 H2 H3 H4) as [r [E [_ [_ [C [_ [_ [I J]]]]]]]].
    exists r. split; [exact E|]. cbn zeta in *.
    set (raw := fun j => match scales with Some s => s j | None => _ end) in *.
    intros alpha c Ha Hc.
    assert (HO : forall j, (j < p)%nat -> tiny threshold (any_force ps) (raw j) = true -> c j = 0).
    { intros j Hj Ht. apply (ridge_off p (m_xtx r) (m_xty r) c alpha j Ha Hj); [| |apply Hc, Hj].
      - intros l Hl. rewrite (J j l Hj Hl). fold (raw j). rewrite Ht. reflexivity.
      - rewrite (I j). fold (raw j). rewrite Ht. reflexivity. }
    split; [exact HO|]. intros x.
    transitivity (dot p x (fun j => c j / usable_scale threshold (any_force ps) (raw j))).
    { apply dot_ext; [reflexivity|]. intros j _. now rewrite (C j). }
    rewrite (predict_rescaled p (fun j => tiny threshold (any_force ps) (raw j)) (fun j => usable_scale threshold (any_force ps) (raw j)) x c HO).
    apply dot_ext; [|reflexivity]. intros j _. unfold usable_scale. destruct (tiny _ _ _); reflexivity.
  Qed.
End Fit.
