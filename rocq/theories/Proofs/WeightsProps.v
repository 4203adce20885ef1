From Verif Require Import Base Num NumR Model.Structure Model.DatasetDFT Model.Dataset Model.Regress Model.Weights
  Spec.Dataset Spec.Structure Spec.Regress Proofs.RegressFinal Proofs.Select Proofs.Weights.
From Coq Require Import Reals Lra Ring Field.

Section W.
  Context {St : Type}.
  Variables (s_natoms : St -> list nat) (fe : St -> vec R) (ff fs : St -> list (vec R)).
  Variables (tol big threshold : R).
  Local Open Scope R_scope.
  Notation points := (points fe ff fs weight_energy (weight_force tol) (weight_stress_unit tol)).

  Lemma weights_signs ws m ps : 0 < tol -> 0 < ws -> Forall (fun q : ds R St * list (rec R St) => 0 < ds_weight (fst q)) ps ->
    Forall (fun u => 0 <= pt_weight u) (points ws m ps) /\
    (Forall (fun q : ds R St * list (rec R St) => ds_force (fst q) = true -> ds_stress (fst q) = true) ps ->
     Forall (fun u => 0 < pt_weight u) (points ws m ps)).
  Proof.
    intros Ht Hw Hd. rewrite !Forall_forall in *. split; [|intros Hst]; intros u Hu;
      unfold Spec.Regress.points in Hu; apply in_flat_map in Hu; destruct Hu as [q [Hq Hu]]; specialize (Hd q Hq);
      apply in_flat_map in Hu; destruct Hu as [r [Hr Hu]]; unfold record_points in Hu; apply in_app_or in Hu.
    - destruct Hu as [[<-|[]]|Hu].
      + cbn [pt_weight]. apply Rlt_le. apply Rmult_lt_0_compat; [apply weight_energy_range|exact Hd].
      + destruct (ds_force (fst q)); [|destruct Hu]. apply in_app_or in Hu. destruct Hu as [Hu|Hu]; apply in_map_iff in Hu; destruct Hu as [v [<- _]]; cbn [pt_weight].
        * destruct (ds_stress (fst q)); [|apply Rle_refl]. apply Rlt_le. apply Rmult_lt_0_compat; [apply weight_stress_range|]. apply Rmult_lt_0_compat; assumption.
        * apply Rlt_le. apply Rmult_lt_0_compat; [now apply weight_force_range|exact Hd].
    - specialize (Hst q Hq). destruct Hu as [[<-|[]]|Hu].
      + cbn [pt_weight]. apply Rmult_lt_0_compat; [apply weight_energy_range|exact Hd].
      + destruct (ds_force (fst q)); [|destruct Hu]. apply in_app_or in Hu. destruct Hu as [Hu|Hu]; apply in_map_iff in Hu; destruct Hu as [v [<- _]]; cbn [pt_weight].
        * rewrite (Hst eq_refl). apply Rmult_lt_0_compat; [apply weight_stress_range|]. apply Rmult_lt_0_compat; assumption.
        * apply Rmult_lt_0_compat; [now apply weight_force_range|exact Hd].
  Qed.

  Lemma dot_weighted p (w : R) (r : vec R) (x c : vec R) : (forall j, r j = w * x j) -> dot p r c = w * dot p x c.
  Proof.
    intros H. change (dot p r c = nmul w (dot p x c)). unfold dot. unfold sumn. rewrite <- (nsumf_scale_l (F:=R)). apply nsumf_ext'. intros j.
    rewrite H. cbn [nmul R_num]. apply Rmult_assoc.
  Qed.

  Lemma weighted_exact (r0 : vec R) ps scales min_energy ws p (c : vec R) :
    0 < tol -> 0 < ws -> Forall (usable ff fs s_natoms) ps ->
    exists t, calc_xy s_natoms fe ff fs r0 weight_energy (weight_force tol) (weight_stress_unit tol) big threshold
                (map fst ps) scales min_energy ws = Ok t /\
      let P := points ws (t_min_e t) ps in
      let raw := fun j => match scales with Some s => s j | None => nsqrt (variance (energy_rows fe ps) j) end in
      let scaled := fun (x : vec R) j => if tiny threshold (any_force ps) (raw j) then 0 else x j / raw j in
      (exists T, Permutation T P /\ length (t_x t) = length T /\
         t_y t = map (fun u => pt_weight u * pt_value u) T /\ t_w t = map pt_weight T /\
         (forall k r u, nth_error (t_x t) k = Some r -> nth_error T k = Some u -> forall j, r j = pt_weight u * scaled (pt_row u) j)) /\
      ((forall k r y, nth_error (t_x t) k = Some r -> nth_error (t_y t) k = Some y -> dot p r c = y) <->
       (forall u, In u P -> pt_weight u <> 0 -> dot p (scaled (pt_row u)) c = pt_value u)).
  Proof.
    intros Ht Hw Hu.
    destruct (one_shot_final s_natoms fe ff fs r0 weight_energy (weight_force tol) (weight_stress_unit tol) big threshold 0%nat
                ps scales min_energy ws Hu) as [t [E [_ [_ [_ [[T [HP [HF [Hy Hw']]]] _]]]]]].
    exists t. split; [exact E|]. cbn zeta in *.
    set (raw := fun j => match scales with Some s => s j | None => _ end) in *.
    set (scaled := fun (x : vec R) j => if tiny threshold (any_force ps) (raw j) then 0 else x j / raw j).
    assert (HS : Forall2 (fun (r : vec R) u => forall j, r j = pt_weight u * scaled (pt_row u) j) (t_x t) T).
    { eapply Select.Forall2_impl; [|exact HF]. intros r u H j. rewrite H. unfold scaled, usable_scale.
      destruct (tiny _ _ _); reflexivity. }
    assert (HN : forall k r u, nth_error (t_x t) k = Some r -> nth_error T k = Some u -> forall j, r j = pt_weight u * scaled (pt_row u) j).
    { clear -HS. revert HS. generalize (t_x t). induction 1 as [|r0 u0 l l' H _ IH]; intros [|k] r u Hr Hu; cbn in Hr, Hu; try discriminate.
      - injection Hr as <-. injection Hu as <-. exact H.
      - eapply IH; eassumption. }
    assert (HL : length (t_x t) = length T) by (eapply Forall2_length, HF).
    split.
    - exists T. repeat split; auto.
    - split.
      + intros H u Hin Hnz. apply (Permutation_in _ (Permutation_sym HP)) in Hin. apply In_nth_error in Hin. destruct Hin as [k Hk].
        assert (Hk' : (k < length (t_x t))%nat) by (rewrite HL; apply nth_error_Some; congruence).
        destruct (nth_error (t_x t) k) as [r|] eqn:Er; [|apply nth_error_None in Er; lia].
        assert (Hyk : nth_error (t_y t) k = Some (pt_weight u * pt_value u)) by (rewrite Hy, nth_error_map, Hk; reflexivity).
        specialize (H k r _ Er Hyk). rewrite (dot_weighted p (pt_weight u) r (scaled (pt_row u)) c (HN k r u Er Hk)) in H.
        apply (Rmult_eq_reg_l (pt_weight u)); assumption.
      + intros H k r y Hr Hyk. rewrite Hy, nth_error_map in Hyk. destruct (nth_error T k) as [u|] eqn:Ek; [|discriminate].
        cbn in Hyk. injection Hyk as <-. rewrite (dot_weighted p (pt_weight u) r (scaled (pt_row u)) c (HN k r u Hr Ek)).
        destruct (Req_dec (pt_weight u) 0) as [->|Hnz]; [cbn; ring|]. f_equal. apply H; [|exact Hnz].
        apply (Permutation_in _ HP). eapply nth_error_In, Ek.
  Qed.
End W.

Lemma stress_without_force {F St} {N : Num F} we wf wsf (x : list (vec F)) (y w : list F) (data : ds F St) d
    (first : nat * Z * Z) weight_stress min_e :
  ds_dft data = Some d -> ds_force data = false -> ds_stress data = true ->
  length x = length (energies d) -> length y = length x -> length w = length x ->
  length (total_n_atoms d) = length (energies d) -> fst (fst first) = 0%nat ->
  apply_weights we wf wsf (x, y, w) data first weight_stress min_e = Err UnboundLocalError.
Proof.
  intros Hd Hf Hs Hx Hy Hw Ht H0. destruct first as [[e f] s]. cbn [fst] in H0. subst e.
  unfold apply_weights, get_dft. rewrite Hd. cbn [bind]. rewrite Hf, Hs. unfold mul_slice, times, set_slice, slice.
  cbn [Nat.add skipn]. rewrite !map_length, !combine_length, !map_length, !combine_length, !firstn_length.
  rewrite Hw, Hy, Hx, Ht, !Nat.min_id, Nat.sub_0_r, Nat.eqb_refl. reflexivity.
Qed.
