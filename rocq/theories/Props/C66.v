(** C66: the errors that are reported for a data set are those of its records. *)
From Verif Require Import Base Num NumR Model.Structure Model.DatasetDFT Model.Accuracy Spec.Dataset Spec.Accuracy Proofs.Structure Proofs.Accuracy Proofs.AccuracyKeys Proofs.AccuracyDirection.
From Coq Require Import Reals Lra.
From Coq Require String.
From Coq Require Import Ascii.
Import String.StringSyntax.
Local Open Scope string_scope.
Local Open Scope list_scope.
Local Open Scope R_scope.

Section C66.
  Context {S : Type}.
  Variables (s_natoms : S -> list nat) (s_volume : S -> R) (eval_multiple : list S -> res (list (R * list (R * R * R) * list R))).
  Variables (eV_to_GPa thousand : R) (deg_acos : R -> R).
  Notation single := (compute_error_single S s_natoms s_volume eval_multiple eV_to_GPa thousand deg_acos).
  Notation many := (compute_error S s_natoms s_volume eval_multiple eV_to_GPa thousand deg_acos).
  Variable pred : S -> R * list (R * R * R) * list R.

  (** The records carry the atom counts and volumes of their structures, and the potential returns one value of the right
      shape for each structure. *)
  Definition evaluated (rs : list (rec R S)) : Prop :=
    eval_multiple (map r_structure rs) = Ok (map (fun r => pred (r_structure r)) rs) /\
    Forall rec_ok rs /\ Forall (shaped pred) rs /\
    Forall (fun r => r_natom r = sum (s_natoms (r_structure r)) /\ r_volume r = s_volume (r_structure r)) rs.
  (** What a stress is divided by: the number of atoms (eV per atom), or the volume in the unit eV/GPa *)
  Definition per (u : stress_unit) (r : rec R S) : R :=
    match u with GPa => r_volume r / eV_to_GPa | _ => INR (r_natom r) end.
  Definition row (k t p : R) : list R := [t; p; k * (t - p)].

  Lemma columns_components l : flat_map column l = components l.
  Proof. unfold components. apply flat_ext. intros [[x y] z] _. reflexivity. Qed.
  Lemma components_length l : length (components l) = (3 * length l)%nat.
  Proof. unfold components. induction l; cbn [flat_map length app]; lia. Qed.
  Lemma flat_nonempty {A B} (f : A -> list B) l : l <> [] -> Forall (fun x => (0 < length (f x))%nat) l -> flat_map f l <> [].
  Proof. destruct l as [|x l]; [congruence|]. intros _ H E. inversion H; subst. cbn in E. apply app_eq_nil in E. destruct E as [E _]. rewrite E in *. cbn in *. lia. Qed.

  Ltac fin := first [assumption|reflexivity|eexists _, _; split; [reflexivity|]; split; [reflexivity|]; split; assumption|split; fin].
  Section Run.
    Variables (els : list string) (ef es : bool) (rs : list (rec R S)) (u : stress_unit).
    Hypotheses (HE : evaluated rs) (HN : rs <> []).

    Lemma energy_part : exists r m,
      compute_rmse (map r_energy rs) (map (p_energy pred) rs) (Some (map (fun r => INR (r_natom r)) rs))
      = Ok (r, map (fun r => r_energy r / INR (r_natom r)) rs, map (fun r => p_energy pred r / INR (r_natom r)) rs) /\
      compute_mae (map r_energy rs) (map (p_energy pred) rs) (Some (map (fun r => INR (r_natom r)) rs)) = Ok m /\
      mean_square (map (energy_dev pred) rs) r /\ mean_abs (map (energy_dev pred) rs) m.
    Proof.
      rewrite !map_flat. apply (rmse_flat (fun r => [r_energy r]) (fun r => [p_energy pred r]) (fun _ => 1%nat) (fun r => INR (r_natom r)) rs); [reflexivity|reflexivity|].
      apply flat_nonempty; [exact HN|]. rewrite Forall_forall. cbn. lia.
    Qed.
    Lemma force_len r : In r rs -> length (r_force r) = (3 * r_natom r)%nat /\ length (p_force pred r) = (3 * r_natom r)%nat.
    Proof.
      intros Hr. destruct HE as (_ & H1 & H2 & _). rewrite Forall_forall in H1, H2. destruct (H1 r Hr) as (_ & H3 & _). destruct (H2 r Hr) as (H4 & _).
      split; [exact H3|]. unfold p_force. now rewrite components_length, H4.
    Qed.
    Lemma stress_len r : In r rs -> length (r_stress r) = 6%nat /\ length (p_stress pred r) = 6%nat.
    Proof.
      intros Hr. destruct HE as (_ & H1 & H2 & _). rewrite Forall_forall in H1, H2. destruct (H1 r Hr) as (_ & _ & H3). destruct (H2 r Hr) as (_ & H4). now split.
    Qed.
    Lemma force_part : exists r m,
      compute_rmse (flat_map r_force rs) (flat_map (p_force pred) rs) None = Ok (r, flat_map r_force rs, flat_map (p_force pred) rs) /\
      compute_mae (flat_map r_force rs) (flat_map (p_force pred) rs) None = Ok m /\
      mean_square (flat_map (force_dev pred) rs) r /\ mean_abs (flat_map (force_dev pred) rs) m.
    Proof.
      apply (rmse_plain r_force (p_force pred) (fun r => (3 * r_natom r)%nat) (fun _ => 1) rs); [intros; now apply force_len|intros; now apply force_len|].
      apply flat_nonempty; [exact HN|]. rewrite Forall_forall. intros r Hr. destruct (force_len r Hr) as [-> _]. destruct HE as (_ & H1 & _). rewrite Forall_forall in H1. destruct (H1 r Hr). lia.
    Qed.
    Lemma stress_part c : exists r m,
      compute_rmse (flat_map r_stress rs) (flat_map (p_stress pred) rs) (Some (flat_map (fun r => repeat (c r) 6) rs))
      = Ok (r, flat_map (quot (fun _ => 6%nat) c r_stress) rs, flat_map (quot (fun _ => 6%nat) c (p_stress pred)) rs) /\
      compute_mae (flat_map r_stress rs) (flat_map (p_stress pred) rs) (Some (flat_map (fun r => repeat (c r) 6) rs)) = Ok m /\
      mean_square (flat_map (stress_dev pred c) rs) r /\ mean_abs (flat_map (stress_dev pred c) rs) m.
    Proof.
      apply (rmse_flat r_stress (p_stress pred) (fun _ => 6%nat) c rs); [intros; now apply stress_len|intros; now apply stress_len|].
      apply flat_nonempty; [exact HN|]. rewrite Forall_forall. intros r Hr. destruct (stress_len r Hr) as [-> _]. lia.
    Qed.
    Lemma natoms_ok : map (fun st => nnat (sum (s_natoms st))) (map r_structure rs) = map (fun r => INR (r_natom r)) rs.
    Proof.
      rewrite map_map. apply map_ext_in. intros r Hr. rewrite nnat_INR. destruct HE as (_ & _ & _ & H). rewrite Forall_forall in H. now destruct (H r Hr) as [-> _].
    Qed.
    Lemma volumes_ok : map s_volume (map r_structure rs) = map r_volume rs.
    Proof. rewrite map_map. apply map_ext_in. intros r Hr. destruct HE as (_ & _ & _ & H). rewrite Forall_forall in H. now destruct (H r Hr) as [_ ->]. Qed.
    Lemma repeat6_map (g : rec R S -> R) : repeat6 (map g rs) = flat_map (fun r => repeat (g r) 6) rs.
    Proof. clear. unfold repeat6. induction rs as [|r l IH]; [reflexivity|]. cbn [map flat_map]. now rewrite IH. Qed.
    Lemma normalize_ok : u <> Other -> normalizer eV_to_GPa u (map (fun r => INR (r_natom r)) rs) (map r_volume rs) = Some (flat_map (fun r => repeat (per u r) 6) rs).
    Proof.
      unfold normalizer. destruct u; intros H; [|f_equal|congruence]; [now rewrite repeat6_map|]. rewrite repeat6_map, map_flat_map. apply flat_ext. intros r _. cbn. reflexivity.
    Qed.
    Lemma values_ok : exists vals : list (value (F := R)), eval_multiple (map r_structure rs) = Ok vals /\ map v_energy vals = map (p_energy pred) rs /\
      flat_map (fun v => flat_map column (v_force v)) vals = flat_map (p_force pred) rs /\ flat_map v_stress vals = flat_map (p_stress pred) rs.
    Proof.
      destruct HE as (E & _). eexists. split; [exact E|]. rewrite map_map. split; [reflexivity|]. clear. split.
      - induction rs as [|r l IH]; [reflexivity|]. cbn [map flat_map]. rewrite IH. f_equal. apply columns_components.
      - induction rs as [|r l IH]; [reflexivity|]. cbn [map flat_map]. now rewrite IH.
    Qed.
    Lemma quot_table (k : R) (c : rec R S -> R) :
      table k (flat_map (quot (fun _ => 6%nat) c r_stress) rs) (flat_map (quot (fun _ => 6%nat) c (p_stress pred)) rs)
      = flat_map (fun r => map (fun q => row k (fst q / c r) (snd q / c r)) (combine (r_stress r) (p_stress pred r))) rs.
    Proof.
      unfold table. rewrite combine_flat, map_flat_map.
      - apply flat_ext. intros r Hr. destruct (stress_len r Hr) as [H1 H2]. unfold quot. revert H1 H2. generalize (r_stress r), (p_stress pred r), 6%nat.
        intros a b n. revert a b. induction n as [|n IH]; intros [|x a] [|y b] H1 H2; try discriminate; [reflexivity|]. cbn [repeat combine map fst snd]. f_equal.
        apply IH; [now injection H1|now injection H2].
      - intros r Hr. destruct (stress_len r Hr) as [H1 H2]. unfold quot. now rewrite !scaled_len.
    Qed.

    (** The errors are the root mean squares and the mean absolute values of the deviations of all the records, energies per
        atom, forces and stresses component by component; the files list the two values and the difference, the energy
        with the name of the structure. *)
    Theorem C66_errors (le lf ls : bool) :
      (lf = true -> ef = true) -> (ls = true -> es = true) -> (es = true -> u <> Other) ->
      exists E L, single (layout els ef es rs) u le lf ls false = Ok (E, L) /\ (percent_norm E = None /\ angle E = None) /\
        (mean_square (map (energy_dev pred) rs) (rmse_energy E) /\ mean_abs (map (energy_dev pred) rs) (mae_energy E)) /\
        (if ef then exists r m, rmse_force E = Some r /\ mae_force E = Some m /\ mean_square (flat_map (force_dev pred) rs) r /\ mean_abs (flat_map (force_dev pred) rs) m
         else rmse_force E = None /\ mae_force E = None) /\
        (if es then exists r m, rmse_stress E = Some r /\ mae_stress E = Some m /\ mean_square (flat_map (stress_dev pred (per u)) rs) r /\ mean_abs (flat_map (stress_dev pred (per u)) rs) m
         else rmse_stress E = None /\ mae_stress E = None) /\
        log_e L = (if le then Some (map (fun r => (row thousand (r_energy r / INR (r_natom r)) (p_energy pred r / INR (r_natom r)), r_file r)) rs) else None) /\
        log_f L = (if lf then Some (flat_map (fun r => map (fun q => row 1 (fst q) (snd q)) (combine (r_force r) (p_force pred r))) rs) else None) /\
        log_s L = (if ls then Some (flat_map (fun r => map (fun q => row 1 (fst q / per u r) (snd q / per u r)) (combine (r_stress r) (p_stress pred r))) rs) else None).
    Proof.
      intros HF HS HU. unfold compute_error_single. cbn [structures energies forces stresses files exist_force exist_stress layout].
      destruct values_ok as (vals & EV0 & V1 & V2 & V3). rewrite EV0. cbn [bind]. rewrite V1, V2, V3. rewrite natoms_ok, volumes_ok.
      destruct energy_part as (re & me & E1 & E2 & E3 & E4). rewrite E1. cbn [bind]. rewrite E2. cbn [bind].
      destruct force_part as (rf & mf & F1 & F2 & F3 & F4). destruct (stress_part (per u)) as (r_s & m_s & S1 & S2 & S3 & S4).
      assert (TE : combine (table thousand (map (fun r => r_energy r / INR (r_natom r)) rs) (map (fun r => p_energy pred r / INR (r_natom r)) rs)) (map r_file rs)
                   = map (fun r => (row thousand (r_energy r / INR (r_natom r)) (p_energy pred r / INR (r_natom r)), r_file r)) rs).
      { clear. unfold table. induction rs as [|r l IH]; [reflexivity|]. cbn [map combine fst snd]. now rewrite <- IH. }
      assert (TF : table 1 (flat_map r_force rs) (flat_map (p_force pred) rs) = flat_map (fun r => map (fun q => row 1 (fst q) (snd q)) (combine (r_force r) (p_force pred r))) rs).
      { unfold table. rewrite combine_flat, map_flat_map; [reflexivity|]. intros r Hr. destruct (force_len r Hr) as [-> ->]. reflexivity. }
      pose proof (quot_table 1 (per u)) as TS.
      rewrite TE.
      destruct ef; cbn [negb]; [rewrite F1; cbn [bind]; rewrite F2; cbn [bind]|destruct lf; [now specialize (HF eq_refl)|]; cbn [bind]].
      - destruct es; cbn [negb].
        + rewrite (normalize_ok (HU eq_refl)). cbn [local bind]. rewrite S1. cbn [bind]. rewrite S2. cbn [bind].
          destruct le, lf, ls; cbn [bind local]; (eexists _, _; split; [reflexivity|]; cbn; rewrite ?TF, ?TS; fin).
        + destruct ls; [now specialize (HS eq_refl)|]. cbn [bind].
          destruct le, lf; cbn [bind local]; (eexists _, _; split; [reflexivity|]; cbn; rewrite ?TF; fin).
      - destruct es; cbn [negb].
        + rewrite (normalize_ok (HU eq_refl)). cbn [local bind]. rewrite S1. cbn [bind]. rewrite S2. cbn [bind].
          destruct le, ls; cbn [bind local]; (eexists _, _; split; [reflexivity|]; cbn; rewrite ?TS; fin).
        + destruct ls; [now specialize (HS eq_refl)|]. cbn [bind].
          destruct le; cbn [bind local]; (eexists _, _; split; [reflexivity|]; cbn; fin).
    Qed.

    (** A file of forces or stresses that the data do not have, or an unknown unit, is a failure of Python. *)
    Theorem C66_fails (le lf ls fd : bool) :
      fd = false -> (lf = true /\ ef = false) \/ (ls = true /\ es = false) \/ (es = true /\ u = Other) ->
      single (layout els ef es rs) u le lf ls fd = Err UnboundLocalError.
    Proof.
      intros -> H. unfold compute_error_single. cbn [structures energies forces stresses files exist_force exist_stress layout].
      destruct values_ok as (vals & EV0 & V1 & V2 & V3). rewrite EV0. cbn [bind]. rewrite V1, V2, V3. rewrite natoms_ok, volumes_ok.
      destruct energy_part as (re & me & E1 & E2 & _). rewrite E1. cbn [bind]. rewrite E2. cbn [bind].
      destruct force_part as (rf & mf & F1 & F2 & _). destruct (stress_part (per u)) as (r_s & m_s & S1 & S2 & _).
      assert (HN' : u = Other \/ u <> Other) by (destruct u; auto; right; discriminate).
      assert (HZ : u = Other -> normalizer eV_to_GPa u (map (fun r => INR (r_natom r)) rs) (map r_volume rs) = None) by (intros ->; reflexivity).
      destruct ef; cbn [negb]; [rewrite F1; cbn [bind]; rewrite F2; cbn [bind]|cbn [bind]]; (destruct es; cbn [negb]; [destruct HN' as [HN' | HN']; [rewrite (HZ HN'); reflexivity|rewrite (normalize_ok HN'); cbn [local bind]; rewrite S1; cbn [bind]; rewrite S2; cbn [bind]]|cbn [bind]]).
      all: destruct H as [[-> H]|[[-> H]|[H H']]]; try discriminate; try congruence.
      all: destruct le; try destruct lf; reflexivity.
    Qed.
  End Run.

  (** The order of the records does not matter. *)
  Theorem C66_order els els' ef es rs rs' u le lf ls le' lf' ls' E L E' L' : evaluated rs -> evaluated rs' -> rs <> [] -> Permutation rs rs' ->
    single (layout els ef es rs) u le lf ls false = Ok (E, L) -> single (layout els' ef es rs') u le' lf' ls' false = Ok (E', L') -> E = E'.
  Proof.
    intros H1 H2 HN HP R1 R2.
    assert (HN' : rs' <> []) by (intros ->; apply HN; now apply Permutation_nil, Permutation_sym).
    assert (C : forall els rs le lf ls E L, evaluated rs -> rs <> [] -> single (layout els ef es rs) u le lf ls false = Ok (E, L) -> (lf = true -> ef = true) /\ (ls = true -> es = true) /\ (es = true -> u <> Other)).
    { clear. intros els rs le lf ls E L H HN R. pose proof (C66_fails els ef es rs u H HN le lf ls false eq_refl) as X.
      repeat split; intros HX.
      - destruct ef; [reflexivity|]. rewrite X in R by auto. discriminate.
      - destruct es; [reflexivity|]. rewrite X in R by auto. discriminate.
      - intros HU. rewrite X in R by auto. discriminate. }
    destruct (C _ _ _ _ _ _ _ H1 HN R1) as (A1 & A2 & A3). destruct (C _ _ _ _ _ _ _ H2 HN' R2) as (B1 & B2 & B3). clear C.
    destruct (C66_errors els ef es rs u H1 HN le lf ls A1 A2 A3) as (E0 & L0 & Q & (P1 & P2) & (P3 & P4) & P5 & P6 & _).
    rewrite Q in R1. assert (E0 = E) by congruence. subst E0. clear Q R1 L0.
    destruct (C66_errors els' ef es rs' u H2 HN' le' lf' ls' B1 B2 B3) as (E0 & L0 & Q & (Q1 & Q2) & (Q3 & Q4) & Q5 & Q6 & _).
    rewrite Q in R2. assert (E0 = E') by congruence. subst E0. clear Q R2 L0.
    assert (NE : map (energy_dev pred) rs' <> []) by (destruct rs'; [congruence|discriminate]).
    assert (NF : flat_map (force_dev pred) rs' <> []).
    { apply flat_nonempty; [exact HN'|]. rewrite Forall_forall. intros r Hr. destruct (force_len rs' H2 r Hr) as [L1 L2]. unfold force_dev. rewrite map_length, combine_length, L1, L2.
      destruct H2 as (_ & H2 & _). rewrite Forall_forall in H2. destruct (H2 r Hr). lia. }
    assert (NS : flat_map (stress_dev pred (per u)) rs' <> []).
    { apply flat_nonempty; [exact HN'|]. rewrite Forall_forall. intros r Hr. destruct (stress_len rs' H2 r Hr) as [L1 L2]. unfold stress_dev. rewrite map_length, combine_length, L1, L2. lia. }
    apply (rms_perm _ (map (energy_dev pred) rs')) in P3; [|now apply Permutation_map]. apply (abs_perm _ (map (energy_dev pred) rs')) in P4; [|now apply Permutation_map].
    destruct E as [e1 e2 e3 e4 e5 e6 e7 e8], E' as [f1 f2 f3 f4 f5 f6 f7 f8]. cbn in *.
    rewrite (rms_unique _ _ _ NE P3 Q3), (abs_unique _ _ _ NE P4 Q4). subst.
    assert (G1 : e2 = f2 /\ e5 = f5).
    { destruct ef; [|intuition congruence]. destruct P5 as (r & m & -> & -> & X1 & X2), Q5 as (r' & m' & -> & -> & Y1 & Y2).
      apply (rms_perm _ (flat_map (force_dev pred) rs')) in X1; [|now apply Permutation_flat_map]. apply (abs_perm _ (flat_map (force_dev pred) rs')) in X2; [|now apply Permutation_flat_map].
      now rewrite (rms_unique _ _ _ NF X1 Y1), (abs_unique _ _ _ NF X2 Y2). }
    assert (G2 : e3 = f3 /\ e6 = f6).
    { destruct es; [|intuition congruence]. destruct P6 as (r & m & -> & -> & X1 & X2), Q6 as (r' & m' & -> & -> & Y1 & Y2).
      apply (rms_perm _ (flat_map (stress_dev pred (per u)) rs')) in X1; [|now apply Permutation_flat_map]. apply (abs_perm _ (flat_map (stress_dev pred (per u)) rs')) in X2; [|now apply Permutation_flat_map].
      now rewrite (rms_unique _ _ _ NS X1 Y1), (abs_unique _ _ _ NS X2 Y2). }
    destruct G1 as [-> ->], G2 as [-> ->]. reflexivity.
  Qed.

  (** Absolute errors are below the root mean squares, and the errors vanish exactly when all the predictions are right. *)
  Lemma diff_zero (a b : list R) c : c <> 0 -> length a = length b -> (Forall (fun x => x = 0) (map (fun q => (fst q - snd q) / c) (combine a b)) <-> a = b).
  Proof.
    intros Hc. revert b. induction a as [|x a IH]; intros [|y b] HL; try discriminate; cbn; [split; [reflexivity|constructor]|].
    injection HL as HL. specialize (IH b HL). rewrite Forall_cons_iff, IH. split.
    - intros [H ->]. f_equal. apply Rmult_integral in H. destruct H as [H|H]; [lra|]. now apply Rinv_neq_0_compat in H.
    - intros [= -> ->]. split; [unfold Rdiv; ring|reflexivity].
  Qed.
  Lemma Forall_flat {A B} (P : B -> Prop) (f : A -> list B) l : Forall P (flat_map f l) <-> Forall (fun x => Forall P (f x)) l.
  Proof. induction l as [|x l IH]; cbn; [split; constructor|]. now rewrite Forall_app, Forall_cons_iff, IH. Qed.
  Lemma Forall_iff {A} (P Q : A -> Prop) l : (forall x, In x l -> P x <-> Q x) -> Forall P l <-> Forall Q l.
  Proof. intros H. rewrite !Forall_forall. split; intros G x Hx; apply H; auto. Qed.

  Theorem C66_bounds els ef es rs u le lf ls E L : evaluated rs -> rs <> [] -> (forall r, In r rs -> per u r <> 0) ->
    single (layout els ef es rs) u le lf ls false = Ok (E, L) ->
    (0 <= mae_energy E <= rmse_energy E /\ (rmse_energy E = 0 <-> Forall (fun r => p_energy pred r = r_energy r) rs)) /\
    (forall r m, rmse_force E = Some r -> mae_force E = Some m -> 0 <= m <= r /\ (r = 0 <-> Forall (fun x => p_force pred x = r_force x) rs)) /\
    (forall r m, rmse_stress E = Some r -> mae_stress E = Some m -> 0 <= m <= r /\ (r = 0 <-> Forall (fun x => p_stress pred x = r_stress x) rs)).
  Proof.
    intros H HN HV R. pose proof (C66_fails els ef es rs u H HN le lf ls false eq_refl) as X.
    destruct (C66_errors els ef es rs u H HN le lf ls) as (E0 & L0 & Q & _ & (P3 & P4) & P5 & P6 & _).
    { intros HX. destruct ef; [reflexivity|]. rewrite X in R by auto. discriminate. }
    { intros HX. destruct es; [reflexivity|]. rewrite X in R by auto. discriminate. }
    { intros HX HU. rewrite X in R by auto. discriminate. }
    rewrite Q in R. assert (E0 = E) by congruence. subst E0. clear Q R X.
    assert (NE : map (energy_dev pred) rs <> []) by (destruct rs; [congruence|discriminate]).
    assert (NF : flat_map (force_dev pred) rs <> []).
    { apply flat_nonempty; [exact HN|]. rewrite Forall_forall. intros r Hr. destruct (force_len rs H r Hr) as [L1 L2]. unfold force_dev. rewrite map_length, combine_length, L1, L2.
      destruct H as (_ & H2 & _). rewrite Forall_forall in H2. destruct (H2 r Hr). lia. }
    assert (NS : flat_map (stress_dev pred (per u)) rs <> []).
    { apply flat_nonempty; [exact HN|]. rewrite Forall_forall. intros r Hr. destruct (stress_len rs H r Hr) as [L1 L2]. unfold stress_dev. rewrite map_length, combine_length, L1, L2. lia. }
    split; [|split].
    - split; [exact (mae_rmse _ _ _ NE P3 P4)|]. rewrite (rms_zero _ _ NE P3), Forall_map. apply Forall_iff. intros r Hr. unfold energy_dev.
      assert (HK : INR (r_natom r) <> 0). { apply not_0_INR. destruct H as (_ & H & _). rewrite Forall_forall in H. destruct (H r Hr). lia. }
      split; [|intros ->; unfold Rdiv; ring]. intros HD. apply Rmult_integral in HD. destruct HD as [HD|HD]; [lra|]. now apply Rinv_neq_0_compat in HD.
    - intros r m ER EM. destruct ef; [|destruct P5; congruence]. destruct P5 as (r0 & m0 & ER0 & EM0 & X1 & X2). assert (r0 = r) by congruence. assert (m0 = m) by congruence. subst r0 m0.
      split; [exact (mae_rmse _ _ _ NF X1 X2)|]. rewrite (rms_zero _ _ NF X1), Forall_flat. apply Forall_iff. intros x Hx. destruct (force_len rs H x Hx) as [L1 L2].
      unfold force_dev. rewrite (map_ext _ (fun q => (fst q - snd q) / 1)) by (intros q; field). rewrite diff_zero by (lra || congruence). split; congruence.
    - intros r m ER EM. destruct es; [|destruct P6; congruence]. destruct P6 as (r0 & m0 & ER0 & EM0 & X1 & X2). assert (r0 = r) by congruence. assert (m0 = m) by congruence. subst r0 m0.
      split; [exact (mae_rmse _ _ _ NS X1 X2)|]. rewrite (rms_zero _ _ NS X1), Forall_flat. apply Forall_iff. intros x Hx. destruct (stress_len rs H x Hx) as [L1 L2].
      unfold stress_dev. rewrite diff_zero by (auto || congruence). split; congruence.
  Qed.

  (** A union of data sets: the squared errors are averaged with the numbers of structures, and of force components. *)
  Theorem C66_pooled (a b : list R) ra rb r : mean_square a ra -> mean_square b rb -> mean_square (a ++ b) r ->
    r * r * (INR (length a) + INR (length b)) = ra * ra * INR (length a) + rb * rb * INR (length b).
  Proof. intros [_ Ea] [_ Eb] [_ E]. rewrite app_length, plus_INR, map_app, total_app, <- Ea, <- Eb in E. exact E. Qed.

  (** Many data sets: each name and each file key belongs to the last data set that has it. *)
  Theorem C66_names ds u le lf ls tag E Fs : many ds u le lf ls tag = Ok (E, Fs) ->
    (forall pre name d post, ds = pre ++ (name, d) :: post -> exists x l, single d u le lf ls false = Ok (x, l) /\
       (~ In name (map fst post) -> lookup name E = Some x) /\
       (~ In (output_key name tag) (map (fun q => output_key (fst q) tag) post) -> lookup (output_key name tag) Fs = Some l)) /\
    (forall k, ~ In k (map fst ds) -> lookup k E = None) /\
    (NoDup (map fst ds) -> map fst E = map fst ds).
  Proof.
    set (step := fun acc q => do (x, l) <- single (snd q) u le lf ls false; Ok (dict_set (fst q) x (fst acc), dict_set (output_key (fst q) tag) l (snd acc))).
    unfold compute_error. change (foldM step ([], []) ds = Ok (E, Fs) -> (forall pre name d post, ds = pre ++ (name, d) :: post -> exists x l, single d u le lf ls false = Ok (x, l) /\
       (~ In name (map fst post) -> lookup name E = Some x) /\
       (~ In (output_key name tag) (map (fun q => output_key (fst q) tag) post) -> lookup (output_key name tag) Fs = Some l)) /\
    (forall k, ~ In k (map fst ds) -> lookup k E = None) /\ (NoDup (map fst ds) -> map fst E = map fst ds)).
    revert E Fs. induction ds as [|q ds IH] using rev_ind; intros E Fs R.
    - cbn in R. assert (E = []) by congruence. subst. split; [intros [|] ? ? ? ?; discriminate|]. now split.
    - rewrite foldM_app in R. destruct (foldM step ([], []) ds) as [[E0 F0]|] eqn:R0; [|discriminate]. cbn [bind foldM] in R. unfold step at 1 in R.
      destruct (single (snd q) u le lf ls false) as [[x l]|] eqn:RQ; [|discriminate]. cbn [bind fst snd] in R.
      assert (HE : E = dict_set (fst q) x E0) by congruence. assert (HF : Fs = dict_set (output_key (fst q) tag) l F0) by congruence. subst E Fs. clear R.
      destruct (IH E0 F0 eq_refl) as (I1 & I2 & I3). clear IH. split; [|split].
      + intros pre name d post HD. destruct post as [|z post _] using rev_ind.
        * apply app_inj_tail in HD. destruct HD as [_ ->]. cbn [fst snd] in *. exists x, l. split; [exact RQ|]. split; intros _; apply lookup_set_same.
        * rewrite app_comm_cons, app_assoc in HD. apply app_inj_tail in HD. destruct HD as [-> ->]. destruct (I1 pre name d post eq_refl) as (x' & l' & J1 & J2 & J3).
          exists x', l'. split; [exact J1|]. rewrite !map_app. cbn [map]. split; intros HI.
          -- rewrite lookup_set_other; [apply J2|]; intros C; apply HI, in_or_app; [now left|right; left; congruence].
          -- rewrite lookup_set_other; [apply J3|]; intros C; apply HI, in_or_app; [now left|right; left; congruence].
      + intros k HK. rewrite map_app, in_app_iff in HK. cbn in HK. rewrite lookup_set_other by (intros ->; tauto). apply I2. tauto.
      + intros HN. rewrite map_app in HN |- *. cbn [map] in *. apply NoDup_remove in HN. rewrite app_nil_r in HN. destruct HN as [HN HQ]. specialize (I3 HN).
        rewrite set_fresh by (rewrite I3; exact HQ). rewrite map_app, I3. reflexivity.
  Qed.
End C66.
Print Assumptions C66_errors.
Print Assumptions C66_fails.
Print Assumptions C66_order.
Print Assumptions C66_bounds.
Print Assumptions C66_pooled.
Print Assumptions C66_names.

(** Names without the four special characters have their own files; other names can share one, and then the later data set
    overwrites the file of the earlier one. *)
Definition plain (c : Ascii.ascii) : bool := not_char "*"%char c && not_char "."%char c && not_char "/"%char c && not_char "-"%char c.
Lemma plain_split s : all_chars plain s = true -> all_chars (not_char "*"%char) s = true /\ all_chars (not_char "."%char) s = true /\ all_chars (not_char "/"%char) s = true /\ all_chars (not_char "-"%char) s = true.
Proof.
  induction s as [|c s IH]; intros H; [now repeat split|]. cbn [all_chars] in *. apply andb_true_iff in H. destruct H as [H1 H2]. unfold plain in H1.
  rewrite !andb_true_iff in H1. destruct H1 as (((A1 & A2) & A3) & A4). destruct (IH H2) as (B1 & B2 & B3 & B4). rewrite A1, A2, A3, A4. now repeat split.
Qed.
Theorem C66_key (name tag : string) : all_chars plain name = true -> all_chars (not_char "-"%char) tag = true -> output_key name tag = String.append tag (String.append "-" name).
Proof.
  intros HN HT. destruct (plain_split name HN) as (H1 & H2 & H3 & H4). unfold output_key.
  rewrite (replace_absent "*"%char "" "-" name H1), (replace_absent "."%char "./" "" name H2), (replace_absent "."%char "" "-" name H2), (replace_absent "/"%char "" "-" name H3).
  change (String.append "-" name) with (String.String "-"%char name).
  rewrite (replace_through "-"%char "--" "-" tag _ HT), (replace_head "-"%char "-" "-" name H4), (replace_through "-"%char "-" "-" tag _ HT). f_equal. apply (replace_head "-"%char "" "-" name H4).
Qed.
Print Assumptions C66_key.
Theorem C66_key_distinct (a b tag : string) : all_chars plain a = true -> all_chars plain b = true -> all_chars (not_char "-"%char) tag = true ->
  output_key a tag = output_key b tag -> a = b.
Proof. intros HA HB HT E. rewrite !C66_key in E by assumption. apply append_inj in E. now injection E. Qed.
Print Assumptions C66_key_distinct.
Theorem C66_key_refuted : output_key "set.1/*" "train" = output_key "set-1/*" "train" /\ output_key "../data" "test" = output_key "data" "test".
Proof. split; reflexivity. Qed.
Print Assumptions C66_key_refuted.

(** The direction error: no failure, and zero exactly when every prediction lies on the line of the true force, whatever its sign. *)
Theorem C66_direction (deg_acos : R -> R) (ts ps : list (R * R * R)) : length ts = length ps -> ts <> [] ->
  Forall (fun v => length3 v <> 0) ts -> Forall (fun v => length3 v <> 0) ps ->
  exists a c, direction deg_acos (components ts) (components ps) = Ok (a, deg_acos c) /\
    mean_abs (map (fun q => (length3 (snd q) - length3 (fst q)) / length3 (fst q)) (combine ts ps)) a /\
    0 <= c <= 1 /\ (c = 1 <-> Forall2 parallel ts ps) /\ (a = 0 <-> Forall2 (fun v w => length3 v = length3 w) ts ps).
Proof.
  intros HL HN HT HP. unfold direction. rewrite !rows3_components. cbn [bind].
  set (d := map (fun q => (length3 (snd q) - length3 (fst q)) / length3 (fst q)) (combine ts ps)).
  assert (E1 : (do d0 <- zipb nsub (map norm3 ps) (map norm3 ts); zipb ndiv d0 (map norm3 ts)) = Ok d).
  { rewrite (zipb_ok Rminus) by (rewrite !map_length; symmetry; exact HL). cbn [bind]. rewrite (zipb_ok Rdiv) by (rewrite map_length, combine_length, !map_length; change vec3 with (R * R * R)%type in *; lia). f_equal. unfold d. clear -HL.
    revert ps HL. induction ts as [|t ts IH]; intros [|p ps] HL; try discriminate; [reflexivity|]. cbn [map combine fst snd]. rewrite !norm3_length. f_equal. apply IH. now injection HL. }
  rewrite E1. cbn [bind].
  match goal with |- context [nltb _ (mean ?x)] => set (cs := x) end.
  assert (E2 : cs = map (fun q => Rabs (cosine (fst q) (snd q))) (combine ts ps)).
  { unfold cs. rewrite map_map. apply map_ext_in. intros [v w] Hin. rewrite Forall_forall in HT, HP. cbn [fst snd]. rewrite unit_dot; [reflexivity|apply HT; now apply in_combine_l in Hin|apply HP; now apply in_combine_r in Hin]. }
  assert (HC : combine ts ps <> []) by (destruct ts, ps; congruence || discriminate).
  assert (HB : Forall (fun x => x <= 1) cs).
  { rewrite E2, Forall_map, Forall_forall. intros [v w] Hin. rewrite Forall_forall in HT, HP. apply cosine_bound; [apply HT; now apply in_combine_l in Hin|apply HP; now apply in_combine_r in Hin]. }
  assert (HCS : cs <> []) by (rewrite E2; destruct (combine ts ps); [congruence|discriminate]).
  destruct (mean_le cs HCS HB) as [M1 M2]. destruct (nltb (@n1 R R_num) (mean cs)) eqn:EL; [apply Rltb_true in EL; change (@n1 R R_num) with 1 in EL; lra|].
  assert (HD : d <> []) by (unfold d; destruct (combine ts ps); [congruence|discriminate]).
  exists (mean (map nabs d)), (mean cs). split; [reflexivity|]. split; [now apply abs_ok|]. split; [split; [|exact M1]|split].
  - rewrite mean_ok. apply Rmult_le_pos; [rewrite E2; clear; unfold total; induction (combine ts ps) as [|q l IH]; cbn; [lra|]; pose proof (Rabs_pos (cosine (fst q) (snd q))); lra|].
    left. apply Rinv_0_lt_compat. now apply len_pos.
  - rewrite M2, E2, Forall_map. clear -HL HT HP. revert ps HL HP. induction HT as [|v ts Hv HT IH]; intros [|w ps] HL HP; try discriminate; cbn [combine]; [split; constructor|].
    inversion HP as [|? ? Hw HP']; subst. injection HL as HL. rewrite Forall_cons_iff, (IH ps HL HP'). cbn [fst snd]. rewrite cosine_one by assumption.
    split; [intros [A B]; now constructor|]. intros H. inversion H; subst. now split.
  - change (nabs (F := R)) with Rabs. rewrite (mean_abs_zero d HD). unfold d. rewrite Forall_map. clear -HL HT HP. revert ps HL HP. induction HT as [|v ts Hv HT IH]; intros [|w ps] HL HP; try discriminate; cbn [combine]; [split; constructor|].
    inversion HP as [|? ? Hw HP']; subst. injection HL as HL. rewrite Forall_cons_iff, (IH ps HL HP'). cbn [fst snd].
    assert (G : (length3 w - length3 v) / length3 v = 0 <-> length3 v = length3 w).
    { split; [|intros ->; unfold Rdiv; ring]. intros E. apply Rmult_integral in E. destruct E as [E|E]; [lra|]. apply Rinv_neq_0_compat in E; [destruct E|assumption]. }
    rewrite G. split; [intros [A B]; now constructor|]. intros H. inversion H; subst. now split.
Qed.
Print Assumptions C66_direction.
(** Forces of the wrong sign throughout have both measures of a perfect prediction. *)
Theorem C66_direction_refuted (deg_acos : R -> R) (ts : list (R * R * R)) : ts <> [] -> Forall (fun v => length3 v <> 0) ts ->
  direction deg_acos (components ts) (components (map (scale3 (-1)) ts)) = Ok (0, deg_acos 1).
Proof.
  intros HN HT. assert (G : forall v, length3 (scale3 (-1) v) = length3 v) by (intros [[x y] z]; cbn; f_equal; ring).
  destruct (C66_direction deg_acos ts (map (scale3 (-1)) ts)) as (a & c & E & _ & _ & C & A).
  - now rewrite map_length.
  - exact HN.
  - exact HT.
  - rewrite Forall_map. eapply Forall_impl; [|exact HT]. intros v Hv. cbn beta. now rewrite G.
  - rewrite E. assert (c = 1) as ->. { apply C. clear. induction ts as [|v ts IH]; constructor; [now exists (-1)|exact IH]. }
    assert (a = 0) as ->; [|reflexivity]. apply A. clear -G. induction ts as [|v ts IH]; constructor; [now rewrite G|exact IH].
Qed.
Print Assumptions C66_direction_refuted.
(** Components that do not come in threes are refused. *)
Theorem C66_direction_shape (deg_acos : R -> R) (ts ps : list R) : (length ts mod 3)%nat <> 0%nat -> direction deg_acos ts ps = Err ValueError.
Proof.
  intros H. unfold direction. assert (E : rows3 ts = Err ValueError); [|now rewrite E].
  assert (G : forall n (l : list R), (length l <= n)%nat -> (length l mod 3)%nat <> 0%nat -> rows3 l = Err ValueError); [|exact (G _ ts (le_n _) H)].
  clear. induction n as [|n IH]; intros l L H; [destruct l; [now elim H|cbn in L; lia]|].
  destruct l as [|x [|y [|z l]]]; [now elim H|reflexivity|reflexivity|]. cbn [rows3]. rewrite IH; [reflexivity|cbn in L; lia|].
  intros E. apply H. cbn [length]. replace (S (S (S (length l)))) with (length l + 1 * 3)%nat by lia. now rewrite Nat.mod_add.
Qed.
Print Assumptions C66_direction_shape.

(** The predictions come from the evaluation of many structures at once (C29): one value per structure, in order. *)
From Verif Require Model.Properties Props.C29.
Theorem C66_potential {P A V : Type} (det : A -> V) (argsort : list Z -> list nat) (cart : A -> list P -> list P) (p : Properties.single R P A)
        (pred : structure P A V -> R * list (R * R * R) * list R) (rs : list (rec R (structure P A V))) :
  Forall (C29.sound P A V) (map r_structure rs) -> C29.returns P A p -> NoDup (Properties.s_elements P A p) \/ ~ C29.partial_model P A p ->
  (forall r, In r rs -> Properties.eval P A V det argsort cart p (r_structure r) = Ok (pred (r_structure r))) ->
  Properties.eval_multiple P A V det argsort cart p (map r_structure rs) = Ok (map (fun r => pred (r_structure r)) rs).
Proof.
  intros H1 H2 H3 H4. rewrite C29.C29_multiple by assumption. clear H1. induction rs as [|r rs IH]; [reflexivity|]. cbn [map mapM].
  rewrite H4 by now left. cbn [bind]. rewrite IH by (intros; apply H4; now right). reflexivity.
Qed.
Print Assumptions C66_potential.

(** Example: two structures, of one and two atoms; deviations of the energies 1 and 7 per atom, of each force component 2, of
    each stress component 3 per atom. *)
Definition ex_natoms (s : nat) : list nat := [s].
Definition ex_value {F} {N : Num F} (s : nat) : F * list (F * F * F) * list F := (nnat s, repeat (n1, n1, n1) s, repeat (nnat s) 6).
Definition ex_record {F} {N : Num F} (s : nat) (e : F) : rec F nat :=
  mk_rec s e (repeat (nnat 3) (3 * s)) (repeat (nnat (4 * s)) 6) (nnat s) s (Some "vasprun.xml").
Definition ex_recs {F} {N : Num F} : list (rec F nat) := [ex_record 1 (nnat 2); ex_record 2 (nnat 16)].
Example C66_example_ok : evaluated ex_natoms INR (fun l => Ok (map ex_value l)) ex_value ex_recs.
Proof.
  unfold evaluated. split; [reflexivity|]. unfold rec_ok, shaped. split; [|split]; repeat constructor; cbn; lra.
Qed.
From Coq Require Import QArith Qcanon.
Definition shown_errors (e : errors (F := Qc)) : list (option Q) :=
  [Some (this (rmse_energy e)); option_map this (rmse_force e); option_map this (rmse_stress e);
   Some (this (mae_energy e)); option_map this (mae_force e); option_map this (mae_stress e)].
Definition shown_log (l : logs (F := Qc)) : option (list (list Q)) := option_map (map (fun q => map this (fst q))) (log_e l).
Example C66_example :
  (do (e, l) <- compute_error nat ex_natoms (fun s => nnat s) (fun l => Ok (map ex_value l)) (nnat 160) (nnat 10) (fun x => x)
     [("set1", layout ["Mg"; "O"] true true ex_recs); ("set2", layout ["Mg"; "O"] false false ex_recs)] EV true false false "train";
   Ok (map (fun q => (fst q, shown_errors (snd q))) e, map (fun q => (fst q, shown_log (snd q))) l))
  = Ok ([("set1", [Some 5; Some 2; Some 3; Some 4; Some 2; Some 3]%Q); ("set2", [Some 5; None; None; Some 4; None; None]%Q)],
        [("train-set1", Some [[2; 1; 10]; [8; 1; 70]]%Q); ("train-set2", Some [[2; 1; 10]; [8; 1; 70]]%Q)]).
Proof. vm_compute. reflexivity. Qed.
