(** C71: learning curves. *)
From Verif Require Import Base Num NumR Model.Structure Model.DatasetDFT Model.Dataset Model.Regress Model.Fit
  Spec.Dataset Spec.Structure Spec.Regress Spec.Fit Proofs.RegressFinal Proofs.StructureSpin2 Proofs.Fit Proofs.FitReal
  Proofs.Curve Proofs.CurveReal Props.C70.
From Coq Require Import Reals Lra.
From Coq Require String.
Import String.StringSyntax.
Local Open Scope string_scope.
Local Open Scope nat_scope.

(** The numbers of structures: none with fewer than ten structures; otherwise 10 to 19 equal steps of a
    tenth, rounded down; at most nine structures are left out. *)
Theorem C71_sizes n :
  (n < 10 -> sample_sizes n = Err ValueError) /\
  (10 <= n -> exists m, sample_sizes n = Ok (map (fun k => k * (n / 10)) (seq 1 m)) /\ 10 <= m <= 19 /\
     m * (n / 10) <= n < (m + 1) * (n / 10) /\ n <= m * (n / 10) + 9).
Proof.
  split; [apply sizes_few|]. intros H. exists (n / (n / 10)). split; [apply sizes_ok, H|]. split; [apply sizes_number, H|].
  assert (Hs : 1 <= n / 10) by (apply Nat.div_le_lower_bound; lia).
  pose proof (Nat.mul_div_le n (n / 10) ltac:(lia)). pose proof (Nat.mul_succ_div_gt n (n / 10) ltac:(lia)).
  pose proof (Nat.mul_succ_div_gt n 10 ltac:(lia)). pose proof (sizes_number n H).
  set (s := n / 10) in *. set (m := n / s) in *. nia.
Qed.
Print Assumptions C71_sizes.
(** All structures are used by the last point exactly if a tenth divides their number. *)
Theorem C71_last n l : sample_sizes n = Ok l -> (In n l <-> (n / 10) * (n / (n / 10)) = n).
Proof.
  destruct (Nat.lt_ge_cases n 10) as [H|H]; [rewrite sizes_few by exact H; discriminate|].
  rewrite sizes_ok by exact H. set (ks := map _ _). intros E. assert (EL : l = ks) by congruence. rewrite EL. unfold ks. assert (Hs : 1 <= n / 10) by (apply Nat.div_le_lower_bound; lia).
  pose proof (sizes_number n H). split.
  - intros Hin. apply in_map_iff in Hin. destruct Hin as [k [Hk _]].
    cbn beta in Hk. revert Hk Hs. generalize (n / 10). intros s Hk Hs. rewrite <- Hk, (Nat.div_mul k s) by lia. lia.
  - intros E'. apply in_map_iff. exists (n / (n / 10)). split; [lia|]. apply in_seq. lia.
Qed.
Print Assumptions C71_last.
Theorem C71_last_refuted : exists n l, 10 <= n /\ sample_sizes n = Ok l /\ ~ In n l.
Proof.
  exists 25. eexists. split; [lia|]. split; [reflexivity|]. cbn. intros H. repeat (destruct H as [H|H]; [discriminate|]). exact H.
Qed.
Print Assumptions C71_last_refuted.

Section C71.
  Context {St : Type}.
  Variables (s_natoms : St -> list nat) (fe : St -> vec R) (ff fs : St -> list (vec R)).
  Variables (weight_e : R -> R -> nat -> R) (weight_f weight_s : R -> R) (big threshold weight_stress huge thr : R).
  Variables (p : nat) (posv : mat R -> vec R -> option (vec R)).
  Notation dset := (ds R St).
  Notation matrix r0 := (fun ds scales me =>
    calc_xy s_natoms fe ff fs r0 weight_e weight_f weight_s big threshold ds scales me weight_stress).
  Notation points e ps := (points fe ff fs weight_e weight_f weight_s weight_stress e ps).
  Notation usable := (usable ff fs s_natoms).
  Context {E : Type}.

  (** One training data set with forces: the point with n structures reports the errors of the best
      fit (C70) to the first n records, with the scales of all records; one entry for each reported
      test error; an error of the evaluation ends the run.  A point with all structures is the
      model of [fit_standard]. *)
  Theorem C71_curve (r0 : vec R) (accuracy : mlp (F:=R) -> res (list (string * E))) d rs test alphas :
    sound_solver p posv -> (0 < threshold <= 1)%R -> usable (d, rs) -> ds_force d = true -> Forall usable test ->
    alphas <> [] -> Forall (fun a => 0 < a)%R alphas -> 10 <= length rs ->
    exists (models : list (nat * mlp (F:=R))) e,
      Ok (map fst models) = sample_sizes (length rs) /\
      least (big :: energies_per_atom [(d, rs)]) e /\
      Forall (fun q => best_fit p (train_scale fe threshold [(d, rs)]) (train_off fe threshold [(d, rs)]) alphas
                         (points e [(d, firstn (fst q) rs)]) (points e test) (snd q)) models /\
      (forall m m', In (length rs, m) models -> fit_standard p posv huge thr (matrix r0) alphas [d] (map fst test) = Ok m' ->
         same_model p m m') /\
      fit_learning_curve p posv huge thr (matrix r0) accuracy alphas [d] (map fst test) =
        (do logs <- mapM (fun q => do er <- accuracy (snd q); Ok (map (fun x => (fst q, snd x)) er)) models; Ok (concat logs)).
  Proof.
    intros Hv Ht Hu Hf Hu2 Ha Hpos Hn.
    assert (AF : any_force [(d, rs)] = true) by (unfold any_force; cbn; now rewrite Hf).
    destruct (curve_is s_natoms fe ff fs weight_e weight_f weight_s big threshold weight_stress p Ht posv huge thr Hv accuracy
                d rs test alphas Hu Hf Hu2 Ha r0 Hn) as [ms [e [M1 [M2 [M3 M4]]]]].
    exists ms, e. split; [rewrite M1, (sizes_ok _ Hn); reflexivity|]. split; [exact M2|]. split; [|split; [|exact M4]].
    - eapply Forall_impl; [|exact M3]. intros q Hq.
      exact (outcome_best fe threshold p posv huge Hv [(d, rs)] alphas _ _ _ Hpos Hq).
    - intros m m' Hin Hm'. rewrite Forall_forall in M3. specialize (M3 _ Hin). cbn [fst snd] in M3. rewrite firstn_all in M3.
      destruct (fit_standard_is s_natoms fe ff fs weight_e weight_f weight_s big threshold weight_stress p Ht posv huge thr Hv
                  [(d, rs)] test (fun _ => AF) alphas r0 Ha (Forall_cons _ Hu (Forall_nil _)) Hu2) as [m2 [e2 [E2 [L2 O2]]]].
      change (map fst [(d, rs)]) with [d] in E2. unfold std_calc in E2. rewrite E2 in Hm'. injection Hm' as ->.
      rewrite (least_same _ _ _ L2 M2) in O2.
      exact (outcome_same p posv huge _ _ _ _ _ _ _ m m' M3 O2).
  Qed.

  (** More or fewer than one training data set, or fewer than ten structures. *)
  Theorem C71_wrong_data (r0 : vec R) (accuracy : mlp (F:=R) -> res (list (string * E))) alphas train test :
    length train <> 1 -> fit_learning_curve p posv huge thr (matrix r0) accuracy alphas train test = Err RuntimeError.
  Proof. destruct train as [|a [|b l]]; cbn; [reflexivity|congruence|reflexivity]. Qed.
End C71.
Print Assumptions C71_curve.
Print Assumptions C71_wrong_data.

(** Energies only: the rows of forces and stresses are looked up although there are none, and the last
    point at the latest asks for rows that do not exist.  So there is no learning curve, whatever the
    data, for any numbers and solver. *)
Theorem C71_energies_refuted {F} {N : Num F} {O : NumOrd F} {L : FieldLaws F} {OL : OrdLaws F} {St E : Type}
    (s_natoms : St -> list nat) (fe : St -> vec F) (ff fs : St -> list (vec F)) (r0 : vec F)
    (weight_e : F -> F -> nat -> F) (weight_f weight_s : F -> F) (big threshold huge thr weight_stress : F) p posv
    (errors : mlp (F:=F) -> list (string * E)) (d : ds F St) rs test alphas :
  usable ff fs s_natoms (d, rs) -> ds_force d = false -> Forall (usable ff fs s_natoms) test -> alphas <> [] -> 10 <= length rs ->
  fit_learning_curve p posv huge thr
    (fun ds scales me => calc_xy s_natoms fe ff fs r0 weight_e weight_f weight_s big threshold ds scales me weight_stress)
    (fun m => Ok (errors m)) alphas [d] (map fst test) = Err IndexError.
Proof. apply energies_only. Qed.
Print Assumptions C71_energies_refuted.

(** Eleven structures with forces, and the same without. *)
Module Example.
  Import C70.Example.
  Local Open Scope R_scope.
  Definition rs : list (rec R nat) := map (fun k => r k (- INR k)) (seq 1 11).
  Definition d (f : bool) : ds R nat := mk_ds Vasp (Single "a") f f 1 (Some (layout ["Al"] true true rs)) true.
  Lemma meets f : usable ff fs (fun _ => [1%nat]) (d f, rs) /\ Forall (usable ff fs (fun _ => [1%nat])) test /\ (10 <= length rs)%nat.
  Proof.
    split; [|split].
    - split; [eexists _, _, _; reflexivity|]. split; [discriminate|]. split; [|destruct f; cbn; congruence].
      apply Forall_forall. intros x Hx. apply in_map_iff in Hx. destruct Hx as [k [<- _]]. repeat constructor.
    - repeat constructor; cbn; try discriminate; try (eexists _, _, _; reflexivity).
    - cbn. lia.
  Qed.
  Lemma sizes : sample_sizes 11 = Ok [1; 2; 3; 4; 5; 6; 7; 8; 9; 10; 11]%nat /\ sample_sizes 25 = Ok [2; 4; 6; 8; 10; 12; 14; 16; 18; 20; 22; 24]%nat.
  Proof. split; reflexivity. Qed.
End Example.
