(** C70: a fit returns, among the penalised least squares solutions, the one with the least test error. *)
From Verif Require Import Base Num NumR Model.Structure Model.DatasetDFT Model.Dataset Model.Regress Model.Fit
  Spec.Dataset Spec.Structure Spec.Regress Spec.Fit Proofs.RegressFinal Proofs.StructureSpin2 Proofs.Fit Proofs.FitReal.
From Coq Require Import QArith Qcanon Reals Lra.
From Coq Require String.
Import String.StringSyntax.
Local Open Scope string_scope.
Local Open Scope nat_scope.

Section C70.
  Context {St : Type}.
  Variables (s_natoms : St -> list nat) (fe : St -> vec R) (ff fs : St -> list (vec R)).
  Variables (weight_e : R -> R -> nat -> R) (weight_f weight_s : R -> R) (big threshold weight_stress huge thr : R).
  Variables (p n_threshold n_batch : nat) (posv : mat R -> vec R -> option (vec R)).
  Notation dset := (ds R St).
  Notation sets := (list (dset * list (rec R St))).
  Notation sums r0 argsort part b := (fun ds scales me =>
    calc_xtx_xty s_natoms fe ff fs r0 weight_e weight_f weight_s big threshold p n_threshold n_batch
      argsort part ds scales me weight_stress (Z.of_nat b)).
  Notation matrix r0 := (fun ds scales me =>
    calc_xy s_natoms fe ff fs r0 weight_e weight_f weight_s big threshold ds scales me weight_stress).
  Notation points e ps := (points fe ff fs weight_e weight_f weight_s weight_stress e ps).
  Notation usable := (usable ff fs s_natoms).

  (** The data sets of a fit: something to train on and to test on, and forces in the training data
      if there are forces in the test data. *)
  Definition fit_data (train test : sets) : Prop :=
    train <> [] /\ test <> [] /\ Forall usable train /\ Forall usable test /\
    (any_force test = true -> any_force train = true).

  (** Normal equations accumulated batch by batch: the result minimises the penalised squared
      deviations over the training data for one of the penalties, no other penalty gives a smaller
      test error, and the reported errors are those of the potential on the data. *)
  Theorem C70_fit (r0 : vec R) argsort part b train test alphas :
    sound_solver p posv -> (0 < threshold <= 1)%R -> sorts argsort -> 1 <= b -> p <> n_threshold ->
    fit_data train test -> alphas <> [] -> Forall (fun a => 0 < a)%R alphas ->
    exists m e, fit p posv huge thr (sums r0 argsort part b) alphas (map fst train) (map fst test) = Ok m /\
      least (big :: energies_per_atom train) e /\
      best_fit p (train_scale fe threshold train) (train_off fe threshold train) alphas (points e train) (points e test) m.
  Proof.
    intros Hv Ht Hs Hb Hp [H1 [H2 [H3 [H4 H5]]]] Ha Hpos.
    destruct (fit_is s_natoms fe ff fs weight_e weight_f weight_s big threshold weight_stress p n_threshold n_batch Ht posv huge thr Hv
                train test H5 alphas r0 argsort part b Hs Hb Hp Ha H1 H2 H3 H4) as [m [e [E [L O]]]].
    exists m, e. split; [exact E|]. split; [exact L|].
    exact (outcome_best fe threshold p posv huge Hv train alphas _ _ m Hpos O).
  Qed.

  (** The whole matrix at once. *)
  Theorem C70_standard (r0 : vec R) train test alphas :
    sound_solver p posv -> (0 < threshold <= 1)%R ->
    fit_data train test -> alphas <> [] -> Forall (fun a => 0 < a)%R alphas ->
    exists m e, fit_standard p posv huge thr (matrix r0) alphas (map fst train) (map fst test) = Ok m /\
      least (big :: energies_per_atom train) e /\
      best_fit p (train_scale fe threshold train) (train_off fe threshold train) alphas (points e train) (points e test) m.
  Proof.
    intros Hv Ht [H1 [H2 [H3 [H4 H5]]]] Ha Hpos.
    destruct (fit_standard_is s_natoms fe ff fs weight_e weight_f weight_s big threshold weight_stress p Ht posv huge thr Hv
                train test H5 alphas r0 Ha H3 H4) as [m [e [E [L O]]]].
    exists m, e. split; [exact E|]. split; [exact L|].
    exact (outcome_best fe threshold p posv huge Hv train alphas _ _ m Hpos O).
  Qed.

  (** Both functions give the same model, whatever the batch size, the sort and the memory. *)
  Theorem C70_same (r0 r0' : vec R) argsort part b train test alphas :
    sound_solver p posv -> (0 < threshold <= 1)%R -> sorts argsort -> 1 <= b -> p <> n_threshold ->
    fit_data train test -> alphas <> [] ->
    exists m m', fit p posv huge thr (sums r0 argsort part b) alphas (map fst train) (map fst test) = Ok m /\
      fit_standard p posv huge thr (matrix r0') alphas (map fst train) (map fst test) = Ok m' /\ same_model p m m'.
  Proof.
    intros Hv Ht Hs Hb Hp [H1 [H2 [H3 [H4 H5]]]] Ha.
    destruct (fit_is s_natoms fe ff fs weight_e weight_f weight_s big threshold weight_stress p n_threshold n_batch Ht posv huge thr Hv
                train test H5 alphas r0 argsort part b Hs Hb Hp Ha H1 H2 H3 H4) as [m [e [E [L O]]]].
    destruct (fit_standard_is s_natoms fe ff fs weight_e weight_f weight_s big threshold weight_stress p Ht posv huge thr Hv
                train test H5 alphas r0' Ha H3 H4) as [m' [e' [E' [L' O']]]].
    exists m, m'. split; [exact E|]. split; [exact E'|]. rewrite (least_same _ _ _ L' L) in O'.
    exact (outcome_same p posv huge _ _ _ _ _ _ _ m m' O O').
  Qed.

  (** When the equations cannot be solved for any penalty, the fit still returns a model, with 1e30
      for every coefficient: the request to look for singular equations is not handed on. *)
  Theorem C70_failed (r0 : vec R) train test alphas :
    (0 < threshold <= 1)%R -> fit_data train test -> alphas <> [] ->
    exists m, fit_standard p (fun _ _ => None) huge thr (matrix r0) alphas (map fst train) (map fst test) = Ok m /\
      forall i, i < p -> p_coeffs m i = huge.
  Proof.
    intros Ht [H1 [H2 [H3 [H4 H5]]]] Ha.
    destruct (train_std s_natoms fe ff fs weight_e weight_f weight_s big threshold weight_stress p train r0 H3) as [r [E [B [C D]]]].
    destruct (test_std s_natoms fe ff fs weight_e weight_f weight_s big threshold weight_stress p Ht train test H5
                r0 (t_scales r) (t_min_e r) H4 D) as [r' [E' C']].
    destruct (fit_standard_outcome p (fun _ _ => None) huge (fun _ _ _ _ _ _ => I) thr
                (std_calc s_natoms fe ff fs weight_e weight_f weight_s big threshold weight_stress r0) alphas (map fst train) (map fst test)
                _ _ _ _ _ (fun _ => false) r r' Ha E C D E' C') as [m [Em [k [a [_ [_ [_ [G _]]]]]]]].
    exists m. split; [exact Em|]. exact G.
  Qed.
End C70.
Print Assumptions C70_fit.
Print Assumptions C70_standard.
Print Assumptions C70_same.
Print Assumptions C70_failed.

(** The threshold set for singular equations is without effect: a fit gives the same for all. *)
Theorem C70_singular_refuted {F} {N : Num F} {NO : NumOrd F} {St : Type} p posv (huge thr thr' : F)
    (calc : list (ds F St) -> option (vec F) -> option F -> res (normal (F:=F)))
    (calc' : list (ds F St) -> option (vec F) -> option F -> res (standard (F:=F))) alphas train test :
  fit p posv huge thr calc alphas train test = fit p posv huge thr' calc alphas train test /\
  fit_standard p posv huge thr calc' alphas train test = fit_standard p posv huge thr' calc' alphas train test.
Proof. split; reflexivity. Qed.
Print Assumptions C70_singular_refuted.

(** Two structures with energies and forces, one feature, two penalties. *)
Module Example.
  Local Open Scope R_scope.
  Definition solve1 (m : mat R) (v : vec R) : option (vec R) :=
    if Rlt_dec 0 (m 0%nat 0%nat) then Some (fun i => v i / m 0%nat 0%nat) else None.
  Lemma solver : sound_solver 1 solve1.
  Proof.
    constructor.
    - intros m m' v v' Hm Hv. unfold solve1. rewrite <- (Hm 0%nat 0%nat) by lia.
      destruct (Rlt_dec 0 (m 0%nat 0%nat)); [|exact I]. intros i Hi. now rewrite Hv.
    - intros m v c. unfold solve1. destruct (Rlt_dec 0 (m 0%nat 0%nat)) as [H|]; [|discriminate].
      intros E; injection E as <-. intros i Hi. replace i with 0%nat by lia. unfold sumn, nsumf. cbn. field. lra.
    - intros m v H. unfold solve1. destruct (Rlt_dec 0 (m 0%nat 0%nat)) as [|Hn]; [discriminate|]. exfalso. apply Hn.
      assert (G := H (fun _ => 1)). unfold sumn, nsumf in G. cbn in G.
      assert (K : exists i, (i < 1)%nat /\ 1 <> 0) by (exists 0%nat; split; [lia|lra]). specialize (G K). lra.
  Qed.
  Definition r (s : nat) (e : R) : rec R nat := mk_rec s e [1; 2; 3] [1; 1; 1; 2; 2; 2] 1 1 None.
  Definition fe (s : nat) : vec R := fun _ => INR s.
  Definition ff (s : nat) : list (vec R) := [fun _ => 1; fun _ => 0; fun _ => 2].
  Definition fs (s : nat) : list (vec R) := [fe s; fe s; fe s; fun _ => 0; fun _ => 0; fun _ => 0].
  Definition d1 : ds R nat := mk_ds Vasp (Single "a") true true 1 (Some (layout ["Al"] true true [r 5 (-7); r 3 (-4)])) true.
  Definition d2 : ds R nat := mk_ds Vasp (Single "b") false false 1 (Some (layout ["Al"] true true [r 2 (-3)])) true.
  Definition train := [(d1, [r 5 (-7); r 3 (-4)])].
  Definition test := [(d2, [r 2 (-3)])].
  Lemma data : fit_data (fun _ => [1%nat]) ff fs train test.
  Proof.
    split; [discriminate|]. split; [discriminate|]. split; [|split; [|reflexivity]];
      repeat constructor; cbn; try discriminate; try (eexists _, _, _; reflexivity).
  Qed.
  Lemma rest : (0 < 1 / 1000 <= 1) /\ sorts insertion_argsort /\ (1 <= 2)%nat /\ 1%nat <> 77%nat /\
    [1; 2] <> [] /\ Forall (fun a => 0 < a) [1; 2].
  Proof. split; [lra|]. split; [exact insertion_argsort_sorts|]. split; [lia|]. split; [lia|]. split; [discriminate|]. repeat constructor; lra. Qed.
End Example.

(** A similar fit over the rationals, computed: of the penalties 1/10 and 10 it takes the second; with
    a solver that fails it returns the value meant for failures (1000 here). *)
Module Computed.
  Definition q (n : Z) (d : positive) : Qc := Q2Qc (Qmake n d).
  Definition solve1 (m : mat Qc) (v : vec Qc) : option (vec Qc) :=
    if Qc_ord.(nltb) (q 0 1) (m 0 0) then Some (fun i => ndiv (v i) (m 0 0)) else None.
  Definition r (s : nat) (e : Z) : rec Qc nat :=
    mk_rec s (q e 1) [q 1 1; q 2 1; q 3 1] [q 1 1; q 1 1; q 1 1; q 2 1; q 2 1; q 2 1] (q 1 1) 1 None.
  Definition fe (s : nat) : vec Qc := fun j => q (Z.of_nat s) 1.
  Definition ff (s : nat) : list (vec Qc) := [fun j => q 1 1; fun j => q 2 1; fun j => q 3 1].
  Definition fs (s : nat) : list (vec Qc) := [fe s; fe s; fe s; fun _ => q 0 1; fun _ => q 0 1; fun _ => q 0 1].
  Definition set (f : bool) s e : ds Qc nat :=
    mk_ds Vasp (Single "a") f f (q 1 1) (Some (layout ["Al"] true true [r s e; r (s + 2) (e - 5)])) true.
  Definition out posv (f : bool) : option (Qc * list Qc) :=
    match fit_standard 1 posv (q 1000 1) (q 10 1)
            (fun ds sc me => calc_xy (fun _ => [1]) fe ff fs (fun _ => q 99 1) (fun _ e _ => q 1 1) (fun _ => q 1 1) (fun _ => q 1 1)
               (q 10000000000 1) (q 1 1000) ds sc me (q 1 10))
            [q 1 10; q 10 1] [set f 1 (-3)] [set f 2 (-5)] with
    | Ok m => Some (p_alpha m, [p_coeffs m 0])
    | Err _ => None
    end.
  Example takes : option_map (fun x => (this (fst x), map this (snd x))) (out solve1 true) = Some (10%Q, [(8 # 345)%Q]).
  Proof. vm_compute. reflexivity. Qed.
  Example fails : option_map (fun x => map this (snd x)) (out (fun _ _ => None) false) = Some [1000%Q].
  Proof. vm_compute. reflexivity. Qed.
End Computed.
