(** C09: completeness and symmetry of the normal matrix handed to the solver. *)
From Verif Require Import Base Num Model.Structure Model.DatasetDFT Model.Dataset Model.Regress
  Spec.Dataset Spec.Structure Spec.Regress Proofs.SeqProps Proofs.StructureSpin2.
From Coq Require Import QArith Qcanon.
From Coq Require String.
Import String.StringSyntax.
Local Open Scope string_scope.
Local Open Scope nat_scope.
Local Open Scope num_scope.

Section C09.
  Context {F : Type} {N : Num F} {O : NumOrd F} {L : FieldLaws F} {OL : OrdLaws F} {C0 : Char0 F} {St : Type}.
  Variables (s_natoms : St -> list nat) (fe : St -> vec F) (ff fs : St -> list (vec F)).
  Variables (weight_e : F -> F -> nat -> F) (weight_f weight_s : F -> F) (big threshold : F).
  Variables (p n_threshold n_batch : nat).

  (** For any number of features other than the threshold: symmetric, and every entry (upper
      and lower triangle) is the full sum over the observations. *)
  Theorem C09_complete (r0 : vec F) argsort part ps scales min_energy weight_stress b :
    sorts argsort -> 1 <= b -> ps <> [] -> Forall (usable ff fs s_natoms) ps -> p <> n_threshold ->
    exists r, calc_xtx_xty s_natoms fe ff fs r0 weight_e weight_f weight_s big threshold p n_threshold n_batch
                argsort part (map fst ps) scales min_energy weight_stress (Z.of_nat b) = Ok r /\
      let P := points fe ff fs weight_e weight_f weight_s weight_stress (m_min_e r) ps in
      let raw := fun j => match scales with Some s => s j
                          | None => nsqrt (if nltb (variance (energy_rows fe ps) j) 0 then 1 else variance (energy_rows fe ps) j) end in
      let off := fun j => tiny threshold (any_force ps) (raw j) in
      forall i j, (i < p)%nat -> (j < p)%nat ->
        m_xtx r i j = (if off i || off j then 0 else XTX P i j / raw i / raw j) /\ m_xtx r i j = m_xtx r j i.
  Proof. exact (seq_complete s_natoms fe ff fs weight_e weight_f weight_s big threshold p n_threshold n_batch r0 argsort part ps scales min_energy weight_stress b). Qed.

  (** At the threshold itself the products are computed for the upper blocks only but not
      copied: every entry in a lower block is zero whatever the data are. *)
  Theorem C09_threshold_lower_blocks_zero (r0 : vec F) argsort part ps scales min_energy weight_stress b :
    sorts argsort -> 1 <= b -> ps <> [] -> Forall (usable ff fs s_natoms) ps -> p = n_threshold ->
    exists r, calc_xtx_xty s_natoms fe ff fs r0 weight_e weight_f weight_s big threshold p n_threshold n_batch
                argsort part (map fst ps) scales min_energy weight_stress (Z.of_nat b) = Ok r /\
      forall i j, (i < p)%nat -> (j < p)%nat ->
        let bs := Nat.max 100 (p / n_batch) in
        (j / bs < i / bs)%nat -> m_xtx r i j = 0.
  Proof. exact (seq_threshold s_natoms fe ff fs weight_e weight_f weight_s big threshold p n_threshold n_batch r0 argsort part ps scales min_energy weight_stress b). Qed.
End C09.
Print Assumptions C09_complete.
Print Assumptions C09_threshold_lower_blocks_zero.

(** Counterexample to "complete at every feature count": as many features as the threshold
    (200 here, 50000 in the code), all constant; with 201 features the same entries agree. *)
Module Example.
  Definition q (n : Z) (d : positive) : Qc := Q2Qc (Qmake n d).
  Definition fe (s : nat) : vec Qc := fun j => q 1 1.
  Definition no (s : nat) : list (vec Qc) := [fe s; fe s; fe s].
  Definition no6 (s : nat) : list (vec Qc) := no s ++ no s.
  Definition r (s : nat) (e : Z) : rec Qc nat :=
    mk_rec s (q e 1) [q 1 1; q 2 1; q 3 1] [q 1 1; q 1 1; q 1 1; q 2 1; q 2 1; q 2 1] (q 1 1) 1 None.
  Definition d1 : ds Qc nat := mk_ds Vasp (Single "a") true true (q 1 1) (Some (layout ["Al"] true true [r 2 (-3)])) true.
  Definition ps := [(d1, [r 2 (-3)])].
  Lemma meets : sorts insertion_argsort /\ Forall (usable no no6 (fun _ => [1%nat])) ps.
  Proof.
    split; [exact insertion_argsort_sorts|]. repeat constructor; cbn; try discriminate; try (eexists _, _, _; reflexivity).
  Qed.
  Definition entries (p : nat) : option (Qc * Qc) :=
    match calc_xtx_xty (fun _ => [1%nat]) fe no no6 (fun _ => q 99 1) (fun _ e _ => q 1 1) (fun _ => q 1 1) (fun _ => q 1 1)
            (q 10000000000 1) (q 1 1000) p 200 10 insertion_argsort "part" (map fst ps) (Some (fun _ => q 1 1)) None (q 1 1) 64 with
    | Ok n => Some (m_xtx n 150%nat 0%nat, m_xtx n 0%nat 150%nat)
    | Err _ => None
    end.
  Theorem C09_complete_at_every_count_refuted :
    entries 199 = Some (q 10 1, q 10 1) /\ entries 200 = Some (q 0 1, q 10 1) /\ entries 201 = Some (q 10 1, q 10 1).
  Proof. repeat split; vm_compute; reflexivity. Qed.
End Example.
