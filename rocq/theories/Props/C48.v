(** C48: rescaling by feature scales keeps predictions. *)
From Verif Require Import Base Num NumR Model.Structure Model.DatasetDFT Model.Dataset Model.Regress
  Spec.Dataset Spec.Structure Spec.Regress Proofs.StructureSpin2 Proofs.Scales.
From Coq Require Import Reals Lra QArith Qcanon.
From Coq Require String.
Import String.StringSyntax.
Local Open Scope string_scope.
Local Open Scope nat_scope.
Local Open Scope num_scope.

(** Coefficients divided by scales on raw features = coefficients on scaled features, as long
    as switched-off features have no coefficient. *)
Theorem C48_rescaled {F} {N : Num F} {L : FieldLaws F} (p : nat) (off : nat -> bool) (sc x c : vec F) :
  (forall j, (j < p)%nat -> off j = true -> c j = 0) ->
  sumn p (fun j => x j * (c j / sc j)) = sumn p (fun j => (if off j then 0 else x j / sc j) * c j).
Proof. exact (predict_rescaled p off sc x c). Qed.
Print Assumptions C48_rescaled.

(** For the accumulated normal equations and a penalty other than zero this holds: the fit
    gives switched-off features no coefficient. *)
Theorem C48_fit {F} {N : Num F} {O : NumOrd F} {L : FieldLaws F} {OL : OrdLaws F} {C0 : Char0 F} {St}
    (s_natoms : St -> list nat) (fe : St -> vec F) (ff fs : St -> list (vec F))
    weight_e weight_f weight_s big threshold p n_threshold n_batch
    (r0 : vec F) argsort part ps scales min_energy weight_stress b :
  sorts argsort -> 1 <= b -> ps <> [] -> Forall (usable ff fs s_natoms) ps ->
  exists r, calc_xtx_xty s_natoms fe ff fs r0 weight_e weight_f weight_s big threshold p n_threshold n_batch
              argsort part (map fst ps) scales min_energy weight_stress (Z.of_nat b) = Ok r /\
    let raw := fun j => match scales with Some s => s j
                        | None => nsqrt (if nltb (variance (energy_rows fe ps) j) 0 then 1 else variance (energy_rows fe ps) j) end in
    let off := fun j => tiny threshold (any_force ps) (raw j) in
    forall alpha c, alpha <> 0 ->
      (forall i, (i < p)%nat -> dot p (m_xtx r i) c + alpha * c i = m_xty r i) ->
      (forall j, (j < p)%nat -> off j = true -> c j = 0) /\
      forall x : vec F, dot p x (fun j => c j / m_scales r j) = dot p (fun j => if off j then 0 else x j / raw j) c.
Proof. exact (fit_predict s_natoms fe ff fs weight_e weight_f weight_s big threshold p n_threshold n_batch r0 argsort part ps scales min_energy weight_stress b). Qed.
Print Assumptions C48_fit.

(** Scales are made usable for division, and usable scales (those given to the test data)
    are not changed again. *)
Theorem C48_usable (threshold : R) inc s : (0 < threshold)%R -> usable_scale threshold inc s <> 0%R.
Proof. exact (usable_scale_nonzero threshold inc s). Qed.
Print Assumptions C48_usable.
Theorem C48_usable_again (threshold : R) inc inc' s : (0 < threshold <= 1)%R -> inc' = inc \/ inc = true ->
  usable_scale threshold inc' (usable_scale threshold inc s) = usable_scale threshold inc s /\
  tiny threshold inc' (usable_scale threshold inc s) = false.
Proof. exact (fun H1 H2 => conj (usable_scale_idem threshold inc inc' s H1 H2) (usable_scale_on threshold inc inc' s H1 H2)). Qed.
Print Assumptions C48_usable_again.

(** Without the condition on switched-off features the prediction changes (a coefficient 2 of
    a feature with value 5 and scale 0, rounded to 1). *)
Module Example.
  Definition z (n : Z) : Qc := Q2Qc (Qmake n 1).
  Definition off (j : nat) : bool := (j =? 1)%nat.
  Definition sc : vec Qc := fun j => match j with 0%nat => z 2 | _ => z 1 end.
  Definition x : vec Qc := fun j => match j with 0%nat => z 6 | _ => z 5 end.
  Lemma meets : let c : vec Qc := fun j => match j with 0%nat => z 4 | _ => z 0 end in
    (forall j, (j < 2)%nat -> off j = true -> c j = 0) /\ this (sumn 2 (fun j => x j * (c j / sc j))) = 12%Q.
  Proof. split; [|vm_compute; reflexivity]. intros [|[|j]] Hj Ho; try discriminate; try lia. reflexivity. Qed.
  Lemma needed : let c : vec Qc := fun j => z 2 in
    sumn 2 (fun j => x j * (c j / sc j)) <> sumn 2 (fun j => (if off j then 0 else x j / sc j) * c j).
  Proof. vm_compute. discriminate. Qed.
End Example.
