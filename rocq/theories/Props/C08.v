(** C08: normal equations accumulated batch by batch are those of the whole data. *)
From Verif Require Import Base Num NumR Model.Structure Model.DatasetDFT Model.Dataset Model.Regress
  Spec.Dataset Spec.Structure Spec.Regress Proofs.RegressFinal Proofs.StructureSpin2 Proofs.Scales.
From Coq Require Import QArith Qcanon Reals.
From Coq Require String.
Import String.StringSyntax.
Local Open Scope string_scope.
Local Open Scope nat_scope.
Local Open Scope num_scope.

Section C08.
  Context {F : Type} {N : Num F} {O : NumOrd F} {L : FieldLaws F} {OL : OrdLaws F} {C0 : Char0 F} {St : Type}.
  Variables (s_natoms : St -> list nat) (fe : St -> vec F) (ff fs : St -> list (vec F)).
  Variables (weight_e : F -> F -> nat -> F) (weight_f weight_s : F -> F) (big threshold : F).
  Variables (p n_threshold n_batch : nat).

  (** The accumulated sums are those of the observations of all records, divided by the
      scales; features with a vanishing scale are switched off.  Neither the batch size nor the
      order chosen by the sort nor uninitialised memory [r0] appears in the result.  (The case
      [p = n_threshold] is C09.) *)
  Theorem C08_accumulated (r0 : vec F) argsort part ps scales min_energy weight_stress b :
    sorts argsort -> 1 <= b -> ps <> [] -> Forall (usable ff fs s_natoms) ps -> p <> n_threshold ->
    exists r, calc_xtx_xty s_natoms fe ff fs r0 weight_e weight_f weight_s big threshold p n_threshold n_batch
                argsort part (map fst ps) scales min_energy weight_stress (Z.of_nat b) = Ok r /\
      (forall m, min_energy = Some m -> m_min_e r = m) /\
      (min_energy = None -> least (big :: energies_per_atom ps) (m_min_e r)) /\
      let P := points fe ff fs weight_e weight_f weight_s weight_stress (m_min_e r) ps in
      let Q := energy_rows fe ps in
      let raw := fun j => match scales with Some s => s j
                          | None => nsqrt (if nltb (variance Q j) 0 then 1 else variance Q j) end in
      let off := fun j => tiny threshold (any_force ps) (raw j) in
      let sc := fun j => usable_scale threshold (any_force ps) (raw j) in
      (forall j, m_scales r j = sc j) /\
      m_total r = length P /\ m_ysq r = YTY P /\
      (forall i, m_xty r i = if off i then 0 else XTY P i / sc i) /\
      (forall i j, (i < p)%nat -> (j < p)%nat ->
         m_xtx r i j = if off i || off j then 0 else XTX P i j / sc i / sc j).
  Proof.
    intros H1 H2 H3 H4 H5.
    destruct (seq_final s_natoms fe ff fs r0 weight_e weight_f weight_s big threshold p n_threshold n_batch argsort part
                ps scales min_energy weight_stress b H1 H2 H3 H4) as [r [E [A [B [C [D [G [I J]]]]]]]].
    exists r. split; [exact E|]. split; [exact A|]. split; [exact B|]. split; [exact C|]. split; [exact D|].
    split; [exact G|]. split; [exact I|]. intros i j Hi Hj. rewrite (J i j Hi Hj). unfold filled'.
    replace (p =? n_threshold)%nat with false by (symmetry; apply Nat.eqb_neq; exact H5). reflexivity.
  Qed.

  (** Any two ways of dividing the same records (with the same settings) into data sets and
      batches, sorted by whatever sort, give the same normal equations. *)
  Theorem C08_regrouping (r0 r0' : vec F) argsort argsort' part part' ps ps' scales min_energy weight_stress b b' :
    sorts argsort -> sorts argsort' -> 1 <= b -> 1 <= b' -> ps <> [] -> ps' <> [] ->
    Forall (usable ff fs s_natoms) ps -> Forall (usable ff fs s_natoms) ps' -> Permutation (tagged ps) (tagged ps') ->
    exists r r',
      calc_xtx_xty s_natoms fe ff fs r0 weight_e weight_f weight_s big threshold p n_threshold n_batch
        argsort part (map fst ps) scales min_energy weight_stress (Z.of_nat b) = Ok r /\
      calc_xtx_xty s_natoms fe ff fs r0' weight_e weight_f weight_s big threshold p n_threshold n_batch
        argsort' part' (map fst ps') scales min_energy weight_stress (Z.of_nat b') = Ok r' /\
      m_min_e r = m_min_e r' /\ m_total r = m_total r' /\ m_ysq r = m_ysq r' /\
      (forall j, m_scales r j = m_scales r' j) /\ (forall i, m_xty r i = m_xty r' i) /\
      (forall i j, (i < p)%nat -> (j < p)%nat -> m_xtx r i j = m_xtx r' i j).
  Proof.
    exact (regroup s_natoms fe ff fs weight_e weight_f weight_s big threshold p n_threshold n_batch
             r0 r0' argsort argsort' part part' ps ps' scales min_energy weight_stress b b').
  Qed.

  (** Sequential and one-shot mode agree: X^T X, X^T y, y^T y and the count are those of the
      matrix X and the vector y of the one-shot mode.  With scales computed from the data this
      needs that no variance is computed as negative (true for real numbers, below). *)
  Theorem C08_one_shot (r0 r0' : vec F) argsort part ps scales min_energy weight_stress b :
    sorts argsort -> 1 <= b -> ps <> [] -> Forall (usable ff fs s_natoms) ps -> p <> n_threshold ->
    (scales = None -> forall j, nltb (variance (energy_rows fe ps) j) 0 = false) ->
    exists r t,
      calc_xtx_xty s_natoms fe ff fs r0 weight_e weight_f weight_s big threshold p n_threshold n_batch
        argsort part (map fst ps) scales min_energy weight_stress (Z.of_nat b) = Ok r /\
      calc_xy s_natoms fe ff fs r0' weight_e weight_f weight_s big threshold
        (map fst ps) scales min_energy weight_stress = Ok t /\
      m_min_e r = t_min_e t /\ m_total r = length (t_y t) /\ m_total r = length (t_x t) /\
      m_ysq r = nsumf (fun y => y * y) (t_y t) /\
      (forall j, m_scales r j = t_scales t j) /\
      (forall i, m_xty r i = nsumf (fun q => fst q i * snd q) (combine (t_x t) (t_y t))) /\
      (forall i j, (i < p)%nat -> (j < p)%nat -> m_xtx r i j = nsumf (fun row => row i * row j) (t_x t)).
  Proof.
    exact (agree s_natoms fe ff fs weight_e weight_f weight_s big threshold p n_threshold n_batch
             r0 r0' argsort part ps scales min_energy weight_stress b).
  Qed.
End C08.
Print Assumptions C08_accumulated.
Print Assumptions C08_regrouping.
Print Assumptions C08_one_shot.

(** Over the real numbers the last hypothesis of [C08_one_shot] always holds. *)
Theorem C08_variance_never_negative (Q : list (vec R)) j : nltb (variance Q j) (n0 : R) = false.
Proof. exact (variance_nonneg Q j). Qed.
Print Assumptions C08_variance_never_negative.

(** Two data sets: energies only, and energies with forces and stresses. *)
Module Example.
  Definition q (n : Z) (d : positive) : Qc := Q2Qc (Qmake n d).
  Definition fe (s : nat) : vec Qc := fun j => q (Z.of_nat (s * (j + 1))) 1.
  Definition ff (s : nat) : list (vec Qc) := [fun j => q 1 1; fun j => q 0 1; fun j => q (Z.of_nat j) 1].
  Definition fs (s : nat) : list (vec Qc) := [fe s; fe s; fe s; fun _ => q 0 1; fun _ => q 0 1; fun _ => q 0 1].
  Definition r (s : nat) (e : Z) : rec Qc nat :=
    mk_rec s (q e 1) [q 1 1; q 2 1; q 3 1] [q 1 1; q 1 1; q 1 1; q 2 1; q 2 1; q 2 1] (q 1 1) 1 None.
  Definition d1 : ds Qc nat := mk_ds Vasp (Single "a") false false (q 1 1) (Some (layout ["Al"] true true [r 2 (-3)])) true.
  Definition d2 : ds Qc nat := mk_ds Vasp (Single "b") true true (q 1 2) (Some (layout ["Al"] true true [r 5 (-7); r 3 (-4)])) true.
  Definition ps := [(d1, [r 2 (-3)]); (d2, [r 5 (-7); r 3 (-4)])].
  Lemma meets : sorts insertion_argsort /\ Forall (usable ff fs (fun _ => [1%nat])) ps.
  Proof.
    split; [exact insertion_argsort_sorts|]. repeat constructor; cbn; try discriminate; try (eexists _, _, _; reflexivity).
  Qed.
  (** Batch sizes 1 and 7 give the same entry, as the theorem says. *)
  Definition out (b : Z) : option (Qc * Qc * nat) :=
    match calc_xtx_xty (fun _ => [1%nat]) fe ff fs (fun _ => q 99 1) (fun _ e _ => q 1 1) (fun _ => q 1 1) (fun _ => q 1 1)
            (q 10000000000 1) (q 1 1000) 2 77 10 insertion_argsort "part" (map fst ps) None None (q 1 10) b with
    | Ok n => Some (m_xtx n 1%nat 0%nat, m_xty n 1%nat, m_total n)
    | Err _ => None
    end.
  Lemma runs : out 1 = out 7 /\ out 1 <> None.
  Proof. split; [vm_compute; reflexivity|vm_compute; discriminate]. Qed.
End Example.
