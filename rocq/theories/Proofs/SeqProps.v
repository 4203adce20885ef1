From Verif Require Import Base Num Model.Structure Model.DatasetDFT Model.Dataset Model.Regress
  Spec.Dataset Spec.Structure Spec.Regress Proofs.XtxBlocks Proofs.RegressFinal Proofs.StructureSpin2.
From Coq Require Import Ring Field.

Section S.
  Context {F : Type} {N : Num F} {O : NumOrd F} {L : FieldLaws F} {OL : OrdLaws F} {C0 : Char0 F} {St : Type}.
  Local Open Scope num_scope.
  Variables (s_natoms : St -> list nat) (fe : St -> vec F) (ff fs : St -> list (vec F)).
  Variables (weight_e : F -> F -> nat -> F) (weight_f weight_s : F -> F) (big threshold : F).
  Variables (p n_threshold n_batch : nat).
  Add Field Ffield : (field_laws (F:=F)).

  Lemma seq_complete (r0 : vec F) argsort part ps scales min_energy weight_stress b :
    sorts argsort -> (1 <= b)%nat -> ps <> [] -> Forall (usable ff fs s_natoms) ps -> p <> n_threshold ->
    exists r, calc_xtx_xty s_natoms fe ff fs r0 weight_e weight_f weight_s big threshold p n_threshold n_batch
                argsort part (map fst ps) scales min_energy weight_stress (Z.of_nat b) = Ok r /\
      let P := points fe ff fs weight_e weight_f weight_s weight_stress (m_min_e r) ps in
      let raw := fun j => match scales with Some s => s j
                          | None => nsqrt (if nltb (variance (energy_rows fe ps) j) 0 then 1 else variance (energy_rows fe ps) j) end in
      let off := fun j => tiny threshold (any_force ps) (raw j) in
      forall i j, (i < p)%nat -> (j < p)%nat ->
        m_xtx r i j = (if off i || off j then 0 else XTX P i j / raw i / raw j) /\ m_xtx r i j = m_xtx r j i.
  Proof.
    intros H1 H2 H3 H4 H5.
    destruct (seq_final s_natoms fe ff fs r0 weight_e weight_f weight_s big threshold p n_threshold n_batch argsort part
                ps scales min_energy weight_stress b H1 H2 H3 H4) as [r [E [_ [_ [_ [_ [_ [_ J]]]]]]]].
    exists r. split; [exact E|]. cbn zeta. cbn zeta in J.
    assert (J' : forall i j, (i < p)%nat -> (j < p)%nat -> m_xtx r i j =
      let raw := fun j => match scales with Some s => s j
                          | None => nsqrt (if nltb (variance (energy_rows fe ps) j) 0 then 1 else variance (energy_rows fe ps) j) end in
      let off := fun j => tiny threshold (any_force ps) (raw j) in
      if off i || off j then 0 else XTX (points fe ff fs weight_e weight_f weight_s weight_stress (m_min_e r) ps) i j / raw i / raw j).
    { intros i j Hi Hj. rewrite (J i j Hi Hj). unfold filled', usable_scale.
      replace (p =? n_threshold)%nat with false by (symmetry; apply Nat.eqb_neq; exact H5). cbn [negb orb]. cbn zeta.
      destruct (tiny _ _ _); [reflexivity|]. destruct (tiny _ _ _); reflexivity. }
    intros i j Hi Hj. rewrite (J' i j Hi Hj). split; [reflexivity|]. rewrite (J' j i Hj Hi). cbn zeta.
    rewrite orb_comm. destruct (_ || _); [reflexivity|]. rewrite (XTX_comm _ j i), !(Fdiv_def (field_laws (F:=F))). ring.
  Qed.

  Lemma seq_threshold (r0 : vec F) argsort part ps scales min_energy weight_stress b :
    sorts argsort -> (1 <= b)%nat -> ps <> [] -> Forall (usable ff fs s_natoms) ps -> p = n_threshold ->
    exists r, calc_xtx_xty s_natoms fe ff fs r0 weight_e weight_f weight_s big threshold p n_threshold n_batch
                argsort part (map fst ps) scales min_energy weight_stress (Z.of_nat b) = Ok r /\
      forall i j, (i < p)%nat -> (j < p)%nat ->
        let bs := Nat.max 100 (p / n_batch) in
        (j / bs < i / bs)%nat -> m_xtx r i j = 0.
  Proof.
    intros H1 H2 H3 H4 H5.
    destruct (seq_final s_natoms fe ff fs r0 weight_e weight_f weight_s big threshold p n_threshold n_batch argsort part
                ps scales min_energy weight_stress b H1 H2 H3 H4) as [r [E [_ [_ [_ [_ [_ [_ J]]]]]]]].
    exists r. split; [exact E|]. intros i j Hi Hj bs Hlt. rewrite (J i j Hi Hj). unfold filled'.
    rewrite H5, Nat.eqb_refl, <- H5. cbn [negb orb]. change (bsize p n_batch) with bs.
    replace (i / bs <=? j / bs)%nat with false by (symmetry; apply Nat.leb_gt; exact Hlt).
    destruct (_ || _); reflexivity.
  Qed.
End S.
