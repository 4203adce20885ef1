(** C39: triangularised axes are a rotation of the original. *)
From Verif Require Import Base Num NumR Model.Tensor Proofs.Tensor.
From Coq Require Import Reals Lra.
Local Open Scope R_scope.

(** Columns are cell vectors; the determinant is written out in [det3]. *)
Definition tri (A : mat R) : mat R := snd (fst (triangularize_axis A)).
Definition rotation (A : mat R) : mat R := snd (triangularize_axis A).
Definition metric (A : mat R) (i j : nat) : R := sumn 3 (fun k => A k i * A k j).
Definition orthogonal (Q : mat R) : Prop :=
  forall i j, (i < 3)%nat -> (j < 3)%nat -> sumn 3 (fun k => Q k i * Q k j) = (if Nat.eqb i j then 1 else 0) /\ sumn 3 (fun k => Q i k * Q j k) = (if Nat.eqb i j then 1 else 0).

Theorem C39_triangular (A : mat R) : det3 A <> 0 ->
  let T := tri A in
  (forall i j, (i < 3)%nat -> (j < 3)%nat -> metric T i j = metric A i j) /\
  (T 1%nat 0%nat = 0 /\ T 2%nat 0%nat = 0 /\ T 2%nat 1%nat = 0) /\ (0 < T 0%nat 0%nat /\ 0 < T 1%nat 1%nat /\ 0 < T 2%nat 2%nat) /\
  fst (fst (triangularize_axis A)) = [T 0 0; T 1 1; T 2 2; T 0 1; T 1 2; T 0 2]%nat.
Proof.
  intros H. destruct (tri_parts A H) as [HM [H10 [H20 [H21 [P0 [P1 P2]]]]]]. cbv zeta. split; [|split; [|split]].
  - intros i j Hi Hj. exact (HM i j Hi Hj).
  - auto.
  - auto.
  - reflexivity.
Qed.
Print Assumptions C39_triangular.
Lemma R10 : (n1 : R) <> n0. Proof. cbn. lra. Qed.
Lemma rotation_left A : det3 A <> 0 -> eq3 (mmul (trans (rotation A)) (rotation A)) eye.
Proof.
  intros H. change (rotation A) with (mmul (tri A) (inv3 A)). destruct (tri_parts A H) as [HM _].
  eapply eq3_trans; [apply mmul_ext; [apply trans_mmul|apply eq3_refl]|]. eapply eq3_trans; [apply mmul_assoc|].
  eapply eq3_trans; [apply mmul_ext; [apply eq3_refl|]|]. { eapply eq3_trans; [apply eq3_sym, mmul_assoc|]. apply mmul_ext; [exact HM|apply eq3_refl]. }
  eapply eq3_trans; [apply mmul_ext; [apply eq3_refl|]|]. { eapply eq3_trans; [apply mmul_assoc|]. apply mmul_ext; [apply eq3_refl|now apply inv3_r]. }
  eapply eq3_trans; [apply mmul_ext; [apply eq3_refl|apply mmul_eye_r]|].
  eapply eq3_trans; [apply eq3_sym, trans_mmul|]. eapply eq3_trans; [apply trans_ext; now apply inv3_r|]. intros i j _ _. unfold trans, eye. now rewrite Nat.eqb_sym.
Qed.
Theorem C39_rotation (A : mat R) : det3 A <> 0 ->
  orthogonal (rotation A) /\
  (forall i j, (i < 3)%nat -> (j < 3)%nat -> sumn 3 (fun k => rotation A i k * A k j) = tri A i j) /\
  (0 < det3 A -> det3 (rotation A) = 1) /\ (det3 A < 0 -> det3 (rotation A) = -1).
Proof.
  intros H. assert (HL := rotation_left A H). assert (HR := inverse_swap _ _ R10 HL). split; [|split].
  - intros i j Hi Hj. split; [exact (HL i j Hi Hj)|exact (HR i j Hi Hj)].
  - intros i j Hi Hj. change (mmul (mmul (tri A) (inv3 A)) A i j = tri A i j). rewrite mmul_assoc by assumption.
    apply (eq3_trans _ (mmul (tri A) eye)); [apply mmul_ext; [apply eq3_refl|now apply inv3_l]|apply mmul_eye_r|exact Hi|exact Hj].
  - destruct (tri_parts A H) as [_ [H10 [H20 [H21 [P0 [P1 P2]]]]]]. fold (tri A) in *.
    assert (D : det3 (rotation A) * det3 (rotation A) = 1). { rewrite <- (det3_trans (rotation A)) at 1. etransitivity; [exact (eq_sym (det3_mmul (trans (rotation A)) (rotation A)))|]. rewrite (det3_ext _ _ HL). exact (det3_eye (F:=R)). }
    assert (E : det3 (rotation A) * det3 A = det3 (tri A)).
    { etransitivity; [exact (eq_sym (det3_mmul (rotation A) A))|]. apply det3_ext. intros i j Hi Hj. change (mmul (mmul (tri A) (inv3 A)) A i j = tri A i j). rewrite mmul_assoc by assumption.
      apply (eq3_trans _ (mmul (tri A) eye)); [apply mmul_ext; [apply eq3_refl|now apply inv3_l]|apply mmul_eye_r|exact Hi|exact Hj]. }
    assert (PT : 0 < det3 (tri A)). { replace (det3 (tri A)) with (tri A 0%nat 0%nat * tri A 1%nat 1%nat * tri A 2%nat 2%nat) by (unfold det3, ent; cbn [nadd nmul nsub R_num]; rewrite H10, H20, H21; ring). apply Rmult_lt_0_compat; [now apply Rmult_lt_0_compat|exact P2]. }
    revert D E PT. generalize (det3 (rotation A)) (det3 A) (det3 (tri A)). intros x y z D E PT.
    assert (C : x = 1 \/ x = -1). { assert (G : (x - 1) * (x + 1) = 0) by (ring_simplify; lra). apply Rmult_integral in G. destruct G; [left|right]; lra. }
    split; intros Hy; destruct C as [->| ->]; lra.
Qed.
Print Assumptions C39_rotation.
(** Forces f (axis, atom) and a tensor s, rotated and recovered; also the other way round. *)
Theorem C39_recover (A : mat R) (f : nat -> nat -> R) (s : mat R) : det3 A <> 0 ->
  (forall i a, (i < 3)%nat -> recover_rotated_forces (fun p a => sumn 3 (fun q => rotation A p q * f q a)) (rotation A) i a = f i a) /\
  (forall i j, (i < 3)%nat -> (j < 3)%nat -> recover_rotated_stress (fun p q => sumn 3 (fun k => sumn 3 (fun l => rotation A p k * s k l * rotation A q l))) (rotation A) i j = s i j) /\
  (forall i a, (i < 3)%nat -> sumn 3 (fun q => rotation A i q * recover_rotated_forces f (rotation A) q a) = f i a).
Proof.
  intros H. assert (HL := rotation_left A H). assert (HR := inverse_swap _ _ R10 HL). split; [|split].
  - intros i a Hi. exact (forces_back (rotation A) f i a HL Hi).
  - intros i j Hi Hj. etransitivity; [|exact (stress_back (rotation A) s i j HL Hi Hj)]. rewrite !stress_flat by assumption. apply mmul_ext; [|apply eq3_refl|exact Hi|exact Hj]. apply mmul_ext; [apply eq3_refl|].
    intros p q _ _. unfold mmul, trans. rewrite !sum3. cbn [nadd nmul R_num]. ring.
  - intros i a Hi. assert (HR' : eq3 (mmul (trans (trans (rotation A))) (trans (rotation A))) eye) by exact HR. exact (forces_back (trans (rotation A)) f i a HR' Hi).
Qed.
Print Assumptions C39_recover.
Example C39_example : det3 (rows3 [0; 1; 0] [1; 0; 0] [0; 0; 2]) <> 0 /\ det3 (rows3 [1; 1; 0] [-1; 1; 1] [0; 0; 2]) <> 0.
Proof. split; cbn; lra. Qed.
