(** C19: the forces of a structure sum to zero. *)
From Verif Require Import Base Num Complex Model.Cxx Model.Features Model.Potential Model.Neighbor Model.Compute Model.Eval Spec.Neighbor
  Proofs.ForceSum Props.C18.
From Coq Require Import QArith Qcanon.
Local Open Scope nat_scope.

(** Predicted forces, for any model and any neighbour list. *)
Theorem C19_forces {F} {N : Num F} {NO : NumOrd F} {L : RingLaws F} (tol : F) (B : basis F) (A : api F) (types : nat -> nat) rows (c : nat) :
  half_list rows ->
  nsumf (forces tol B A types (length rows) (csr_of rows) c) (seq 0 (length rows)) = n0.
Proof. exact (forces_zero tol B types A rows c). Qed.
Print Assumptions C19_forces.

(** Force features: rows 3 k + c of every column, k running over the atoms. *)
Theorem C19_features {F} {N : Num F} {NO : NumOrd F} {L : RingLaws F} (tol : F) (B : basis F) (fp : fparams F) (types : nat -> nat)
    (n : nat) (neigh : nat -> list (nat * v3 F)) (c g : nat) :
  (forall i j d, i < n -> In (j, d) (neigh i) -> j < n) -> c < 3 ->
  nsumf (fun k => xf_sum tol B fp types n neigh (3 * k + c) g) (seq 0 n) = n0.
Proof. exact (fun H => force_features_zero tol B types fp n neigh H c g). Qed.
Print Assumptions C19_features.

(** Forces of the example of C18. *)
Module Example.
  Import C18.Example.
  Lemma meets : half_list rows /\ forall i j d, i < 3 -> In (j, d) (neigh i) -> j < 3.
  Proof.
    split; [exact half_ok|]. intros i j d Hi Hj. destruct i as [|[|[|]]]; cbn in Hj; [| | |lia];
      repeat (destruct Hj as [E|Hj]; [injection E as <- _; lia|]); tauto.
  Qed.
  Lemma value :
    map (fun k => this (forces (q 0) B (polymlp_eval fpP coeffs) types 3 (csr_of rows) 1 k)) [0; 1; 2] = [-422320 # 3; 844640 # 3; -422320 # 3]%Q /\
    map (fun k => this (xf_sum (q 0) B fpG types 3 neigh (3 * k + 2) 5)) [0; 1; 2] = [77500 # 3; 0; -77500 # 3]%Q.
  Proof. vm_compute. auto. Qed.
End Example.
