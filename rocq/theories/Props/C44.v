(** C44: order of stress components. *)
From Verif Require Import Base Num Model.Tensor Proofs.Tensor.
From Coq Require Import Ring Field.

Section C44.
  Context {F : Type} {N : Num F} {L : FieldLaws F}.
  Local Open Scope num_scope.
  Add Field Ff44 : (field_laws (F:=F)).
  Definition symmetric3 (s : mat F) : Prop := forall i j, i < 3 -> j < 3 -> s i j = s j i.

  (** Six components and back; a six-component array and back. *)
  Theorem C44_tensor (s : mat F) i j : symmetric3 s -> i < 3 -> j < 3 -> tensor_of (six_of s) i j = s i j.
  Proof. intros H Hi Hj. destruct i as [|[|[|i]]]; try lia; (destruct j as [|[|[|j]]]; try lia); cbn; (reflexivity || (apply H; lia)). Qed.
  Theorem C44_six (s : list F) : length s = 6 -> six_of (tensor_of s) = s /\ symmetric3 (tensor_of s).
  Proof.
    intros H. destruct s as [|a [|b [|c [|d [|e [|f [|g s]]]]]]]; try discriminate. split; [reflexivity|].
    intros i j Hi Hj. destruct i as [|[|[|i]]]; try lia; (destruct j as [|[|[|j]]]; try lia); reflexivity.
  Qed.
  (** Voigt order is xx, yy, zz, yz, zx, xy, and it loses nothing. *)
  Theorem C44_voigt (s : mat F) : symmetric3 s ->
    to_voigt (six_of s) = [s 0 0; s 1 1; s 2 2; s 1 2; s 2 0; s 0 1]%nat /\ to_voigt (six_of s) = map (fun '(i, j) => s i j) voidt /\
    reindex (to_voigt (six_of s)) [0; 1; 2; 5; 3; 4]%nat = six_of s.
  Proof. intros H. repeat split. cbn. rewrite (H 0 2)%nat by lia. reflexivity. Qed.
  (** Symmetrisation of the stress applies the 9x9 projection to the full tensor. *)
  Theorem C44_symmetrize (proj : mat F) (s : mat F) : symmetric3 s ->
    symmetrize_stress proj (six_of s) = six_of (fun i j => sumn 3 (fun k => sumn 3 (fun l => proj (3 * i + j)%nat (3 * k + l)%nat * s k l))).
  Proof.
    intros H. unfold symmetrize_stress, reindex, six_order, flat_order, six_of. cbn [map nth seq Nat.mul Nat.add]. unfold dot, sumn, nsumf, nsum. cbn [map seq fold_right nth Nat.mul Nat.add].
    rewrite (H 1 0)%nat, (H 2 1)%nat, (H 0 2)%nat by lia. repeat (f_equal; [ring|]). f_equal. ring.
  Qed.
  Theorem C44_symmetrize_id (s : mat F) : symmetric3 s -> symmetrize_stress eye (six_of s) = six_of s.
  Proof.
    intros H. rewrite C44_symmetrize by exact H. unfold six_of. unfold sumn, nsumf, nsum, eye. cbn [map seq fold_right Nat.mul Nat.add Nat.eqb]. repeat (f_equal; [ring|]). f_equal. ring.
  Qed.
End C44.
Print Assumptions C44_tensor.
Print Assumptions C44_six.
Print Assumptions C44_voigt.
Print Assumptions C44_symmetrize.
Print Assumptions C44_symmetrize_id.
(** ASE expects Voigt order; the calculator hands over the order xx, yy, zz, xy, yz, zx, so shear components are misplaced. *)
From Coq Require Import QArith Qcanon.
Local Open Scope nat_scope.
Definition sheared : mat Qc := fun i j => if (i + j =? 1) then 1%Qc else 0%Qc.
Theorem C44_ase_refuted : symmetric3 sheared /\ ase_stress (six_of sheared) <> [sheared 0 0; sheared 1 1; sheared 2 2; sheared 1 2; sheared 0 2; sheared 0 1].
Proof. split; [intros i j _ _; unfold sheared; now rewrite Nat.add_comm|]. intros E. injection E as E _. discriminate E. Qed.
Print Assumptions C44_ase_refuted.
Example C44_example : six_of sheared = [0; 0; 0; 1; 0; 0]%Qc /\ to_voigt (six_of sheared) = [0; 0; 0; 0; 0; 1]%Qc.
Proof. split; reflexivity. Qed.
