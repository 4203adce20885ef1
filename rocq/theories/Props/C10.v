(** C10: the mean squared error from the normal equations is the direct one. *)
From Verif Require Import Base Num Model.Regress Proofs.Select.
From Coq Require Import QArith Qcanon.
Local Open Scope nat_scope.
Local Open Scope num_scope.

Theorem C10_mse {F} {N : Num F} {L : FieldLaws F} (p : nat) (x : list (vec F)) (y : list F)
    (xtx : mat F) (xty : vec F) (yy : F) (n : nat) (c : vec F) :
  length x = length y -> n = length y ->
  (forall i j, (i < p)%nat -> (j < p)%nat -> xtx i j = nsumf (fun r => r i * r j) x) ->
  (forall i, (i < p)%nat -> xty i = nsumf (fun q => fst q i * snd q) (combine x y)) ->
  yy = nsumf (fun a => a * a) y ->
  compute_mse p xtx xty yy n c =
    nsumf (fun q => let e := snd q - sumn p (fun j => fst q j * c j) in e * e) (combine x y) / nnat (length y).
Proof. exact (mse_equal p x y xtx xty yy n c). Qed.
Print Assumptions C10_mse.

Module Example.
  Definition z (n : Z) : Qc := Q2Qc (Qmake n 1).
  Definition x : list (vec Qc) := [fun j => z (Z.of_nat (j + 1)); fun j => z (2 - Z.of_nat j); fun j => z 3].
  Definition y : list Qc := [z 1; z (-2); z 5].
  Definition c : vec Qc := fun j => z (Z.of_nat j * 2 - 1).
  (** predictions 1, -1, 0; residuals 0, -1, 5 *)
  Lemma value : compute_mse 2 (xtx_of x) (xty_of x y) (ysq y) 3 c = Q2Qc (26 # 3) /\
                nsumf (fun q => let e := snd q - sumn 2 (fun j => fst q j * c j) in e * e) (combine x y) / nnat (length y) = Q2Qc (26 # 3).
  Proof. split; apply Qc_is_canon; vm_compute; reflexivity. Qed.
End Example.
