(** C12: the selected model is the best one. *)
From Verif Require Import Base Num Model.Regress Proofs.Select.
From Coq Require Import QArith Qcanon.
Local Open Scope nat_scope.
Local Open Scope num_scope.

Theorem C12_best {F} {N : Num F} {O : NumOrd F} {OL : OrdLaws F}
    (alphas : list F) (coefs : list (vec F)) (scales : vec F) (rmse_train rmse_test : list F) :
  let n := length alphas in
  length coefs = n -> length rmse_train = n -> length rmse_test = n -> 1 <= n ->
  exists k r, get_best_model alphas coefs scales rmse_train rmse_test = Ok r /\
    nth_error alphas k = Some (p_alpha r) /\ nth_error coefs k = Some (p_coeffs r) /\
    nth_error rmse_train k = Some (p_rmse_train r) /\ nth_error rmse_test k = Some (p_rmse_test r) /\
    p_scales r = scales /\ (forall i, p_scaled r i = p_coeffs r i / scales i) /\
    (forall i e, nth_error rmse_test i = Some e -> nltb e (p_rmse_test r) = false) /\
    (forall i e, i < k -> nth_error rmse_test i = Some e -> nltb (p_rmse_test r) e = true).
Proof. exact (best_spec alphas coefs scales rmse_train rmse_test). Qed.
Print Assumptions C12_best.

(** Three candidates, two of them equally good: the first of these is taken. *)
Module Example.
  Definition z (n : Z) : Qc := Q2Qc (Qmake n 1).
  Lemma value : match get_best_model [z 10; z 20; z 30] [fun _ => z 1; fun _ => z 2; fun _ => z 3] (fun _ => z 2)
                        [z 7; z 8; z 9] [z 5; z 4; z 4] with
    | Ok r => p_alpha r = z 20 /\ this (p_scaled r 0%nat) = 1%Q /\ p_rmse_test r = z 4
    | Err _ => False end.
  Proof. vm_compute. repeat split; reflexivity. Qed.
End Example.
