(** C31: type words are enumerated completely. *)
From Verif Require Import Base Model.ModelParams Proofs.ModelParams.

Theorem C31_words {A : Type} (k : nat) (input : list A) :
  NoDup input ->
  let all := permutenr k input [] [] in
  NoDup all /\ length all = length input ^ k /\
  forall w, In w all <-> length w = k /\ Forall (fun x => In x input) w.
Proof. exact (permutenr_spec k input). Qed.
Print Assumptions C31_words.

Example C31_example : permutenr 2 [0; 1; 2] [] []
  = [[0; 0]; [0; 1]; [0; 2]; [1; 0]; [1; 1]; [1; 2]; [2; 0]; [2; 1]; [2; 2]].
Proof. reflexivity. Qed.
