(** C14: coefficients of hybrid models are divided without loss. *)
From Verif Require Import Base Num Model.Structure Model.Hybrid Proofs.Hybrid.
From Coq Require Import QArith Qcanon.
Local Open Scope nat_scope.
Local Open Scope num_scope.

(** The pieces have the sizes of the sub-models and make up the whole. *)
Theorem C14_division {A} (ns : list nat) (l : list A) : length l = sum ns ->
  exists ps, hybrid_division (length ns) (cumulative ns) l = Ok ps /\ map (@length A) ps = ns /\ concat ps = l.
Proof. exact (hybrid_division_spec ns l). Qed.
Print Assumptions C14_division.

(** Scaled coefficients in memory and in the saved files are the pieces of c / s. *)
Theorem C14_scaled {F} {N : Num F} (ns : list nat) (c s : list F) :
  length c = sum ns -> length s = sum ns ->
  exists ps, scaled_coeffs (length ns) (cumulative ns) c s = Ok ps /\
    saved_coeffs (length ns) (cumulative ns) c s = Ok ps /\
    map (@length F) ps = ns /\ concat ps = map (fun q => fst q / snd q) (combine c s).
Proof. exact (scaled_spec ns c s). Qed.
Print Assumptions C14_scaled.

(** The training row holds the features of the sub-models in the same places: the prediction
    of the hybrid model is the sum of those of the saved sub-models. *)
Theorem C14_prediction {F} {N : Num F} {L : FieldLaws F} (ns : list nat) (parts : list (list F)) (c s : list F) :
  map (@length F) parts = ns -> length c = sum ns -> length s = sum ns ->
  hybrid_row (cumulative ns) parts = concat parts /\
  exists ps, saved_coeffs (length ns) (cumulative ns) c s = Ok ps /\ length ps = length ns /\
    ldot (hybrid_row (cumulative ns) parts) (div_lists c s) = nsumf (fun q => ldot (fst q) (snd q)) (combine parts ps).
Proof. exact (fun H1 H2 H3 => conj (hybrid_row_spec ns parts H1) (hybrid_prediction ns parts c s H1 H2 H3)). Qed.
Print Assumptions C14_prediction.

(** Three sub-models, one of them without features. *)
Module Example.
  Lemma value : hybrid_division 3 (cumulative [2; 0; 3]%nat) [10; 20; 30; 40; 50]%Z = Ok [[10; 20]; []; [30; 40; 50]]%Z.
  Proof. reflexivity. Qed.
  Definition z (n : Z) : Qc := Q2Qc (Qmake n 1).
  Lemma row : hybrid_row (cumulative [2; 0; 1]%nat) [[z 1; z 2]; []; [z 3]] = [z 1; z 2; z 3].
  Proof. vm_compute. reflexivity. Qed.
End Example.
