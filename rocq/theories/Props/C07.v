(** C07: batches cover the data exactly once. *)
From Verif Require Import Base Model.Batch Proofs.Batch.

(** For a positive batch size the half-open slices, read in order, are exactly 0..n-1; each
    is non-empty, in range and not longer than the batch size. *)
Theorem C07_batches_cover (n b : nat) :
  1 <= b ->
  exists bs, batches (Z.of_nat n) (Z.of_nat b) = Ok (map (fun p => (Z.of_nat (fst p), Z.of_nat (snd p))) bs) /\
    flat_map (fun p => seq (fst p) (snd p - fst p)) bs = seq 0 n /\
    Forall (fun p => fst p < snd p /\ snd p <= n /\ snd p - fst p <= b) bs.
Proof. exact (batches_spec n b). Qed.
Print Assumptions C07_batches_cover.

(** A zero batch size is an error; a negative one silently skips all data. *)
Theorem C07_zero_rejected (n : Z) : batches n 0 = Err ValueError.
Proof. exact (batches_zero n). Qed.
Print Assumptions C07_zero_rejected.
Theorem C07_negative_skips_all (n b : Z) : (0 <= n)%Z -> (b < 0)%Z -> batches n b = Ok [].
Proof. exact (batches_negative n b). Qed.
Print Assumptions C07_negative_skips_all.

Example C07_example : batches 10 4 = Ok [(0, 4); (4, 8); (8, 10)]%Z.
Proof. reflexivity. Qed.
Example C07_example_one : batches 3 7 = Ok [(0, 3)]%Z.
Proof. reflexivity. Qed.
Example C07_example_empty : batches 0 7 = Ok [].
Proof. reflexivity. Qed.
