(** C16: type pairs are numbered consistently. *)
From Verif Require Import Base Model.Mapping Proofs.Mapping.

(** [tpair n i j] is the entry (i, j) of the table, [tp_to_types n] the inverse list. *)
Theorem C16_type_pairs (n : nat) :
  2 * length (tp_to_types n) = n * (n + 1) /\
  (forall i j, i < n -> j < n ->
     tpair n i j = tpair n j i /\
     nth_error (tp_to_types n) (tpair n i j) = Some (Nat.min i j, Nat.max i j)) /\
  (forall tp, tp < length (tp_to_types n) -> exists i j, i <= j < n /\ tpair n i j = tp).
Proof. exact (type_pairs_numbering n). Qed.
Print Assumptions C16_type_pairs.

(** Two pairs share a number only if they are the same unordered pair. *)
Theorem C16_injective (n i j k l : nat) :
  i < n -> j < n -> k < n -> l < n -> tpair n i j = tpair n k l -> (i = k /\ j = l) \/ (i = l /\ j = k).
Proof. exact (tpair_inj n i j k l). Qed.
Print Assumptions C16_injective.

(** The table is square. *)
Theorem C16_square (n : nat) :
  length (type_pairs n) = n /\ forall i, i < n -> length (nth i (type_pairs n) []) = n.
Proof. exact (type_pairs_dims n). Qed.
Print Assumptions C16_square.

Example C16_example : set_type_pairs 3
  = ([[0; 1; 2]; [1; 3; 4]; [2; 4; 5]], [(0, 0); (0, 1); (0, 2); (1, 1); (1, 2); (2, 2)]).
Proof. reflexivity. Qed.
