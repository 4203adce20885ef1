(** C01: the train/test split is a partition. *)
From Verif Require Import Base Model.Split Proofs.Split.
Local Open Scope Z_scope.

(** For every number of data [n] and every ratio p/q in [0,1]: every index is in exactly one
    of the two lists, both lists increase strictly, the number of training data is the integer
    nearest to n*p/q (even on ties), and the first (and last) datum is a test datum. *)
Theorem C01_split_ids_partition n p q :
  0 < q -> 0 <= p <= q ->
  exists train test,
    split_ids_train_test n p q = Ok (train, test) /\
    Permutation (train ++ test) (seq 0 n) /\
    StronglySorted lt train /\ StronglySorted lt test /\
    Z.abs (2 * q * Z.of_nat (length train) - 2 * Z.of_nat n * p) <= q /\
    (Z.abs (2 * q * Z.of_nat (length train) - 2 * Z.of_nat n * p) = q ->
     Nat.even (length train) = true) /\
    (1 <= length test -> In 0 test)%nat /\
    (2 <= length test -> In (n - 1) test)%nat.
Proof. exact (split_ids_full n p q). Qed.
Print Assumptions C01_split_ids_partition.

(** The same for the list of files: the files at the indices above, none lost, none
    duplicated. *)
Theorem C01_split_files_partition {A} (files : list A) p q :
  0 < q -> 0 <= p <= q ->
  exists tri tei train test,
    split_ids_train_test (length files) p q = Ok (tri, tei) /\
    split_train_test files p q = Ok (train, test) /\
    Forall2 (fun i f => nth_error files i = Some f) tri train /\
    Forall2 (fun i f => nth_error files i = Some f) tei test /\
    Permutation (train ++ test) files.
Proof. exact (split_files_ids files p q). Qed.
Print Assumptions C01_split_files_partition.

(** Example: 25 items, ratio 9/10: 22 training data (22.5, tie to even), 3 test data. *)
Example C01_example :
  split_ids_train_test 25 9 10
  = Ok (([1;2;3;4;5;6;7;8;9;10;11;13;14;15;16;17;18;19;20;21;22;23]%nat), [0;12;24]%nat).
Proof. vm_compute. reflexivity. Qed.
