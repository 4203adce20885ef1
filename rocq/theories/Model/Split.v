(** Model of [split_ids_train_test] and [split_train_test]
    (/repo/src/pypolymlp/core/utils.py L18-34).

    Simplifications: the ratio is an exact rational p/q, [np.linspace] and [np.round]
    are exact (round half to even), no float64 rounding. *)
From Verif Require Import Base.

(** Rounding of a/b (b > 0) to the nearest integer, ties to even.
    Python [round] and [np.round] (utils.py L20, L22). *)
Definition round_half_even (a b : Z) : Z :=
  let q := (a / b)%Z in
  let r := (a mod b)%Z in
  if (2 * r <? b)%Z then q
  else if (b <? 2 * r)%Z then (q + 1)%Z
  else if Z.even q then q else (q + 1)%Z.

(** [np.round(np.linspace(0, n - 1, num=num)).astype(int)] (utils.py L22).
    numpy: one point gives the start, otherwise step = (n-1)/(num-1);
    a negative [num] raises ValueError. *)
Definition linspace_ids (n num : Z) : res (list Z) :=
  if (num <? 0)%Z then Err ValueError
  else if (num =? 1)%Z then Ok [0%Z]
  else Ok (map (fun i => round_half_even (Z.of_nat i * (n - 1)) (num - 1))
               (seq 0 (Z.to_nat num))).

(** Assignment [train_bools[test_ids] = False] needs every index in [-n, n)
    (numpy IndexError otherwise); negative ones count from the end (utils.py L25). *)
Definition np_index (n i : Z) : res nat :=
  if ((- n <=? i) && (i <? n))%Z
  then Ok (Z.to_nat (if (i <? 0)%Z then (i + n)%Z else i))
  else Err IndexError.

(** [split_ids_train_test] (utils.py L18-27), ratio = p/q. *)
Definition split_ids_train_test (n : nat) (p q : Z) : res (list nat * list nat) :=
  let n_train := round_half_even (Z.of_nat n * p) q in
  let n_test := (Z.of_nat n - n_train)%Z in
  do test_ids <- linspace_ids (Z.of_nat n) n_test;
  do test_nat <- mapM (np_index (Z.of_nat n)) test_ids;
  let train_bools := map (fun i => negb (mem i test_nat)) (seq 0 n) in
  let train_ids := where_ (fun b => b) train_bools in
  Ok (train_ids, test_nat).

(** [split_train_test] (utils.py L30-34). *)
Definition split_train_test {A} (files : list A) (p q : Z) : res (list A * list A) :=
  do (train_ids, test_ids) <- split_ids_train_test (length files) p q;
  do tr <- mapM (get files) train_ids;
  do te <- mapM (get files) test_ids;
  Ok (tr, te).
