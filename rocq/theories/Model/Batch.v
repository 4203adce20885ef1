(** Batch slices.

    /repo/src/pypolymlp/mlp_dev/core/utils_sequential.py L27-34 (get_batch_slice).

    Simplification: integers are unbounded. *)
From Verif Require Import Base.

(** Python [list(range(0, n, step))]: a zero step is ValueError. *)
Definition py_range0 (n step : Z) : res (list Z) :=
  if (step =? 0)%Z then Err ValueError
  else if (step <? 0)%Z
       then Ok (map (fun k => (Z.of_nat k * step)%Z) (seq 0 (Z.to_nat ((- n + - step - 1) / - step))))
       else Ok (map (fun k => (Z.of_nat k * step)%Z) (seq 0 (Z.to_nat ((n + step - 1) / step)))).

(** [get_batch_slice] (L27-34). *)
Definition get_batch_slice (n_data batch_size : Z) : res (list Z * list Z) :=
  do begin_batch <- py_range0 n_data batch_size;
  let end_batch := if 1 <? length begin_batch then tl begin_batch ++ [n_data] else [n_data] in
  Ok (begin_batch, end_batch).

(** The loop [for begin, end in zip(begin_ids, end_ids)]
    (data_sequential.py L54-55, utils_sequential.py L83, L87, L117, L118). *)
Definition batches (n_data batch_size : Z) : res (list (Z * Z)) :=
  do (b, e) <- get_batch_slice n_data batch_size; Ok (combine b e).
