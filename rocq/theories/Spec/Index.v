(** Rows that belong to a structure and to a data set. *)
From Verif Require Import Base Model.Index.

(** The rows [b, b+len) reserved at offset [b]. *)
Definition span (b : Z) (len : nat) : list nat := seq (Z.to_nat b) len.

Definition stress_rows (ix : index) (i : nat) : list nat :=
  if nth i (force_st ix) false then span (nth i (xs_begin ix) 0%Z) 6 else [].
Definition force_rows (na : list nat) (ix : index) (i : nat) : list nat :=
  if nth i (force_st ix) false then span (nth i (xf_begin ix) 0%Z) (3 * nth i na 0) else [].
