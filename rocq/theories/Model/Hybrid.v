(** Hybrid models: one feature vector made of the features of several models.

    /repo/src/pypolymlp/cxx/src/compute/py_hybrid_model.cpp L46-54 (cumulative_n_features),
    L64-104 (columns of X);
    /repo/src/pypolymlp/mlp_dev/core/dataclass.py L36-43, L59-67 (hybrid_division);
    /repo/src/pypolymlp/core/io_polymlp.py L34-51 (save_mlps).

    Simplification: the features of one model are an oracle (a list of numbers). *)
From Verif Require Import Base Num Model.Structure.

(** [cumulative_n_features] (L47-54). *)
Fixpoint cumulative_from (n : nat) (ns : list nat) : list nat :=
  match ns with [] => [] | k :: t => (n + k) :: cumulative_from (n + k) t end.
Definition cumulative (ns : list nat) : list nat := cumulative_from 0 ns.

(** [begin = 0 if i == 0 else cumulative[i - 1]; end = cumulative[i]]. *)
Definition bounds (cum : list nat) (i : nat) : res (nat * nat) :=
  do b <- (if i =? 0 then Ok 0 else get cum (i - 1));
  do e <- get cum i;
  Ok (b, e).
(** [hybrid_division] (dataclass.py L59-67) for [n] sub-models. *)
Definition hybrid_division {A} (n : nat) (cum : list nat) (target : list A) : res (list (list A)) :=
  mapM (fun i => do (b, e) <- bounds cum i; Ok (slice b e target)) (seq 0 n).

Section Hybrid.
  Context {F : Type} {N : Num F}.
  Local Open Scope num_scope.
  Definition div_lists (c s : list F) : list F := map (fun q => fst q / snd q) (combine c s).

  (** [scaled_coeffs] (dataclass.py L36-43). *)
  Definition scaled_coeffs (n : nat) (cum : list nat) (coeffs scales : list F) : res (list (list F)) :=
    do c <- hybrid_division n cum coeffs;
    do s <- hybrid_division n cum scales;
    Ok (map (fun q => div_lists (fst q) (snd q)) (combine c s)).

  (** [save_mlps] (io_polymlp.py L34-51): what [save_mlp_yaml] writes for model i + 1
      ([coeffs / scales], io_polymlp_yaml.py L77). *)
  Definition saved_coeffs (n : nat) (cum : list nat) (coeffs scales : list F) : res (list (list F)) :=
    mapM (fun i => do (b, e) <- bounds cum i; Ok (div_lists (slice b e coeffs) (slice b e scales))) (seq 0 n).

  (** One row of X: model n writes its features at [first_index] (py_hybrid_model.cpp L67-91). *)
  Fixpoint put (row : list F) (at_ : nat) (xs : list F) : list F :=
    match xs with [] => row | x :: t => put (write_at row at_ x) (S at_) t end.
  Fixpoint fill (row : list F) (first : nat) (cum : list nat) (parts : list (list F)) : list F :=
    match cum, parts with
    | c :: cum', xs :: parts' => fill (put row first xs) c cum' parts'
    | _, _ => row
    end.
  Definition hybrid_row (cum : list nat) (parts : list (list F)) : list F :=
    fill (repeat 0 (last cum 0%nat)) 0 cum parts.

  Definition ldot (u v : list F) : F := nsumf (fun q => fst q * snd q) (combine u v).
End Hybrid.
