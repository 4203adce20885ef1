(** What "the same potential" means when it is written to a file and read back. *)
From Verif Require Import Base Num Model.Structure Model.SpinParams Model.Parser Model.PotentialFile.
From Coq Require String Ascii.

(** A word that can stand in a list of a file: not empty, no white space, comma, colon or bracket. *)
Definition clean_char (c : ascii) : Prop := ~ In (Ascii.nat_of_ascii c) [9; 10; 11; 12; 13; 32; 44; 58; 91; 93].
Definition clean (t : text) : Prop := t <> [] /\ Forall clean_char t.

(** A table of pair parameters for [n] types: one non-empty entry for each unordered pair of types. *)
Record complete (n : nat) (d : list ((nat * nat) * list nat)) : Prop := mk_complete {
  keys_once : NoDup (map fst d);
  keys_all : forall i j, In (i, j) (map fst d) <-> i <= j < n;
  rows_filled : forall k l, In (k, l) d -> l <> []
}.
(** Entry (i, j) of a square table *)
Definition entry {A} (m : list (list (list A))) (i j : nat) : list A := nth j (nth i m []) [].
(** The square table of the unordered pairs: entry (i, j), i <= j, is the one of the pair, the others are empty. *)
Definition square (n : nat) (d : list ((nat * nat) * list nat)) (m : list (list (list nat))) : Prop :=
  length m = n /\ Forall (fun r => length r = n) m /\ forall i j, i < n -> j < n -> forall l, entry m i j = l <-> (In ((i, j), l) d \/ (j < i /\ l = [])).
