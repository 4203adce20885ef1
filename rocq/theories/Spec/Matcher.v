(** Periodic arrangements of atoms, for statements on normal forms of fractional coordinates. *)
From Coq Require Import QArith ZArith List Permutation.
Import ListNotations.

(** Fractional coordinates of an atom *)
Definition atom := (Q * Q * Q)%type.
Definition ax (a : atom) : Q := fst (fst a).
Definition ay (a : atom) : Q := snd (fst a).
Definition az (a : atom) : Q := snd a.

(** The same coordinate up to integers after a translation by t, within e *)
Definition within (e t x x' : Q) : Prop := exists z : Z, (- e <= x' - x - t - inject_Z z <= e)%Q.
Definition moved (e : Q) (t a a' : atom) : Prop := within e (ax t) (ax a) (ax a') /\ within e (ay t) (ay a) (ay a') /\ within e (az t) (az a) (az a').
(** Reordering of atoms of the same element *)
Fixpoint reordered (n_atoms : list nat) (l l' : list atom) : Prop :=
  match n_atoms with
  | [] => l = l'
  | n :: t => Permutation (firstn n l) (firstn n l') /\ reordered t (skipn n l) (skipn n l')
  end.
(** The same arrangement of atoms, within e *)
Definition same (e : Q) (t : atom) (n_atoms : list nat) (l l' : list atom) : Prop := exists m, reordered n_atoms l m /\ Forall2 (moved e t) m l'.
(** Coordinates with at most d decimals *)
Definition decimal (d : nat) (x : Q) : Prop := exists k : Z, (x * inject_Z (10 ^ Z.of_nat d) == inject_Z k)%Q.
Definition decimals (d : nat) (a : atom) : Prop := decimal d (ax a) /\ decimal d (ay a) /\ decimal d (az a).
