(** Two descriptions (cell, Cartesian positions, types) of one periodic crystal. *)
From Verif Require Import Base Num NumR Model.Neighbor Spec.Lattice.
From Coq Require Import Reals.
Local Open Scope R_scope.

(** There is a periodic image of atom [j] at [p]. *)
Definition at_place (A : cell R) (pos : list (v3 R)) (j : nat) (p : v3 R) : Prop := lattice A (vsub p (nth j pos v0)).
(** Images of different atoms are at different places. *)
Definition no_overlap (A : cell R) (pos : list (v3 R)) : Prop :=
  forall i j p, (i < length pos)%nat -> (j < length pos)%nat -> at_place A pos i p -> at_place A pos j p -> i = j.
(** Atom [i] of the second description represents atom [phi i] of the first one; the images of the atoms that represent atom [j],
    taken together, are the images of atom [j], moved by [v]. *)
Record same_crystal (A : cell R) (pos : list (v3 R)) (types : nat -> nat) (A' : cell R) (pos' : list (v3 R)) (types' : nat -> nat)
    (v : v3 R) (phi : nat -> nat) : Prop := SameCrystal {
  sc_atoms : forall i, (i < length pos')%nat -> (phi i < length pos)%nat;
  sc_types : forall i, (i < length pos')%nat -> types' i = types (phi i);
  sc_places : forall j p, (j < length pos)%nat ->
    (at_place A pos j p <-> exists i, (i < length pos')%nat /\ phi i = j /\ at_place A' pos' i (vadd p v)) }.
(** Every atom of the first description is represented [m] times. *)
Definition represented (n n' : nat) (phi : nat -> nat) (m : nat) : Prop :=
  forall j, (j < n)%nat -> length (filter (fun i => phi i =? j)%nat (seq 0 n')) = m.
