(** Distances of the atoms of a periodic structure, and lists of them. *)
From Verif Require Import Base Num NumR Model.Neighbor Spec.Lattice.
From Coq Require Import Reals.
Local Open Scope R_scope.

(** d is the distance of atom i from an image of atom j *)
Definition apart (A : cell R) (pos : list (v3 R)) (i j : nat) (d : R) : Prop :=
  exists t, lattice A t /\ let w := vsub (vadd (nth j pos v0) t) (nth i pos v0) in d = sqrt (vx w * vx w + vy w * vy w + vz w * vz w).
(** Neighbours nearer than [tol] are the same atom for the code (neighbor.cpp L45: 1e-10) *)
Definition near (tol cutoff : R) (A : cell R) (pos : list (v3 R)) (types : list nat) (i k : nat) (d : R) : Prop :=
  tol < d < cutoff /\ exists j, (j < length pos)%nat /\ nth j types 0%nat = k /\ apart A pos i j d.
(** Lists of distances for each atom and each of n types *)
Definition table (tol cutoff : R) (A : cell R) (pos : list (v3 R)) (types : list nat) (n : nat) (dist : list (list (list R))) : Prop :=
  length dist = length pos /\
  forall i, (i < length pos)%nat -> length (nth i dist []) = n /\ forall k, (k < n)%nat -> forall d, In d (nth k (nth i dist []) []) <-> near tol cutoff A pos types i k d.
