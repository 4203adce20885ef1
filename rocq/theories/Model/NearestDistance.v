(** Smallest distance of atoms and numbers of neighbours.

    /repo/src/pypolymlp/utils/structure_neighbor.py L56-80 (find_minimum_distance, get_coordination_numbers).

    Simplifications: real numbers; the lists of distances of [libmlpcpp.Neighbor] (for each atom and each type) are given. *)
From Verif Require Import Base Num NumR Model.Neighbor.
From Coq Require Import Reals.
Local Open Scope R_scope.

Definition len (v : v3 R) : R := sqrt (vx v * vx v + vy v * vy v + vz v * vz v).
(** L61-62: the cutoff of the search *)
Definition search_cutoff (A : cell R) : R := Rmin (Rmin (len (ax0 A)) (len (ax1 A))) (len (ax2 A)) + 1 / 100000.
(** Python's min of a list *)
Definition pymin (l : list R) : res R := match l with [] => Err ValueError | x :: t => Ok (fold_left Rmin t x) end.
(** L72-75: with each_atom, and without *)
Definition min_array (dist : list (list (list R))) : res (list R) := mapM pymin (concat dist).
Definition find_minimum_distance (dist : list (list (list R))) : res R := do l <- min_array dist; pymin l.
(** L78-80 *)
Definition get_coordination_numbers (dist : list (list (list R))) : list nat := map (@length R) (concat dist).
