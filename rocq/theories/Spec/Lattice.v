(** Lattice translations and reciprocal vectors of a cell in the real numbers. *)
From Verif Require Import Base Num NumR Model.Neighbor.
From Coq Require Import Reals.
Local Open Scope R_scope.

Definition comb (A : cell R) (x y z : R) : v3 R := vadd (vadd (vscale x (ax0 A)) (vscale y (ax1 A))) (vscale z (ax2 A)).
Definition lattice (A : cell R) (t : v3 R) : Prop := exists i j k : Z, t = comb A (IZR i) (IZR j) (IZR k).
Definition cross (a b : v3 R) : v3 R :=
  V3 (vy a * vz b - vz a * vy b) (vz a * vx b - vx a * vz b) (vx a * vy b - vy a * vx b).
Definition volume (A : cell R) : R := vdot (ax0 A) (cross (ax1 A) (ax2 A)).
(** Reciprocal vectors; the distance of the lattice planes across axis [c] is the inverse of their norm. *)
Definition axis (A : cell R) (c : nat) : v3 R := match c with 0%nat => ax0 A | 1%nat => ax1 A | _ => ax2 A end.
Definition recip (A : cell R) (c : nat) : v3 R :=
  vscale (/ volume A) (match c with 0%nat => cross (ax1 A) (ax2 A) | 1%nat => cross (ax2 A) (ax0 A) | _ => cross (ax0 A) (ax1 A) end).
(** Fractional coordinates. *)
Definition frac (A : cell R) (p : v3 R) (c : nat) : R := vdot (recip A c) p.
