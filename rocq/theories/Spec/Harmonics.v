(** Legendre polynomials and spherical harmonics, textbook definitions. *)
From Verif Require Import Base Num NumR Complex Model.Neighbor.
From Coq Require Import Reals Factorial.
From Coquelicot Require Import Derive.
Local Open Scope R_scope.

(** P_l and P_{l+1}: (l + 2) P_{l+2} = (2 l + 3) x P_{l+1} - (l + 1) P_l. *)
Fixpoint legendre2 (l : nat) (x : R) : R * R :=
  match l with
  | 0%nat => (1, x)
  | S l => let '(a, b) := legendre2 l x in (b, ((2 * INR l + 3) * x * b - (INR l + 1) * a) / (INR l + 2))
  end.
Definition legendre (l : nat) (x : R) : R := fst (legendre2 l x).
(** Normalisation of Y_{l,m}, m >= 0. *)
Definition ynorm (l m : nat) : R := sqrt ((2 * INR l + 1) / (4 * PI) * (INR (fact (l - m)) / INR (fact (l + m)))).
Fixpoint cpow (z : Cx R) (m : nat) : Cx R := match m with 0%nat => n1 | S m => nmul z (cpow z m) end.
(** Y_{l,-m} of a direction: sin^m(theta) exp(-i m phi) = ((x - i y) / r)^m times the m-th derivative of P_l at cos(theta). *)
Definition sph_neg (l m : nat) (d : v3 R) : Cx R :=
  let r := sqrt (vx d * vx d + vy d * vy d + vz d * vz d) in
  cscale (ynorm l m * Derive_n (legendre l) m (vz d / r)) (cpow (vx d / r, - (vy d / r)) m).
