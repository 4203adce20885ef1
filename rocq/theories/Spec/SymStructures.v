(** Shapes of the conventional cells of the crystal systems. *)
From Verif Require Import Base Model.Neighbor.
From Coq Require Import Reals ZArith.
Local Open Scope R_scope.

Definition cubic (A : cell R) : Prop := exists a, A = Cell (V3 a 0 0) (V3 0 a 0) (V3 0 0 a).
Definition hexagonal (A : cell R) : Prop := exists a c, A = Cell (V3 a 0 0) (V3 (- a / 2) (sqrt 3 / 2 * a) 0) (V3 0 0 c).
Definition tetragonal (A : cell R) : Prop := exists a c, A = Cell (V3 a 0 0) (V3 0 a 0) (V3 0 0 c).
Definition orthorhombic (A : cell R) : Prop := exists a b c, A = Cell (V3 a 0 0) (V3 0 b 0) (V3 0 0 c).
Definition monoclinic (A : cell R) : Prop := exists a b x z, A = Cell (V3 a 0 0) (V3 0 b 0) (V3 x 0 z).
(** The conventional cell of the space group with number n; rhombohedral groups have hexagonal cells *)
Inductive conventional (n : Z) (A : cell R) : Prop :=
| conv_triclinic : (1 <= n <= 2)%Z -> conventional n A
| conv_monoclinic : (3 <= n <= 15)%Z -> monoclinic A -> conventional n A
| conv_orthorhombic : (16 <= n <= 74)%Z -> orthorhombic A -> conventional n A
| conv_tetragonal : (75 <= n <= 142)%Z -> tetragonal A -> conventional n A
| conv_hexagonal : (143 <= n <= 194)%Z -> hexagonal A -> conventional n A
| conv_cubic : (195 <= n <= 230)%Z -> cubic A -> conventional n A.
(** Free parameters of the cell *)
Definition freedoms (n : Z) (k : nat) : Prop :=
  ((1 <= n <= 2)%Z -> k = 9%nat) /\ ((3 <= n <= 15)%Z -> k = 4%nat) /\ ((16 <= n <= 74)%Z -> k = 3%nat) /\ ((75 <= n <= 194)%Z -> k = 2%nat) /\ ((195 <= n <= 230)%Z -> k = 1%nat).
