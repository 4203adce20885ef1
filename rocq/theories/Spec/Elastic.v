(** Vocabulary for linear elasticity. *)
From Verif Require Import Base Num NumR.
From Coq Require Import Reals.
Local Open Scope R_scope.
(** Voigt number of a pair of axes: xx yy zz yz zx xy. *)
Definition vix (i j : nat) : nat :=
  match i, j with
  | 0, 0 => 0 | 1, 1 => 1 | 2, 2 => 2
  | 1, 2 | 2, 1 => 3 | 0, 2 | 2, 0 => 4 | _, _ => 5
  end%nat.
(** Engineering strain components of a strain matrix. *)
Definition engineering (e : mat R) (k : nat) : R :=
  nth k [e 0 0; e 1 1; e 2 2]%nat (2 * nth (k - 3) [e 1 2; e 2 0; e 0 1]%nat 0).
Definition sym_strain (e : mat R) : Prop := forall i j, (i < 3)%nat -> (j < 3)%nat -> e i j = e j i.
(** [a] is the cell [A] deformed by the strain e. *)
Definition is_strained (e A a : mat R) : Prop :=
  forall i j, (i < 3)%nat -> (j < 3)%nat -> a i j = A i j + sumn 3 (fun k => e i k * A k j).
(** Component of a stress array (order xx, yy, zz, xy, yz, zx) with Voigt number k. *)
Definition stress_comp (s : list R) (k : nat) : R := nth (nth k [0; 1; 2; 4; 5; 3]%nat 0%nat) s 0.
(** A solid whose stress (per volume of the unstrained cell; positive under compression) depends linearly on strain. *)
Definition linear_solid (stress_at : mat R -> list R) (A : mat R) (volume EVtoGPa : R) (C : mat R) : Prop :=
  forall e a k, sym_strain e -> is_strained e A a -> (k < 6)%nat ->
    (stress_comp (stress_at a) k - stress_comp (stress_at A) k) * EVtoGPa / volume = - sumn 6 (fun b => C k b * engineering e b).
(** The stiffness tensor belonging to C is unchanged by the rotation r. *)
Definition invariant (C r : mat R) : Prop :=
  forall a b c d, (a < 3)%nat -> (b < 3)%nat -> (c < 3)%nat -> (d < 3)%nat ->
    sumn 3 (fun i => sumn 3 (fun j => sumn 3 (fun k => sumn 3 (fun l => r a i * r b j * r c k * r d l * C (vix i j) (vix k l))))) = C (vix a b) (vix c d).
