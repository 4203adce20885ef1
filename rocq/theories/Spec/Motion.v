(** All atoms of a structure moving at the same time, and the space being strained at the same time. *)
From Verif Require Import Base Num NumR Model.Neighbor Spec.Deriv.
From Coq Require Import Reals.
Local Open Scope R_scope.

(** A vector moving with velocity [v]. *)
Definition shift (v : v3 R) (s : R) (d : v3 R) : v3 R := V3 (vx d + s * vx v) (vy d + s * vy v) (vz d + s * vz v).
(** A matrix applied to a vector. *)
Definition lin3 (M : nat -> nat -> R) (d : v3 R) : v3 R :=
  V3 (M 0%nat 0%nat * vx d + M 0%nat 1%nat * vy d + M 0%nat 2%nat * vz d) (M 1%nat 0%nat * vx d + M 1%nat 1%nat * vy d + M 1%nat 2%nat * vz d)
     (M 2%nat 0%nat * vx d + M 2%nat 1%nat * vy d + M 2%nat 2%nat * vz d).
(** At time [s] atom [a] has been displaced by [s u_a], and the matrix 1 + s M has been applied to the space, translations
    included. *)
Definition moving_pos (u : nat -> v3 R) (M : nat -> nat -> R) (pos : nat -> v3 R) (s : R) (a : nat) : v3 R :=
  shift (vadd (u a) (lin3 M (pos a))) s (pos a).
Definition moving_images (M : nat -> nat -> R) (images : nat -> list (nat * v3 R)) (s : R) (a : nat) : list (nat * v3 R) :=
  map (fun jt => (fst jt, shift (lin3 M (snd jt)) s (snd jt))) (images a).
(** The six stored components xx, yy, zz, xy, yz, zx of a symmetric matrix. *)
Definition voigt (c c' : nat) : nat :=
  match c, c' with
  | 0, 0 => 0 | 1, 1 => 1 | 2, 2 => 2
  | 0, 1 => 3 | 1, 0 => 3
  | 1, 2 => 4 | 2, 1 => 4
  | _, _ => 5
  end%nat.
(** sum_k F_k . u_k + sum_cc' M_cc' sigma_cc' *)
Definition power (n : nat) (F : nat -> nat -> R) (sigma : nat -> R) (u : nat -> v3 R) (M : nat -> nat -> R) : R :=
  sumn n (fun k => F 0%nat k * vx (u k) + F 1%nat k * vy (u k) + F 2%nat k * vz (u k)) +
  sumn 3 (fun c => sumn 3 (fun c' => M c c' * sigma (voigt c c'))).
