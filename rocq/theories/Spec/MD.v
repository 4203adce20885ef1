(** What averages and free energy differences are. *)
From Verif Require Import Base Num NumR.
From Coq Require Import Reals.
Local Open Scope R_scope.

Definition mean (l : list R) : R := nsumf (fun x => x) l / INR (length l).
(** Mean squared deviation from the mean *)
Definition variance (l : list R) : R := mean (map (fun x => (x - mean l) ^ 2) l).
(** Free energy perturbation at the inverse temperature b: -(1/b) ln <exp(-b x)> *)
Definition free_difference (b : R) (l : list R) : R := - (1 / b) * ln (mean (map (fun x => exp (- (b * x))) l)).
(** The records of the production part: all but the first n *)
Definition production {A} (n : nat) (l : list A) : list A := skipn n l.

(** A family of states, by mixing parameter, with these energies, forces (axis, atom) and energy differences goes
    linearly from the reference state 0 to the final state 1. *)
From Coquelicot Require Import Coquelicot.
Definition linear_path (e0 e1 : R) (f0 f1 : nat -> nat -> R) (e : R -> R) (f : R -> nat -> nat -> R) (d10 d1a : R -> R) : Prop :=
  (e 0 = e0 /\ e 1 = e1) /\ (forall i a, f 0 i a = f0 i a /\ f 1 i a = f1 i a) /\
  (forall x i a, f x i a = f0 i a + x * (f1 i a - f0 i a)) /\
  (forall x, d10 x = e1 - e0 /\ is_derive e x (d10 x)) /\
  (forall x, d1a x = e 1 - e x /\ d1a x = (1 - x) * d10 x).
(** The forces (axis, atom) at displacements u of n atoms are minus the gradient of the energy. *)
Definition conservative (n : nat) (e : (nat -> R) -> R) (f : (nat -> R) -> nat -> nat -> R) : Prop :=
  forall u v, is_derive (fun t => e (fun p => u p + t * v p)) 0
    (- sumn (F:=R) n (fun a => sumn (F:=R) 3 (fun i => f u i a * v (3 * a + i)%nat))).
