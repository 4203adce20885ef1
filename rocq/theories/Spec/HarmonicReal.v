(** Averages and normal modes. *)
From Verif Require Import Base Num.

Section Spec.
  Context {F : Type} {N : Num F}.
  Local Open Scope num_scope.
  (** An average over random vectors: any linear functional *)
  Record average_over (Ex : (vec F -> F) -> F) : Prop := {
    av_ext : forall f g, (forall q, f q = g q) -> Ex f = Ex g;
    av_add : forall f g, Ex (fun q => f q + g q) = Ex f + Ex g;
    av_scale : forall c f, Ex (fun q => c * f q) = c * Ex f }.
  (** Uncorrelated components with variances [a] *)
  Definition uncorrelated (n : nat) (Ex : (vec F -> F) -> F) (a : vec F) : Prop :=
    forall k l, (k < n)%nat -> (l < n)%nat -> Ex (fun q => q k * q l) = if (k =? l)%nat then a k else n0.
  Definition delta (k l : nat) : F := if (k =? l)%nat then n1 else n0.
  (** Columns of [v] are orthonormal eigenvectors of [m] with the eigenvalues [w]. *)
  Definition eigen (n : nat) (m : mat F) (w : vec F) (v : mat F) : Prop :=
    (forall k l, (k < n)%nat -> (l < n)%nat -> sumn n (fun r => v r k * v r l) = delta k l) /\
    (forall r k, (r < n)%nat -> (k < n)%nat -> sumn n (fun c => m r c * v c k) = w k * v r k).
  (** A potential that is quadratic about the supercell: energy and forces of a displacement [d], given the static ones *)
  Definition quadratic (n3 : nat) (fc : nat -> nat -> nat -> nat -> F) (half e0 : F) (f0 : nat -> nat -> F) (e : (nat -> nat -> F) -> F) (f : (nat -> nat -> F) -> nat -> nat -> F) : Prop :=
    forall d, e d = e0 - sumn n3 (fun r => f0 (r mod 3)%nat (r / 3)%nat * d (r mod 3)%nat (r / 3)%nat)
                 + half * sumn n3 (fun r => sumn n3 (fun c => d (r mod 3)%nat (r / 3)%nat * fc (r / 3)%nat (c / 3)%nat (r mod 3)%nat (c mod 3)%nat * d (c mod 3)%nat (c / 3)%nat)) /\
      forall i a, (i < 3)%nat -> (3 * a + i < n3)%nat -> f d i a = f0 i a - sumn n3 (fun c => fc a (c / 3)%nat i (c mod 3)%nat * d (c mod 3)%nat (c / 3)%nat).
End Spec.
