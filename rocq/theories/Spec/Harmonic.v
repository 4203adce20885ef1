(** Vocabulary for harmonic solids: component i of atom a has number 3a+i; n atoms. *)
From Verif Require Import Base Num.
Section Harmonic.
  Context {F : Type} {N : Num F}.
  Local Open Scope num_scope.
  Definition symmetric (n : nat) (fc : mat F) : Prop := forall p q, (p < 3 * n)%nat -> (q < 3 * n)%nat -> fc p q = fc q p.
  (** All atoms moved by c. *)
  Definition shifted (u : vec F) (c : vec F) : vec F := fun p => u p + c (p mod 3)%nat.
  (** A linear deformation e applied to the displacements. *)
  Definition deformed (e : mat F) (u : vec F) : vec F := fun p => dot 3 (e (p mod 3)%nat) (fun j => u (3 * (p / 3) + j)%nat).
  (** Acoustic sum rule. *)
  Definition acoustic (n : nat) (fc : mat F) : Prop := forall p j, (p < 3 * n)%nat -> j < 3 -> sumn n (fun b => fc p (3 * b + j)%nat) = 0.
End Harmonic.
