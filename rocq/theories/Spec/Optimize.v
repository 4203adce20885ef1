(** A potential whose forces and stress are derivatives of its energy, and the enthalpy as a function of the
    optimisation variables. *)
From Verif Require Import Base Num NumR Model.Tensor.
From Coq Require Import Reals.
From Coquelicot Require Import Coquelicot.
Local Open Scope R_scope.

Definition madd (a b : mat R) (t : R) : mat R := fun i j => a i j + t * b i j.
Section Potential.
  Variable n : nat.
  Variable eval : mat R -> mat R -> R * mat R * list R.
  Definition E_ A f := fst (fst (eval A f)).
  Definition F_ A f := snd (fst (eval A f)).
  Definition S_ A f := snd (eval A f).
  (** Changing the cell A by t H and the fractional positions by t u: the strain is H A^-1, the displacement of an atom A u. *)
  Definition derivative_forces : Prop := forall A f H u, det3 A <> 0 ->
    is_derive (fun t => E_ (madd A H t) (madd f u t)) 0
      (- sumn 3 (fun a => sumn 3 (fun b => tensor_of (S_ A f) a b * mmul H (inv3 A) a b)) - sumn n (fun i => sumn 3 (fun a => F_ A f a i * sumn 3 (fun k => A a k * u k i)))).
  Definition periodic : Prop := forall A f g, (forall k i, exists z : Z, g k i = f k i + IZR z) -> eval A f = eval A g.
  (** Enthalpy. *)
  Definition enthalpy (p : R) (A f : mat R) : R := E_ A f + p * det3 A.
End Potential.
