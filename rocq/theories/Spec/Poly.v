(** Polynomials in order parameters: values and formal derivatives, stated with dual numbers (no product lists, no maps). *)
From Verif Require Import Base Num Complex.

(** Product of a list. *)
Definition nprod {T} {NT : Num T} (l : list T) : T := fold_right nmul n1 l.

Section Poly.
  Context {F : Type} {N : Num F}.
  (** A polynomial is a list of (coefficient, indices of the factors). *)
  Definition poly := list (F * list nat).
  (** Its value in a number type [T] with the coefficients mapped by [inj]. *)
  Definition pval {T} {NT : Num T} (inj : F -> T) (p : poly) (a : nat -> T) : T :=
    nsumf (fun t => nmul (inj (fst t)) (nprod (map a (snd t)))) p.
  (** Real part of the value at complex order parameters. *)
  Definition fval (p : poly) (a : nat -> Cx F) : F := re (pval of_real p a).
  (** Real part of the derivative at [a] in the direction [d]. *)
  Definition fder (p : poly) (a d : nat -> Cx F) : F :=
    re (dder (pval (fun c => D (of_real c) n0) p (fun h => D (a h) (d h)))).
  (** Product of feature values and its derivative. *)
  Definition mval (v : nat -> F) (ids : list nat) : F := nprod (map v ids).
  Definition mder (v d : nat -> F) (ids : list nat) : F := dder (nprod (map (fun h => D (v h) (d h)) ids)).
End Poly.
Arguments poly F : clear implicits.
