(** Derivatives of real and complex valued functions of a real variable, and moving one atom. *)
From Verif Require Import Base Num NumR Complex Model.Neighbor.
From Coq Require Import Reals.

Definition has_deriv (f : R -> R) (s l : R) : Prop := derivable_pt_lim f s l.
Definition has_cderiv (f : R -> Cx R) (s : R) (l : Cx R) : Prop :=
  has_deriv (fun x => re (f x)) s (re l) /\ has_deriv (fun x => im (f x)) s (im l).

(** Displacement by [s] along axis [c]. *)
Definition along (c : nat) (s : R) (d : v3 R) : v3 R :=
  match c with
  | 0 => V3 (vx d + s)%R (vy d) (vz d)
  | 1 => V3 (vx d) (vy d + s)%R (vz d)
  | _ => V3 (vx d) (vy d) (vz d + s)%R
  end.
Definition moved (pos : nat -> v3 R) (k c : nat) (s : R) (i : nat) : v3 R :=
  if i =? k then along c s (pos i) else pos i.
(** Neighbours of atom [i] when its images are given as (atom, translation). *)
Definition neighbours (pos : nat -> v3 R) (images : nat -> list (nat * v3 R)) (i : nat) : list (nat * v3 R) :=
  map (fun jt => (fst jt, vadd (vsub (pos (fst jt)) (pos i)) (snd jt))) (images i).
(** Component [c] of a vector changed by [s] times component [c']: strain (or shear) of the space. *)
Definition component (c : nat) (d : v3 R) : R := match c with 0 => vx d | 1 => vy d | _ => vz d end.
Definition strained (c c' : nat) (s : R) (d : v3 R) : v3 R := along c (s * component c' d)%R d.
