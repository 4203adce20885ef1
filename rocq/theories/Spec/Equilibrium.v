(** Vocabulary for equilibrium properties: acceptable minima, exact thermodynamics, convex free energies. *)
From Verif Require Import Base.
From Coq Require Import Reals.
From Coquelicot Require Import Coquelicot.
Local Open Scope R_scope.

(** The largest of several numbers *)
Definition is_max (l : list R) (m : R) : Prop := In m l /\ forall x, In x l -> x <= m.
(** A minimum is acceptable if its volume is at most [factor] times the largest, its curvature at least [thr]. *)
Definition acceptable (factor thr : R) (volumes : list R) (v bm : R) : Prop :=
  (exists m, is_max volumes m /\ v <= m * factor) /\ thr <= bm.
(** Temperatures in order *)
Definition ordered (l : list R) : Prop := forall i j x y, (i < j)%nat -> nth_error l i = Some x -> nth_error l j = Some y -> x < y.
(** A function with a derivative between two numbers *)
Definition has_derivative (f f' : R -> R) (a b : R) : Prop := forall x, a <= x <= b -> is_derive f x (f' x).
(** Its derivative increases (the function is convex) and changes at rate at most [M]. *)
Definition stiff (f' : R -> R) (a b M : R) : Prop :=
  forall x y, a <= x -> x <= y -> y <= b -> f' x <= f' y /\ f' y - f' x <= M * (y - x).
(** The least value of [F v + p v] between two volumes, taken at [c]. *)
Definition gibbs_value (f : R -> R) (a b p c g : R) : Prop :=
  a <= c <= b /\ g = f c + p * c /\ forall v, a <= v <= b -> g <= f v + p * v.
(** [s] is the entropy, [pr] the derivative of the free energy by the volume, as functions of volume and
    temperature with the partial derivatives [sv], [st], [pv], [pt] at the volume [v], temperature [t];
    the free energy has mixed derivatives that agree. *)
Record state_functions (s pr : R -> R -> R) (v t sv st pv pt : R) : Prop := mk_state {
  sf_s : differentiable_pt_lim s v t sv st;
  sf_p : differentiable_pt_lim pr v t pv pt;
  sf_maxwell : pt = - sv }.
(** Volumes [w] of minima of the free energy at temperatures near [t] *)
Definition equilibrium (pr : R -> R -> R) (w : R -> R) (t : R) : Prop := locally t (fun u => pr (w u) u = 0).
