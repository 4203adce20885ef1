(** Vocabulary for phase transitions: polygons through data, root finders, Gibbs free energies of two phases. *)
From Verif Require Import Base.
From Coq Require Import Reals.
Local Open Scope R_scope.

Definition ascending (l : list (R * R)) : Prop :=
  forall i j p q, (i < j)%nat -> nth_error l i = Some p -> nth_error l j = Some q -> fst p < fst q.
(** [f] is straight between neighbours of the data, and beyond the first and the last of them. *)
Definition polyline (l : list (R * R)) (f : R -> R) : Prop :=
  forall i p q x, nth_error l i = Some p -> nth_error l (S i) = Some q ->
    (i = O \/ fst p <= x) -> (S (S i) = length l \/ x <= fst q) ->
    f x = snd p + (snd q - snd p) / (fst q - fst p) * (x - fst p).
(** Data of a straight line *)
Definition on_line (a b : R) (l : list (R * R)) : Prop := forall q, In q l -> snd q = a + b * fst q.
(** A root finder that finds the root of straight lines *)
Definition solves_lines (fsolve : (R -> R) -> R -> R) : Prop :=
  forall g a b x0, (forall x, g x = a + b * x) -> b <> 0 -> g (fsolve g x0) = 0.
Definition is_ceil (ceil : R -> nat) : Prop := forall x, x <= INR (ceil x) /\ forall n, x <= INR n -> (ceil x <= n)%nat.
(** A polynomial of degree at most [n] *)
Definition polynomial (n : nat) (f : R -> R) : Prop := exists c : nat -> R, forall x, f x = sum_f_R0 (fun i => c i * x ^ i) n.
(** Data of one function, with at least [n] different abscissae all of which are different *)
Definition samples (f : R -> R) (n : nat) (l : list (R * R)) : Prop :=
  NoDup (map fst l) /\ (n <= length l)%nat /\ forall q, In q l -> snd q = f (fst q).
(** The Gibbs free energies of a phase: at pressure [p], temperature [t] *)
Record phase := mk_phase { ph_h : R -> R; ph_s : R -> R }.        (** enthalpy and entropy as functions of the pressure *)
Definition gibbs_of (ph : phase) (p t : R) : R := ph_h ph p - ph_s ph p * t.
