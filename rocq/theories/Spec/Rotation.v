(** Rotations and reflections of space, and when a table of invariants is unchanged by them. *)
From Verif Require Import Base Num NumR Complex Model.ModelParams Model.Features Model.Neighbor.
From Coq Require Import Reals.
Local Open Scope R_scope.

(** A linear map given by the images of the three unit vectors. *)
Definition image (a b c d : v3 R) : v3 R :=
  V3 (vx a * vx d + vx b * vy d + vx c * vz d) (vy a * vx d + vy b * vy d + vy c * vz d) (vz a * vx d + vz b * vy d + vz c * vz d).
(** It is a rotation, possibly with a reflection. *)
Definition orthonormal (a b c : v3 R) : Prop :=
  vdot a a = 1 /\ vdot b b = 1 /\ vdot c c = 1 /\ vdot a b = 0 /\ vdot a c = 0 /\ vdot b c = 0.

(** Matrix elements of the ladder operators: sqrt(l(l+1) - m(m+1)) and sqrt(l(l+1) - m(m-1)), where the index of (l, m) is i = l*l + l + m. *)
Definition m_of (l i : nat) : R := INR i - INR (l * l + l).
Definition weight (up : bool) (l i : nat) : R :=
  sqrt (INR l * (INR l + 1) - m_of l i * (if up then m_of l i + 1 else m_of l i - 1)).
Definition bump (up : bool) (i : nat) : nat := if up then S i else pred i.
(** A ladder operator applied to a product of states: one m is raised (lowered), in all possible ways. *)
Fixpoint shifts (up : bool) (lc lms : list nat) : list (R * list nat) :=
  match lc, lms with
  | l :: lc', i :: lms' => (weight up l i, bump up i :: lms') :: map (fun s => (fst s, i :: snd s)) (shifts up lc' lms')
  | _, _ => []
  end.
Definition same (x y : list nat) : bool := if list_eq_dec Nat.eq_dec x y then true else false.
(** The sum of the products with their coefficients is annihilated by the operators of the angular momentum L_z, L_+ and L_-: it has L = 0. *)
Record annihilated (lc : list nat) (table : list (R * list nat)) : Prop := {
  an_z : forall e, In e table -> list_sum (snd e) = list_sum (map (fun l => l * l + l)%nat lc);
  an_ladder : forall up target,
    nsumf (fun e => nsumf (fun s => if same (snd s) target then fst e * fst s else 0) (shifts up lc (snd e))) table = 0 }.
Definition invariant_table (fp : fparams R) : Prop := forall il lc, nth_error (fp_l_comb fp) il = Some lc ->
  annihilated lc (combine (nth il (fp_lm_coeffs fp) []) (nth il (fp_lm_array fp) [])).
