(** Radial functions: a Gaussian times the cosine cutoff function.
    Source: src/pypolymlp/cxx/src/polymlp/polymlp_basis_function.h and get_fn_ in polymlp_functions_interface.cpp.
    Simplifications: doubles are real numbers and the literal [pi] (polymlp_basis_function.h L14) is the real number;
    pair_type is "gaussian", the only kind [get_fn_] knows. *)
From Verif Require Import Base Num NumR.
From Coq Require Import Reals.
Local Open Scope R_scope.

(** [cosine_cutoff_function] (polymlp_basis_function.h L16-20). *)
Definition cosine_cutoff (dis cutoff : R) : R := if Rltb dis cutoff then 1 / 2 * (cos (PI * dis / cutoff) + 1) else 0.
(** [cosine_cutoff_function_d] (L21-33): value and derivative. *)
Definition cosine_cutoff_d (dis cutoff : R) : R * R :=
  if Rltb dis cutoff then
    let val1 := PI / cutoff in
    let val2 := val1 * dis in
    (1 / 2 * (cos val2 + 1), - (1 / 2) * val1 * sin val2)
  else (0, 0).
(** [gauss] (L35-38) and [gauss_d] (L39-43). *)
Definition gauss (x beta mu : R) : R := let dx := x - mu in exp (- beta * dx * dx).
Definition gauss_d (dis beta mu : R) : R * R :=
  let dx := dis - mu in
  let bf := exp (- beta * dx * dx) in
  (bf, - 2 * beta * dx * bf).
(** [get_fn_] without derivatives (polymlp_functions_interface.cpp L11-24) and with (L41-62), for one function. *)
Definition get_fn (cutoff : R) (p : list R) (dis : R) : R :=
  gauss dis (nth 0 p 0) (nth 1 p 0) * cosine_cutoff dis cutoff.
Definition get_fn_d (cutoff : R) (p : list R) (dis : R) : R * R :=
  let '(fc, fc_dr) := cosine_cutoff_d dis cutoff in
  let '(v, d) := gauss_d dis (nth 0 p 0) (nth 1 p 0) in
  (v * fc, d * fc + v * fc_dr).
