(** Weights of the data, /repo/src/pypolymlp/mlp_dev/core/utils_weights.py L10-47, over the
    real numbers, one element at a time (numpy applies them to whole arrays). *)
From Verif Require Import Base Num NumR.
From Coq Require Import Reals.
Local Open Scope R_scope.

(** [_set_weight_energy_data] (L10-23): later assignments win. *)
Definition weight_energy (min_e energy : R) (total_n_atoms : nat) : R :=
  let e := energy / INR total_n_atoms in
  let th1 := min_e * 0.75 in let th2 := min_e * 0.50 in
  let w := 1 in
  let w := if Rltb th1 e then 0.5 else w in
  let w := if Rltb th2 e then 0.3 else w in
  if Rltb 0 e then 0.1 else w.

(** [_set_weight_force_data] (L26-32). *)
Definition weight_force (tol force : R) : R :=
  let w := Rabs force in
  let w := if Rltb w tol then tol else w in
  let w := / w in
  if Rltb 1 w then 1 else w.

Definition log10 (x : R) : R := ln x / ln 10.
(** [_set_weight_stress_data] (L35-47) without the factor [weight_stress]. *)
Definition weight_stress_unit (tol stress : R) : R :=
  let log1 := if Rltb tol (Rabs stress) then log10 (Rabs stress) else log10 tol in
  let w := Rpower 5 (- log1) in
  if Rltb 1 w then 1 else w.
