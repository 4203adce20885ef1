(** The radial functions of the library besides the Gaussian with cosine cutoff (those are in Model/Radial.v), and the choice among
    them.
    Source: src/pypolymlp/cxx/src/polymlp/polymlp_basis_function.cpp L11-142, polymlp_basis_function.h L35-43, and [get_fn_] in
    polymlp_functions_interface.cpp L11-24, L41-62.
    Simplifications: doubles are real numbers; distances are positive, so that [pow] with a real exponent is [Rpower]; a pair is the
    pair of output arguments bf, bf_d; what a division by zero gives is that of [R]. *)
From Coq Require Import String.
From Verif Require Import Base Num NumR.
From Coq Require Import Reals.
From Verif Require Import Model.Radial.
Local Open Scope R_scope.

(** [bump_cutoff_function] (L11-14), [bump_cutoff_function_d] (L15-24) *)
Definition bump (dis cutoff : R) : R := let x := dis / cutoff in exp (- (1) / (1 - x * x)).
Definition bump_d (dis cutoff : R) : R * R :=
  let x := dis / cutoff in
  let tmp1 := 1 - x ^ 20 in
  let tmp2 := x ^ 19 in
  let bf := exp (- (1) / tmp1) in
  (bf, - 20 * tmp2 * bf / (tmp1 * tmp1)).
(** [cosine], [cosine_d] (L25-33), [sine] (L35-37) *)
Definition cosine (dis p1 : R) : R := cos (p1 * dis).
Definition cosine_d (dis p1 : R) : R * R := (cosine dis p1, - p1 * sin (p1 * dis)).
Definition sine (dis p1 : R) : R := sin (p1 * dis).
(** [polynomial], [polynomial_d] (L39-49) *)
Definition small : R := 1 / 10 ^ 15.
Definition polynomial (dis p1 : R) : R := Rpower dis p1.
Definition polynomial_d (dis p1 : R) : R * R :=
  (polynomial dis p1, if Rltb (Rabs p1) small then 0 else p1 * Rpower dis (p1 - 1)).
(** [exp1], [exp2], [exp3] and derivatives (L51-71) *)
Definition exp1 (dis p1 : R) : R := exp (- p1 * dis).
Definition exp2 (dis p1 : R) : R := exp (- p1 * dis) / dis.
Definition exp3 (dis p1 : R) : R := exp (- p1 * dis) * dis.
Definition exp1_d (dis p1 : R) : R * R := let bf := exp1 dis p1 in (bf, - p1 * bf).
Definition exp2_d (dis p1 : R) : R * R := let bf := exp2 dis p1 in (bf, - (1 / dis + p1) * bf).
Definition exp3_d (dis p1 : R) : R * R := let bf := exp3 dis p1 in (bf, (1 / dis - p1) * bf).
(** [sto], [sto_d] (L72-82) *)
Definition sto (dis p1 p2 : R) : R := Rpower dis p1 * exp (- p2 * dis).
Definition sto_d (dis p1 p2 : R) : R * R := let bf := sto dis p1 p2 in (bf, (p1 - p2 * dis) * bf / dis).
(** [gto], [gto_d] (L83-93); the arguments of [gauss] are in the order x, beta, mu *)
Definition gto (dis p1 p2 : R) : R := Rpower dis p1 * gauss p2 dis 0.
Definition gto_d (dis p1 p2 : R) : R * R := let bf := gto dis p1 p2 in (bf, (p1 - 2 * p2 * dis * dis) * bf / dis).
(** [morlet], [morlet_d] (L94-104) *)
Definition morlet (dis p1 : R) : R := gauss (1 / 2) dis p1 - gauss (1 / 2) (- dis) p1.
Definition morlet_d (dis p1 : R) : R * R :=
  (morlet dis p1, (p1 - dis) * gauss (1 / 2) dis p1 + (p1 + dis) * gauss (1 / 2) (- dis) p1).
(** [modified_morlet], [modified_morlet_d] (L105-114) *)
Definition modified_morlet (dis p1 : R) : R := cos (p1 * dis) / cosh dis.
Definition modified_morlet_d (dis p1 : R) : R * R :=
  let bf := modified_morlet dis p1 in (bf, - p1 * sin (p1 * dis) / cosh dis - bf * tanh dis).
(** [mexican], [mexican_d] (L115-129) *)
Definition mexican (dis p1 : R) : R :=
  let prod1 := dis ^ 2 * p1 ^ 2 in
  let prod2 := exp (- (1 / 2) * prod1) in
  sqrt p1 * (1 - prod1) * prod2.
Definition mexican_d (dis p1 : R) : R * R :=
  let prod1 := dis ^ 2 * p1 ^ 2 in
  let prod2 := exp (- (1 / 2) * prod1) in
  let prod3 := dis * Rpower p1 (5 / 2) in
  (sqrt p1 * (1 - prod1) * prod2, - prod3 * (3 - prod1) * prod2).
(** [morse], [morse_d] (L130-142) *)
Definition morse (dis p1 p2 : R) : R := let prod1 := - p1 * (dis - p2) in exp (2 * prod1) - 2 * exp prod1.
Definition morse_d (dis p1 p2 : R) : R * R :=
  let prod1 := - p1 * (dis - p2) in
  let bf := exp (2 * prod1) - 2 * exp prod1 in
  (bf, - 2 * p1 * (bf + exp prod1)).

(** [get_fn_] with its output arguments: [resize] keeps what is there and adds zeros; only one kind is known. *)
Definition resize (n : nat) (l : list R) : list R := firstn n l ++ repeat 0 (n - length l).
Definition get_fn_all (pair_type : string) (cutoff dis : R) (params : list (list R)) (fn : list R) : list R :=
  if String.eqb pair_type "gaussian" then map (fun p => get_fn cutoff p dis) params else resize (length params) fn.
Definition get_fn_d_all (pair_type : string) (cutoff dis : R) (params : list (list R)) (fn fn_dr : list R) : list R * list R :=
  if String.eqb pair_type "gaussian" then (map (fun p => fst (get_fn_d cutoff p dis)) params, map (fun p => snd (get_fn_d cutoff p dis)) params)
  else (resize (length params) fn, resize (length params) fn_dr).
