(** Spherical harmonics and their derivatives.
    Source: src/pypolymlp/cxx/src/polymlp/polymlp_spherical_harmonics.(h,cpp) and get_ylm_ in
    polymlp_functions_interface.cpp (L89-142).
    Simplifications: doubles are real numbers; the literals for sqrt(1 / 2 pi), sqrt 3, sqrt (3/2) and M_SQRT2 are the real
    numbers; an array is a function of the index, zero where nothing was written (vector::resize writes zeros; reading
    q[lm2i(0, 1)] when lmax = 0 is out of range in C++ and multiplied by zero); arrays filled in one loop are filled by one
    loop each; at the origin, where the C++ code computes 0 / 0, the result is zero. *)
From Verif Require Import Base Num NumR Complex Model.Neighbor Model.Compute Model.Radial.
From Coq Require Import Reals.
Local Open Scope R_scope.

(** polymlp_spherical_harmonics.h L27-32; the second one for [m = - k]. *)
Definition lm2i (l m : nat) : nat := (l * (l + 1) / 2 + m)%nat.
Definition lm2i_negm (l k : nat) : nat := (l * (l + 1) / 2 + l - k)%nat.

Section Harmonics.
  Variable lmax : nat.

  (** [normalized_associated_legendre] (L124-159, L162-209): the arrays p and q follow the same statements from three initial
      values; for q the values at (0,0) and (1,0) are zero. *)
  Definition diag_step (ct st : R) (a : nat -> R) (l : nat) : nat -> R :=
    let coeff1 := - sqrt (1 + (1 / 2) / INR l) * st in
    let a := vset a (lm2i l l) (coeff1 * a (lm2i (l - 1) (l - 1))) in
    let coeff2 := sqrt (2 * (INR l - 1) + 3) * ct in
    vset a (lm2i l (l - 1)) (coeff2 * a (lm2i (l - 1) (l - 1))).
  Definition low_step (ct : R) (a : nat -> R) (lm : nat * nat) : nat -> R :=
    let '(l, m) := lm in
    let ls := INR (l * l) in
    let lm1s := INR ((l - 1) * (l - 1)) in
    let ms := INR (m * m) in
    let alm := sqrt ((4 * ls - 1) / (ls - ms)) in
    let blm := - sqrt ((lm1s - ms) / (4 * lm1s - 1)) in
    vset a (lm2i l m) (alm * (ct * a (lm2i (l - 1) m) + blm * a (lm2i (l - 2) m))).
  Definition low_loop : list (nat * nat) := flat_map (fun l => map (pair l) (seq 0 (l - 1))) (seq 2 (lmax - 1)).
  Definition legendre_array (ct a00 a10 a11 : R) : nat -> R :=
    let st := sqrt (1 - ct * ct) in
    let a := vset (fun _ => 0) (lm2i 0 0) a00 in
    if (lmax =? 0)%nat then a
    else
      let a := vset (vset a (lm2i 1 0) a10) (lm2i 1 1) a11 in
      fold_left (low_step ct) low_loop (fold_left (diag_step ct st) (seq 2 (lmax - 1)) a).
  Definition sqrt_inv_2pi : R := sqrt ((1 / 2) / PI).
  Definition legendre_p (ct : R) : nat -> R :=
    legendre_array ct sqrt_inv_2pi (ct * sqrt 3 * sqrt_inv_2pi) (- sqrt (1 - ct * ct) * sqrt (3 / 2) * sqrt_inv_2pi).
  Definition legendre_q (ct : R) : nat -> R := legendre_array ct 0 0 (- sqrt (3 / 2) * sqrt_inv_2pi).

  (** The loops of [compute_ylm] (L27-58) and [compute_ylm_der] (L60-121): entries (l, 0), then for every mp the entries
      (l, -mp) with the cosine [c] and sine [s] of mp times the azimuth and [sign] = (-1)^mp. *)
  Definition m_step (cosphi : R) (val : nat -> nat -> R -> R -> R -> Cx R)
      (st : R * R * R * R * R * (nat -> Cx R)) (mp : nat) : R * R * R * R * R * (nat -> Cx R) :=
    let '(c1, c2, s1, s2, sign, a) := st in
    let tc := 2 * cosphi in
    let s := tc * s1 - s2 in
    let c := tc * c1 - c2 in
    (c, c1, s, s1, sign * -1,
     fold_left (fun a l => vset a (lm2i_negm l mp) (val l mp c s sign)) (seq mp (S lmax - mp)) a).
  Definition fill (cosphi sinphi : R) (val0 : nat -> Cx R) (val : nat -> nat -> R -> R -> R -> Cx R) : nat -> Cx R :=
    let a := fold_left (fun a l => vset a (lm2i_negm l 0) (val0 l)) (seq 0 (S lmax)) (fun _ => (0, 0)) in
    snd (fold_left (m_step cosphi val) (seq 1 lmax) (1, cosphi, 0, - sinphi, -1, a)).

  Definition half_sqrt2 : R := 1 / 2 * sqrt 2.
  (** ylm in both functions (L40, L53-54; L83, L100-101) *)
  Definition compute_ylm (ct cosphi sinphi : R) : nat -> Cx R :=
    let p := legendre_p ct in
    fill cosphi sinphi (fun l => of_real (p (lm2i l 0) * half_sqrt2))
      (fun l mp c s sign => cscale (sign * p (lm2i l mp) * half_sqrt2) (c, - s)).
  (** ylm_dx, ylm_dy, ylm_dz for c = 0, 1, 2 (L84-87, L103-117) *)
  Definition compute_ylm_d (ct cosphi sinphi r : R) (x : nat) : nat -> Cx R :=
    let q := legendre_q ct in
    let st := sqrt (1 - ct * ct) in
    let invr := 1 / r in
    fill cosphi sinphi
      (fun l => let common := q (lm2i l 1) * st * invr * sqrt (1 / 2 * INR l * INR (l + 1)) in
                of_real (match x with 0%nat => common * ct * cosphi | 1%nat => common * ct * sinphi | _ => - common * st end))
      (fun l mp c s sign =>
         let common := cscale (half_sqrt2 * invr) (c, s) in
         let dtheta := INR mp * ct * q (lm2i l mp)
                       + (if (mp =? l)%nat then 0 else sqrt (INR ((l - mp) * (l + mp + 1))) * q (lm2i l (mp + 1)) * st) in
         let dphi : Cx R := (0, INR mp * q (lm2i l mp)) in
         cscale sign (conj (match x with
           | 0%nat => nmul common (nsub (of_real (dtheta * ct * cosphi)) (cscale sinphi dphi))
           | 1%nat => nmul common (nadd (of_real (dtheta * ct * sinphi)) (cscale cosphi dphi))
           | _ => cscale st (cscale dtheta (nopp common)) end))).

  (** get_ylm_ (polymlp_functions_interface.cpp L89-142): the angles of a difference vector. [std::hypot] is exact. *)
  Definition azimuth (d : v3 R) : R * R :=
    let rho := sqrt (vx d * vx d + vy d * vy d) in
    if Rltb 0 rho then (vx d / rho, vy d / rho) else (1, 0).
  Definition get_ylm (key : nat) (d : v3 R) : Cx R :=
    let r := norm d in
    if Req_EM_T r 0 then (0, 0)
    else let '(ca, sa) := azimuth d in compute_ylm (vz d / r) ca sa key.
  Definition get_ylm_d (x key : nat) (d : v3 R) : Cx R :=
    let r := norm d in
    if Req_EM_T r 0 then (0, 0)
    else let '(ca, sa) := azimuth d in compute_ylm_d (vz d / r) ca sa r x key.
End Harmonics.

(** The functions used by the evaluators: get_fn_ and get_ylm_. *)
Definition real_basis (cutoff : R) (lmax : nat) : basis R :=
  Basis (get_fn cutoff) (fun p r => snd (get_fn_d cutoff p r)) (get_ylm lmax) (get_ylm_d lmax).
