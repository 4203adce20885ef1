(** Where two phases have the same free energy.

    /repo/src/pypolymlp/calculator/thermodynamics/transition.py L8-75,
    /repo/src/pypolymlp/calculator/utils/fit_utils.py L226-239,
    /repo/src/pypolymlp/api/pypolymlp_thermodynamics.py L161-190.

    Simplifications: float64 is an arbitrary number type [F]; scipy.interpolate.make_interp_spline with k = 1
    is the polygon through the data, with its first and last sides extended; np.linalg.solve, np.linalg.inv,
    scipy.optimize.fsolve and np.ceil are oracles. *)
From Verif Require Import Base Num Model.Structure Model.Readers Model.Polyfit Model.Equilibrium.

Section Transition.
  Context {F : Type} {N : Num F} {NO : NumOrd F}.
  Local Open Scope num_scope.
  Variable solve : nat -> mat F -> vec F -> option (vec F).
  Variable inv : nat -> mat F -> option (mat F).
  Variable best0 : F.
  Variable fsolve : (F -> F) -> F -> F.
  Variable ceil : F -> nat.                   (** 0 for negative numbers *)
  Variables (share lowest above : F).         (** 0.8, -3.0, -1e-5 *)

  (** ** Polygons *)
  Definition line (a b : F * F) (x : F) : F := snd a + (snd b - snd a) / (fst b - fst a) * (x - fst a).
  Fixpoint polygon (a b : F * F) (l : list (F * F)) (x : F) : F :=
    match l with
    | [] => line a b x
    | c :: l' => if nltb x (fst b) then line a b x else polygon b c l' x
    end.
  Fixpoint increasing_from (x : F) (l : list (F * F)) : bool :=
    match l with [] => true | q :: l' => nltb x (fst q) && increasing_from (fst q) l' end.
  (** [make_interp_spline(x, y, k=1)]; fewer than two points have been refused before *)
  Definition spline1 (l : list (F * F)) : res (F -> F) :=
    match l with
    | a :: b :: l' => if increasing_from (fst a) (b :: l') then Ok (polygon a b l') else Err ValueError
    | _ => Err ValueError
    end.
  (** [fit_solve] with k = 1 *)
  Definition fit_solve (f1 f2 : list (F * F)) (f0 : F) : res F :=
    do sp1 <- spline1 f1; do sp2 <- spline1 f2;
    Ok (fsolve (fun x => sp1 x - sp2 x) f0).
  (** [find_transition] (transition.py L8-18) *)
  Definition find_transition (f1 f2 : list (F * F)) : res F :=
    do tc0 <- fit_solve_poly solve inv best0 fsolve f1 f2 0 (Some 1%nat) 6;
    fit_solve f1 f2 tc0.

  (** ** Phase boundaries (L21-75) *)
  (** [_fit_pressure_gibbs]: for every pressure the pairs of temperature and free energy *)
  Definition fit_pressure_gibbs (gibbs : list (list (F * F))) (temps pressures : list F) (max_order : nat) : res (list (list (F * F))) :=
    do fits <- mapM (fun q => do p <- fit solve inv best0 (map fst (snd q)) (map snd (snd q)) None max_order true true (Some false) false false;
                             Ok (fst q, p)) (combine temps gibbs);
    Ok (map (fun p => map (fun q => (fst q, eval (snd q) p)) fits) pressures).
  (** [max([np.max(g[:, 0]) for g in gibbs]) * 0.8] *)
  Definition p_limit (gibbs : list (list (F * F))) : res F :=
    do ms <- mapM (fun g => py_max (map fst g)) gibbs;
    do m <- py_max ms; Ok (m * share).
  (** [np.arange(start, stop, step)] *)
  Definition arange (start stop step : F) : list F :=
    map (fun k => start + nnat k * step) (seq 0 (ceil ((stop - start) / step))).
  Definition boundary_point (q : list (F * F) * list (F * F) * F) : res (list (F * F)) :=
    let '(tg1, tg2, press) := q in
    if nltb above press then
      do tc <- find_transition tg1 tg2;
      Ok (if nltb 0 tc then [(press, tc)] else [])
    else Ok [].
  Definition compute_phase_boundary (gibbs1 : list (list (F * F))) (temps1 : list F) (gibbs2 : list (list (F * F))) (temps2 : list F)
      (interval : F) (max_order : nat) : res (list (F * F)) :=
    do p1 <- p_limit gibbs1; do p2 <- p_limit gibbs2;
    let p_max := if nltb p2 p1 then p2 else p1 in
    let pressures := arange lowest p_max interval in
    do g1 <- fit_pressure_gibbs gibbs1 temps1 pressures max_order;
    do g2 <- fit_pressure_gibbs gibbs2 temps2 pressures max_order;
    do b <- mapM boundary_point (combine (combine g1 g2) pressures);
    Ok (concat b).
End Transition.
