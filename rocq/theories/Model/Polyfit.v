(** Polynomial fits of thermodynamic properties.

    /repo/src/pypolymlp/calculator/utils/fit_utils.py L12-214; /repo/src/pypolymlp/core/utils.py L37-39.

    Simplifications: float64 is an arbitrary number type [F]; orders are natural numbers; the arrays
    of a fit are one-dimensional; np.linalg.solve and np.linalg.inv are oracles that return None for
    LinAlgError; division by zero gives inf or nan in numpy and neither is less than the best score,
    so a score with a division by zero is [None]; scipy.optimize.fsolve is an oracle. *)
From Verif Require Import Base Num Model.Regress.

Section Polyfit.
  Context {F : Type} {N : Num F} {NO : NumOrd F}.
  Local Open Scope num_scope.
  Notation row := (vec F).

  Variable solve : nat -> mat F -> row -> option row.
  Variable inv : nat -> mat F -> option (mat F).
  Variable best0 : F.                         (** 1e10 (L77) *)
  Variable tol : F.                           (** 1e-10 (L50) *)

  Fixpoint npow (x : F) (k : nat) : F := match k with O => 1 | S k' => x * npow x k' end.
  Definition is_zero (x : F) : bool := negb (nltb x 0) && negb (nltb 0 x).

  (** ** Columns of the matrix X (L142-150) *)
  Inductive column := CSqrt | CPow (k : nat) | COne.
  Definition entry (c : column) (v : F) : F :=
    match c with CSqrt => nsqrt v | CPow k => npow v k | COne => 1 end.
  (** [np.arange(order, range_end, -1)] *)
  Definition powers (order range_end : nat) : list nat := rev (seq (S range_end) (order - range_end)).
  Definition columns (order : nat) (intercept first_order add_sqrt : bool) : list column :=
    ((if add_sqrt then [CSqrt] else []) ++ map CPow (powers order (if first_order then 0 else 1)) ++
     (if intercept then [COne] else []))%list.
  Definition x_row (cols : list column) (v : F) : row :=
    fun j => match nth_error cols j with Some c => entry c v | None => 0 end.

  (** ** Weights (L152-164) *)
  Fixpoint put (l : list F) (i : nat) (v : F) : res (list F) :=
    match l, i with
    | [], _ => Err IndexError
    | _ :: t, O => Ok (v :: t)
    | a :: t, S i' => do t' <- put t i' v; Ok (a :: t')
    end.
  (** [l[-i] = v] for 0 < i *)
  Definition put_end (l : list F) (i : nat) (v : F) : res (list F) :=
    if (length l <? i)%nat then Err IndexError else put l (length l - i) v.
  Definition sq (k : nat) : F := nnat k * nnat k.
  Definition weight_vals (n : nat) (weight_begin weight_end : bool) : res (list F) :=
    let w := repeat 1 n in
    do w <- (if weight_begin then
               do w <- put w 0 (sq 5); do w <- put w 1 (sq 4); do w <- put w 2 (sq 3); put w 3 (sq 2)
             else Ok w);
    if weight_end then
      do w <- put_end w 1 (sq 5); do w <- put_end w 2 (sq 4); do w <- put_end w 3 (sq 3); put_end w 4 (sq 2)
    else Ok w.
  (** [X.T @ W @ X] and [X.T @ W @ y] *)
  Definition xtwx_of (x : list row) (w : list F) : mat F :=
    fun i j => nsumf (fun q => fst q i * snd q * fst q j) (combine x w).
  Definition xtwy_of (x : list row) (w y : list F) : row :=
    fun i => nsumf (fun q => fst (fst q) i * snd (fst q) * snd q) (combine (combine x w) y).

  (** ** [_fit_single] (L129-178): None when an exception is caught *)
  Record fitted := mk_fitted { s_coeffs : list F; s_pred : list F; s_rmse : F; s_rows : list row; s_p : nat }.
  Definition of_coeffs (p : nat) (x : list row) (y : list F) (c : row) : fitted :=
    let pred := map (fun r => dot p r c) x in
    mk_fitted (map c (seq 0 p)) pred
              (nsqrt (nsumf (fun q => (fst q - snd q) * (fst q - snd q)) (combine y pred) / nnat (length y))) x p.
  Definition fit_single (xs y : list F) (order : nat) (intercept first_order add_sqrt weight_begin weight_end : bool)
    : res (option fitted) :=
    let cols := columns order intercept first_order add_sqrt in
    let p := length cols in
    let x := map (x_row cols) xs in
    do w <- (if weight_begin || weight_end then
               (do w <- weight_vals (match p with O => 0%nat | S _ => length xs end) weight_begin weight_end; Ok (Some w))
             else Ok None);
    (** X without columns is a vector, and y with another length cannot be multiplied (L166-175) *)
    if ((p =? 0) || negb (length y =? length xs))%nat then Ok None else
    Ok (match (match w with
               | Some w => solve p (xtwx_of x w) (xtwy_of x w y)
               | None => solve p (xtx_of x) (xty_of x y)
               end) with
        | Some c => Some (of_coeffs p x y c)
        | None => None
        end).

  (** ** [loocv] (L12-18) *)
  Definition leverage (p : nat) (b : mat F) (r : row) : F := dot p r (fun j => dot p (fun k => b j k) r).
  Definition loocv (s : fitted) (y : list F) : res (option F) :=
    match inv (s_p s) (xtx_of (s_rows s)) with
    | None => Err ValueError
    | Some b =>
        let h := map (leverage (s_p s) b) (s_rows s) in
        if existsb (fun v => is_zero (1 - v)) h then Ok None else
        let e := map (fun q => (fst (fst q) - snd (fst q)) / (1 - snd q)) (combine (combine (s_pred s) y) h) in
        Ok (Some (nsqrt (nsumf (fun v => v * v) e / nnat (length e))))
    end.

  (** ** [_adjust_coeffs] (L110-127) *)
  Definition adjust_coeffs (coeffs : list F) (intercept first_order : bool) : list F :=
    let '(poly_c, intercept_c) := if intercept then (removelast coeffs, last coeffs 0) else (coeffs, 0) in
    (poly_c ++ (if first_order then [] else [0]) ++ [intercept_c])%list.

  (** ** [fit] (L56-108) *)
  Record polyfit := mk_polyfit { pf_coeffs : list F; pf_error : F; pf_order : nat; pf_sqrt : bool }.
  Definition try_model (xs y : list F) (intercept first_order weight_begin weight_end : bool)
             (best : F * option (bool * nat)) (m : bool * nat) : res (F * option (bool * nat)) :=
    do r <- fit_single xs y (snd m) intercept first_order (fst m) weight_begin weight_end;
    match r with
    | None => Ok best
    | Some s =>
        do cv <- loocv s y;
        Ok (match cv with Some v => if nltb v (fst best) then (v, Some m) else best | None => best end)
    end.
  Fixpoint search (xs y : list F) (intercept first_order weight_begin weight_end : bool)
           (best : F * option (bool * nat)) (models : list (bool * nat)) : res (F * option (bool * nat)) :=
    match models with
    | [] => Ok best
    | m :: t => do best' <- try_model xs y intercept first_order weight_begin weight_end best m;
                search xs y intercept first_order weight_begin weight_end best' t
    end.
  Definition fit (xs y : list F) (order : option nat) (max_order : nat) (intercept first_order : bool)
             (add_sqrt : option bool) (weight_begin weight_end : bool) : res polyfit :=
    let orders := match order with None => seq 2 (max_order + 1 - 2) | Some o => [o] end in
    let sqrts := match add_sqrt with None => [true; false] | Some b => [b] end in
    do best <- (match orders, sqrts with
                | [o], [s] => Ok (Some (s, o))
                | _, _ => do b <- search xs y intercept first_order weight_begin weight_end (best0, None) (list_prod sqrts orders);
                          Ok (snd b)
                end);
    match best with
    | None => Err TypeError                    (** np.arange(None, ...) *)
    | Some (s, o) =>
        do r <- fit_single xs y o intercept first_order s weight_begin weight_end;
        match r with
        | None => Err TypeError                (** list(None) *)
        | Some f => Ok (mk_polyfit (adjust_coeffs (s_coeffs f) intercept first_order) (s_rmse f) o s)
        end
    end.

  (** ** Evaluation (L33-54) *)
  (** [np.polyval] *)
  Definition polyval (l : list F) (x : F) : F := fold_left (fun acc a => acc * x + a) l 0.
  Definition poly_part (f : polyfit) : list F := if pf_sqrt f then tl (pf_coeffs f) else pf_coeffs f.
  Definition eval (f : polyfit) (x : F) : F :=
    let val := polyval (poly_part f) x in
    if pf_sqrt f then val + hd 0 (pf_coeffs f) * nsqrt x else val.
  Definition deriv_coeffs (l : list F) : list F :=
    removelast (map (fun q => fst q * nnat (snd q)) (combine l (rev (seq 0 (length l))))).
  Definition eval_derivative (f : polyfit) (x : F) : F :=
    let val := polyval (deriv_coeffs (poly_part f)) x in
    if pf_sqrt f then
      let x' := if nltb (nabs x) tol then 1 else x in
      val + (1 / nnat 2) * hd 0 (pf_coeffs f) * (1 / nsqrt x')
    else val.

  (** ** Where two fits cross (L197-214) *)
  Definition pad (n : nat) (l : list F) : list F := (repeat 0 n ++ l)%list.
  Definition fit_poly (f1 f2 : list (F * F)) (order : option nat) (max_order : nat) : res (list F * list F) :=
    do p1 <- fit (map fst f1) (map snd f1) order max_order true true (Some false) false false;
    do p2 <- fit (map fst f2) (map snd f2) order max_order true true (Some false) false false;
    let z1 := pf_coeffs p1 in let z2 := pf_coeffs p2 in
    Ok (pad (length z2 - length z1) z1, pad (length z1 - length z2) z2).
  Variable fsolve : (F -> F) -> F -> F.
  Definition fit_solve_poly (f1 f2 : list (F * F)) (f0 : F) (order : option nat) (max_order : nat) : res F :=
    do (z1, z2) <- fit_poly f1 f2 order max_order;
    Ok (fsolve (polyval (map (fun q => fst q - snd q) (combine z1 z2))) f0).
End Polyfit.
