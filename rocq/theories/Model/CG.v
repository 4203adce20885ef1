(** Conjugate gradient.

    /repo/src/pypolymlp/mlp_dev/gradient/solvers_cg.py L9-93 and fit_cg.py L42-57.

    Simplifications: float64 is an arbitrary number type; [np.linalg.norm] is the square root
    of the dot product; [verbose] is left out.  Arrays live in a heap, so that [coef_min = coef]
    (L91) is the sharing of an array and [coef += ...] (L81) an update of the shared array.
    [residuals -= ...] (L82) also updates in place, but [directions] is a copy (L64) or a new
    array (L85), so it is modelled as a value. *)
From Verif Require Import Base Num.

Section CG.
  Context {F : Type} {N : Num F} {O : NumOrd F}.
  Local Open Scope num_scope.
  Notation row := (vec F).

  (** The arguments [xtx] or [x] (the first wins). *)
  Inductive system := Sys_xtx (m : mat F) | Sys_x (x : list row).
  Variables (p : nat) (sys : system).

  (** [_eval_dot] (L9-18). *)
  Definition eval_dot (alpha : F) (v : row) : row :=
    match sys with
    | Sys_xtx m => fun i => matvec p m v i + alpha * v i
    | Sys_x x => fun i => nsumf (fun r => r i * dot p r v) x + alpha * v i
    end.
  (** [_eval_residual] (L21-29). *)
  Definition eval_residual (alpha : F) (xty coef : row) : row := fun i => xty i - eval_dot alpha coef i.

  Definition norm (v : row) : F := nsqrt (dot p v v).

  (** Heap of arrays; [a_coef] is the address of [coef]. *)
  Definition heap := nat -> row.
  Definition set_heap (h : heap) (a : nat) (v : row) : heap := fun b => if (b =? a)%nat then v else h b.
  Definition a_coef : nat := 0.

  Record state := mk_state {
    c_heap : heap; c_res : row; c_dir : row; c_norm : F; c_min : F; c_coef_min : option nat }.

  (** One pass of the loop body after the convergence test (L79-91). *)
  Definition step (alpha : F) (s : state) : state :=
    let t := eval_dot alpha (c_dir s) in
    let lr := (c_norm s * c_norm s) / dot p t (c_dir s) in
    let coef := c_heap s a_coef in
    let h := set_heap (c_heap s) a_coef (fun i => coef i + lr * c_dir s i) in
    let r := fun i => c_res s i - lr * t i in
    let n := norm r in
    let beta := (n * n) / (c_norm s * c_norm s) in
    let d := fun i => r i + beta * c_dir s i in
    if nltb n (c_min s) then mk_state h r d n n (Some a_coef)
    else mk_state h r d n (c_min s) (c_coef_min s).

  (** The loop (L68-91) from iteration [i] with [k] iterations left. *)
  Fixpoint loop (alpha gtol : F) (k i : nat) (s : state) : state :=
    match k with
    | Datatypes.O => s
    | S k' =>
        if (100 <? i)%nat && nltb (c_norm s / nsqrt (nnat p)) gtol then s
        else loop alpha gtol k' (S i) (step alpha s)
    end.

  Variable big : F.                     (** 1e10 *)
  Definition start (alpha : F) (xty coef0 : row) : state :=
    let r := eval_residual alpha xty coef0 in
    mk_state (fun _ => coef0) r r (norm r) big None.
  Definition deref (s : state) : option row :=
    match c_coef_min s with Some a => Some (c_heap s a) | None => None end.

  (** [solver_cg] (L32-93); [y] is used only when [xty] is absent. *)
  Definition solver_cg (y : option (list F)) (xty : option row) (alpha : F) (coef0 : option row)
             (gtol : F) (max_iter : nat) : res (option row) :=
    do b <- match xty with
            | Some v => Ok v
            | None => match y, sys with
                      | None, _ => Err RuntimeError
                      | Some ys, Sys_x x => Ok (fun i => nsumf (fun q => fst q i * snd q) (combine x ys))
                      | Some _, Sys_xtx _ => Err AttributeError      (** None.T *)
                      end
            end;
    let c0 := match coef0 with Some c => c | None => fun _ => 0 end in
    Ok (deref (loop alpha gtol max_iter 0 (start alpha b c0))).
End CG.
Arguments system F : clear implicits.

(** Penalties from the last to the first, each start being the previous result (fit_cg.py
    L42-57); the columns are in the order of the penalties.  A run that returns None starts the
    next one from zero; [np.array(coefs)[::-1].T] of a list holding None is RuntimeError. *)
Section Fit.
  Context {F : Type} {N : Num F} {O : NumOrd F}.
  Variables (p : nat) (sys : system F) (big : F) (y : option (list F)) (xty : option (vec F)) (gtol : F) (max_iter : nat).
  Fixpoint cg_loop (alphas_rev : list F) (coef0 : option (vec F)) : res (list (option (vec F))) :=
    match alphas_rev with
    | [] => Ok []
    | a :: t =>
        do c <- solver_cg p sys big y xty a coef0 gtol max_iter;
        do cs <- cg_loop t c;
        Ok (c :: cs)
    end.
  Fixpoint all_some {A} (l : list (option A)) : res (list A) :=
    match l with
    | [] => Ok []
    | Some a :: t => do r <- all_some t; Ok (a :: r)
    | None :: _ => Err RuntimeError
    end.
  Definition fit_cg (alphas : list F) : res (list (vec F)) :=
    do cs <- cg_loop (rev alphas) None; do l <- all_some cs; Ok (rev l).
End Fit.
