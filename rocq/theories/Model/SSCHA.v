(** SSCHA iterations.

    /repo/src/pypolymlp/calculator/sscha/sscha_core.py L105-138 (set_initial_force_constants), L208-240
    (_convergence_score, _single_iter, _final_iter), L264-343 (precondition, run).

    Simplifications: force constants are vectors of [m] numbers; sampling and the least-squares solver are an arbitrary
    function [solver] of the number of calls made so far and the current force constants; results other than the
    convergence score and flag are left out of the log; the verbose output is left out. *)
From Verif Require Import Base Num NumR.
From Coq Require Import Reals.
Local Open Scope R_scope.

(** A float produced by a division: finite, infinite or not a number. *)
Inductive dval := Fin (d : R) | Inf | Nan.
Definition gt_tol (d : dval) (tol : R) : bool := match d with Fin d => Rltb tol d | Inf => true | Nan => false end.
Definition lt_tol (d : dval) (tol : R) : bool := match d with Fin d => Rltb d tol | Inf => false | Nan => false end.

(** Attribute [_fc2]: unset, an array, or the object itself. *)
Inductive fcval := NoFC | FC (fc : vec R) | SelfObject.
Record sdata := mk_sdata { s_fc : vec R; s_delta : option dval; s_converge : option bool }.
Record sstate := mk_sstate { s_fc2 : fcval; s_log : list sdata; s_calls : nat }.
Record sparams := mk_sparams { p_mixing : R; p_tol : R; p_max_iter : Z }.

Section SSCHA.
  Variable m : nat.
  Variable solver : nat -> vec R -> vec R.
  (** initial force constants by the chosen algorithm *)
  Variable initial : vec R.
  Definition norm (v : vec R) : R := sqrt (sumn m (fun i => v i * v i)).
  (** [_convergence_score] (L208-212) *)
  Definition convergence_score (fc_init fc_update : vec R) : dval :=
    let norm1 := norm (fun i => fc_update i - fc_init i) in
    let norm2 := norm fc_init in
    if Req_EM_T norm2 0 then (if Req_EM_T norm1 0 then Nan else Inf) else Fin (norm1 / norm2).
  (** [set_initial_force_constants] (L105-138): sets the attribute and returns self. *)
  Definition set_initial (st : sstate) (fc : option (vec R)) : sstate :=
    mk_sstate (FC (match fc with Some fc => fc | None => initial end)) (s_log st) (s_calls st).
  (** L277-278 and L301-302: the attribute is overwritten by the returned object. *)
  Definition ensure_fc (st : sstate) : sstate :=
    match s_fc2 st with NoFC => mk_sstate SelfObject (s_log (set_initial st None)) (s_calls st) | _ => st end.
  (** Setting [force_constants] of HarmonicReal (harmonic_real.py L275-283) and running it: the object has no [shape]. *)
  Definition use_fc (st : sstate) : res (vec R) :=
    match s_fc2 st with NoFC => Err ValueError | FC fc => Ok fc | SelfObject => Err AttributeError end.
  (** [_single_iter] (L214-229) *)
  Definition single_iter (p : sparams) (st : sstate) : res (sstate * dval) :=
    do fc <- use_fc st;
    let fc_new := solver (s_calls st) fc in
    let fc2 := fun i => fc_new i * p_mixing p + fc i * (1 - p_mixing p) in
    let delta := convergence_score fc2 fc_new in
    Ok (mk_sstate (FC fc2) (s_log st ++ [mk_sdata fc (Some delta) None]) (S (s_calls st)), delta).
  (** [_final_iter] (L231-237): force constants unchanged *)
  Definition final_iter (st : sstate) : res sstate :=
    do fc <- use_fc st; Ok (mk_sstate (s_fc2 st) (s_log st ++ [mk_sdata fc None None]) (S (s_calls st))).
  (** The attributes of the last record are set in place (L324, L336-338). *)
  Fixpoint on_last (f : sdata -> sdata) (l : list sdata) : list sdata :=
    match l with [] => [] | [d] => [f d] | d :: l => d :: on_last f l end.
  Definition set_log (st : sstate) (l : list sdata) : sstate := mk_sstate (s_fc2 st) l (s_calls st).

  (** while loop of [run] (L309-319). [None] only if the fuel runs out. *)
  Fixpoint loop (fuel : nat) (p : sparams) (n_iter : Z) (delta : dval) (st : sstate) : option (res (sstate * dval)) :=
    if ((n_iter <=? p_max_iter p)%Z && gt_tol delta (p_tol p)) || (n_iter <? 3)%Z then
      match fuel with
      | O => None
      | S fuel =>
          match single_iter p st with
          | Err e => Some (Err e)
          | Ok (st, delta) => loop fuel p (n_iter + 1) delta st
          end
      end
    else Some (Ok (st, delta)).
  (** [run] (L293-343) *)
  Definition run (fuel : nat) (p : sparams) (init_history : bool) (st : sstate) : option (res sstate) :=
    let st := ensure_fc st in
    let st := if init_history then set_log st [] else st in
    match loop fuel p 1 (Fin 10000000000) st with
    | None => None
    | Some (Err e) => Some (Err e)
    | Some (Ok (st, delta)) =>
        if lt_tol delta (p_tol p) then
          Some (do st <- final_iter st;
                Ok (set_log st (on_last (fun d => mk_sdata (s_fc d) (Some delta) (Some true)) (s_log st))))
        else Some (Ok (set_log st (on_last (fun d => mk_sdata (s_fc d) (s_delta d) (Some false)) (s_log st))))
    end.
  (** loop of [precondition] (L280-289) *)
  Fixpoint pre_loop (fuel : nat) (p : sparams) (n_iter : Z) (delta : dval) (st : sstate) : option (res sstate) :=
    if (n_iter <=? p_max_iter p)%Z && gt_tol delta (p_tol p) then
      match fuel with
      | O => None
      | S fuel =>
          match single_iter p st with
          | Err e => Some (Err e)
          | Ok (st, delta) => pre_loop fuel p (n_iter + 1) delta st
          end
      end
    else Some (Ok st).
  Definition precondition (fuel : nat) (p : sparams) (st : sstate) : option (res sstate) := pre_loop fuel p 1 (Fin 10000000000) (ensure_fc st).
End SSCHA.
