(** Evaluation of energies, forces and stresses for one or many structures, by one or several potentials.

    /repo/src/pypolymlp/calculator/properties_single.py L42-150 (eval, eval_multiple);
    /repo/src/pypolymlp/calculator/properties_hybrid.py L41-64 (eval, eval_multiple);
    /repo/src/pypolymlp/calculator/utils/properties_utils.py L9-43 (find_active_atoms);
    /repo/src/pypolymlp/calculator/compute_features.py L15-25 (update_types);
    /repo/src/pypolymlp/cxx/src/compute/py_properties_fast.cpp L17-76 (one call of the evaluator per structure).

    Simplifications: the C++ evaluator is a total function [pot] of axis, Cartesian positions and types; [axis @ positions]
    is a function [cart]; structures are values ([update_types] changes the types of the caller's structures in place). *)
From Verif Require Import Base Num Model.Structure.
From Coq Require String.

Section Properties.
  Context {F : Type} {N : Num F}.
  Local Open Scope num_scope.
  Variables (P A V : Type) (det : A -> V) (argsort : list Z -> list nat) (cart : A -> list P -> list P).
  Notation structure := (structure P A V).
  Definition vec3 : Type := F * F * F.
  Definition v0 : vec3 := (0, 0, 0).
  Definition vadd (a b : vec3) : vec3 := let '(x, y, z) := a in let '(x', y', z') := b in (x + x', y + y', z + z').
  (** energy, force on each atom, stress (6) *)
  Definition value : Type := F * list vec3 * list F.
  Definition evaluator : Type := A -> list P -> list Z -> value.
  Record single := mk_single { s_elements : list string; s_type_full : option bool; s_pot : evaluator }.

  Fixpoint position (e : string) (l : list string) : nat := match l with [] => 0%nat | x :: t => if String.eqb e x then 0%nat else S (position e t) end.
  Definition is_in (l : list string) (e : string) : bool := existsb (String.eqb e) l.
  (** Loop body of [find_active_atoms] (L24-41) *)
  Definition find_active (els : list string) (st : structure) : res (option (structure * list nat)) :=
    let active := where_ (is_in els) (elements st) in
    do names <- mapM (get (elements st)) active;
    let ty := map (fun e => position e els) names in
    let na := map (fun i => length (filter (Nat.eqb i) ty)) (seq 0 (length els)) in
    match active with
    | [] => Ok None
    | _ => do pos <- mapM (get (positions st)) active; do new <- new_structure det (axis st) pos na names (map Z.of_nat ty); Ok (Some (new, active))
    end.
  (** [find_active_atoms] (L9-43): structures, active atoms, active flags *)
  Definition find_active_atoms (sts : list structure) (els : list string) : res (list structure * list (list nat) * list bool) :=
    if negb (all_distinct els) then Err RuntimeError else
    do l <- mapM (find_active els) sts;
    let some := concat (map (fun o => match o with Some x => [x] | None => [] end) l) in
    Ok (map fst some, map snd some, map (fun o => match o with Some _ => true | None => false end) l).
  Definition full (p : single) : bool := match s_type_full p with Some false => false | _ => true end.
  (** [update_types] of a list (L23-25): the structures in order *)
  Definition update_types (sts : list structure) (els : list string) : res (list structure) := mapM (fun st => replace_types argsort st els) sts.
  Definition obj_eval (p : single) (st : structure) : value := s_pot p (axis st) (cart (axis st) (positions st)) (types st).
  (** [f_full[:, atoms] = force]: numpy needs as many columns as atoms, or one. *)
  Fixpoint put_at (l : list vec3) (i : nat) (v : vec3) : list vec3 :=
    match l with [] => [] | x :: t => match i with 0%nat => v :: t | S i => x :: put_at t i v end end.
  Definition put_all (n : nat) (atoms : list nat) (force : list vec3) : res (list vec3) :=
    if negb (forallb (fun a => a <? n) atoms)%nat then Err IndexError else
    if (length force =? length atoms)%nat then Ok (fold_left (fun l iv => put_at l (fst iv) (snd iv)) (combine atoms force) (repeat v0 n))
    else match force with [v] => Ok (fold_left (fun l i => put_at l i v) atoms (repeat v0 n)) | _ => Err ValueError end.
  Definition zero_value (n : nat) : value := (0, repeat v0 n, repeat 0 6).

  (** [PropertiesSingle.eval] (L42-80) *)
  Definition eval (p : single) (st : structure) : res value :=
    if full p then do st' <- replace_types argsort st (s_elements p); Ok (obj_eval p st')
    else
      do (sts, atoms, _) <- find_active_atoms [st] (s_elements p);
      match sts, atoms with
      | st' :: _, at_ :: _ => let '(e, f, s) := obj_eval p st' in do f' <- put_all (length (types st)) at_ f; Ok (e, f', s)
      | _, _ => Ok (zero_value (length (types st)))
      end.
  (** The re-insertion loop (L128-148); [i] counts active structures *)
  Fixpoint reinsert (sts : list structure) (flags : list bool) (atoms : list (list nat)) (vals : list value) (i : nat) : res (list value) :=
    match sts, flags with
    | st :: sts, true :: flags =>
        do at_ <- get atoms i; do v <- get vals i; let '(e, f, s) := v in
        do f' <- put_all (length (types st)) at_ f; do rest <- reinsert sts flags atoms vals (S i); Ok ((e, f', s) :: rest)
    | st :: sts, false :: flags => do rest <- reinsert sts flags atoms vals i; Ok (zero_value (length (types st)) :: rest)
    | _, _ => Ok []
    end.
  (** [PropertiesSingle.eval_multiple] (L82-150) *)
  Definition eval_multiple (p : single) (sts : list structure) : res (list value) :=
    if full p then
      do sts' <- update_types sts (s_elements p);
      match sts' with [] => Ok (map (fun st => zero_value (length (types st))) sts) | _ => Ok (map (obj_eval p) sts') end
    else
      do (sts', atoms, flags) <- find_active_atoms sts (s_elements p);
      match sts' with
      | [] => Ok (map (fun st => zero_value (length (types st))) sts)
      | _ => reinsert sts flags atoms (map (obj_eval p) sts') 0
      end.

  (** [a += b] of arrays of the same shape *)
  Definition add_lists {B} (add : B -> B -> B) (a b : list B) : res (list B) :=
    if (length a =? length b)%nat then Ok (map (fun q => add (fst q) (snd q)) (combine a b)) else Err ValueError.
  Definition add_value (v w : value) : res value :=
    let '(e, f, s) := v in let '(e', f', s') := w in
    do f2 <- add_lists vadd f f'; do s2 <- add_lists (fun x y => x + y) s s'; Ok (e + e', f2, s2).
  (** [PropertiesHybrid.eval] (L41-49) *)
  Definition hybrid_eval (ps : list single) (st : structure) : res value :=
    match ps with
    | [] => Err IndexError
    | p :: t => do v <- eval p st; foldM (fun v p => do w <- eval p st; add_value v w) v t
    end.
  (** [PropertiesHybrid.eval_multiple] (L51-60) *)
  Definition add_values (vs ws : list value) : res (list value) :=
    if (length vs =? length ws)%nat then mapM (fun q => add_value (fst q) (snd q)) (combine vs ws) else Err ValueError.
  Definition hybrid_eval_multiple (ps : list single) (sts : list structure) : res (list value) :=
    match ps with
    | [] => Err IndexError
    | p :: t => do v <- eval_multiple p sts; foldM (fun v p => do w <- eval_multiple p sts; add_values v w) v t
    end.
End Properties.
Arguments single F P A : clear implicits.
