(** Formation energies, end members and stable compounds: calculator/compute_formation_energies.py. scipy's ConvexHull, the
    calculator and np.linalg.pinv are parameters. A row of the data array is a pair of its compositions and its last entry, the
    formation energy. The number of end members is the number of elements; other numbers of energies are refused by numpy
    when the first structures are evaluated (see [compute]). Rows appended by a call of [convex_hull] that then fails (they
    stay in the array) and structures without atoms (IndexError in [find_endmembers]) are left out. *)
From Verif Require Import Base Num Model.Structure Model.Composition.
From Coq Require String.

Section Hull.
  Context {F : Type} {N : Num F} {O : NumOrd F}.
  Context {P A V : Type}.
  Local Open Scope num_scope.
  Notation structure := (structure P A V).
  (** np.isclose *)
  Variables atol rtol : F.
  Variable pinv : mat F -> mat F.
  (** [self._elements] (L30-35), and [self._prop.eval_multiple] if there is a potential. *)
  Variable els : list string.
  Variable prop : option (list structure -> res (list F)).
  (** np.unique(ConvexHull(points).simplices) *)
  Variable hull : list (list F) -> res (list nat).

  Definition row : Type := list F * F.
  Definition n_el : nat := length els.

  (** [_get_n_atoms] (L157-173) *)
  Definition get_n_atoms (st : structure) : list nat := map (fun e => count_occ String.string_dec (elements st) e) els.
  Definition counts (l : list nat) : vec F := fun i => nnat (nth i l 0%nat).

  (** [_initialize_composition] (L176-217): the composition with its number of end members. [lists] of energies are vectors. *)
  Definition vec_of (l : list F) : vec F := fun k => nth k l 0.
  Definition initialize (sts : option (list structure)) (ens : option (list F)) : res (nat * composition (F := F)) :=
    match sts, ens with
    | None, None => Err RuntimeError
    | None, Some e => do c <- set_energies (length e) (init (fun k i => if (k =? i)%nat then 1 else 0) pinv) (length e) (vec_of e); Ok (length e, c)
    | Some s, _ =>
        if negb (length s =? n_el)%nat then Err RuntimeError
        else
          let c0 := init (fun k => counts (nth k (map get_n_atoms s) nil)) pinv in
          match ens with
          | None => match prop with
                    | None => Err RuntimeError
                    | Some ev => do e <- ev s; do c <- set_energies n_el c0 (length e) (vec_of e); Ok (n_el, c)
                    end
          | Some e => if negb (length e =? n_el)%nat then Err RuntimeError else do c <- set_energies n_el c0 (length e) (vec_of e); Ok (n_el, c)
          end
    end.

  (** [find_endmembers] (L220-242) *)
  Definition find_one (big : F) (ele : string) (sts : list structure) (ens : list F) : res (structure * F) :=
    match fold_left (fun (m : F * option structure) '(st, ene) =>
             if (1 <? length (n_atoms st))%nat || negb (match elements st with e :: _ => String.eqb e ele | [] => false end) then m
             else let per := ene / nnat (length (elements st)) in if nltb per (fst m) then (per, Some st) else m) (combine sts ens) (big, None) with
    | (e, Some st) => Ok (st, e)
    | (_, None) => Err RuntimeError
    end.
  Definition find_endmembers (big : F) (sts : list structure) (ens : list F) (names : list string) : res (list (structure * F)) := mapM (fun e => find_one big e sts ens) names.

  (** Names of structures: their numbers, or "End-k". *)
  Inductive name := Id (i : nat) | End (k : nat).
  (** [__init__] (L17-42) *)
  Record state := { s_comp : option (nat * composition (F := F)); s_data : option (list row); s_names : option (list name);
                    s_convex : option (list row); s_names_convex : option (list name) }.
  Definition start : state := {| s_comp := None; s_data := None; s_names := None; s_convex := None; s_names_convex := None |}.
  (** [define_end_members] (L44-66) *)
  Definition define_end_members (s : state) sts ens : res state :=
    do c <- initialize sts ens; Ok {| s_comp := Some c; s_data := s_data s; s_names := s_names s; s_convex := s_convex s; s_names_convex := s_names_convex s |}.
  (** [compute] (L68-101). Names given by the caller are not stored. Sizes of arrays are compared by numpy. *)
  Definition compute (s : state) (sts : list structure) (ens : option (list F)) (names_given : bool) : res (state * list row) :=
    match s_comp s with
    | None => Err RuntimeError
    | Some (ne, c) =>
        do e <- match ens with
                | Some e => if negb (length e =? length sts)%nat then Err RuntimeError else Ok e
                | None => match prop with None => Err AttributeError | Some ev => ev sts end
                end;
        if negb (ne =? n_el)%nat then Err ValueError
        else
          let ns := map (fun st => counts (get_n_atoms st)) sts in
          do form <- formation_energies n_el ne atol rtol c e ns;
          do comps <- get_compositions n_el ne atol rtol c ns;
          let data := combine (map (fun cp => map (fst cp) (seq 0 ne)) comps) form in
          Ok ({| s_comp := s_comp s; s_data := Some data; s_names := if names_given then s_names s else Some (map Id (seq 0 (length form)));
                 s_convex := s_convex s; s_names_convex := s_names_convex s |}, data)
    end.

  (** [_append_end_members] (L109-121) *)
  Definition target (i : nat) : row := (map (fun k => if (k =? i)%nat then 1 else 0) (seq 0 n_el), 0).
  Definition isclose (a b : F) : bool := negb (nltb (atol + rtol * nabs b) (nabs (a - b))).
  Definition row_close (r t : row) : bool := forallb (fun '(a, b) => isclose a b) (combine (fst r) (fst t)) && isclose (snd r) (snd t).
  Definition missing (data : list row) : list nat := filter (fun i => negb (existsb (fun r => row_close r (target i)) data)) (seq 0 n_el).
  Definition append_ends (data : list row) : list row := data ++ map target (missing data).
  Definition append_names (data : list row) (names : option (list name)) : option (list name) := option_map (fun l => l ++ map (fun i => End (S i)) (missing data)) names.
  (** [_slice] (L123-130) *)
  Definition slice_ (data : list row) (names : option (list name)) (ids : list nat) : res (list row * option (list name)) :=
    do d <- mapM (get data) ids;
    match names with None => Ok (d, None) | Some l => do n <- mapM (get l) ids; Ok (d, Some n) end.
  (** [_sort_compositions] (L103-107): np.lexsort, a stable sort whose last key comes first. *)
  Fixpoint lex_ltb (a b : list F) : bool :=
    match a, b with x :: a', y :: b' => nltb x y || (negb (nltb y x) && lex_ltb a' b') | _, _ => false end.
  Definition sort_key (r : row) : list F := rev (fst r) ++ [snd r].
  Fixpoint insert_id (key : nat -> list F) (i : nat) (l : list nat) : list nat :=
    match l with [] => [i] | j :: l' => if lex_ltb (key i) (key j) then i :: l else j :: insert_id key i l' end.
  Definition lexsort (data : list row) : list nat :=
    fold_left (fun l i => insert_id (fun j => sort_key (nth j data ([], 0))) i l) (seq 0 (length data)) [].
  (** [convex_hull] (L132-147): the first composition is left out. *)
  Definition project (r : row) : list F := tl (fst r) ++ [snd r].
  Definition negative (tol : F) (data : list row) : list nat := filter (fun i => nltb (snd (nth i data ([], 0))) tol) (seq 0 (length data)).
  Definition convex_hull (s : state) (tol : F) : res (state * list row) :=
    match s_data s with
    | None => Err TypeError
    | Some data0 =>
        let data := append_ends data0 in
        let names := append_names data0 (s_names s) in
        do dn <- slice_ data names (negative tol data);
        do dn' <- (if (n_el <? length (fst dn))%nat then do v <- hull (map project (fst dn)); slice_ (fst dn) (snd dn) v else Ok dn);
        do r <- slice_ (fst dn') (snd dn') (lexsort (fst dn'));
        Ok ({| s_comp := s_comp s; s_data := Some data; s_names := names; s_convex := Some (fst r); s_names_convex := snd r |}, fst r)
    end.
End Hull.
