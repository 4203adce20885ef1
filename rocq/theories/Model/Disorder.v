(** Averages over random substitutions of a lattice.

    /repo/src/pypolymlp/postproc/disorder_utils.py L14-136, /repo/src/pypolymlp/postproc/disorder.py L84-88, L150-197.

    Simplifications: probabilities are rational numbers and products with them exact; [random.sample] is an oracle with a state;
    iterating over a set of remaining candidates keeps their order (the sample is arbitrary anyway); the evaluation of one structure
    is an oracle, and that of a list evaluates one after the other (C29); positions and forces are lists of columns. *)
From Verif Require Import Base Num Model.Structure Model.StructureUtils Model.ThermoGrid.
From Coq Require Import QArith Qabs.
From Coq Require String.
Local Open Scope nat_scope.

(** ** Occupancies (disorder_utils.py L14-65) *)
(** "Fe"; ("Fe", 0); tuples of another length *)
Inductive okey := Name (e : string) | Spin (e : string) (s : Z) | Broken.
Definition okey_eqb (a b : okey) : bool :=
  match a, b with
  | Name x, Name y => String.eqb x y
  | Spin x s, Spin y t => String.eqb x y && (s =? t)%Z
  | Broken, Broken => true
  | _, _ => false
  end.
Definition qsum (l : list Q) : Q := fold_left Qplus l 0%Q.
(** [np.isclose(x, 1.0)] *)
Definition close1 (x : Q) : bool := Qle_bool (Qabs (x - 1)) ((1 # 100000000) + (1 # 100000)).
Definition known (els : list string) (e : string) : bool := existsb (String.eqb e) els.
Fixpoint index_of (e : string) (l : list string) : res nat :=
  match l with [] => Err ValueError | x :: t => if String.eqb e x then Ok 0 else do i <- index_of e t; Ok (S i) end.
(** [_check_occupancy] (L14-31) *)
Definition check_key (els : list string) (spins : option (list bool)) (k : okey) : res unit :=
  match k with
  | Name e => if known els e then Ok tt else Err RuntimeError
  | Spin e _ => if known els e then
                  do i <- index_of e els;
                  match spins with None => Err TypeError | Some l => do b <- get l i; if b : bool then Ok tt else Err RuntimeError end
                else Err RuntimeError
  | Broken => Err RuntimeError
  end.
Definition check_occupancy (els : list string) (spins : option (list bool)) (occ : list (list (okey * Q))) : res unit :=
  do _ <- mapM (fun o => if close1 (qsum (map snd o)) then mapM (fun kp => check_key els spins (fst kp)) o else Err RuntimeError) occ; Ok tt.
(** [map_element_to_type] (L38-50) *)
Fixpoint type_map (els uniq : list string) (t : nat) : list (okey * nat) :=
  match uniq with
  | [] => []
  | e :: u => if length (filter (String.eqb e) els) =? 1 then (Name e, t) :: type_map els u (t + 1)
              else (Spin e 0, t) :: (Spin e 1, t + 1) :: type_map els u (t + 2)
  end.
Definition type_of (m : list (okey * nat)) (k : okey) : res nat :=
  match find (fun q => okey_eqb k (fst q)) m with Some q => Ok (snd q) | None => Err KeyError end.
Definition name_of (k : okey) : res string := match k with Name e | Spin e _ => Ok e | Broken => Err IndexError end.
(** Element, type and probability *)
Definition entry : Type := (string * nat) * Q.
(** [set_full_occupancy] (L34-65) *)
Definition set_full_occupancy (els : list string) (spins : option (list bool)) (occ : list (list (okey * Q))) : res (list (list entry)) :=
  do _ <- check_occupancy els spins occ;
  let m := type_map els (fromkeys els) 0 in
  let all := flat_map (map fst) occ in
  do _ <- mapM (fun q => py_assert (existsb (okey_eqb (fst q)) all)) m;
  mapM (mapM (fun kp => do e <- name_of (fst kp); do t <- type_of m (fst kp); Ok (e, t, snd kp))) occ.

(** ** Substitutions (L68-110) *)
Section Substitute.
  Context {P A V : Type}.
  Notation structure := (structure P A V).
  Context {G : Type}.
  Variable sample : G -> list nat -> nat -> list nat * G.   (** random.sample *)
  Definition key : Type := string * nat.
  Definition key_eqb (a b : key) : bool := String.eqb (fst a) (fst b) && (snd a =? snd b).
  Definition ids_dict : Type := list (key * list nat).
  (** [replace_ids[key].extend(samples)] and [replace_ids[key]] of a defaultdict *)
  Fixpoint extend (d : ids_dict) (k : key) (l : list nat) : ids_dict :=
    match d with [] => [(k, l)] | (k', l') :: t => if key_eqb k k' then (k', l' ++ l) :: t else (k', l') :: extend t k l end.
  Definition ids_of (d : ids_dict) (k : key) : list nat := match find (fun q => key_eqb k (fst q)) d with Some q => snd q | None => [] end.
  (** [int(round(n * prob))] *)
  Definition n_rep (n : nat) (p : Q) : Z := ThermoGrid.rint (inject_Z (Z.of_nat n) * p).
  Definition draw (g : G) (cand : list nat) (k : Z) : res (list nat * G) :=
    if (Z.of_nat (length cand) =? k)%Z then Ok (cand, g)
    else if (k <? 0)%Z || (Z.of_nat (length cand) <? k)%Z then Err ValueError
    else Ok (sample g cand (Z.to_nat k)).
  Definition occ_step (n : nat) (s : list nat * ids_dict * G) (o : entry) : res (list nat * ids_dict * G) :=
    let '(cand, d, g) := s in
    do r <- draw g cand (n_rep n (snd o));
    let d' := extend d (fst o) (fst r) in
    Ok (filter (fun i => negb (mem i (ids_of d' (fst o)))) cand, d', snd r).
  Definition lattice_step (s : nat * ids_dict * G) (on : list entry * nat) : res (nat * ids_dict * G) :=
    let '(begin, d, g) := s in
    do r <- foldM (occ_step (snd on)) (seq begin (snd on), d, g) (fst on);
    let '(_, d', g') := r in
    Ok (begin + snd on, d', g').
  (** [_generate_substitutional_indices] (L68-83); [zip(strict=True)] *)
  Definition indices (g : G) (n_atoms : list nat) (occ : list (list entry)) : res (ids_dict * G) :=
    do r <- foldM lattice_step (0, [], g) (combine occ n_atoms);
    if length occ =? length n_atoms then Ok (snd (fst r), snd r) else Err ValueError.

  (** A numpy array of strings has the width of its longest; longer strings are cut when they are written. *)
  Definition width (els : list string) : nat := fold_left (fun w e => Nat.max w (String.length e)) els 0.
  Definition cut (w : nat) (e : string) : string := String.substring 0 w e.
  Definition write_all {B} (l : list B) (ids : list nat) (v : B) : res (list B) :=
    if forallb (fun i => i <? length l) ids then Ok (fold_left (fun l i => write_at l i v) ids l) else Err IndexError.
  Definition write_key (w : nat) (s : list string * list Z) (q : key * list nat) : res (list string * list Z) :=
    do els <- write_all (fst s) (snd q) (cut w (fst (fst q)));
    do tys <- write_all (snd s) (snd q) (Z.of_nat (snd (fst q)));
    Ok (els, tys).
  (** The body of the loop of [generate_substitutional_structures] (L98-107), before and after sorting *)
  Definition substituted (g : G) (lat : structure) (occ : list (list entry)) : res (structure * G) :=
    do r <- indices g (n_atoms lat) occ;
    do et <- foldM (write_key (width (elements lat))) (elements lat, types lat) (fst r);
    Ok (mk_structure (axis lat) (positions lat) (n_atoms lat) (fst et) (snd et) (volume lat) (name lat), snd r).
  Definition one_structure (g : G) (lat : structure) (occ : list (list entry)) : res (structure * list nat * G) :=
    do r <- substituted g lat occ;
    do q <- sort_wrt_types (fst r);
    Ok (fst q, snd q, snd r).
  Fixpoint structures (n : nat) (g : G) (lat : structure) (occ : list (list entry)) : res (list (structure * list nat) * G) :=
    match n with
    | O => Ok ([], g)
    | S n => do r <- one_structure g lat occ; do t <- structures n (snd r) lat occ; Ok (fst r :: fst t, snd t)
    end.

  (** ** Evaluation (L113-136) *)
  Context {F : Type} {N : Num F} {NO : NumOrd F}.
  (** Energy, columns of forces, stress *)
  Definition props : Type := F * list (list F) * list F.
  Variable calc : structure -> res props.
  (** [array_reordered[:, order] = array] *)
  Definition reorder (zero : list F) (f : list (list F)) (order : list nat) : res (list (list F)) :=
    if negb (length f =? length order) then Err ValueError
    else if forallb (fun i => i <? length f) order then Ok (fold_left (fun l iv => write_at l (fst iv) (snd iv)) (combine order f) (repeat zero (length f)))
    else Err IndexError.
  Definition zeros3 : list F := [n0; n0; n0].
  Definition eval_substitutional (n : nat) (g : G) (lat : structure) (occ : list (list entry)) : res (list props * G) :=
    do s <- structures n g lat occ;
    do ps <- mapM (fun so => calc (fst so)) (fst s);
    do qs <- mapM (fun po => do f <- reorder zeros3 (snd (fst (fst po))) (snd (snd po)); Ok (fst (fst (fst po)), f, snd (fst po))) (combine ps (fst s));
    Ok (qs, snd s).

  (** ** Averages (disorder.py L150-197) *)
  Local Open Scope num_scope.
  Definition mean (l : list F) : F := nsum l / nnat (length l).
  Definition mean_rows (l : list (list F)) : list F := map (fun i => mean (map (fun r => nth i r n0) l)) (seq 0 (length (hd [] l))).
  Definition mean_cols (l : list (list (list F))) : list (list F) := map (fun a => mean_rows (map (fun f => nth a f []) l)) (seq 0 (length (hd [] l))).
  Definition dabs (x : F) : F := if nltb x 0 then - x else x.
  (** [while diff > etol and iter1 <= max_iter]; [fuel] is max_iter + 1 - iter1 *)
  Fixpoint average (batch : G -> res (list props * G)) (n_sum : nat) (etol diff : F) (prev : option F) (fuel : nat) (g : G) (all : list props) : res (option F * list props * G) :=
    match fuel with
    | O => Ok (prev, all, g)
    | S fuel =>
        if nltb etol diff then
          do r <- batch g;
          let all := (all ++ fst r)%list in
          let ave := mean (map (fun p => fst (fst p)) all) in
          let diff := match prev with Some p => dabs (ave - p) / nnat n_sum | None => diff end in
          average batch n_sum etol diff (Some ave) fuel (snd r) all
        else Ok (prev, all, g)
    end.
  (** [_eval_single] (L150-197); the name [ave_energy] is unbound if the loop does not run *)
  Definition eval_single (n max_iter : nat) (etol : F) (g : G) (lat : structure) (occ : list (list entry)) : res (props * G) :=
    do r <- average (fun g => eval_substitutional n g lat occ) (sum (n_atoms lat)) etol (etol + 1) None max_iter g [];
    let '(prev, all, g') := r in
    match prev with
    | None => Err UnboundLocalError
    | Some e => Ok (e, mean_cols (map (fun p => snd (fst p)) all), mean_rows (map snd all), g')
    end.
End Substitute.
(** [load_lattice] (L84-88) *)
Definition load_lattice (n_atoms : list nat) (occ : list (list entry)) : res unit :=
  if length n_atoms =? length occ then Ok tt else Err RuntimeError.
