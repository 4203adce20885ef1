(** Automatic division of calculations into data sets.

    /repo/src/pypolymlp/utils/dataset_divide_utils.py L16-73 (_extract_properties_from_dataset, ..._alloy, _split), L87-149
    (split_datasets, split_datasets_alloy); /repo/src/pypolymlp/utils/dataset_divide.py L17-60 (_parse_vaspruns,
    _get_dataset_attrs), L53-121 (auto_divide_vaspruns); /repo/src/pypolymlp/core/interface_vasp.py L40-72
    (parse_properties_from_vaspruns).

    Simplifications: reading a file is a function giving its usable calculations (none for an unconverged one, several for
    molecular dynamics) or an error; the energies are those after subtraction of atomic energies; the rounded composition of
    a structure is a function [key] and "an end member" a test of it; [2 ** x] is a function [pow2]; n_divide >= 0; the
    copied directories are returned as a list, nothing is written; what was copied before an error is not returned. *)
From Verif Require Import Base Num Model.Split.

Section Divide.
  Context {F : Type} {N : Num F} {O : NumOrd F}.
  Variables (pow2 : F -> F) (F01 : F).
  Variables (File K : Type) (keqb : K -> K -> bool) (is_end : K -> bool).
  Local Open Scope num_scope.
  (** One calculation: energy, forces (3 per atom), rounded composition *)
  Record calc := mk_calc { c_energy : F; c_natoms : nat; c_forces : list F; c_key : K }.

  (** [np.average], [np.std] *)
  Definition np_average (l : list F) : F := nsum l / nnat (length l).
  Definition np_std (l : list F) : F := let m := np_average l in nsqrt (np_average (map (fun x => (x - m) * (x - m)) l)).
  (** [_extract_properties_from_dataset] (L16-29): flat forces cut by numbers of atoms *)
  Definition e_all (dft : list calc) : list F := map (fun c => c_energy c / nnat (c_natoms c)) dft.
  Fixpoint f_std_from (begin : nat) (natoms : list nat) (forces : list F) : list F :=
    match natoms with [] => [] | n :: t => np_std (slice begin (begin + 3 * n) forces) :: f_std_from (begin + 3 * n) t forces end.
  Definition f_std_all (dft : list calc) : list F := f_std_from 0 (map c_natoms dft) (concat (map c_forces dft)).

  (** [np.linspace(a, b, n)[:-1]] *)
  Definition linspace_init (a b : F) (n : nat) : list F := map (fun i => a + nnat i * (b - a) / nnat (n - 1)) (seq 0 (n - 1)).
  Definition np_min (l : list F) : res F := match l with [] => Err ValueError | a :: t => Ok (fold_left (fun m x => if nltb x m then x else m) t a) end.
  (** One threshold loop (L66-70): the last threshold not below the value gives the group. *)
  Definition group_of (thresholds : list F) (x : F) : nat :=
    fold_left (fun g it => if nltb (snd it) x then g else S (fst it)) (combine (seq 0 (length thresholds)) thresholds) 0%nat.
  (** [_split] (L47-73) *)
  Definition split (es fs : list F) (n_divide : nat) : res (list nat) :=
    do e_min <- np_min es;
    let f_avg := np_average fs in
    let e_ratios := linspace_init n0 n1 n_divide in
    let f_ratios := map pow2 (linspace_init (n1 + n1) (- (n1 + n1 + n1 + n1)) n_divide) in
    Ok (map (fun ef => Nat.max (group_of (map (fun r => e_min * r) e_ratios) (fst ef)) (group_of (map (fun r => f_avg * r) f_ratios) (snd ef))) (combine es fs)).

  (** A [DatasetAttr] or a plain tuple; only the former has attributes. *)
  Inductive attr := Attr (train test : list nat) | Tuple (train test : list nat).
  (** The group list cut into train and test parts, 0.9 by default (L98-105, L139-148) *)
  Definition cut_groups (groups : list nat) (n : nat) : res (list attr) :=
    mapM (fun g => do (train, test) <- split_train_test (where_ (Nat.eqb g) groups) 9 10; Ok (Attr train test)) (seq 0 n).
  (** [split_datasets] (L87-106) *)
  Definition split_datasets (dft : list calc) (n_divide : nat) : res (list attr) :=
    if (n_divide <? 2)%nat then do (train, test) <- split_train_test (seq 0 (length dft)) 9 10; Ok [Tuple train test]
    else do groups <- split (e_all dft) (f_std_all dft) n_divide; cut_groups groups n_divide.
  (** [comp_ids[key].append(i)] (L35-40) *)
  Fixpoint dict_add (k : K) (i : nat) (d : list (K * list nat)) : list (K * list nat) :=
    match d with [] => [(k, [i])] | (k', l) :: t => if keqb k k' then (k', l ++ [i]) :: t else (k', l) :: dict_add k i t end.
  Definition comp_ids (dft : list calc) : list (K * list nat) :=
    fold_left (fun d ic => dict_add (c_key (snd ic)) (fst ic) d) (combine (seq 0 (length dft)) dft) [].
  (** [end_comp] (L118-125): offsets of the end members, in order of first appearance *)
  Fixpoint end_comp (seq_ n_divide : nat) (keys : list K) : list (K * nat) :=
    match keys with [] => [] | k :: t => if is_end k then (k, seq_) :: end_comp (seq_ + n_divide) n_divide t else end_comp seq_ n_divide t end.
  Definition offset (ec : list (K * nat)) (k : K) : nat := match find (fun kn => keqb k (fst kn)) ec with Some (_, s) => s | None => 0%nat end.
  (** [groups[ids] = values] *)
  Fixpoint set_at (l : list nat) (i v : nat) : list nat :=
    match l with [] => [] | x :: t => match i with 0%nat => v :: t | S i => x :: set_at t i v end end.
  Definition scatter (groups : list nat) (ivs : list (nat * nat)) : list nat := fold_left (fun g iv => set_at g (fst iv) (snd iv)) ivs groups.
  Definition np_max (l : list nat) : res nat := match l with [] => Err ValueError | _ => Ok (fold_right Nat.max 0%nat l) end.
  (** [split_datasets_alloy] (L109-149); the loop over compositions (L127-137) *)
  Fixpoint alloy_loop (es fs : list F) (ec : list (K * nat)) (n_divide : nat) (d : list (K * list nat)) (groups : list nat) : res (list nat) :=
    match d with
    | [] => Ok groups
    | (k, ids) :: t =>
        do e <- mapM (get es) ids; do f <- mapM (get fs) ids; do local <- split e f n_divide;
        alloy_loop es fs ec n_divide t (scatter groups (combine ids (map (fun g => (g + offset ec k)%nat) local)))
    end.
  Definition alloy_groups (dft : list calc) (n_divide : nat) : res (list nat) :=
    let d := comp_ids dft in
    alloy_loop (e_all dft) (f_std_all dft) (end_comp n_divide n_divide (map fst d)) n_divide d (repeat 0%nat (length (e_all dft))).
  Definition split_datasets_alloy (dft : list calc) (n_divide : nat) : res (list attr) :=
    do groups <- alloy_groups dft n_divide; do m <- np_max groups; cut_groups groups (m + 1).

  (** Weights of [_get_dataset_attrs] (dataset_divide.py L39-50); n_divide = 2 is not special. *)
  Definition get_weights (n_divide : nat) : list F := if (n_divide =? 1)%nat then [n1] else F01 :: repeat n1 (n_divide - 1).
  Definition attr_sets (a : attr) : res (list nat * list nat) := match a with Attr tr te => Ok (tr, te) | Tuple _ _ => Err AttributeError end.
  (** A copied directory: train or test, group number from 1, weight, files *)
  Record entry := mk_entry { en_train : bool; en_id : nat; en_weight : F; en_files : list File }.
  Definition copy (vaspruns : list File) (train : bool) (i : nat) (w : F) (ids : list nat) : res (list entry) :=
    match ids with [] => Ok [] | _ => do fs <- mapM (get vaspruns) ids; Ok [mk_entry train (i + 1) w fs] end.
  (** The output loop (L101-119) *)
  Fixpoint output (vaspruns : list File) (weights : list F) (i : nat) (attrs : list attr) : res (list entry) :=
    match attrs with
    | [] => Ok []
    | a :: t =>
        do w <- get weights i; do (tr, te) <- attr_sets a;
        do c1 <- copy vaspruns true i w tr; do c2 <- copy vaspruns false i w te;
        do rest <- output vaspruns weights (S i) t; Ok (c1 ++ c2 ++ rest)
    end.
  (** [auto_divide_vaspruns] (L53-121) *)
  Definition auto_divide (read : File -> res (list calc)) (vaspruns : list File) (n_elements n_divide : nat) : res (list entry) :=
    do parsed <- mapM read vaspruns;
    let dft := concat parsed in
    do attrs <- (if (n_elements =? 1)%nat then split_datasets dft n_divide else split_datasets_alloy dft n_divide);
    let weights := get_weights n_divide in
    do weights <- (if (1 <? n_elements)%nat
                   then if (n_divide =? 0)%nat then Err ZeroDivisionError else Ok (concat (repeat weights (length attrs / n_divide)))
                   else Ok weights);
    output vaspruns weights 0 attrs.
End Divide.
Arguments calc F K : clear implicits.
Arguments entry F File : clear implicits.
