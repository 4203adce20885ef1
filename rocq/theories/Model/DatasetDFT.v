(** DFT data set: construction, slice, sort, split, subtraction of atomic energies.

    /repo/src/pypolymlp/core/dataset_utils.py L152-388 (DatasetDFT).

    Simplifications: numbers are of an arbitrary type [W]; a structure is of an arbitrary type
    [S] from which the model reads the volume, the name, the list n_atoms and the number of
    atoms; a force column is a list of three numbers, a stress tensor is a function of two
    indices.  Slice bounds are non-negative.  [np.argsort] is an oracle.  numpy indexing with
    an empty Python list (float64 array) raises IndexError and is modelled so. *)
From Verif Require Import Base Model.Split Model.Structure.

Section DFT.
  Variables (W S : Type) (wzero : W).
  Variable s_volume : S -> W.
  Variable s_name : S -> option string.
  Variable s_natoms : S -> list nat.

  (** Attributes of DatasetDFT (dataset_utils.py L246-260, L288-297). *)
  Record dft := mk_dft {
    structures : list S;
    energies : list W;
    forces : list W;
    stresses : list W;
    volumes : list W;
    total_n_atoms : list nat;
    d_elements : list string;
    files : list (option string);
    exist_force : bool;
    exist_stress : bool
  }.

  (** The six stress components (L235-244). *)
  Definition six (sigma : nat -> nat -> W) : list W :=
    [sigma 0 0; sigma 1 1; sigma 2 2; sigma 0 1; sigma 1 2; sigma 2 0].

  (** [_check_errors] (L265-272). *)
  Definition check_errors (d : dft) : res dft :=
    let n := length (energies d) in
    do _ <- py_assert (n * 6 =? length (stresses d));
    do _ <- py_assert (n =? length (volumes d));
    do _ <- py_assert (n =? length (structures d));
    do _ <- py_assert (n =? length (total_n_atoms d));
    do _ <- py_assert (length (forces d) =? sum (total_n_atoms d) * 3);
    Ok d.

  (** The loop of [_set_properties] (L224-244); [permute] stands for the choice made at
      L225-230 between no permutation, [permute_atoms] and [permute_atoms_with_spins]. *)
  Variable permute : S -> list (list W) -> res (S * list (list W)).

  Fixpoint collect (sts : list S) (fs : list (list (list W))) (ss : list (nat -> nat -> W))
    : res (list S * list W * list W) :=
    match sts, fs, ss with
    | st :: sts', f :: fs', s :: ss' =>
        do (st1, f1) <- permute st f;
        do (a, b, c) <- collect sts' fs' ss';
        Ok (st1 :: a, concat f1 ++ b, six s ++ c)
    | _, _, _ => Ok ([], [], [])
    end.

  (** [_set_properties] (L200-263) for a given element list. *)
  Definition set_properties (sts : list S) (es : list W)
             (fs : option (list (list (list W)))) (ss : option (list (nat -> nat -> W)))
             (n_col : S -> nat) (elements : list string) : res dft :=
    do _ <- py_assert (length sts =? length es);
    do _ <- match fs with Some f => py_assert (length sts =? length f) | None => Ok tt end;
    do _ <- match ss with Some s => py_assert (length sts =? length s) | None => Ok tt end;
    let ef := match fs with Some _ => true | None => false end in
    let es_ := match ss with Some _ => true | None => false end in
    let fs' := match fs with
               | Some f => f
               | None => map (fun st => repeat [wzero; wzero; wzero] (n_col st)) sts end in
    let ss' := match ss with Some s => s | None => map (fun _ _ _ => wzero) es end in
    do (a, b, c) <- collect sts fs' ss';
    check_errors (mk_dft a es b c (map s_volume a) (map (fun st => sum (s_natoms st)) a)
                         elements (map s_name a) ef es_).

  (** [slice] (L307-325). *)
  Definition d_slice (b e : nat) (d : dft) : dft :=
    let b_f := sum (firstn b (total_n_atoms d)) * 3 in
    let e_f := sum (firstn e (total_n_atoms d)) * 3 in
    mk_dft (slice b e (structures d)) (slice b e (energies d)) (slice b_f e_f (forces d))
           (slice (b * 6) (e * 6) (stresses d)) (slice b e (volumes d))
           (slice b e (total_n_atoms d)) (d_elements d) (slice b e (files d))
           (exist_force d) (exist_stress d).

  (** [np.cumsum]. *)
  Fixpoint cumsum_from (acc : nat) (l : list nat) : list nat :=
    match l with [] => [] | x :: t => (acc + x) :: cumsum_from (acc + x) t end.
  Definition cumsum := cumsum_from 0.

  (** [_force_stress_ids] (L327-335). *)
  Definition force_stress_ids (d : dft) (ids : list nat) : res (list nat * list nat) :=
    let force_end := cumsum (map (fun n => n * 3) (total_n_atoms d)) in
    let force_begin := 0 :: removelast force_end in
    do bs <- mapM (get force_begin) ids;
    do es <- mapM (get force_end) ids;
    let ids_force := flat_map (fun be => seq (fst be) (snd be - fst be)) (combine bs es) in
    let ids_stress := flat_map (fun i => map (fun k => i * 6 + k) (seq 0 6)) ids in
    Ok (ids_force, ids_stress).

  (** [arr[np.array(list)]]: an empty Python list gives a float64 index array. *)
  Definition np_take_list {B} (l : list B) (ids : list nat) : res (list B) :=
    match ids with [] => Err IndexError | _ => mapM (get l) ids end.

  (** Body shared by [sort] (L337-349) and [split] (L357-387). *)
  Definition take (d : dft) (ids : list nat) : res dft :=
    do (ids_force, ids_stress) <- force_stress_ids d ids;
    do st <- mapM (get (structures d)) ids;
    do en <- mapM (get (energies d)) ids;
    do fo <- np_take_list (forces d) ids_force;
    do ss <- mapM (get (stresses d)) ids_stress;
    do vo <- mapM (get (volumes d)) ids;
    do tn <- mapM (get (total_n_atoms d)) ids;
    do fi <- mapM (get (files d)) ids;
    Ok (mk_dft st en fo ss vo tn (d_elements d) fi (exist_force d) (exist_stress d)).

  Variable argsort : list Z -> list nat.

  (** [sort] (L337-349). *)
  Definition d_sort (d : dft) : res dft := take d (argsort (map Z.of_nat (total_n_atoms d))).

  (** [split] (L351-387), train ratio p/q; [None] for an empty part. *)
  Definition d_split (d : dft) (p q : Z) : res (option dft * option dft) :=
    do (tr, te) <- split_ids_train_test (length (energies d)) p q;
    do train <- match tr with [] => Ok None | _ => do x <- take d tr; Ok (Some x) end;
    do test <- match te with [] => Ok None | _ => do x <- take d te; Ok (Some x) end;
    Ok (train, test).

  (** [apply_atomic_energy] (L300-305): [e - st.n_atoms @ atom_e]; the matrix product of
      vectors of different length raises ValueError. *)
  Variables (wsub : W -> W -> W) (wadd : W -> W -> W) (wscale : nat -> W -> W).
  Definition dot_n (ns : list nat) (a : list W) : res W :=
    if length ns =? length a
    then Ok (fold_right (fun p acc => wadd (wscale (fst p) (snd p)) acc) wzero (combine ns a))
    else Err ValueError.
  Definition apply_atomic_energy (a : list W) (d : dft) : res dft :=
    do es <- mapM (fun p => do x <- dot_n (s_natoms (snd p)) a; Ok (wsub (fst p) x))
                  (combine (energies d) (structures d));
    Ok (mk_dft (structures d) es (forces d) (stresses d) (volumes d) (total_n_atoms d)
               (d_elements d) (files d) (exist_force d) (exist_stress d)).
End DFT.

Arguments mk_dft {W S}.
Arguments structures {W S}. Arguments energies {W S}. Arguments forces {W S}.
Arguments stresses {W S}. Arguments volumes {W S}. Arguments total_n_atoms {W S}.
Arguments d_elements {W S}. Arguments files {W S}.
Arguments exist_force {W S}. Arguments exist_stress {W S}.
Arguments d_slice {W S}. Arguments take {W S}. Arguments d_sort {W S}. Arguments d_split {W S}.
Arguments force_stress_ids {W S}. Arguments check_errors {W S}.
Arguments six {W}.
