(** C15: rows of the feature matrix do not overlap. *)
From Verif Require Import Base Model.Index Spec.Index Proofs.Index.

(** Energy rows, then the stress rows of all structures, then their force rows, read in
    order, are exactly 0, 1, ..., number of rows - 1: hence disjoint, inside, and covering. *)
Theorem C15_rows_partition (na : list nat) (ds : list (nat * bool)) :
  let ix := set_index na ds in
  let sts := seq 0 (n_data_e ix) in
  sts ++ flat_map (stress_rows ix) sts ++ flat_map (force_rows na ix) sts
  = seq 0 (n_data_e ix + n_data_f ix + n_data_s ix).
Proof. exact (rows_partition na ds). Qed.
Print Assumptions C15_rows_partition.

(** The numbers of rows are those of the data: one energy per structure, six stresses and
    three forces per atom of every structure of a data set with forces. *)
Theorem C15_counts (na : list nat) (ds : list (nat * bool)) :
  let ix := set_index na ds in
  n_data_e ix = sum (map fst ds) /\
  force_st ix = flat_map (fun p => repeat (snd p) (fst p)) ds /\
  n_data_s ix = 6 * length (filter (fun b : bool => b) (force_st ix)) /\
  n_data_f ix = 3 * sum (map (fun i => nth i na 0)
                           (filter (fun i => nth i (force_st ix) false) (seq 0 (n_data_e ix)))).
Proof. exact (set_index_counts na ds). Qed.
Print Assumptions C15_counts.

(** The offsets reported per data set (used to weight rows) start blocks made of exactly the
    rows of the structures of that data set; without forces the offset is -1 and there are no rows. *)
Theorem C15_dataset_blocks (na : list nat) (d1 d2 : list (nat * bool)) (n : nat) (f : bool) :
  let ds := d1 ++ (n, f) :: d2 in
  let ix := set_index na ds in
  let k := length d1 in
  let b := nth k (set_ebegin (map fst ds)) 0 in
  let bs := nth k (xs_begin_dataset ix) 0%Z in
  let bf := nth k (xf_begin_dataset ix) 0%Z in
  if f then flat_map (stress_rows ix) (seq b n) = span bs (6 * n) /\
            flat_map (force_rows na ix) (seq b n) = span bf (3 * sum (map (fun i => nth i na 0) (seq b n)))
  else bs = (-1)%Z /\ bf = (-1)%Z /\
       flat_map (stress_rows ix) (seq b n) = [] /\ flat_map (force_rows na ix) (seq b n) = [].
Proof. exact (dataset_blocks na d1 n f d2). Qed.
Print Assumptions C15_dataset_blocks.

(** The assembled matrix: all energy rows, then all stress rows, then all force rows, in the
    order of the structures, whatever the initial content of the matrix. *)
Theorem C15_assembled {S R : Type} (r0 : R) (fe : S -> R) (ff fs : S -> list R)
    (na : list nat) (ds : list (nat * bool)) (sts : list S) :
  length sts = sum (map fst ds) ->
  (forall j s, nth_error sts j = Some s -> length (fs s) = 6 /\ length (ff s) = 3 * nth j na 0) ->
  let forced := combine (flat_map (fun p => repeat (snd p) (fst p)) ds) sts in
  assemble r0 fe ff fs sts (set_index na ds)
  = map fe sts ++ flat_map (fun p : bool * S => if fst p then fs (snd p) else []) forced
               ++ flat_map (fun p : bool * S => if fst p then ff (snd p) else []) forced.
Proof. exact (assemble_spec r0 fe ff fs na ds sts). Qed.
Print Assumptions C15_assembled.

(** Two data sets, the first without forces: 3 energies, stress rows 3..14, forces 15..23. *)
Example C15_example :
  set_index [4; 2; 1] [(1, false); (2, true)]
  = mk_index [-1; 15; 21]%Z [-1; 3; 9]%Z [false; true; true] [-1; 15]%Z [-1; 3]%Z 3 9 12.
Proof. reflexivity. Qed.
Example C15_example_assembled :
  let fe := fun i => (i, 0, 0) in
  let fs := fun i => map (fun k => (i, 1, k)) (seq 0 6) in
  let ff := fun i => map (fun k => (i, 2, k)) (seq 0 (3 * nth i [4; 2; 1] 0)) in
  assemble (9, 9, 9) fe ff fs [0; 1; 2] (set_index [4; 2; 1] [(1, false); (2, true)])
  = [(0, 0, 0); (1, 0, 0); (2, 0, 0)] ++ fs 1 ++ fs 2 ++ ff 1 ++ ff 2.
Proof. reflexivity. Qed.
