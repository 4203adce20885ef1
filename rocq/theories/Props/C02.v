(** C02: data-set operations keep every record aligned. *)
From Verif Require Import Base Model.Structure Model.Split Model.DatasetDFT Spec.Structure Spec.Dataset
  Proofs.StructureSpin2 Proofs.DatasetDFT.
Local Open Scope nat_scope.

(** A data set built from structures, energies, forces and stresses is the list of the
    per-structure records. *)
Theorem C02_construction {W S} (wzero : W) (s_volume : S -> W) (s_name : S -> option string)
        (s_natoms : S -> list nat) (permute : S -> list (list W) -> res (S * list (list W)))
        (n_col : S -> nat) sts es fs ss els rs :
  built_all s_volume s_name s_natoms permute sts es fs ss rs ->
  Forall (fun r => length (r_force r) = 3 * r_natom r) rs ->
  set_properties W S wzero s_volume s_name s_natoms permute sts es (Some fs) (Some ss) n_col els
  = Ok (layout els true true rs).
Proof. exact (set_properties_built wzero s_volume s_name s_natoms permute n_col sts es fs ss els rs). Qed.
Print Assumptions C02_construction.

(** [slice] is the slice of the list of records. *)
Theorem C02_slice {W S} (els : list string) (ef es : bool) (rs : list (rec W S)) b e :
  Forall rec_ok rs -> d_slice b e (layout els ef es rs) = layout els ef es (slice b e rs).
Proof. exact (slice_layout els ef es b e rs). Qed.
Print Assumptions C02_slice.

(** [sort] gives the same records, ordered by the number of atoms. *)
Theorem C02_sort {W S} (els : list string) (ef es : bool) (argsort : list Z -> list nat)
        (rs : list (rec W S)) :
  sorts argsort -> Forall rec_ok rs -> rs <> [] ->
  exists rs', d_sort argsort (layout els ef es rs) = Ok (layout els ef es rs') /\
    Permutation rs' rs /\ StronglySorted (fun a b => r_natom a <= r_natom b) rs'.
Proof. exact (fun H => sort_layout els ef es argsort (sorts_argsort_ok _ H) rs). Qed.
Print Assumptions C02_sort.

(** [split] distributes the records: each one goes to exactly one part. *)
Theorem C02_split {W S} (els : list string) (ef es : bool) (rs : list (rec W S)) p q :
  Forall rec_ok rs -> (0 < q)%Z -> (0 <= p <= q)%Z ->
  exists tr te,
    d_split (layout els ef es rs) p q = Ok (some_layout els ef es tr, some_layout els ef es te) /\
    (exists itr ite, split_ids_train_test (length rs) p q = Ok (itr, ite) /\
                     picks rs itr tr /\ picks rs ite te) /\
    Permutation (tr ++ te) rs.
Proof. exact (split_layout els ef es rs p q). Qed.
Print Assumptions C02_split.

(** Any sequence of operations: what comes out is a list of the records that went in,
    none of them invented, none twice. *)
Theorem C02_histories {W S} (els : list string) (ef es : bool) (argsort : list Z -> list nat)
        (os : list op) (rs : list (rec W S)) d' :
  sorts argsort -> Forall rec_ok rs -> Forall ratio_ok os ->
  run argsort os (layout els ef es rs) = Ok (Some d') ->
  exists rs', d' = layout els ef es rs' /\ Forall rec_ok rs' /\
              exists extra, Permutation (rs' ++ extra) rs.
Proof. exact (fun H => run_layout els ef es argsort (sorts_argsort_ok _ H) os rs d'). Qed.
Print Assumptions C02_histories.

(** Example: five records with 2, 1, 3, 1, 1 atoms; sort, take the training part (ratio
    3/5), slice. *)
Definition ex_rec (id n : nat) : rec nat nat :=
  mk_rec id (100 + id) (map (fun k => 1000 * id + k) (seq 0 (3 * n)))
         (map (fun k => 10 * id + k) (seq 0 6)) (7 * id) n None.
Example C02_example_ok : Forall rec_ok (map (fun p => ex_rec (fst p) (snd p)) [(1,2);(2,1);(3,3);(4,1);(5,1)]).
Proof. repeat constructor. Qed.
Example C02_example :
  run insertion_argsort [Sort; Train 3 5; Slice 0 2]
      (layout [] true true (map (fun p => ex_rec (fst p) (snd p)) [(1,2);(2,1);(3,3);(4,1);(5,1)]))
  = Ok (Some (layout [] true true [ex_rec 4 1; ex_rec 5 1])).
Proof. vm_compute. reflexivity. Qed.
