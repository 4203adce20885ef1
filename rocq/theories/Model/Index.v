(** Row numbers of the feature matrix and its assembly.

    /repo/src/pypolymlp/cxx/src/compute/py_model.cpp L39-106 (PyModel::PyModel, set_index; the
    same text in py_hybrid_model.cpp L152-200) and
    /repo/src/pypolymlp/mlp_dev/core/features.py L87-93 (_set_ebegin).

    Simplifications: int is unbounded; reading [n_atoms_st] past its end (undefined in C++)
    gives 0; the loop over structures runs in order (in C++ it is an OpenMP loop whose turns
    write different rows, see C15). *)
From Verif Require Import Base Model.Structure.

Section Index.
  (** A data set of [set_index]: number of structures, force flag. *)
  Notation dset := (nat * bool)%type.

  (** First loop (L75-88): id_st, istress, xs_begin, xs_begin_dataset, n_data[2]. *)
  Record sstate := mk_sstate {
    s_id : nat; s_i : nat; s_beg : list Z; s_begd : list Z; s_n : nat }.

  Fixpoint stress_inner (n : nat) (f : bool) (s : sstate) : sstate :=
    match n with
    | 0 => s
    | S n' =>
        let s1 := if f then mk_sstate (s_id s) (s_i s + 6) (write_at (s_beg s) (s_id s) (Z.of_nat (s_i s)))
                                      (s_begd s) (s_n s)
                  else s in
        stress_inner n' f (mk_sstate (S (s_id s1)) (s_i s1) (s_beg s1) (s_begd s1) (s_n s1))
    end.
  Fixpoint stress_loop (i : nat) (ds : list dset) (s : sstate) : sstate :=
    match ds with
    | [] => s
    | (n, f) :: ds' =>
        let s1 := if f then mk_sstate (s_id s) (s_i s) (s_beg s) (write_at (s_begd s) i (Z.of_nat (s_i s)))
                                      (s_n s + n * 6)
                  else s in
        stress_loop (S i) ds' (stress_inner n f s1)
    end.

  (** Second loop (L90-105): id_st, iforce, xf_begin, xf_begin_dataset, n_data[1], force. *)
  Record fstate := mk_fstate {
    f_id : nat; f_i : nat; f_beg : list Z; f_begd : list Z; f_n : nat; f_force : list bool }.

  Variable n_atoms_st : list nat.
  Fixpoint force_inner (n : nat) (f : bool) (s : fstate) : fstate :=
    match n with
    | 0 => s
    | S n' =>
        let k := nth (f_id s) n_atoms_st 0 in
        let s1 := if f then mk_fstate (f_id s) (f_i s + 3 * k) (write_at (f_beg s) (f_id s) (Z.of_nat (f_i s)))
                                      (f_begd s) (f_n s + 3 * k) (write_at (f_force s) (f_id s) true)
                  else s in
        force_inner n' f (mk_fstate (S (f_id s1)) (f_i s1) (f_beg s1) (f_begd s1) (f_n s1) (f_force s1))
    end.
  Fixpoint force_loop (i : nat) (ds : list dset) (s : fstate) : fstate :=
    match ds with
    | [] => s
    | (n, f) :: ds' =>
        let s1 := if f then mk_fstate (f_id s) (f_i s) (f_beg s) (write_at (f_begd s) i (Z.of_nat (f_i s)))
                                      (f_n s) (f_force s)
                  else s in
        force_loop (S i) ds' (force_inner n f s1)
    end.

  Record index := mk_index {
    xf_begin : list Z; xs_begin : list Z; force_st : list bool;
    xf_begin_dataset : list Z; xs_begin_dataset : list Z;
    n_data_e : nat; n_data_f : nat; n_data_s : nat }.

  (** [set_index] (L58-106). *)
  Definition set_index (ds : list dset) : index :=
    let n_st := sum (map fst ds) in
    let m1 := repeat (-1)%Z n_st in
    let md := repeat (-1)%Z (length ds) in
    let s := stress_loop 0 ds (mk_sstate 0 n_st m1 md 0) in
    let f := force_loop 0 ds (mk_fstate 0 (s_i s) m1 md 0 (repeat false n_st)) in
    mk_index (f_beg f) (s_beg s) (f_force f) (f_begd f) (s_begd s) n_st (f_n f) (s_n s).
End Index.

(** [_set_ebegin] (features.py L87-93). *)
Fixpoint set_ebegin_from (ei : nat) (ns : list nat) : list nat :=
  match ns with [] => [] | n :: ns' => ei :: set_ebegin_from (ei + n) ns' end.
Definition set_ebegin := set_ebegin_from 0.

(** [x_all.block(b, 0, rows) = blk]: rows are written one below the other. *)
Fixpoint write_block {R} (x : list R) (b : nat) (blk : list R) : list R :=
  match blk with
  | [] => x
  | r :: blk' => write_block (write_at x b r) (S b) blk'
  end.

(** Assembly of the feature matrix (L39-53); [fe], [ff], [fs] are the rows that
    [Model::run] returns for a structure; [r0] is an uninitialised row. *)
Section Assemble.
  Context {S R : Type} (r0 : R) (fe : S -> R) (ff fs : S -> list R).
  Fixpoint assemble_loop (i : nat) (sts : list S) (ix : index) (x : list R) : list R :=
    match sts with
    | [] => x
    | st :: sts' =>
        let x1 := write_at x i (fe st) in
        let x2 := if nth i (force_st ix) false
                  then write_block (write_block x1 (Z.to_nat (nth i (xf_begin ix) 0%Z)) (ff st))
                                   (Z.to_nat (nth i (xs_begin ix) 0%Z)) (fs st)
                  else x1 in
        assemble_loop (i + 1) sts' ix x2
    end.
  Definition assemble (sts : list S) (ix : index) : list R :=
    assemble_loop 0 sts ix (repeat r0 (n_data_e ix + n_data_f ix + n_data_s ix)).
End Assemble.
