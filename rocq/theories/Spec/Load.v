(** What "atomic energies are subtracted once" means for a loaded data set. *)
From Verif Require Import Base Model.DatasetDFT Model.Dataset Spec.Dataset.

Section Load.
  Context {W S : Type}.
  Variables (wzero : W) (wsub wadd : W -> W -> W) (wscale : nat -> W -> W).
  Variable s_natoms : S -> list nat.
  Variable parse : dtype -> fileset -> res (dft W S).

  (** n_1 a_1 + n_2 a_2 + ... *)
  Fixpoint atoms_energy (ns : list nat) (a : list W) : W :=
    match ns, a with
    | n :: ns', e :: a' => wadd (wscale n e) (atoms_energy ns' a')
    | _, _ => wzero
    end.

  (** The record with its energy reduced by the energy of its atoms. *)
  Definition lower (a : list W) (r : rec W S) : rec W S :=
    mk_rec (r_structure r) (wsub (r_energy r) (atoms_energy (s_natoms (r_structure r)) a))
           (r_force r) (r_stress r) (r_volume r) (r_natom r) (r_file r).

  (** Data read from files are records. *)
  Definition parses_records : Prop :=
    forall t f d, parse t f = Ok d ->
      exists els ef es rs, d = layout els ef es rs /\ Forall rec_ok rs.

  (** The data set holds what its files contain, lowered once. *)
  Definition parsed_once (a : list W) (x : ds W S) : Prop :=
    exists els ef es rs,
      Forall rec_ok rs /\ parse (ds_type x) (ds_files x) = Ok (layout els ef es rs) /\
      ds_dft x = Some (layout els ef es (map (lower a) rs)).

  (** Two data sets that share out what some files contain, lowered once; a part without
      records holds no data. *)
  Definition shared_once (a : list W) (uv : ds W S * ds W S) : Prop :=
    exists t f els ef es rs rtr rte,
      parse t f = Ok (layout els ef es rs) /\ Permutation (rtr ++ rte) rs /\
      ds_dft (fst uv) = some_layout els ef es (map (lower a) rtr) /\
      ds_dft (snd uv) = some_layout els ef es (map (lower a) rte).

  (** Calls after reading: sorting, and further subtractions with any atomic energies. *)
  Inductive touch := TSort | TSub (a : list W).
  Fixpoint run_touch (argsort : list Z -> list nat) (h : list touch) (x : ds W S) : res (ds W S) :=
    match h with
    | [] => Ok x
    | TSort :: h' => do y <- sort_dft argsort x; run_touch argsort h' y
    | TSub a :: h' => do y <- subtract wzero wsub wadd wscale s_natoms a x; run_touch argsort h' y
    end.
End Load.

Definition files_of {W S} (x : ds W S) : list String.string :=
  match ds_files x with Many l => l | Single f => [f] end.
