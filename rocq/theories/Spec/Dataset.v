(** A data set as a list of independent records: what a user thinks it is. *)
From Verif Require Import Base Model.DatasetDFT.
From Coq Require String.
Notation string := String.string.

Record rec (W S : Type) := mk_rec {
  r_structure : S;
  r_energy : W;
  r_force : list W;      (** 3 numbers per atom *)
  r_stress : list W;     (** 6 numbers *)
  r_volume : W;
  r_natom : nat;
  r_file : option string
}.
Arguments mk_rec {W S}. Arguments r_structure {W S}. Arguments r_energy {W S}.
Arguments r_force {W S}. Arguments r_stress {W S}. Arguments r_volume {W S}.
Arguments r_natom {W S}. Arguments r_file {W S}.

Definition rec_ok {W S} (r : rec W S) : Prop :=
  1 <= r_natom r /\ length (r_force r) = 3 * r_natom r /\ length (r_stress r) = 6.

(** The array layout of a list of records. *)
Definition layout {W S} (els : list string) (ef es : bool) (rs : list (rec W S)) : dft W S :=
  mk_dft (map r_structure rs) (map r_energy rs) (flat_map r_force rs) (flat_map r_stress rs)
         (map r_volume rs) (map r_natom rs) els (map r_file rs) ef es.

(** An empty part of a split is [None]. *)
Definition some_layout {W S} (els : list string) (ef es : bool) (rs : list (rec W S))
  : option (dft W S) :=
  match rs with [] => None | _ => Some (layout els ef es rs) end.

(** [vs] are the members of [l] at the positions [ids]. *)
Definition picks {B} (l : list B) (ids : list nat) (vs : list B) : Prop :=
  Forall2 (fun i v => nth_error l i = Some v) ids vs.

(** Histories of operations; a split continues with one of its two parts. *)
Inductive op := Slice (b e : nat) | Sort | Train (p q : Z) | Test (p q : Z).

Definition run1 {W S} (argsort : list Z -> list nat) (o : op) (d : dft W S)
  : res (option (dft W S)) :=
  match o with
  | Slice b e => Ok (Some (d_slice b e d))
  | Sort => do x <- d_sort argsort d; Ok (Some x)
  | Train p q => do (a, _) <- d_split d p q; Ok a
  | Test p q => do (_, b) <- d_split d p q; Ok b
  end.
Fixpoint run {W S} (argsort : list Z -> list nat) (os : list op) (d : dft W S)
  : res (option (dft W S)) :=
  match os with
  | [] => Ok (Some d)
  | o :: os' => do x <- run1 argsort o d;
                match x with Some d' => run argsort os' d' | None => Ok None end
  end.

Definition ratio_ok (o : op) : Prop :=
  match o with Train p q | Test p q => (0 < q)%Z /\ (0 <= p <= q)%Z | _ => True end.

(** The record made of the i-th structure, energy, force and stress. *)
Section Built.
  Context {W S : Type}.
  Variables (s_volume : S -> W) (s_name : S -> option string) (s_natoms : S -> list nat).
  Variable permute : S -> list (list W) -> res (S * list (list W)).

  Definition built (st : S) (e : W) (f : list (list W)) (s : nat -> nat -> W) (r : rec W S) : Prop :=
    exists st' f', permute st f = Ok (st', f') /\
      r = mk_rec st' e (concat f') [s 0 0; s 1 1; s 2 2; s 0 1; s 1 2; s 2 0]
                 (s_volume st') (sum (s_natoms st')) (s_name st').

  Inductive built_all : list S -> list W -> list (list (list W)) -> list (nat -> nat -> W) ->
                        list (rec W S) -> Prop :=
  | built_nil : built_all [] [] [] [] []
  | built_cons st e f s r sts es fs ss rs :
      built st e f s r -> built_all sts es fs ss rs ->
      built_all (st :: sts) (e :: es) (f :: fs) (s :: ss) (r :: rs).
End Built.
