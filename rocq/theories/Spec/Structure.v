(** Vocabulary used to state the properties of structures.  Nothing here refers to how the
    modelled functions work. *)
From Verif Require Import Base.
From Coq Require String.
Notation string := String.string.

(** One atom of a structure together with its force. *)
Definition records {P} (els : list string) (pos force : list P) : list (string * P * P) :=
  combine (combine els pos) force.

Definition of_element {P} (e : string) (r : string * P * P) : bool := String.eqb e (fst (fst r)).

(** What numpy's argsort guarantees: the positions of the array, listed so that the
    values read along them never decrease. *)
Definition sorts (argsort : list Z -> list nat) : Prop :=
  forall l, Permutation (argsort l) (seq 0 (length l)) /\
            forall vs, Forall2 (fun i v => nth_error l i = Some v) (argsort l) vs ->
                       StronglySorted Z.le vs.

(** Element list of a model with spin: every element is repeated once per channel. *)
Definition spread (blocks : list (string * nat)) : list string :=
  flat_map (fun b => repeat (fst b) (S (snd b))) blocks.
