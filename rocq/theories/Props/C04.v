(** C04: type assignment for distinct elements is a function of the element. *)
From Verif Require Import Base Model.Structure Spec.Structure Proofs.StructureProps.
Import String.StringSyntax.
Local Open Scope string_scope.

(** Every atom gets the index of its element; everything else is untouched. *)
Theorem C04_replace_types {P A V} argsort (st : structure P A V) (els : list string) :
  length (types st) = length (elements st) -> NoDup els ->
  (forall e, In e (elements st) -> In e els) ->
  exists st', replace_types argsort st els = Ok st' /\
    length (types st') = length (elements st) /\
    (forall i e t, nth_error (elements st) i = Some e -> nth_error (types st') i = Some t ->
       (0 <= t)%Z /\ nth_error els (Z.to_nat t) = Some e) /\
    elements st' = elements st /\ positions st' = positions st /\ n_atoms st' = n_atoms st /\
    axis st' = axis st /\ volume st' = volume st /\ name st' = name st.
Proof. exact (replace_types_spec argsort st els). Qed.
Print Assumptions C04_replace_types.

(** The result does not depend on the types the structure had before. *)
Theorem C04_replace_types_prior_irrelevant {P A V} argsort (st : structure P A V) els ty :
  length (types st) = length (elements st) -> length ty = length (elements st) -> NoDup els ->
  replace_types argsort
    (mk_structure (axis st) (positions st) (n_atoms st) (elements st) ty (volume st) (name st)) els
  = replace_types argsort st els.
Proof. exact (replace_types_prior argsort st els ty). Qed.
Print Assumptions C04_replace_types_prior_irrelevant.

(** Doing it twice changes nothing. *)
Theorem C04_replace_types_idempotent {P A V} argsort (st st' : structure P A V) els :
  length (types st) = length (elements st) -> NoDup els ->
  replace_types argsort st els = Ok st' -> replace_types argsort st' els = Ok st'.
Proof. exact (replace_types_idem argsort st st' els). Qed.
Print Assumptions C04_replace_types_idempotent.

(** It fails exactly when an element of the structure is not listed. *)
Theorem C04_replace_types_rejects {P A V} argsort (st : structure P A V) els :
  length (types st) = length (elements st) -> NoDup els ->
  (replace_types argsort st els = Err RuntimeError <->
   exists e, In e (elements st) /\ ~ In e els).
Proof. exact (replace_types_rejects argsort st els). Qed.
Print Assumptions C04_replace_types_rejects.

Example C04_example :
  replace_types (fun l => seq 0 (length l))
    (mk_structure tt [10;20;30]%Z [1;2] ["O"; "Mg"; "O"] [7;0;1]%Z tt None) ["Mg"; "Al"; "O"]
  = Ok (mk_structure tt [10;20;30]%Z [1;2] ["O"; "Mg"; "O"] [2;0;2]%Z tt None).
Proof. vm_compute. reflexivity. Qed.
