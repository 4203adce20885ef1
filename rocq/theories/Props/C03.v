(** C03: permuting atoms loses nothing. *)
From Verif Require Import Base Model.Structure Spec.Structure Proofs.StructureProps.
Import String.StringSyntax.
Local Open Scope string_scope.

(** [order] lists distinct elements and covers the structure.  The result holds the same
    (element, position, force) triples, the triples of one element keep their order, each
    type is the index of the element in [order], types ascend, [n_atoms] counts per element. *)
Theorem C03_permute_atoms {P A V} (pzero : P) (det : A -> V) (st : structure P A V)
        (order : list string) (f : list P) :
  length (positions st) = length (elements st) ->
  length (types st) = length (elements st) ->
  length f = length (elements st) ->
  NoDup order -> (forall e, In e (elements st) -> In e order) ->
  exists st' f',
    permute_atoms pzero det st order (Some f) = Ok (st', Some f') /\
    length (elements st') = length (elements st) /\
    length (positions st') = length (elements st) /\
    length (types st') = length (elements st) /\ length f' = length (elements st) /\
    Permutation (records (elements st') (positions st') f')
                (records (elements st) (positions st) f) /\
    (forall e, filter (of_element e) (records (elements st') (positions st') f')
               = filter (of_element e) (records (elements st) (positions st) f)) /\
    (forall i e t, nth_error (elements st') i = Some e -> nth_error (types st') i = Some t ->
       (0 <= t)%Z /\ nth_error order (Z.to_nat t) = Some e) /\
    StronglySorted Z.le (types st') /\
    n_atoms st' = map (fun e => length (filter (String.eqb e) (elements st))) order /\
    axis st' = axis st.
Proof. exact (permute_atoms_spec pzero det st order f). Qed.
Print Assumptions C03_permute_atoms.

(** Without forces the structure comes out the same. *)
Theorem C03_permute_atoms_no_force {P A V} (pzero : P) (det : A -> V) (st : structure P A V)
        (order : list string) (f : list P) st' f' :
  length (positions st) = length (elements st) ->
  length (types st) = length (elements st) ->
  length f = length (elements st) ->
  NoDup order -> (forall e, In e (elements st) -> In e order) ->
  permute_atoms pzero det st order (Some f) = Ok (st', Some f') ->
  permute_atoms pzero det st order None = Ok (st', None).
Proof. exact (permute_atoms_no_force pzero det st order f st' f'). Qed.
Print Assumptions C03_permute_atoms_no_force.

(** A structure with an element that is not in [order] is rejected. *)
Theorem C03_missing_element_rejected {P A V} (pzero : P) (det : A -> V) (st : structure P A V)
        (order : list string) (f : list P) e :
  length (positions st) = length (elements st) ->
  length (types st) = length (elements st) ->
  length f = length (elements st) ->
  NoDup order -> In e (elements st) -> ~ In e order ->
  permute_atoms pzero det st order (Some f) = Err AssertionError.
Proof. exact (permute_atoms_missing pzero det st order f e). Qed.
Print Assumptions C03_missing_element_rejected.

(** Example: O Mg O Mg reordered to Mg, Al, O (Al absent). *)
Example C03_example :
  permute_atoms 0%Z (fun _ : unit => tt)
    (mk_structure tt [10;20;30;40]%Z [2;2] ["O"; "Mg"; "O"; "Mg"] [1;0;1;0]%Z tt None)
    ["Mg"; "Al"; "O"] (Some [1;2;3;4]%Z)
  = Ok (mk_structure tt [20;40;10;30]%Z [2;0;2] ["Mg"; "Mg"; "O"; "O"] [0;0;2;2]%Z tt None,
        Some [2;4;1;3]%Z).
Proof. vm_compute. reflexivity. Qed.
