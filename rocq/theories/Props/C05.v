(** C05: type assignment for models whose element list is doubled because of spin. *)
From Verif Require Import Base Model.Structure Spec.Structure Proofs.StructureSpin2.
Import String.StringSyntax.
Local Open Scope string_scope.

(** If the types of a structure are positions in the model's element list and every position
    is taken by some atom, [replace_types] leaves them as they are. *)
Theorem C05_replace_types_all_channels_present {P A V} argsort (st : structure P A V) blocks :
  sorts argsort ->
  length (types st) = length (elements st) -> NoDup (map fst blocks) ->
  (forall i e t, nth_error (elements st) i = Some e -> nth_error (types st) i = Some t ->
    (0 <= t)%Z /\ nth_error (spread blocks) (Z.to_nat t) = Some e) ->
  (forall j e, nth_error (spread blocks) j = Some e ->
    exists i, nth_error (elements st) i = Some e /\ nth_error (types st) i = Some (Z.of_nat j)) ->
  exists st', replace_types argsort st (spread blocks) = Ok st' /\ types st' = types st
    /\ elements st' = elements st /\ positions st' = positions st.
Proof. exact (replace_types_aligned argsort st blocks). Qed.
Print Assumptions C05_replace_types_all_channels_present.

(** Under the same conditions the spin-aware permutation keeps every atom with its element,
    position, force and type, sorts by type, and counts the atoms of every type. *)
Theorem C05_permute_all_channels_present {P A V} argsort (pzero : P) (det : A -> V)
        (st : structure P A V) f blocks :
  sorts argsort ->
  length (types st) = length (elements st) -> length (positions st) = length (elements st) ->
  length f = length (elements st) ->
  NoDup (map fst blocks) ->
  (forall i e t, nth_error (elements st) i = Some e -> nth_error (types st) i = Some t ->
    (0 <= t)%Z /\ nth_error (spread blocks) (Z.to_nat t) = Some e) ->
  (forall j e, nth_error (spread blocks) j = Some e ->
    exists i, nth_error (elements st) i = Some e /\ nth_error (types st) i = Some (Z.of_nat j)) ->
  exists st' f', permute_atoms_with_spins pzero det argsort st (spread blocks) (Some f) = Ok (st', Some f')
    /\ StronglySorted Z.le (types st')
    /\ length (elements st') = length (elements st)
    /\ Permutation (combine (records (elements st') (positions st') f') (types st'))
                   (combine (records (elements st) (positions st) f) (types st))
    /\ n_atoms st' = map (fun k => count_occ Z.eq_dec (types st') (Z.of_nat k))
                         (seq 0 (length (spread blocks))).
Proof. exact (permute_spins_aligned argsort pzero det st f blocks). Qed.
Print Assumptions C05_permute_all_channels_present.

(** The condition that every channel is present cannot be dropped: a structure containing only
    the second channel of Fe (type 1 in the list Fe, Fe, O) has its Fe atom moved to channel 0
    and its O atom to the second Fe channel. *)
Theorem C05_replace_types_missing_channel_refuted :
  exists (argsort : list Z -> list nat) (st st' : structure Z unit unit),
    sorts argsort /\
    (forall i e t, nth_error (elements st) i = Some e -> nth_error (types st) i = Some t ->
       (0 <= t)%Z /\ nth_error (spread [("Fe", 1); ("O", 0)]) (Z.to_nat t) = Some e) /\
    replace_types argsort st (spread [("Fe", 1); ("O", 0)]) = Ok st' /\
    types st = [1; 2]%Z /\ types st' = [0; 1]%Z.
Proof. exact replace_types_missing_channel. Qed.
Print Assumptions C05_replace_types_missing_channel_refuted.

(** The spin-aware permutation mis-types even without spin doubling: for the model elements
    Mg, O a pure O structure comes out with type 0, the type of Mg. *)
Theorem C05_permute_missing_element_refuted :
  exists (argsort : list Z -> list nat) (st st' : structure Z unit unit),
    sorts argsort /\
    permute_atoms_with_spins 0%Z (fun _ => tt) argsort st ["Mg"; "O"] None = Ok (st', None) /\
    elements st' = ["O"] /\ types st' = [0]%Z /\ n_atoms st' = [1].
Proof. exact permute_missing_element. Qed.
Print Assumptions C05_permute_missing_element_refuted.

(** Non-trivial case meeting the hypotheses: both Fe channels and O present. *)
Example C05_example :
  let st := mk_structure tt [10;20;30;40]%Z [2;2] ["O"; "Fe"; "Fe"; "Fe"] [2;1;0;1]%Z tt None in
  (forall i e t, nth_error (elements st) i = Some e -> nth_error (types st) i = Some t ->
     (0 <= t)%Z /\ nth_error (spread [("Fe", 1); ("O", 0)]) (Z.to_nat t) = Some e) /\
  (forall j e, nth_error (spread [("Fe", 1); ("O", 0)]) j = Some e ->
     exists i, nth_error (elements st) i = Some e /\ nth_error (types st) i = Some (Z.of_nat j)).
Proof.
  cbn. split.
  - intros [|[|[|[|[|i]]]]] e t H1 H2; cbn in *; try discriminate;
      injection H1 as <-; injection H2 as <-; (split; [lia|reflexivity]).
  - intros [|[|[|[|j]]]] e H; cbn in H; try discriminate; injection H as <-.
    + exists 2. auto.
    + exists 1. auto.
    + exists 0. auto.
Qed.
