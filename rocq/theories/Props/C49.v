(** C49: linear features of gtinv models enumerate every invariant once. *)
From Verif Require Import Base Model.Mapping Model.ModelParams Spec.ModelParams Proofs.ModelParams.

(** Every linear term is a meaningful invariant and its list of types is exactly the set of atom types
    taking part in all its type pairs. *)
Theorem C49_sound (nt n_fn : nat) (cond : nat -> nat -> list nat) (l_comb : list (list nat)) (x : linearTerm) :
  cond_ok n_fn cond -> l_comb_ok l_comb ->
  In x (linear_terms nt n_fn (tp_to_n nt cond) l_comb) ->
  exists lc, lt_valid nt (tp_to_n nt cond) l_comb (lt_n x) (lt_lm x) lc (lt_tps nt l_comb x) /\
    lt_n x < n_fn /\ lt_order x = length lc /\ StronglySorted lt (lt_type1 x) /\
    forall t, In t (lt_type1 x) <-> t < nt /\ Forall (fun tp => adm_tp nt tp t) (lt_tps nt l_comb x).
Proof. exact (fun Hc Hl => linear_terms_sound nt n_fn cond l_comb Hc Hl x). Qed.
Print Assumptions C49_sound.

(** Every meaningful invariant occurs, up to exchanging equal (l, type pair) factors ... *)
Theorem C49_complete (nt n_fn : nat) (cond : nat -> nat -> list nat) (l_comb : list (list nat))
    (n il : nat) (lc tps : list nat) :
  cond_ok n_fn cond -> l_comb_ok l_comb ->
  lt_valid nt (tp_to_n nt cond) l_comb n il lc tps ->
  exists x, In x (linear_terms nt n_fn (tp_to_n nt cond) l_comb) /\ lt_n x = n /\ lt_lm x = il /\
            Permutation (combine lc (lt_tps nt l_comb x)) (combine lc tps).
Proof. exact (fun Hc Hl => linear_terms_complete nt n_fn cond l_comb Hc Hl n il lc tps). Qed.
Print Assumptions C49_complete.

(** ... and only once. *)
Theorem C49_unique (nt n_fn : nat) (cond : nat -> nat -> list nat) (l_comb : list (list nat)) :
  cond_ok n_fn cond -> l_comb_ok l_comb ->
  let lts := linear_terms nt n_fn (tp_to_n nt cond) l_comb in
  NoDup lts /\
  forall x y lc, In x lts -> In y lts -> nth_error l_comb (lt_lm x) = Some lc ->
    lt_n x = lt_n y -> lt_lm x = lt_lm y ->
    Permutation (combine lc (lt_tps nt l_comb x)) (combine lc (lt_tps nt l_comb y)) -> x = y.
Proof.
  exact (fun Hc Hl => conj (linear_terms_nodup nt n_fn cond l_comb Hc Hl) (linear_terms_unique nt n_fn cond l_comb Hc Hl)).
Qed.
Print Assumptions C49_unique.

(** Two types; radial function 1 is absent for pair (0, 0). *)
Module Example.
  Definition cond (i j : nat) := if (i =? 0) && (j =? 0) then [0] else [0; 1].
  Lemma meets : cond_ok 2 cond /\ l_comb_ok [[0]; [0; 1; 1]].
  Proof.
    split.
    - intros i j. unfold cond. destruct ((i =? 0) && (j =? 0)); split; repeat constructor; cbn; intuition lia.
    - intros lc [<-|[<-|[]]]; (split; [discriminate|split; [repeat constructor|cbn; lia]]).
  Qed.
  Lemma value :
    let lts := linear_terms 2 2 (tp_to_n 2 cond) [[0]; [0; 1; 1]] in
    length lts = 22 /\
    option_map (fun x => (lt_n x, lt_lm x, lt_tps 2 [[0]; [0; 1; 1]] x, lt_type1 x)) (nth_error lts 6)
    = Some (0, 1, [1; 0; 0], [0]).
  Proof. vm_compute. auto. Qed.
End Example.
