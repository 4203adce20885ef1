(** What the enumeration of features has to produce. *)
From Verif Require Import Base Model.Mapping Model.ModelParams.

(** Type [t] takes part in type pair [tp]. *)
Definition adm_tp (nt tp t : nat) : Prop := exists t2, t2 < nt /\ tpair nt t t2 = tp.

(** What it means for a list of combinations of [k] features taken from [P] to be complete: every
    non-decreasing combination of members of [P] for which some type admits all members occurs, once,
    nothing else occurs, and the per-type index lists select exactly the combinations admitted by the type. *)
Definition combs_complete (nt k : nat) (adm : nat -> nat -> bool) (P : list nat) (comb ind : list (list nat)) : Prop :=
  NoDup comb /\
  (forall c, In c comb <-> length c = k /\ StronglySorted le c /\ Forall (fun i => In i P) c /\
                           exists t, t < nt /\ Forall (fun i => adm t i = true) c) /\
  length ind = nt /\
  forall t, t < nt -> nth t ind [] = filter (fun j => forallb (adm t) (nth j comb [])) (seq 0 (length comb)).


(** Type [t] admits the [i]-th linear feature of a pair model / of a gtinv model. *)
Definition adm_pair (nt : nat) (ntp : list ntpAttr) (t i : nat) : bool :=
  existsb (fun t2 => tpair nt t t2 =? p_tp (nth i ntp (NTP 0 0 0 0 0 0))) (seq 0 nt).
Definition adm_gtinv (lts : list linearTerm) (t i : nat) : bool := existsb (Nat.eqb t) (lt_type1 (nth i lts (LT 0 0 0 0 []))).
(** Linear features entering polynomials: all (type 2), order 1 (type 3), order 1 and 2 (type 4). *)
Definition poly_indices (model_type : nat) (lts : list linearTerm) : list nat :=
  filter (fun i => match model_type with
                   | 2 => true
                   | 3 => lt_order (nth i lts (LT 0 0 0 0 [])) <=? 1
                   | 4 => lt_order (nth i lts (LT 0 0 0 0 [])) <=? 2
                   | _ => false
                   end) (seq 0 (length lts)).

(** The word of type pairs of a linear term. *)
Definition lt_tps (nt : nat) (l_comb : list (list nat)) (x : linearTerm) : list nat :=
  nth (lt_tp x) (nth (lt_order x) (tp_combs nt (length (last l_comb []))) []) [].
(** A meaningful invariant: the [il]-th angular combination [lc], one type pair for each of its l's, some
    atom type being part of all of them, and the radial function [n] defined for all of them. *)
Definition lt_valid (nt : nat) (tpn : list (list nat)) (l_comb : list (list nat)) (n il : nat) (lc tps : list nat) : Prop :=
  nth_error l_comb il = Some lc /\ length tps = length lc /\
  (exists t, t < nt /\ Forall (fun tp => adm_tp nt tp t) tps) /\ Forall (fun tp => In n (nth tp tpn [])) tps.
(** What the input file provides: the radial functions of a pair are distinct numbers below [n_fn]; angular
    combinations are non-empty, ascending, the last one being longest. *)
Definition cond_ok (n_fn : nat) (cond : nat -> nat -> list nat) : Prop :=
  forall i j, NoDup (cond i j) /\ Forall (fun n => n < n_fn) (cond i j).
Definition l_comb_ok (l_comb : list (list nat)) : Prop :=
  forall lc, In lc l_comb -> lc <> [] /\ StronglySorted le lc /\ length lc <= length (last l_comb []).
