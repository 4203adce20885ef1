(** Vocabulary for thermodynamic data on a grid: rounding, counting, the last of several, sums of optional numbers. *)
From Verif Require Import Base Num.
From Coq Require Import QArith Qabs.
Local Open Scope nat_scope.

(** [v] in units of the last decimal is the nearest to [q], the even one of two. *)
Definition rounds (decimals : nat) (q : Q) (v : Z) : Prop :=
  let e := Qabs (q * inject_Z (10 ^ Z.of_nat decimals) - inject_Z v) in
  (e <= 1 # 2)%Q /\ ((e == 1 # 2)%Q -> Z.Even v).
(** At least [n] members of the list satisfy [Q]. *)
Definition at_least {X} (n : nat) (Q : X -> Prop) (l : list X) : Prop :=
  exists is, NoDup is /\ length is = n /\ forall i, In i is -> exists x, nth_error l i = Some x /\ Q x.
(** The last member that satisfies [Q]. *)
Definition last_with {X} (Q : X -> Prop) (l : list X) (x : X) : Prop :=
  exists k, nth_error l k = Some x /\ Q x /\ forall k' x', k < k' -> nth_error l k' = Some x' -> ~ Q x'.
(** Members of a strictly increasing list *)
Definition increasing (l : list Z) : Prop := StronglySorted Z.lt l.
(** The sum, if all are there *)
Fixpoint sum_from {F} {N : Num F} (x : F) (l : list (option F)) : option F :=
  match l with [] => Some x | None :: _ => None | Some y :: t => sum_from (nadd x y) t end.
Definition sum_all {F} {N : Num F} (l : list (option F)) : option F :=
  match l with Some x :: t => sum_from x t | _ => None end.
