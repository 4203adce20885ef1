(** C51: size of a nearly isotropic supercell. *)
From Verif Require Import Base Num Model.Neighbor Model.Structure Model.StructureUtils.

Section Size.
  Context {F : Type} {N : Num F} {NO : NumOrd F} {NI : NumInt F}.
  Variables (ratio : F * F * F) (total lb ub : nat).
  Notation atoms c := (total * prod3 (size_trial ratio c)).
  Definition previous (c : nat) : nat * nat * nat := if c =? 1 then (1, 1, 1) else size_trial ratio (c - 1).

  Lemma find_size_cases n k size : (forall c, 1 <= c < k -> atoms c < lb) -> size = previous k -> 1 <= k ->
    let s := find_size ratio total lb ub (seq k n) size in
    (exists c, k <= c < k + n /\ (forall c', 1 <= c' < c -> atoms c' < lb) /\ lb <= atoms c <= ub /\ s = size_trial ratio c) \/
    (exists c, k <= c < k + n /\ (forall c', 1 <= c' < c -> atoms c' < lb) /\ lb <= atoms c /\ ub < atoms c /\ s = previous c) \/
    ((forall c', 1 <= c' < k + n -> atoms c' < lb) /\ s = previous (k + n)).
  Proof.
    revert k size. induction n as [|n IH]; intros k size HB HS Hk; cbn.
    - right; right. rewrite Nat.add_0_r. auto.
    - destruct (Nat.leb_spec lb (atoms k)) as [G|G].
      + destruct (Nat.leb_spec (atoms k) ub) as [G'|G']; [left|right; left]; exists k; repeat split; auto; lia.
      + assert (HB' : forall c, 1 <= c < S k -> atoms c < lb). { intros c Hc. destruct (Nat.eq_dec c k) as [->|]; [exact G|]. apply HB. lia. }
        assert (HP : size_trial ratio k = previous (S k)). { unfold previous. destruct (Nat.eqb_spec (S k) 1); [lia|]. now replace (S k - 1) with k by lia. }
        destruct (IH (S k) (size_trial ratio k) HB' HP ltac:(lia)) as [[c [H1 H2]]|[[c [H1 H2]]|H]].
        * left. exists c. split; [lia|exact H2].
        * right; left. exists c. split; [lia|exact H2].
        * right; right. now replace (k + S n) with (S k + n) by lia.
  Qed.

  (** The candidates 1..10 are tried in order. The result is the first one with at least [lb] atoms if it has at most [ub];
      the one before it (or the unit cell) if it is too large; the last one if none reaches [lb]. *)
  Theorem C51_cases : let s := find_supercell_size ratio total lb ub in
    (exists c, 1 <= c <= 10 /\ (forall c', 1 <= c' < c -> atoms c' < lb) /\ lb <= atoms c <= ub /\ s = size_trial ratio c) \/
    (exists c, 1 <= c <= 10 /\ (forall c', 1 <= c' < c -> atoms c' < lb) /\ lb <= atoms c /\ ub < atoms c /\ s = previous c) \/
    ((forall c', 1 <= c' <= 10 -> atoms c' < lb) /\ s = size_trial ratio 10).
  Proof.
    destruct (find_size_cases 10 1 (1, 1, 1)) as [[c [H1 H2]]|[[c [H1 H2]]|[H1 H2]]]; try reflexivity; try lia.
    - left. exists c. split; [lia|exact H2].
    - right; left. exists c. split; [lia|exact H2].
    - right; right. split; [intros; apply H1; lia|exact H2].
  Qed.
  (** So the number of atoms never exceeds [ub] unless the unit cell itself is returned; every size is positive. *)
  Theorem C51_upper_bound : lb <= ub -> let s := find_supercell_size ratio total lb ub in
    (total * prod3 s <= ub \/ s = (1, 1, 1)) /\ let '(a, b, c) := s in 1 <= a /\ 1 <= b /\ 1 <= c.
  Proof.
    intros HL. cbv zeta. assert (T1 : forall c, let '(x, y, z) := size_trial ratio c in 1 <= x /\ 1 <= y /\ 1 <= z).
    { intros c. unfold size_trial, max_1. destruct ratio as [[r0 r1] r2]. lia. }
    assert (P1 : forall c, let '(x, y, z) := previous c in 1 <= x /\ 1 <= y /\ 1 <= z). { intros c. unfold previous. destruct (c =? 1); [lia|apply T1]. }
    destruct C51_cases as [[c [H1 [H2 [H3 H4]]]]|[[c [H1 [H2 [H3 [H4 H5]]]]]|[H1 H2]]]; cbv zeta in *; generalize dependent (find_supercell_size ratio total lb ub); intros s H; subst s.
    - split; [left; lia|]. apply T1.
    - split; [|apply P1]. unfold previous. destruct (Nat.eqb_spec c 1); [now right|]. left. specialize (H2 (c - 1)). lia.
    - split; [left; specialize (H1 10); lia|]. apply T1.
  Qed.
End Size.
Print Assumptions C51_cases.
Print Assumptions C51_upper_bound.

(** Eight atoms in a cube: (2, 2, 2) has 64 of 48..150 atoms. A cell of 100 atoms is kept as it is, 20 atoms give (1, 1, 1)
    because 160 is too many. *)
From Coq Require Import QArith Qcanon Qround.
Local Open Scope nat_scope.
#[local] Instance Qc_int : NumInt Qc := fun x => Qfloor (this x).
Example C51_example : find_supercell_size (n1, n1, n1) 8 48 150 = (2, 2, 2) /\ find_supercell_size (n1, n1, n1) 100 48 150 = (1, 1, 1) /\ find_supercell_size (n1, n1, n1) 20 48 150 = (1, 1, 1).
Proof. repeat split; vm_compute; reflexivity. Qed.
