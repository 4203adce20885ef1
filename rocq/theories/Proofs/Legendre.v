(** Derivatives of Legendre polynomials and their recurrences. *)
From Verif Require Import Base Num NumR Complex Spec.Deriv Spec.Harmonics Proofs.Deriv.
From Coq Require Import Reals Lra Factorial.
From Coquelicot Require Import Derive.
Local Open Scope R_scope.

(** The m-th derivatives of P_l and P_{l+1}. *)
Fixpoint U2 (l : nat) : (nat -> R -> R) * (nat -> R -> R) :=
  match l with
  | 0%nat => (fun m _ => match m with 0%nat => 1 | _ => 0 end, fun m x => match m with 0%nat => x | 1%nat => 1 | _ => 0 end)
  | S l => let '(a, b) := U2 l in
           (b, fun m x => ((2 * INR l + 3) * (x * b m x + INR m * b (m - 1)%nat x) - (INR l + 1) * a m x) / (INR l + 2))
  end.
Definition U (l m : nat) (x : R) : R := fst (U2 l) m x.
Lemma U2_snd l m x : snd (U2 l) m x = U (S l) m x.
Proof. unfold U. cbn [U2]. now destruct (U2 l). Qed.
Lemma U_00 m x : U 0 m x = match m with 0%nat => 1 | _ => 0 end.
Proof. reflexivity. Qed.
Lemma U_1 m x : U 1 m x = match m with 0%nat => x | 1%nat => 1 | _ => 0 end.
Proof. reflexivity. Qed.
Lemma U_SS l m x : U (S (S l)) m x = ((2 * INR l + 3) * (x * U (S l) m x + INR m * U (S l) (m - 1) x) - (INR l + 1) * U l m x) / (INR l + 2).
Proof. rewrite <- U2_snd. cbn [U2]. rewrite <- !U2_snd. unfold U. destruct (U2 l). reflexivity. Qed.
Lemma INR_pos2 l : INR l + 2 <> 0.
Proof. pose proof (pos_INR l). lra. Qed.

Lemma two_step (P : nat -> Prop) : P 0%nat -> P 1%nat -> (forall l, P l -> P (S l) -> P (S (S l))) -> forall l, P l.
Proof. intros H0 H1 HS. assert (H : forall l, P l /\ P (S l)) by (induction l as [|l [A B]]; auto). intros l. apply H. Qed.

Lemma U_deriv l : forall m x, has_deriv (U l m) x (U l (S m) x).
Proof.
  induction l as [| |l A B] using two_step; intros m x.
  - destruct m; [exact (hd_const 1 x)|exact (hd_const 0 x)].
  - destruct m as [|[|m]]; [exact (hd_id x)|exact (hd_const 1 x)|exact (hd_const 0 x)].
  - assert (I : has_deriv (fun y => (2 * INR l + 3) / (INR l + 2) * (y * U (S l) m y + INR m * U (S l) (m - 1) y) - (INR l + 1) / (INR l + 2) * U l m y) x
       ((2 * INR l + 3) / (INR l + 2) * ((1 * U (S l) m x + x * U (S l) (S m) x) + INR m * U (S l) (S (m - 1)) x) - (INR l + 1) / (INR l + 2) * U l (S m) x)).
    { apply hd_sub; [|apply hd_scale, A]. apply hd_scale, hd_add; [|apply hd_scale, B]. apply (hd_mul (fun y => y)); [apply hd_id|apply B]. }
    eapply hd_ext; [| |exact I].
    + intros y. cbv beta. rewrite U_SS. field. apply INR_pos2.
    + cbv beta. rewrite U_SS. replace (S m - 1)%nat with m by lia. rewrite S_INR.
      destruct m as [|m]; [cbn [INR Nat.sub]; field; apply INR_pos2|]. replace (S (S m - 1)) with (S m) by lia. field. apply INR_pos2.
Qed.
Lemma hd_unique f g s a b : (forall x, f x = g x) -> has_deriv f s a -> has_deriv g s b -> a = b.
Proof. intros E H1 H2. eapply uniqueness_limite; [|exact H2]. now apply (hd_ext _ _ _ _ _ E eq_refl). Qed.

Lemma U_legendre l x : U l 0 x = legendre l x.
Proof.
  enough (H : U l 0 x = fst (legendre2 l x) /\ U (S l) 0 x = snd (legendre2 l x)) by apply H.
  induction l as [|l [A B]]; [split; reflexivity|]. cbn [legendre2]. destruct (legendre2 l x) as [a b]. cbn [fst snd] in *. split; [exact B|].
  rewrite U_SS, A, B. cbn [INR]. field. apply INR_pos2.
Qed.
Lemma U_derive l m x : Derive_n (legendre l) m x = U l m x.
Proof.
  revert x. induction m as [|m IH]; intros x; [symmetry; apply U_legendre|]. cbn [Derive_n].
  rewrite (Derive_ext _ (U l m)) by exact IH. apply is_derive_unique, is_derive_Reals. apply U_deriv.
Qed.
Lemma U_above l : forall m x, (l < m)%nat -> U l m x = 0.
Proof.
  induction l as [| |l A B] using two_step; intros m x H.
  - destruct m; [lia|reflexivity].
  - destruct m as [|[|]]; [lia|lia|reflexivity].
  - rewrite U_SS, A, !B by lia. field. apply INR_pos2.
Qed.

(** The two first-order relations between neighbouring l. *)
Lemma rel0 l x : x * U (S l) 1 x - U l 1 x = (INR l + 1) * U (S l) 0 x /\ U (S l) 1 x - x * U l 1 x = (INR l + 1) * U l 0 x.
Proof.
  induction l as [|l [B C]].
  - rewrite !U_00, !U_1. cbn [INR]. split; ring.
  - assert (C' : U (S (S l)) 1 x - x * U (S l) 1 x = (INR l + 2) * U (S l) 0 x).
    { rewrite U_SS. cbn [INR Nat.sub]. apply Rmult_eq_reg_r with (INR l + 2); [|apply INR_pos2].
      transitivity ((2 * INR l + 3) * U (S l) 0 x + (INR l + 1) * (x * U (S l) 1 x - U l 1 x)); [field; apply INR_pos2|]. rewrite B. ring. }
    rewrite S_INR. split; [|rewrite C'; ring].
    assert (E : (x * x - 1) * U (S l) 1 x = (INR l + 1) * (x * U (S l) 0 x - U l 0 x)).
    { transitivity (x * (x * U (S l) 1 x - U l 1 x) - (U (S l) 1 x - x * U l 1 x)); [ring|]. rewrite B, C. ring. }
    transitivity (x * (U (S (S l)) 1 x - x * U (S l) 1 x) + (x * x - 1) * U (S l) 1 x); [ring|]. rewrite C', E.
    rewrite (U_SS l 0). cbn [INR Nat.sub]. field. apply INR_pos2.
Qed.
Lemma rel_b l m : forall x, x * U (S l) (S m) x - U l (S m) x = (INR l + 1 - INR m) * U (S l) m x.
Proof.
  induction m as [|m IH]; intros x; [cbn [INR]; rewrite (proj1 (rel0 l x)); ring|].
  assert (H1 : has_deriv (fun y => y * U (S l) (S m) y - U l (S m) y) x ((1 * U (S l) (S m) x + x * U (S l) (S (S m)) x) - U l (S (S m)) x)).
  { apply hd_sub; [|apply U_deriv]. apply (hd_mul (fun y => y)); [apply hd_id|apply U_deriv]. }
  assert (H2 : has_deriv (fun y => (INR l + 1 - INR m) * U (S l) m y) x ((INR l + 1 - INR m) * U (S l) (S m) x)) by apply hd_scale, U_deriv.
  pose proof (hd_unique _ _ _ _ _ IH H1 H2) as E. rewrite S_INR. lra.
Qed.
Lemma rel_c l m : forall x, U (S l) (S m) x - x * U l (S m) x = (INR l + 1 + INR m) * U l m x.
Proof.
  induction m as [|m IH]; intros x; [cbn [INR]; rewrite (proj2 (rel0 l x)); ring|].
  assert (H1 : has_deriv (fun y => U (S l) (S m) y - y * U l (S m) y) x (U (S l) (S (S m)) x - (1 * U l (S m) x + x * U l (S (S m)) x))).
  { apply hd_sub; [apply U_deriv|]. apply (hd_mul (fun y => y)); [apply hd_id|apply U_deriv]. }
  assert (H2 : has_deriv (fun y => (INR l + 1 + INR m) * U l m y) x ((INR l + 1 + INR m) * U l (S m) x)) by apply hd_scale, U_deriv.
  pose proof (hd_unique _ _ _ _ _ IH H1 H2) as E. rewrite S_INR. lra.
Qed.
(** The recurrence in l for fixed m. *)
Lemma U_rec l m x : (INR l + 2 - INR m) * U (S (S l)) m x = (2 * INR l + 3) * x * U (S l) m x - (INR l + 1 + INR m) * U l m x.
Proof.
  assert (D : (INR l + 2) * U (S (S l)) m x = (2 * INR l + 3) * (x * U (S l) m x + INR m * U (S l) (m - 1) x) - (INR l + 1) * U l m x)
    by (rewrite U_SS; field; apply INR_pos2).
  destruct m as [|m]; [cbn [INR] in *; lra|]. replace (S m - 1)%nat with m in D by lia.
  pose proof (rel_b l m x) as B. pose proof (rel_c (S l) m x) as C. rewrite S_INR in *.
  assert (A : U (S (S l)) (S m) x - U l (S m) x = (2 * INR l + 3) * U (S l) m x) by lra.
  replace ((2 * INR l + 3) * (x * U (S l) (S m) x + (INR m + 1) * U (S l) m x)) with ((2 * INR l + 3) * x * U (S l) (S m) x + (INR m + 1) * ((2 * INR l + 3) * U (S l) m x)) in D by ring.
  rewrite <- A in D. lra.
Qed.
Lemma U_diag l x : U (S l) (S l) x = (2 * INR l + 1) * U l l x.
Proof.
  destruct l as [|l]; [rewrite U_1, U_00; cbn [INR]; ring|].
  pose proof (rel_c (S l) (S l) x) as C. rewrite (U_above (S l) (S (S l)) x) in C by lia. rewrite S_INR in *. lra.
Qed.
Lemma U_sub l x : U (S l) l x = (2 * INR l + 1) * x * U l l x.
Proof.
  destruct l as [|l]; [rewrite U_1, U_00; cbn [INR]; ring|].
  pose proof (U_rec l (S l) x) as E. rewrite (U_above l (S l) x) in E by lia. rewrite S_INR in *. lra.
Qed.
(** Parity. *)
Lemma U_parity l : forall m x, U l m (- x) = if Nat.even (l + m) then U l m x else - U l m x.
Proof.
  induction l as [| |l A B] using two_step; intros m x.
  - destruct m; [reflexivity|]. rewrite !U_00. destruct (Nat.even (0 + S m)); lra.
  - destruct m as [|[|m]]; [reflexivity|reflexivity|]. rewrite !U_1. destruct (Nat.even (1 + S (S m))); lra.
  - rewrite !U_SS, A, B. assert (E : INR m * U (S l) (m - 1) (- x) = INR m * (if Nat.even (l + m) then U (S l) (m - 1) x else - U (S l) (m - 1) x)).
    { destruct m as [|m]; [cbn [INR]; ring|]. rewrite B. replace (S m - 1)%nat with m by lia. replace (S l + m)%nat with (l + S m)%nat by lia. reflexivity. }
    rewrite E. replace (Nat.even (S l + m)) with (negb (Nat.even (l + m))) by (cbn [Nat.add]; now rewrite Nat.even_succ, Nat.negb_even).
    replace (Nat.even (S (S l) + m)) with (Nat.even (l + m)) by reflexivity. destruct (Nat.even (l + m)); cbn [negb]; field; apply INR_pos2.
Qed.
