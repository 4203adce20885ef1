(** C38: elastic constants of a linear solid. *)
From Verif Require Import Base Num NumR Model.Tensor Model.Elastic Spec.Elastic Proofs.Elastic.
From Coq Require Import Reals Lra.
Local Open Scope R_scope.

(** For a solid whose stress is linear in strain with symmetric stiffness C, and rotations under which C is invariant, [run]
    returns C for any number of samples from 2 and any eps above the closeness threshold. *)
Theorem C38_recovered (stress_at : mat R -> list R) (axis : mat R) (volume EVtoGPa atol : R) (is_zero : R -> bool) (C : mat R) rots n_samples eps :
  (forall x, is_zero x = true <-> x = 0) -> linear_solid stress_at axis volume EVtoGPa C ->
  (forall a b, (a < 6)%nat -> (b < 6)%nat -> C a b = C b a) -> rots <> [] -> (forall r, In r rots -> invariant C r) ->
  0 <= atol < eps -> (2 <= n_samples)%nat ->
  forall a b, (a < 6)%nat -> (b < 6)%nat -> run stress_at axis volume EVtoGPa atol is_zero (projector rots) n_samples eps a b = C a b.
Proof.
  intros HZ HL HC HN HI Ha Hn a b Ha6 Hb6. unfold run. apply symmetrize_fix; try assumption. clear a b Ha6 Hb6. intros a b Ha6 Hb6. unfold constants.
  etransitivity; [apply (constants_eq (slope stress_at axis volume EVtoGPa is_zero (magnitudes atol n_samples eps)) a b Ha6 Hb6)|].
  rewrite (slope_eq stress_at axis volume EVtoGPa is_zero HZ C HL) by (try lia; now apply magnitudes_ok).
  destruct (Nat.max_spec a b) as [[? ->]|[? ->]]; [rewrite Nat.min_l by lia|rewrite Nat.min_r by lia]; [reflexivity|now apply HC].
Qed.
Print Assumptions C38_recovered.
(** The strains used: n equally spaced ones from -eps to eps without those that are close to zero. *)
Theorem C38_strains (atol eps : R) n m : (2 <= n)%nat -> In m (magnitudes atol n eps) <-> (exists k, (k < n)%nat /\ m * INR (n - 1) = eps * (2 * INR k - INR (n - 1))) /\ atol < Rabs m.
Proof.
  intros Hn. unfold magnitudes. rewrite filter_In. cbn [nltb nabs R_ord]. rewrite Rltb_true. destruct n as [|[|n]]; try lia. cbn [linspace]. replace (S (S n) - 1)%nat with (S n) by lia. assert (HP : INR (S n) <> 0) by (apply not_0_INR; lia). split.
  - intros [H1 H2]. split; [|exact H2]. apply in_map_iff in H1. destruct H1 as [k [<- Hk]]. apply in_seq in Hk. exists k. split; [lia|]. rewrite !nnat_INR. cbn [nadd nopp nmul nsub ndiv R_num]. field. exact HP.
  - intros [[k [Hk E]] H2]. split; [|exact H2]. apply in_map_iff. exists k. split; [|apply in_seq; lia]. rewrite !nnat_INR. cbn [nadd nopp nmul nsub ndiv R_num]. apply (Rmult_eq_reg_r (INR (S n))); [|exact HP]. rewrite E. field. exact HP.
Qed.
Print Assumptions C38_strains.
(** Without the symmetry projection and for C not symmetric, entry (a,b) is the response of the component with the smaller
    number to the strain with the larger number. *)
Theorem C38_raw (stress_at : mat R -> list R) (axis : mat R) (volume EVtoGPa atol : R) (is_zero : R -> bool) (C : mat R) n_samples eps :
  (forall x, is_zero x = true <-> x = 0) -> linear_solid stress_at axis volume EVtoGPa C -> 0 <= atol < eps -> (2 <= n_samples)%nat ->
  forall a b, (a <= b < 6)%nat -> constants stress_at axis volume EVtoGPa is_zero (magnitudes atol n_samples eps) a b = C a b /\
    constants stress_at axis volume EVtoGPa is_zero (magnitudes atol n_samples eps) b a = C a b.
Proof.
  intros HZ HL Ha Hn a b H. unfold constants. split; (etransitivity; [apply (constants_eq (slope stress_at axis volume EVtoGPa is_zero (magnitudes atol n_samples eps))); lia|]);
    rewrite (slope_eq stress_at axis volume EVtoGPa is_zero HZ C HL) by (try lia; now apply magnitudes_ok); f_equal; lia.
Qed.
Print Assumptions C38_raw.
(** A linear solid on the unit cube, for any C; cubic constants are unchanged by the rotation by 90 degrees about z. *)
Definition hooke (C : mat R) (a : mat R) : list R :=
  let e : mat R := fun i j => (a i j + a j i) / 2 - (if Nat.eqb i j then 1 else 0) in
  let s k := - sumn 6 (fun b => C k b * engineering e b) in [s 0; s 1; s 2; s 5; s 3; s 4]%nat.
Definition cubic (a b : nat) : R := if Nat.eqb a b then (if Nat.ltb a 3 then 3 else 1) else if andb (Nat.ltb a 3) (Nat.ltb b 3) then 2 else 0.
Definition quarter : mat R := rows3 [0; -1; 0] [1; 0; 0] [0; 0; 1].
Example C38_example (C : mat R) : linear_solid (hooke C) eye 1 1 C /\ (forall a b, (a < 6)%nat -> (b < 6)%nat -> cubic a b = cubic b a) /\ invariant cubic quarter.
Proof.
  split; [|split].
  - intros e a k HS HA Hk. assert (HA' : forall i j, (i < 3)%nat -> (j < 3)%nat -> a i j = (if Nat.eqb i j then 1 else 0) + e i j).
    { intros i j Hi Hj. rewrite (HA i j Hi Hj). unfold sumn, nsumf, nsum. cbn [map seq fold_right]. unfold eye. destruct j as [|[|[|j]]]; try lia; destruct i as [|[|[|i]]]; try lia; cbn; ring. }
    assert (ST : forall m : mat R, stress_comp (hooke C m) k = - sumn 6 (fun b => C k b * engineering (fun i j => (m i j + m j i) / 2 - (if Nat.eqb i j then 1 else 0)) b)) by (intros m; do 6 (destruct k as [|k]; [reflexivity|]); lia).
    rewrite !ST. replace (- sumn 6 (fun b => C k b * engineering (fun i j => (eye i j + eye j i) / 2 - (if Nat.eqb i j then 1 else 0)) b)) with 0 by (cbn; field).
    rewrite (sumn_ext 6 _ (fun b => C k b * engineering e b)); [field|]. intros b Hb. f_equal.
    do 6 (destruct b as [|b]; [cbn; rewrite ?HA' by lia; cbn; rewrite ?(HS 1 0)%nat, ?(HS 2 1)%nat, ?(HS 0 2)%nat by lia; field|]); lia.
  - intros a b Ha Hb. unfold cubic. rewrite (Nat.eqb_sym b a), (andb_comm (Nat.ltb b 3)). destruct (Nat.eqb_spec a b) as [->|]; reflexivity.
  - intros a b c d Ha Hb Hc Hd. destruct a as [|[|[|a]]]; try lia; (destruct b as [|[|[|b]]]; try lia); (destruct c as [|[|[|c]]]; try lia); (destruct d as [|[|[|d]]]; try lia); cbv - [Rplus Rmult Ropp IZR Rminus Rdiv Rinv]; ring.
Qed.
