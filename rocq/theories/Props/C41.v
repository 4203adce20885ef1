(** C41: compositions and formation energies. *)
From Verif Require Import Base Num NumR Model.Composition Proofs.Composition.
From Coq Require Import Reals Lra.
Local Open Scope R_scope.

Section C41.
  (** nt atom types, ne end members; row k of [ends] has the atom counts of end member k. *)
  Variables (nt ne : nat) (atol rtol : R) (ends : mat R) (pinv : mat R -> mat R).
  Hypothesis tols : 0 <= atol /\ 0 <= rtol.
  Let c0 := init ends pinv.
  (** The pseudo-inverse P of A satisfies A P A = A. *)
  Hypothesis penrose : forall i k, (i < nt)%nat -> (k < ne)%nat ->
    sumn ne (fun a => sumn nt (fun b => ends a i * pinv (fun i k => ends k i) a b * ends k b)) = ends k i.
  (** End members are linearly independent. *)
  Hypothesis independent : forall x : vec R, (forall i, (i < nt)%nat -> sumn ne (fun k => x k * ends k i) = 0) -> forall k, (k < ne)%nat -> x k = 0.
  (** n is a mixture of x k formula units of each end member k. *)
  Definition mixture (x n : vec R) : Prop := forall i, (i < nt)%nat -> n i = sumn ne (fun k => x k * ends k i).
  Definition with_energies (e : vec R) : composition := {| axis := axis c0; axis_inv := axis_inv c0; energies_end := Some e |}.

  (** A mixture is accepted; its partition is the mixture, its composition the normalised mixture. *)
  Theorem C41_mixture e x n : mixture x n ->
    exists comp part, get_composition nt ne atol rtol (with_energies e) n = Ok (comp, part) /\
      (forall k, (k < ne)%nat -> part k = x k) /\ (forall k, (k < ne)%nat -> comp k = x k / sumn ne x).
  Proof. intros H. apply (mixture_composition nt ne atol rtol ends pinv tols penrose independent e x n H). Qed.
  (** Composition coordinates sum to one. *)
  Theorem C41_sum e n comp part : get_composition nt ne atol rtol (with_energies e) n = Ok (comp, part) -> sumn ne part <> 0 -> sumn ne comp = 1.
  Proof. apply comp_sum. Qed.
  (** End members are unit vectors. *)
  Theorem C41_end_member e m : (m < ne)%nat ->
    exists comp part, get_composition nt ne atol rtol (with_energies e) (ends m) = Ok (comp, part) /\
      forall k, (k < ne)%nat -> comp k = if Nat.eqb k m then 1 else 0.
  Proof. apply (end_member nt ne atol rtol ends pinv tols penrose independent). Qed.
  (** Formation energy of a mixture; zero for an end member. *)
  Theorem C41_formation e x n energy : mixture x n ->
    formation_energy nt ne atol rtol (with_energies e) energy n = Ok ((energy - sumn ne (fun k => x k * e k)) / sumn ne x).
  Proof. apply (formation_mixture nt ne atol rtol ends pinv tols penrose independent). Qed.
  Theorem C41_formation_zero e m : (m < ne)%nat -> formation_energy nt ne atol rtol (with_energies e) (e m) (ends m) = Ok 0.
  Proof. apply (formation_end nt ne atol rtol ends pinv tols penrose independent). Qed.
  (** A linear function w of the atom counts added to all energies has no effect; neither has multiplying the cell. *)
  Theorem C41_invariant e x n energy w : mixture x n ->
    formation_energy nt ne atol rtol (with_energies (fun k => e k + sumn nt (fun i => w i * ends k i))) (energy + sumn nt (fun i => w i * n i)) n =
    formation_energy nt ne atol rtol (with_energies e) energy n.
  Proof. apply (formation_shift nt ne atol rtol ends pinv tols penrose independent). Qed.
  Theorem C41_multiple e x n energy q : mixture x n -> q <> 0 ->
    formation_energy nt ne atol rtol (with_energies e) (q * energy) (fun i => q * n i) = formation_energy nt ne atol rtol (with_energies e) energy n.
  Proof. apply (formation_multiple nt ne atol rtol ends pinv tols penrose independent). Qed.
  (** The setter accepts one energy per end member and nothing else; without energies there is no formation energy. *)
  Theorem C41_energies len e x n energy : mixture x n ->
    (len = ne -> set_energies ne c0 len e = Ok (with_energies e)) /\
    (len <> ne -> set_energies ne c0 len e = Err RuntimeError) /\
    formation_energy nt ne atol rtol c0 energy n = Err TypeError.
  Proof.
    intros H. split; [|split].
    - intros ->. unfold set_energies. now rewrite Nat.eqb_refl.
    - intros D. unfold set_energies. destruct (Nat.eqb_spec ne len); [congruence|reflexivity].
    - destruct (C41_mixture (fun _ => 0) x n H) as [comp [part [E _]]]. unfold formation_energy.
      change (get_composition nt ne atol rtol c0 n) with (get_composition nt ne atol rtol (with_energies (fun _ => 0)) n). rewrite E. reflexivity.
  Qed.
End C41.
(** The array version gives the single results in order, or raises if any structure is outside the space. *)
Theorem C41_arrays nt ne (atol rtol : R) c energies ns : length energies = length ns ->
  formation_energies nt ne atol rtol c energies ns =
  match energies_end c with
  | None => if forallb (fun n => is_ok (get_composition nt ne atol rtol c n)) ns then Err TypeError else Err RuntimeError
  | Some _ => mapM (fun '(e, n) => formation_energy nt ne atol rtol c e n) (combine energies ns)
  end.
Proof. apply formation_arrays. Qed.
Print Assumptions C41_mixture.
Print Assumptions C41_sum.
Print Assumptions C41_end_member.
Print Assumptions C41_formation.
Print Assumptions C41_formation_zero.
Print Assumptions C41_invariant.
Print Assumptions C41_multiple.
Print Assumptions C41_energies.
Print Assumptions C41_arrays.
(** SnO and SnO2: a square matrix, whose pseudo-inverse is its inverse. *)
Definition oxides : mat R := fun k i => match k, i with 0%nat, 0%nat => 1 | 0%nat, _ => 1 | _, 0%nat => 1 | _, _ => 2 end.
Definition oxides_inv : mat R := fun k j => match k, j with 0%nat, 0%nat => 2 | 0%nat, _ => -1 | _, 0%nat => -1 | _, _ => 1 end.
Example C41_example :
  (forall i k, (i < 2)%nat -> (k < 2)%nat -> sumn 2 (fun a => sumn 2 (fun b => oxides a i * oxides_inv a b * oxides k b)) = oxides k i) /\
  (forall x : vec R, (forall i, (i < 2)%nat -> sumn 2 (fun k => x k * oxides k i) = 0) -> forall k, (k < 2)%nat -> x k = 0) /\
  mixture 2 2 oxides (fun k => INR (S k)) (fun i => match i with 0%nat => 3 | _ => 5 end).
Proof.
  split; [|split].
  - intros i k Hi Hk. destruct i as [|[|i]]; try lia; destruct k as [|[|k]]; try lia; cbn; ring.
  - intros x H k Hk. assert (H0 := H 0%nat ltac:(lia)). assert (H1 := H 1%nat ltac:(lia)). cbn in H0, H1. destruct k as [|[|k]]; try lia; lra.
  - intros i Hi. destruct i as [|[|i]]; try lia; cbn; ring.
Qed.
