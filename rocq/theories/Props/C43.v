(** C43: harmonic energy and forces. *)
From Verif Require Import Base Num NumR Model.FC2 Spec.Harmonic Proofs.FC2.
From Coq Require Import Reals Lra.
From Coquelicot Require Import Coquelicot.

Section C43.
  Context {F : Type} {N : Num F} {L : FieldLaws F} {C0 : Char0 F}.
  Local Open Scope num_scope.
  Add Field Ff43 : (field_laws (F:=F)).
  (** Displacement of atom a along i; n atoms. *)
  Notation idx a i := (3 * a + i)%nat.
  Notation n3 n := (3 * n)%nat.
  Definition energy (n : nat) (fc : mat F) (u : vec F) : F := h_energy (eval_properties_fc2 (n3 n) fc u).
  Definition force (n : nat) (fc : mat F) (u : vec F) : nat -> nat -> F := h_forces (eval_properties_fc2 (n3 n) fc u).





  (** Energy is half the quadratic form; forces are minus the force constants times the displacements; E = -1/2 u.F *)
  Theorem C43_energy n fc u :
    energy n fc u = sumn (n3 n) (fun p => sumn (n3 n) (fun q => u p * fc p q * u q)) / (1 + 1) /\
    (forall a i : nat, (a < n)%nat -> (i < 3)%nat -> force n fc u i a = - sumn n (fun b => sumn 3 (fun j => fc (idx a i) (idx b j) * u (idx b j)))) /\
    energy n fc u = - sumn n (fun a => sumn 3 (fun i => u (idx a i) * force n fc u i a)) / (1 + 1).
  Proof. apply energy_forces. Qed.
  (** Forces are minus the gradient: moving by v changes the energy by -F.v and a term of second order in v. *)
  Theorem C43_gradient n fc u v : symmetric n fc ->
    energy n fc (fun p => u p + v p) = energy n fc u - sumn n (fun a => sumn 3 (fun i => force n fc u i a * v (idx a i))) + energy n fc v.
  Proof. apply energy_expand. Qed.
  (** Rigid translations change neither energy nor forces. *)
  Theorem C43_translation n fc u c : symmetric n fc -> acoustic n fc ->
    energy n fc (shifted u c) = energy n fc u /\ forall a i : nat, (a < n)%nat -> (i < 3)%nat -> force n fc (shifted u c) i a = force n fc u i a.
  Proof. apply energy_shift. Qed.
  (** No net force. *)
  Theorem C43_no_net_force n fc u i : symmetric n fc -> acoustic n fc -> (i < 3)%nat -> sumn n (fun a => force n fc u i a) = 0.
  Proof. apply net_force. Qed.
  (** The stress is minus the first-order response to a symmetric deformation e of the displacements, component order
      xx, yy, zz, xy, yz, zx. *)
  Theorem C43_stress n fc u e sxx syy szz sxy syz szx : symmetric n fc -> (forall i j : nat, (i < 3)%nat -> (j < 3)%nat -> e i j = e j i) ->
    h_stress (eval_properties_fc2 (n3 n) fc u) = [sxx; syy; szz; sxy; syz; szx] ->
    energy n fc (fun p => u p + deformed e u p) =
    energy n fc u - (sxx * e 0%nat 0%nat + syy * e 1%nat 1%nat + szz * e 2%nat 2%nat + (1 + 1) * (sxy * e 0%nat 1%nat + syz * e 1%nat 2%nat + szx * e 2%nat 0%nat)) + energy n fc (deformed e u).
  Proof. apply stress_deform. Qed.
  (** A loaded table of force constants keeps atom and axis numbers. *)
  Theorem C43_load (fc : nat -> nat -> nat -> nat -> F) a b i j : (i < 3)%nat -> (j < 3)%nat -> fc_matrix fc (idx a i) (idx b j) = fc a b i j.
  Proof. intros Hi Hj. unfold fc_matrix. now rewrite !idx_div, !idx_mod. Qed.
End C43.
Print Assumptions C43_load.
Print Assumptions C43_energy.
Print Assumptions C43_gradient.
Print Assumptions C43_translation.
Print Assumptions C43_no_net_force.
Print Assumptions C43_stress.
(** Over the reals: the force is minus the derivative of the energy in every direction v. *)
Theorem C43_derivative n (fc : mat R) (u v : vec R) : symmetric n fc ->
  is_derive (fun t => energy n fc (fun p => u p + t * v p)%R) 0%R (- sumn n (fun a => sumn 3 (fun i => force n fc u i a * v (3 * a + i)%nat)%R))%R.
Proof.
  intros HS. set (g := sumn n _).
  apply is_derive_ext with (f := fun t => (energy n fc u - t * g + t * t * energy n fc v)%R).
  - intros t. etransitivity; [|symmetry; exact (C43_gradient n fc u (fun p => t * v p)%R HS)].
    change (energy n fc (fun p : nat => (t * v p)%R)) with (h_energy (eval_properties_fc2 (3 * n) fc (fun p => nmul t (v p)))). rewrite energy_scale. cbn [nadd nsub nmul R_num].
    unfold energy. f_equal. f_equal. unfold g. change Rmult with (nmul (F:=R)). rewrite <- sumn_scale. apply sumn_ext. intros a _. rewrite <- sumn_scale. apply sumn_ext. intros i _. cbn. ring.
  - auto_derive; [exact I|]. ring.
Qed.
Print Assumptions C43_derivative.
(** Without symmetric force constants the forces are not minus the gradient. *)
Theorem C43_asymmetric_refuted : exists (fc : mat R) (u v : vec R), ~ is_derive (fun t => energy 1 fc (fun p => u p + t * v p)%R) 0%R (- sumn 1 (fun a => sumn 3 (fun i => force 1 fc u i a * v (3 * a + i)%nat)%R))%R.
Proof.
  exists (fun p q => if (p =? 0) && (q =? 1) then 1%R else 0%R), (fun p => if p =? 1 then 1%R else 0%R), (fun p => if p =? 0 then 1%R else 0%R).
  intros H. assert (D : is_derive (fun t => energy 1 (fun p q => if (p =? 0) && (q =? 1) then 1%R else 0%R) (fun p => (if p =? 1 then 1 else 0) + t * (if p =? 0 then 1 else 0))%R) 0%R (1 / 2)%R).
  { apply is_derive_ext with (f := fun t => (t / 2)%R); [|auto_derive; [exact I|lra]]. intros t. cbn. unfold nhalf. cbn. field. }
  apply is_derive_unique in H. apply is_derive_unique in D. rewrite H in D. cbn in D. unfold nhalf in D. cbn in D. lra.
Qed.
Print Assumptions C43_asymmetric_refuted.
(** Two atoms joined by a spring along every axis. *)
From Coq Require Import QArith Qcanon.
Local Open Scope nat_scope.
Definition spring : mat Qc := fun p q => if (p mod 3) =? (q mod 3) then (if p / 3 =? q / 3 then 1%Qc else (- (1))%Qc) else 0%Qc.
Definition move : vec Qc := fun p => Q2Qc (inject_Z (Z.of_nat (p * p))).
Example C43_example : Harmonic.symmetric 2 spring /\ acoustic 2 spring /\ this (energy 2 spring move) = (747 # 2)%Q /\ this (force 2 spring move 1 0) = 15%Q.
Proof.
  split; [|split; [|split; reflexivity]].
  - intros p q Hp Hq. do 6 (destruct p as [|p]; [do 6 (destruct q as [|q]; [reflexivity|]); lia|]); lia.
  - intros p j Hp Hj. do 6 (destruct p as [|p]; [do 3 (destruct j as [|j]; [apply Qc_is_canon; reflexivity|]); lia|]); lia.
Qed.
