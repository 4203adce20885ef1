(** Harmonic energy, forces and stress from force constants: calculator/utils/fc_utils.py. *)
From Verif Require Import Base Num.

Section FC2.
  Context {F : Type} {N : Num F}.
  Local Open Scope num_scope.

  (** [load_fc2_hdf5] (fc_utils.py L17-20): transpose (0,2,1,3), then reshape to (3N,3N): row 3a+i, column 3b+j. *)
  Definition fc_matrix (fc : nat -> nat -> nat -> nat -> F) : mat F := fun r c => fc (r / 3)%nat (c / 3)%nat (r mod 3)%nat (c mod 3)%nat.

  (** The factor 0.5 of L48 and L50. *)
  Definition nhalf : F := n1 / (n1 + n1).
  Record harmonic := { h_energy : F; h_forces : nat -> nat -> F (** axis, atom *); h_stress : list F }.
  (** Indices of L46. *)
  Definition stress_indices : list (nat * nat) := [(0, 0); (1, 1); (2, 2); (0, 1); (1, 2); (2, 0)]%nat.
  (** [eval_properties_fc2] (L24-50); [n3] is fc2.shape[0], [disps] a vector of n3 components. *)
  Definition eval_properties_fc2 (n3 : nat) (fc2 : mat F) (disps : vec F) : harmonic :=
    let n_atom := (n3 / 3)%nat in
    let disps_minus : vec F := fun k => - disps k in
    let forces := matvec n3 fc2 disps_minus in
    let energy := dot n3 disps_minus forces in
    let f : nat -> nat -> F := fun i a => forces (3 * a + i)%nat in
    let d : nat -> nat -> F := fun i a => disps (3 * a + i)%nat in
    {| h_energy := nhalf * energy; h_forces := f;
       h_stress := map (fun '(i, j) => nhalf * sumn n_atom (fun a => f i a * d j a + f j a * d i a)) stress_indices |}.
End FC2.
