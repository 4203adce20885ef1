(** What the errors of a data set are, in terms of its records. *)
From Verif Require Import Base Model.Structure Model.DatasetDFT Spec.Dataset.
From Coq Require Import Reals.
Local Open Scope R_scope.

Definition total (xs : list R) : R := fold_right Rplus 0 xs.
(** [r] is the square root of the mean of the squares. *)
Definition mean_square (xs : list R) (r : R) : Prop := 0 <= r /\ r * r * INR (length xs) = total (map (fun x => x * x) xs).
(** [m] is the mean of the absolute values. *)
Definition mean_abs (xs : list R) (m : R) : Prop := m * INR (length xs) = total (map Rabs xs).

Section Deviations.
  Context {S : Type}.
  (** energy, force on each atom, stress *)
  Variable pred : S -> R * list (R * R * R) * list R.
  Definition components (l : list (R * R * R)) : list R := flat_map (fun v => [fst (fst v); snd (fst v); snd v]) l.
  Definition p_energy (r : rec R S) : R := fst (fst (pred (r_structure r))).
  Definition p_force (r : rec R S) : list R := components (snd (fst (pred (r_structure r)))).
  Definition p_stress (r : rec R S) : list R := snd (pred (r_structure r)).
  (** eV per atom *)
  Definition energy_dev (r : rec R S) : R := (r_energy r - p_energy r) / INR (r_natom r).
  Definition force_dev (r : rec R S) : list R := map (fun q => fst q - snd q) (combine (r_force r) (p_force r)).
  (** each component divided by the number [c] of the structure *)
  Definition stress_dev (c : rec R S -> R) (r : rec R S) : list R := map (fun q => (fst q - snd q) / c r) (combine (r_stress r) (p_stress r)).
  (** The prediction has the shape of the record. *)
  Definition shaped (r : rec R S) : Prop := length (snd (fst (pred (r_structure r)))) = r_natom r /\ length (p_stress r) = 6%nat.
End Deviations.

(** The value of a key in an association list *)
Fixpoint lookup {B} (k : string) (d : list (string * B)) : option B :=
  match d with [] => None | (k', v) :: t => if String.eqb k k' then Some v else lookup k t end.

(** Characters of a string *)
Fixpoint all_chars (p : Ascii.ascii -> bool) (s : string) : bool :=
  match s with String.EmptyString => true | String.String c t => p c && all_chars p t end.

(** Vectors on one line through the origin *)
Definition scale3 (k : R) (v : R * R * R) : R * R * R := let '(x, y, z) := v in (k * x, k * y, k * z).
Definition parallel (v w : R * R * R) : Prop := exists k, w = scale3 k v.
Definition length3 (v : R * R * R) : R := let '(x, y, z) := v in sqrt (x * x + y * y + z * z).
