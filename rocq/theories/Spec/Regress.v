(** Weighted data points and their least-squares sums. *)
From Verif Require Import Base Num Model.Dataset Spec.Dataset.

(** One observation: a row of features, the observed value, its weight. *)
Record point (F : Type) := mk_point { pt_row : vec F; pt_value : F; pt_weight : F }.
Arguments mk_point {F}. Arguments pt_row {F}. Arguments pt_value {F}. Arguments pt_weight {F}.

Section Spec.
  Context {F : Type} {N : Num F} {St : Type}.
  Local Open Scope num_scope.
  Variables (fe : St -> vec F) (ff fs : St -> list (vec F)).
  Variables (weight_e : F -> F -> nat -> F) (weight_f weight_s : F -> F).
  Variables (weight_stress min_e : F).

  (** Observations of one record in a data set with weight [dw]; stresses that are not
      included count with weight zero. *)
  Definition energy_points (dw : F) (r : rec F St) : list (point F) :=
    [mk_point (fe (r_structure r)) (r_energy r) (weight_e min_e (r_energy r) (r_natom r) * dw)].
  Definition stress_points (dw : F) (include_stress : bool) (r : rec F St) : list (point F) :=
    map (fun p => mk_point (fst p) (snd p)
                    (if include_stress then weight_s (snd p) * (weight_stress * dw) else 0))
        (combine (fs (r_structure r)) (r_stress r)).
  Definition force_points (dw : F) (r : rec F St) : list (point F) :=
    map (fun p => mk_point (fst p) (snd p) (weight_f (snd p) * dw))
        (combine (ff (r_structure r)) (r_force r)).
  Definition record_points (dw : F) (include_force include_stress : bool) (r : rec F St) : list (point F) :=
    energy_points dw r ++ (if include_force then stress_points dw include_stress r ++ force_points dw r else []).

  (** All observations of data sets given with their records. *)
  Definition points (ps : list (ds F St * list (rec F St))) : list (point F) :=
    flat_map (fun p => flat_map (record_points (ds_weight (fst p)) (ds_force (fst p)) (ds_stress (fst p)))
                                (snd p)) ps.

  (** The data set holds exactly the records [rs]. *)
  Definition holds (x : ds F St) (rs : list (rec F St)) : Prop :=
    exists els ef es, ds_dft x = Some (layout els ef es rs).
  Variable s_natoms : St -> list nat.
  (** A record whose features have the right shape. *)
  Definition shaped (r : rec F St) : Prop :=
    rec_ok r /\ sum (s_natoms (r_structure r)) = r_natom r /\
    length (ff (r_structure r)) = (3 * r_natom r)%nat /\ length (fs (r_structure r)) = 6.
  (** A non-empty data set holding the given records; stresses only together with forces. *)
  Definition usable (p : ds F St * list (rec F St)) : Prop :=
    holds (fst p) (snd p) /\ snd p <> [] /\ Forall shaped (snd p) /\
    (ds_stress (fst p) = true -> ds_force (fst p) = true).

  (** Feature rows of the energies. *)
  Definition energy_rows (ps : list (ds F St * list (rec F St))) : list (vec F) :=
    flat_map (fun p => map (fun r => fe (r_structure r)) (snd p)) ps.
  Definition energies_per_atom (ps : list (ds F St * list (rec F St))) : list F :=
    flat_map (fun p => map (fun r => r_energy r / nnat (r_natom r)) (snd p)) ps.

  (** Records with the settings of their data set, whatever data set they are in. *)
  Definition tagged (ps : list (ds F St * list (rec F St))) : list (F * bool * bool * rec F St) :=
    flat_map (fun p => map (fun r => (ds_weight (fst p), ds_force (fst p), ds_stress (fst p), r)) (snd p)) ps.
  (** Some data set comes with forces. *)
  Definition any_force (ps : list (ds F St * list (rec F St))) : bool := existsb (fun q => ds_force (fst q)) ps.
End Spec.

Section Stat.
  Context {F : Type} {N : Num F} {O : NumOrd F}.
  Local Open Scope num_scope.
  Definition mean (Q : list (vec F)) (j : nat) : F := nsumf (fun q => q j) Q / nnat (length Q).
  Definition variance (Q : list (vec F)) (j : nat) : F :=
    nsumf (fun q => (q j - mean Q j) * (q j - mean Q j)) Q / nnat (length Q).
  (** [m] is a smallest member of [l]. *)
  Definition least (l : list F) (m : F) : Prop := In m l /\ forall a, In a l -> nltb a m = false.
  (** A feature whose scale counts as zero; such features are switched off. *)
  Definition tiny (threshold : F) (with_forces : bool) (s : F) : bool :=
    nltb (nabs s) (if with_forces then threshold else threshold * threshold).
  Definition usable_scale (threshold : F) (with_forces : bool) (s : F) : F :=
    if tiny threshold with_forces s then 1 else s.
End Stat.

(** Sums of weighted least squares over observations. *)
Section Sums.
  Context {F : Type} {N : Num F}.
  Local Open Scope num_scope.
  Definition XTX (ps : list (point F)) : mat F :=
    fun i j => nsumf (fun p => (pt_weight p * pt_row p i) * (pt_weight p * pt_row p j)) ps.
  Definition XTY (ps : list (point F)) : vec F :=
    fun i => nsumf (fun p => (pt_weight p * pt_row p i) * (pt_weight p * pt_value p)) ps.
  Definition YTY (ps : list (point F)) : F :=
    nsumf (fun p => (pt_weight p * pt_value p) * (pt_weight p * pt_value p)) ps.
End Sums.
