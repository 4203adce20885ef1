(** What a fit is: weighted squared deviations, the penalised objective, the least test error. *)
From Verif Require Import Base Num NumR Model.Dataset Model.Regress Spec.Dataset Spec.Regress.
From Coq Require Import Reals.
Local Open Scope nat_scope.

Section Spec.
  Context {F : Type} {N : Num F} {NO : NumOrd F}.
  Local Open Scope num_scope.
  Variable p : nat.                       (** number of features *)
  (** Scales of the features and those that are switched off. *)
  Variables (sc : vec F) (off : nat -> bool).

  Definition feature (r : vec F) : vec F := fun j => if off j then 0 else r j / sc j.
  (** Deviation of the coefficients [c] at one observation, weighted. *)
  Definition deviation (c : vec F) (u : point F) : F :=
    pt_weight u * (pt_value u - sumn p (fun j => feature (pt_row u) j * c j)).
  Definition squares (P : list (point F)) (c : vec F) : F := nsumf (fun u => deviation c u * deviation c u) P.
  Definition rms (P : list (point F)) (c : vec F) : F := nsqrt (squares P c / nnat (length P)).
  (** What ridge regression with the penalty [a] minimises. *)
  Definition objective (a : F) (P : list (point F)) (c : vec F) : F :=
    squares P c + a * sumn p (fun j => c j * c j).
End Spec.

(** Deviations of a potential, whose coefficients multiply the features as they are. *)
Section Potential.
  Context {F : Type} {N : Num F} {NO : NumOrd F}.
  Local Open Scope num_scope.
  Definition potential_rms (p : nat) (P : list (point F)) (b : vec F) : F :=
    nsqrt (nsumf (fun u => let e := pt_weight u * (pt_value u - sumn p (fun j => pt_row u j * b j)) in e * e) P / nnat (length P)).
End Potential.

(** ** Fits over the real numbers *)
Section Real.
  Local Open Scope R_scope.
  Variable p : nat.

  (** A solver of linear equations as LAPACK's posv in exact arithmetic: it reads p x p entries,
      what it returns solves the equations, and it does not fail on positive definite matrices. *)
  Record sound_solver (posv : mat R -> vec R -> option (vec R)) : Prop := mk_solver {
    reads : forall m m' v v',
      (forall i j, (i < p)%nat -> (j < p)%nat -> m i j = m' i j) -> (forall i, (i < p)%nat -> v i = v' i) ->
      match posv m v, posv m' v' with
      | Some c, Some c' => forall i, (i < p)%nat -> c i = c' i
      | None, None => True
      | _, _ => False
      end;
    solves : forall m v c, posv m v = Some c -> forall i, (i < p)%nat -> sumn p (fun j => m i j * c j) = v i;
    definite : forall m v,
      (forall d, (exists i, (i < p)%nat /\ d i <> 0) -> 0 < sumn p (fun i => d i * sumn p (fun j => m i j * d j))) ->
      posv m v <> None }.

  Section Train.
    Context {St : Type}.
    Variables (fe : St -> vec R) (threshold : R) (train : list (ds R St * list (rec R St))).
    (** The scale of a feature is its standard deviation over the energy rows of the training data. *)
    Definition train_scale (j : nat) : R := usable_scale threshold (any_force train) (sqrt (variance (energy_rows fe train) j)).
    Definition train_off (j : nat) : bool := tiny threshold (any_force train) (sqrt (variance (energy_rows fe train) j)).
  End Train.

  Variables (sc : vec R) (off : nat -> bool).
  Definition minimises (a : R) (P : list (point R)) (c : vec R) : Prop :=
    forall c', objective p sc off a P c <= objective p sc off a P c'.

  (** The model [m] is, among the minimisers for the penalties [alphas] on the observations [P], one
      with the smallest root mean square deviation on [Q]; its coefficients divided by the scales are
      those of the potential, and the reported errors are those of the potential. *)
  Record best_fit (alphas : list R) (P Q : list (point R)) (m : mlp (F:=R)) : Prop := mk_best {
    b_alpha : In (p_alpha m) alphas;
    b_scales : forall j, p_scales m j = sc j;
    b_minimises : minimises (p_alpha m) P (p_coeffs m);
    b_scaled : forall i, p_scaled m i = p_coeffs m i / sc i;
    b_train : p_rmse_train m = potential_rms p P (p_scaled m);
    b_test : p_rmse_test m = potential_rms p Q (p_scaled m);
    b_least : forall a c, In a alphas -> minimises a P c -> p_rmse_test m <= potential_rms p Q (fun j => c j / sc j) }.

  (** Two models that cannot be told apart. *)
  Definition same_model (m m' : mlp (F:=R)) : Prop :=
    p_alpha m = p_alpha m' /\ p_rmse_train m = p_rmse_train m' /\ p_rmse_test m = p_rmse_test m' /\
    forall i, (i < p)%nat -> p_coeffs m i = p_coeffs m' i /\ p_scales m i = p_scales m' i /\ p_scaled m i = p_scaled m' i.
End Real.
