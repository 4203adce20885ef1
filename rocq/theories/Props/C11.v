(** C11: each ridge solution belongs to its own penalty. *)
From Verif Require Import Base Num Model.Regress Proofs.Select.
From Coq Require Import QArith Qcanon.
Local Open Scope nat_scope.
Local Open Scope num_scope.

(** [solve] stands for the Cholesky solver: it reads the p x p entries only, and solves the
    systems of this run. *)
Theorem C11_ridge {F} {N : Num F} {L : RingLaws F} (solve : mat F -> vec F -> vec F) (p : nat)
    (xtx : mat F) (xty : vec F) (alphas : list F) :
  (forall m m' v, (forall i j, (i < p)%nat -> (j < p)%nat -> m i j = m' i j) ->
     forall i, (i < p)%nat -> solve m v i = solve m' v i) ->
  alphas <> [] ->
  (forall a, In a alphas -> let m := fun k l => xtx k l + (if (k =? l)%nat then a else 0) in
     forall i, (i < p)%nat -> matvec p m (solve m xty) i = xty i) ->
  exists cs m, solver_ridge solve xtx xty alphas = Ok (cs, m) /\ (forall i j, m i j = xtx i j) /\
    length cs = length alphas /\
    forall k a c, nth_error alphas k = Some a -> nth_error cs k = Some c ->
      forall i, (i < p)%nat -> sumn p (fun j => xtx i j * c j) + a * c i = xty i.
Proof. exact (fun H => ridge_solves solve p H xtx xty alphas). Qed.
Print Assumptions C11_ridge.

(** Without any penalty there is nothing to return and the name [alpha] is unbound. *)
Theorem C11_no_penalty {F} {N : Num F} (solve : mat F -> vec F -> vec F) (xtx : mat F) (xty : vec F) :
  solver_ridge solve xtx xty [] = Err UnboundLocalError.
Proof. exact eq_refl. Qed.
Print Assumptions C11_no_penalty.

(** A 1 x 1 system, penalties 1 and 3 in a row: 12 / (1 + 1), 12 / (1 + 3). *)
Module Example.
  Definition z (n : Z) : Qc := Q2Qc (Qmake n 1).
  Definition solve (m : mat Qc) (v : vec Qc) : vec Qc := fun i => v i / m i i.
  Lemma meets : (forall m m' v, (forall i j, (i < 1)%nat -> (j < 1)%nat -> m i j = m' i j) ->
     forall i, (i < 1)%nat -> solve m v i = solve m' v i).
  Proof. intros m m' v H i Hi. unfold solve. now rewrite H. Qed.
  Lemma solves : forall a, In a [z 1; z 3] -> let m := fun k l => z 1 + (if (k =? l)%nat then a else 0) in
     forall i, (i < 1)%nat -> matvec 1 m (solve m (fun _ => z 12)) i = z 12.
  Proof. intros a [<-|[<-|[]]] m i Hi; (destruct i; [|lia]); vm_compute; reflexivity. Qed.
  Lemma value : match solver_ridge solve (fun _ _ => z 1) (fun _ => z 12) [z 1; z 3] with
    | Ok (cs, m) => map (fun c => this (c 0%nat)) cs = [6; 3]%Q /\ this (m 0%nat 0%nat) = 1%Q | Err _ => False end.
  Proof. vm_compute. split; reflexivity. Qed.
End Example.
