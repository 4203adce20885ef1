(** Gradient of the enthalpy. *)
From Verif Require Import Base Num NumR Model.Neighbor Model.StructureUtils Model.Tensor Model.Optimize Spec.Optimize Proofs.HalfFull Proofs.Positions Proofs.Tensor Proofs.Composition Proofs.FC2.
From Coq Require Import Reals Lra FunctionalExtensionality.
From Coquelicot Require Import Coquelicot.
Local Open Scope R_scope.

Lemma ok_inj {A} (a b : A) : Ok a = Ok b -> a = b. Proof. congruence. Qed.
Lemma sumR3 (f : nat -> R) : sumn 3 f = f 0%nat + f 1%nat + f 2%nat.
Proof. exact (sum3 (F:=R) f). Qed.
Lemma sumR_ext m (f g : nat -> R) : (forall i, (i < m)%nat -> f i = g i) -> sumn m f = sumn m g.
Proof. intros H. exact (sumn_ext (F:=R) m f g H). Qed.
Lemma sumR_split3 n (f : nat -> R) : sumn (3 * n) f = sumn n (fun a => sumn 3 (fun i => f (3 * a + i)%nat)).
Proof. exact (sumn_split3 (F:=R) n f). Qed.

Lemma det_line A H : det3 A <> 0 -> is_derive (fun t => det3 (madd A H t)) 0 (det3 A * sumn 3 (fun a => mmul H (inv3 A) a a)).
Proof.
  intros D. unfold det3, madd, ent. cbn [nadd nmul nsub R_num]. auto_derive; [exact I|].
  unfold mmul. rewrite !sumR3. cbn [nmul R_num]. unfold inv3, cofactor. cbn -[Rmult Rplus Rminus Rdiv det3].
  unfold det3, ent in *. cbn [nadd nmul nsub ndiv R_num] in *. field. exact D.
Qed.

Section Gradient.
  Variable n : nat.
  Variable eval : mat R -> mat R -> R * mat R * list R.
  Hypothesis HD : derivative_forces n eval.
  (** Derivative of the enthalpy along any direction of cell and positions. *)
  Lemma enthalpy_line p A f H u : det3 A <> 0 ->
    is_derive (fun t => enthalpy eval p (madd A H t) (madd f u t)) 0
      (- sumn 3 (fun a => sumn 3 (fun b => tensor_of (S_ eval A f) a b * mmul H (inv3 A) a b)) - sumn n (fun i => sumn 3 (fun a => F_ eval A f a i * sumn 3 (fun k => A a k * u k i))) +
       p * (det3 A * sumn 3 (fun a => mmul H (inv3 A) a a))).
  Proof.
    intros D. unfold enthalpy. apply (is_derive_plus (V:=R_NormedModule)); [now apply HD|].
    apply (is_derive_scal (fun t => det3 (madd A H t)) 0 p). now apply det_line.
  Qed.
End Gradient.

(** Sums of the gradient against a direction. *)
Lemma basis_dot p m (B : mat R) (D d : vec R) : sumn m (fun j => sumn p (fun q => B q j * D q) * d j) = sumn p (fun q => D q * matvec m B d q).
Proof.
  transitivity (sumn m (fun j => sumn p (fun q => B q j * D q * d j))).
  - apply sumR_ext. intros j _. symmetry. apply sumnR_scale_r.
  - rewrite sumnR_swap. apply sumR_ext. intros q _. unfold matvec, dot. etransitivity; [|apply sumnR_scale]. apply sumR_ext. intros j _. cbn [nmul R_num]. ring.
Qed.
Lemma div3 a k : (k < 3)%nat -> ((3 * a + k) / 3)%nat = a. Proof. intros H. rewrite (Nat.mul_comm 3). rewrite Nat.div_add_l by lia. rewrite Nat.div_small by lia. lia. Qed.
Lemma mod3 a k : (k < 3)%nat -> ((3 * a + k) mod 3)%nat = k. Proof. intros H. rewrite Nat.add_comm, (Nat.mul_comm 3), Nat.mod_add by lia. now apply Nat.mod_small. Qed.

Section Jac.
  Variable c : oconfig.
  Variable eval : mat R -> mat R -> R * mat R * list R.
  Hypothesis HP : periodic eval.
  (** Unrefined positions. *)
  Definition raw_pos (pos : mat R) (x : vec R) : mat R := fun k i => if c_positions c then c_pos0 c k i + matvec (c_nf c) (c_basis_f c) x (3 * i + k)%nat else pos k i.
  Lemma eval_fix st x : eval (o_axis (to_structure_fix_cell c st x)) (o_pos (to_structure_fix_cell c st x)) = eval (o_axis st) (raw_pos (o_pos st) x).
  Proof.
    symmetry. unfold to_structure_fix_cell, raw_pos. destruct (c_positions c).
    - cbn [o_axis o_pos]. apply HP. intros k i. destruct (refine1_int (c_tol c) (c_pos0 c k i + matvec (c_nf c) (c_basis_f c) x (3 * i + k)%nat)) as [z E]. exists (- z)%Z. rewrite opp_IZR, E. ring.
    - apply HP. intros k i. exists 0%Z. cbn. ring.
  Qed.
  Lemma fix_axis st x : o_axis (to_structure_fix_cell c st x) = o_axis st /\ o_inv (to_structure_fix_cell c st x) = o_inv st /\ o_volume (to_structure_fix_cell c st x) = o_volume st.
  Proof. unfold to_structure_fix_cell. destruct (c_positions c); cbn; auto. Qed.
  (** The position part of the gradient against a direction. *)
  Lemma jac_fix_dot st f g d : o_force st = Some f -> jac_fix_cell c st = Ok g ->
    sumn (size_pos c) (fun j => g j * d j) = - sumn (c_atoms c) (fun i => sumn 3 (fun a => f a i * sumn 3 (fun k => o_axis st a k * (if c_positions c then matvec (c_nf c) (c_basis_f c) d (3 * i + k)%nat else 0)))).
  Proof.
    unfold jac_fix_cell, size_pos. intros EF. rewrite EF. destruct (c_positions c).
    - intros E. apply ok_inj in E. subst g. rewrite basis_dot. rewrite sumR_split3.
      transitivity (sumn (c_atoms c) (fun i => -1 * sumn 3 (fun a => f a i * sumn 3 (fun k => o_axis st a k * matvec (c_nf c) (c_basis_f c) d (3 * i + k)%nat)))).
      + apply sumR_ext. intros i _.
        transitivity (sumn 3 (fun k => sumn 3 (fun a => - f a i * o_axis st a k) * matvec (c_nf c) (c_basis_f c) d (3 * i + k)%nat)).
        * apply sumR_ext. intros k Hk. now rewrite div3, mod3.
        * generalize (matvec (c_nf c) (c_basis_f c) d). intros w. rewrite !sumR3. ring.
      + rewrite sumnR_scale. ring.
    - intros E. apply ok_inj in E. subst g. change (sumn 0 (fun j => 0 * d j)) with 0. transitivity (- sumn (c_atoms c) (fun i => 0 * 0)).
      + rewrite sumnR_scale. ring.
      + f_equal. apply sumR_ext. intros i _. rewrite !sumR3. ring.
  Qed.
  (** The cell part. *)
  Lemma jac_axis_dot st s d v : c_cell c = true -> o_stress st = Some s -> derivatives_by_axis c st = Ok d ->
    let H := fun a k => matvec (c_na c) (c_basis_axis c) v (3 * a + k)%nat in
    sumn (c_na c) (fun j => d j * v j) = - sumn 3 (fun a => sumn 3 (fun b => tensor_of s a b * mmul H (o_inv st) a b)) + c_pressure c * o_volume st / c_EVtoGPa c * sumn 3 (fun a => mmul H (o_inv st) a a).
  Proof.
    intros EC ES. unfold derivatives_by_axis. rewrite ES, EC. intros E. apply ok_inj in E. subst d. set (H := fun a k => matvec (c_na c) (c_basis_axis c) v (3 * a + k)%nat). rewrite basis_dot.
    change 9%nat with (3 * 3)%nat. rewrite sumR_split3.
    transitivity (sumn 3 (fun a => sumn 3 (fun k => sumn 3 (fun b => - rows3 [nth 0 s 0 - c_pressure c * o_volume st / c_EVtoGPa c; nth 3 s 0; nth 5 s 0] [nth 3 s 0; nth 1 s 0 - c_pressure c * o_volume st / c_EVtoGPa c; nth 4 s 0] [nth 5 s 0; nth 4 s 0; nth 2 s 0 - c_pressure c * o_volume st / c_EVtoGPa c] a b * o_inv st k b) * H a k))).
    - apply sumR_ext. intros a _. apply sumR_ext. intros k Hk. now rewrite div3, mod3.
    - unfold mmul, tensor_of, rows3. generalize H, (o_inv st), (c_pressure c * o_volume st / c_EVtoGPa c). clear. intros H J pv.
      rewrite !sumR3. cbn [nth]. cbn [nmul nadd n0 R_num]. ring.
  Qed.
End Jac.
Lemma sumR_app p q (f : nat -> R) : sumn (p + q) f = sumn p f + sumn q (fun j => f (p + j)%nat).
Proof. unfold sumn. rewrite seq_app. etransitivity; [exact (nsumf_app (F:=R) f _ _)|]. cbn [nadd R_num]. f_equal. transitivity (nsumf f (map (fun j => (p + j)%nat) (seq 0 q))); [|exact (nsumf_map (F:=R) _ f (seq 0 q))]. f_equal. clear. generalize 0%nat as s. induction q as [|q IH]; intros s; cbn; [reflexivity|]. f_equal; [lia|]. apply (IH (S s)). Qed.
