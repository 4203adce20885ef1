(** C40: the gradient given to the optimiser. *)
From Verif Require Import Base Num NumR Model.Neighbor Model.StructureUtils Model.Tensor Model.Optimize Spec.Optimize Proofs.HalfFull Proofs.Positions Proofs.Tensor Proofs.Composition Proofs.Optimize.
From Coq Require Import Reals Lra FunctionalExtensionality.
From Coquelicot Require Import Coquelicot.
Local Open Scope R_scope.

(** Cell and fractional positions described by the variables x; [pos] are the positions when they are not relaxed. *)
Definition cell_at (c : oconfig) (x : vec R) : mat R := fun a k => sumn (c_na c) (fun j => c_basis_axis c (3 * a + k)%nat j * x (size_pos c + j)%nat).
Definition pos_at (c : oconfig) (pos : mat R) (x : vec R) : mat R := fun k i => if c_positions c then c_pos0 c k i + sumn (c_nf c) (fun j => c_basis_f c (3 * i + k)%nat j * x j) else pos k i.
Definition vline (x d : vec R) (t : R) : vec R := fun j => x j + t * d j.
Definition p_of (c : oconfig) : R := c_pressure c / c_EVtoGPa c.

Lemma matvec_line m (B : mat R) (x d : vec R) t r : matvec m B (vline x d t) r = matvec m B x r + t * matvec m B d r.
Proof.
  unfold matvec, dot, vline. transitivity (sumn m (fun j => B r j * x j + t * (B r j * d j))); [apply sumR_ext; intros j _; cbn [nmul R_num]; ring|].
  rewrite sumnR_add, sumnR_scale. reflexivity.
Qed.
Lemma cell_line c x d t : cell_at c (vline x d t) = madd (cell_at c x) (cell_at c d) t.
Proof. apply functional_extensionality. intros a. apply functional_extensionality. intros k. exact (matvec_line (c_na c) (c_basis_axis c) (fun j => x (size_pos c + j)%nat) (fun j => d (size_pos c + j)%nat) t (3 * a + k)%nat). Qed.
Definition pos_dir (c : oconfig) (d : vec R) : mat R := fun k i => if c_positions c then matvec (c_nf c) (c_basis_f c) d (3 * i + k)%nat else 0.
Lemma pos_line c pos x d t : pos_at c pos (vline x d t) = madd (pos_at c pos x) (pos_dir c d) t.
Proof.
  apply functional_extensionality. intros k. apply functional_extensionality. intros i. unfold pos_at, madd, pos_dir. destruct (c_positions c); [|ring].
  change (sumn (c_nf c) (fun j => c_basis_f c (3 * i + k)%nat j * vline x d t j)) with (matvec (c_nf c) (c_basis_f c) (vline x d t) (3 * i + k)%nat). rewrite matvec_line. unfold matvec, dot. cbn [nmul R_num]. ring.
Qed.
Lemma pos_raw c pos x : pos_at c pos x = raw_pos c pos x. Proof. reflexivity. Qed.

(** Relaxing the cell shape (and the positions, if chosen): whatever happened before, a successful call of the objective
    at x returns the enthalpy of the cell and positions at x, and the gradient supplied next is its derivative in every
    direction of the variables. *)
Theorem C40_cell c eval st x st' v : derivative_forces (c_atoms c) eval -> periodic eval -> c_cell c = true ->
  fun_relax_cell c eval st x = Ok (st', v) -> det3 (cell_at c x) <> 0 ->
  let pos := o_pos st in
  exists g, jac_relax_cell c st' = Ok g /\ v = enthalpy eval (p_of c) (cell_at c x) (pos_at c pos x) /\
    forall d, is_derive (fun t => enthalpy eval (p_of c) (cell_at c (vline x d t)) (pos_at c pos (vline x d t))) 0 (sumn (size_pos c + c_na c) (fun j => g j * d j)).
Proof.
  intros HD HP EC HF D pos. unfold fun_relax_cell in HF.
  assert (TS : to_structure_relax_cell c st x = to_structure_fix_cell c (change_axis st (cell_at c x)) x) by (unfold to_structure_relax_cell; rewrite EC; reflexivity).
  destruct (fix_axis c (change_axis st (cell_at c x)) x) as [EA [EI EV]]. rewrite <- TS in EA, EI, EV. cbn [change_axis o_axis o_inv o_volume] in EA, EI, EV.
  pose proof (eval_fix c eval HP (change_axis st (cell_at c x)) x) as EE. rewrite <- TS in EE. cbn [change_axis o_axis o_pos] in EE. rewrite <- pos_raw in EE. fold pos in EE.
  revert HF. cbn zeta. rewrite EE. destruct (eval (cell_at c x) (pos_at c pos x)) as [[e f] s] eqn:EV0.
  destruct (_ || _)%bool; [discriminate|]. intros HF. apply ok_inj in HF.
  assert (ES : st' = mk_ostate (o_axis (to_structure_relax_cell c st x)) (o_inv (to_structure_relax_cell c st x)) (o_volume (to_structure_relax_cell c st x)) (o_pos (to_structure_relax_cell c st x)) (Some f) (Some s)) by congruence.
  assert (Ev : v = e + c_pressure c * det3 (cell_at c x) / c_EVtoGPa c) by (rewrite <- EV; congruence). clear HF.
  rewrite EA, EI, EV in ES.
  destruct (jac_fix_cell c st') as [g1|] eqn:E1; [|subst st'; unfold jac_fix_cell in E1; cbn in E1; destruct (c_positions c); discriminate].
  destruct (derivatives_by_axis c st') as [g2|] eqn:E2; [|subst st'; unfold derivatives_by_axis in E2; cbn [o_stress] in E2; destruct (c_cell c); discriminate].
  exists (fun j => if (j <? size_pos c)%nat then g1 j else g2 (j - size_pos c)%nat).
  split; [unfold jac_relax_cell; now rewrite E1, E2|].
  split; [rewrite Ev; unfold enthalpy, E_; rewrite EV0; cbn [fst]; unfold p_of, Rdiv; ring|].
  intros d. eapply is_derive_ext; [intros t; rewrite cell_line, pos_line; reflexivity|].
  assert (EF : o_force st' = Some f) by (subst st'; reflexivity). assert (ESt : o_stress st' = Some s) by (subst st'; reflexivity).
  rewrite sumR_app.
  replace (sumn (size_pos c) (fun j => (if (j <? size_pos c)%nat then g1 j else g2 (j - size_pos c)%nat) * d j)) with (sumn (size_pos c) (fun j => g1 j * d j)) by (apply sumR_ext; intros j Hj; apply Nat.ltb_lt in Hj; now rewrite Hj).
  replace (sumn (c_na c) (fun j => (if (size_pos c + j <? size_pos c)%nat then g1 (size_pos c + j)%nat else g2 (size_pos c + j - size_pos c)%nat) * d (size_pos c + j)%nat)) with (sumn (c_na c) (fun j => g2 j * d (size_pos c + j)%nat)).
  2:{ apply sumR_ext. intros j _. replace (size_pos c + j <? size_pos c)%nat with false by (symmetry; apply Nat.ltb_ge; lia). now replace (size_pos c + j - size_pos c)%nat with j by lia. }
  rewrite (jac_fix_dot c st' f g1 d EF E1).
  rewrite (jac_axis_dot c st' s g2 (fun j => d (size_pos c + j)%nat) EC ESt E2).
  pose proof (enthalpy_line (c_atoms c) eval HD (p_of c) (cell_at c x) (pos_at c pos x) (cell_at c d) (pos_dir c d) D) as HL.
  unfold S_, F_ in HL. rewrite EV0 in HL. cbn [fst snd] in HL.
  assert (Ax : o_axis st' = cell_at c x) by now subst st'. assert (Iv : o_inv st' = inv3 (cell_at c x)) by now subst st'. assert (Vo : o_volume st' = det3 (cell_at c x)) by now subst st'.
  rewrite Ax, Iv, Vo. change (fun a k => matvec (c_na c) (c_basis_axis c) (fun j => d (size_pos c + j)%nat) (3 * a + k)%nat) with (cell_at c d).
  match type of HL with is_derive _ _ ?l => match goal with |- is_derive _ _ ?r => replace r with l; [exact HL|] end end.
  unfold pos_dir, p_of, Rdiv. ring.
Qed.
Print Assumptions C40_cell.
(** Fixed cell: positions only. *)
Theorem C40_positions c eval st x st' v : derivative_forces (c_atoms c) eval -> periodic eval -> det3 (o_axis st) <> 0 -> o_volume st = det3 (o_axis st) ->
  fun_fix_cell c eval st x = Ok (st', v) ->
  exists g, jac_fix_cell c st' = Ok g /\ v = enthalpy eval (p_of c) (o_axis st) (pos_at c (o_pos st) x) /\
    forall d, is_derive (fun t => enthalpy eval (p_of c) (o_axis st) (pos_at c (o_pos st) (vline x d t))) 0 (sumn (size_pos c) (fun j => g j * d j)).
Proof.
  intros HD HP D EV HF. unfold fun_fix_cell in HF. revert HF. cbn zeta. rewrite (eval_fix c eval HP st x). rewrite <- pos_raw.
  destruct (fix_axis c st x) as [EA [_ EVo]]. rewrite EA, EVo. destruct (eval (o_axis st) (pos_at c (o_pos st) x)) as [[e f] s] eqn:EV0. destruct (Rltb _ _); [discriminate|]. intros HF. apply ok_inj in HF.
  assert (EF : o_force st' = Some f) by (injection HF; intros; subst; reflexivity).
  assert (Ax : o_axis st' = o_axis st) by (injection HF; intros; subst; reflexivity).
  assert (Ev : v = e + c_pressure c * o_volume st / c_EVtoGPa c) by congruence. clear HF.
  destruct (jac_fix_cell c st') as [g|] eqn:E1; [|unfold jac_fix_cell in E1; rewrite EF in E1; destruct (c_positions c); discriminate].
  exists g. split; [reflexivity|]. split; [rewrite Ev, EV; unfold enthalpy, E_; rewrite EV0; cbn [fst]; unfold p_of, Rdiv; ring|].
  intros d. eapply is_derive_ext; [intros t; rewrite pos_line; reflexivity|].
  pose proof (enthalpy_line (c_atoms c) eval HD (p_of c) (o_axis st) (pos_at c (o_pos st) x) (fun _ _ => 0) (pos_dir c d) D) as HL.
  unfold S_, F_ in HL. rewrite EV0 in HL. cbn [fst snd] in HL.
  eapply is_derive_ext in HL; [|intros t; replace (madd (o_axis st) (fun _ _ => 0) t) with (o_axis st) by (apply functional_extensionality; intros a; apply functional_extensionality; intros k; unfold madd; ring); reflexivity].
  rewrite (jac_fix_dot c st' f g d EF E1), Ax.
  match type of HL with is_derive _ _ ?l => match goal with |- is_derive _ _ ?r => replace r with l; [exact HL|] end end.
  unfold pos_dir, mmul. set (P := sumn (c_atoms c) _). clearbody P. rewrite !sumR3. cbn [nmul n0 R_num]. ring.
Qed.
Print Assumptions C40_positions.

(** Volume only: the cell keeps its shape; the supplied derivative is the volume times dH/dV. *)
Definition scaled (A : mat R) (V0 w : R) : mat R := fun a k => A a k * Rpower (w / V0) (1 / 3).
Lemma det_scaled A V0 w : det3 (scaled A V0 w) = det3 A * (Rpower (w / V0) (1 / 3) * Rpower (w / V0) (1 / 3) * Rpower (w / V0) (1 / 3)).
Proof. unfold scaled, det3, ent. cbn [nadd nsub nmul R_num]. ring. Qed.
Lemma cube z : 0 < z -> Rpower z (1 / 3) * Rpower z (1 / 3) * Rpower z (1 / 3) = z.
Proof. intros Hz. rewrite <- !Rpower_plus. replace (1 / 3 + 1 / 3 + 1 / 3) with 1 by field. now apply Rpower_1. Qed.
Lemma det_scaled_eq A w : 0 < det3 A -> 0 < w -> det3 (scaled A (det3 A) w) = w.
Proof. intros HA Hw. rewrite det_scaled, cube by now apply Rdiv_lt_0_compat. field. lra. Qed.
Lemma scaled_twice A V0 v w : 0 < V0 -> 0 < v -> 0 < w -> scaled (scaled A V0 v) v w = scaled A V0 w.
Proof.
  intros H0 Hv Hw. apply functional_extensionality. intros a. apply functional_extensionality. intros k. unfold scaled. rewrite Rmult_assoc. f_equal.
  rewrite Rpower_mult_distr by (apply Rdiv_lt_0_compat; assumption). f_equal. field. lra.
Qed.
Theorem C40_volume c eval st x st' v : derivative_forces (c_atoms c) eval -> periodic eval -> c_cell c = false ->
  o_volume st = det3 (o_axis st) -> 0 < o_volume st -> let V := x (size_pos c) in 0 < V ->
  fun_relax_cell c eval st x = Ok (st', v) ->
  let H := fun w => enthalpy eval (p_of c) (scaled (o_axis st) (o_volume st) w) (pos_at c (o_pos st) x) in
  det3 (scaled (o_axis st) (o_volume st) V) = V /\ v = H V /\
  exists g, jac_relax_cell c st' = Ok g /\ is_derive H V (g (size_pos c) / V).
Proof.
  intros HD HP EC EVo HVo V HV HF H. set (A := scaled (o_axis st) (o_volume st) V).
  assert (DA : det3 A = V) by (unfold A; rewrite EVo; apply det_scaled_eq; [now rewrite <- EVo|exact HV]).
  split; [exact DA|].
  assert (TS : to_structure_relax_cell c st x = to_structure_fix_cell c (change_axis st A) x).
  { unfold to_structure_relax_cell. rewrite EC. unfold x_axis. rewrite Nat.add_0_r. reflexivity. }
  unfold fun_relax_cell in HF. revert HF. cbn zeta. rewrite TS. rewrite (eval_fix c eval HP (change_axis st A) x).
  destruct (fix_axis c (change_axis st A) x) as [EA [EI EVl]]. rewrite EA, EI, EVl. cbn [o_axis o_inv o_volume o_pos change_axis]. rewrite <- pos_raw.
  destruct (eval A (pos_at c (o_pos st) x)) as [[e f] s] eqn:EV0. destruct (_ || _)%bool; [discriminate|]. intros HF. apply ok_inj in HF.
  assert (EF : o_force st' = Some f) by (injection HF; intros; subst; reflexivity).
  assert (ES : o_stress st' = Some s) by (injection HF; intros; subst; reflexivity).
  assert (Vo : o_volume st' = V) by (rewrite <- DA; injection HF; intros; subst; reflexivity).
  assert (Ev : v = e + c_pressure c * V / c_EVtoGPa c) by (rewrite <- DA at 1; congruence). clear HF.
  split; [rewrite Ev; unfold H, enthalpy, E_; fold A; rewrite EV0, DA; cbn [fst]; unfold p_of, Rdiv; ring|].
  destruct (jac_fix_cell c st') as [g1|] eqn:E1; [|unfold jac_fix_cell in E1; rewrite EF in E1; destruct (c_positions c); discriminate].
  destruct (derivatives_by_axis c st') as [g2|] eqn:E2; [|unfold derivatives_by_axis in E2; rewrite ES, EC in E2; discriminate].
  exists (fun j => if (j <? size_pos c)%nat then g1 j else g2 (j - size_pos c)%nat).
  split; [unfold jac_relax_cell; now rewrite E1, E2|]. rewrite Nat.ltb_irrefl, Nat.sub_diag.
  unfold derivatives_by_axis in E2. rewrite ES, EC in E2. apply ok_inj in E2. subst g2.
  pose proof (enthalpy_line (c_atoms c) eval HD (p_of c) A (pos_at c (o_pos st) x) A (fun _ _ => 0)) as HL.
  rewrite DA in HL. specialize (HL ltac:(lra)). unfold S_, F_ in HL. rewrite EV0 in HL. cbn [fst snd] in HL.
  pose (phi := fun w => Rpower (w / V) (1 / 3) - 1).
  assert (P0 : phi V = 0). { unfold phi. replace (V / V) with 1 by (field; lra). unfold Rpower. rewrite ln_1, Rmult_0_r, exp_0. ring. }
  assert (P1 : is_derive phi V (/ (3 * V))).
  { unfold phi, Rpower. auto_derive; [|]; replace (V * / V) with 1 by (field; lra). lra. rewrite ln_1, Rmult_0_r, exp_0. field. lra. }
  apply is_derive_ext_loc with (f := fun w => enthalpy eval (p_of c) (madd A A (phi w)) (madd (pos_at c (o_pos st) x) (fun _ _ => 0) (phi w))).
  { exists (mkposreal V HV). intros w Hw. unfold H. f_equal.
    - apply functional_extensionality. intros a. apply functional_extensionality. intros k.
      assert (Pw : 0 < w). { apply Rabs_lt_between' in Hw. cbn in Hw. lra. }
      rewrite <- (scaled_twice (o_axis st) (o_volume st) V w) by assumption. unfold madd, phi, A, scaled. ring.
    - apply functional_extensionality. intros k. apply functional_extensionality. intros i. unfold madd. ring. }
  assert (HL' : forall (h : R -> R) l, is_derive h 0 l -> is_derive h (phi V) l) by (intros h l Hh; now rewrite P0). apply HL' in HL. clear HL'.
  pose proof (is_derive_comp (fun t => enthalpy eval (p_of c) (madd A A t) (madd (pos_at c (o_pos st) x) (fun _ _ => 0) t)) phi V _ _ HL P1) as HC.
  match type of HC with is_derive _ _ ?l => match goal with |- is_derive _ _ ?r => replace r with l; [exact HC|] end end.
  assert (HI : eq3 (mmul A (inv3 A)) eye) by (apply (inv3_r (F:=R)); rewrite DA; cbn; lra).
  assert (HX : forall a b, (a < 3)%nat -> (b < 3)%nat -> mmul A (inv3 A) a b = if (a =? b)%nat then 1 else 0) by exact HI.
  cbn [scal ModuleSpace.scal]. change (scal ?a ?b) with (a * b).
  replace (sumn (c_atoms c) (fun i => sumn 3 (fun a => f a i * sumn 3 (fun k => A a k * 0)))) with 0.
  2:{ symmetry. transitivity (sumn (c_atoms c) (fun i => 0 * 0)); [|rewrite sumnR_scale; ring]. apply sumR_ext. intros i _. rewrite !sumR3. ring. }
  rewrite !sumR3. rewrite !HX by lia. rewrite Vo. unfold tensor_of, rows3. cbn [Nat.eqb nth n0 R_num]. unfold p_of, Rdiv. generalize (/ c_EVtoGPa c). intros q. clear - HV. clearbody V.
  match goal with |- @eq _ ?a ?b => change (@eq R a b) end. field. lra.
Qed.
Print Assumptions C40_volume.

(** The gradient does not look at its argument: after any calls, it belongs to the point of the last call of the
    objective, however many gradients were asked for at other points. *)
Lemma calls_app c eval r st qs rs : calls c eval r st (qs ++ rs) = do st' <- calls c eval r st qs; calls c eval r st' rs.
Proof. revert st. induction qs as [|q qs IH]; intros st; cbn [app calls]; [reflexivity|]. destruct (step c eval r st q); cbn [bind]; [apply IH|reflexivity]. Qed.
Lemma calls_jac c eval r st ys st' : calls c eval r st (map Jac ys) = Ok st' -> st' = st.
Proof.
  revert st. induction ys as [|y ys IH]; intros st; cbn [map calls]; [congruence|]. cbn [step].
  destruct (if r then _ else _); cbn [bind]; [apply IH|discriminate].
Qed.
Theorem C40_history c eval st qs x ys st' : derivative_forces (c_atoms c) eval -> periodic eval -> c_cell c = true -> det3 (cell_at c x) <> 0 ->
  calls c eval true st (qs ++ Fun x :: map Jac ys) = Ok st' ->
  exists g pos, jac_relax_cell c st' = Ok g /\
    forall d, is_derive (fun t => enthalpy eval (p_of c) (cell_at c (vline x d t)) (pos_at c pos (vline x d t))) 0 (sumn (size_pos c + c_na c) (fun j => g j * d j)).
Proof.
  intros HD HP EC D HC. rewrite calls_app in HC. destruct (calls c eval true st qs) as [st1|]; cbn [bind] in HC; [|discriminate].
  cbn [calls step] in HC. destruct (fun_relax_cell c eval st1 x) as [[st2 v]|] eqn:EF; cbn [bind fst] in HC; [|discriminate].
  apply calls_jac in HC. subst st'. destruct (C40_cell c eval st1 x st2 v HD HP EC EF D) as [g [E [_ G]]]. exists g, (o_pos st1). now split.
Qed.
Print Assumptions C40_history.
(** Asking for the gradient before the objective fails. *)
Theorem C40_jac_first c eval st x : o_force st = None -> o_stress st = None -> exists e, calls c eval true st (Jac x :: nil) = Err e.
Proof. intros EF ES. cbn [calls step]. unfold jac_relax_cell, jac_fix_cell, derivatives_by_axis. rewrite EF, ES. destruct (c_positions c); cbn; eauto. Qed.
Print Assumptions C40_jac_first.
(** Volume only: the cell depends on the volume reached, not on the way. *)
Theorem C40_volume_path c eval st qs st' : c_cell c = false -> o_volume st = det3 (o_axis st) -> 0 < o_volume st ->
  (forall x, In (Fun x) qs -> 0 < x (size_pos c)) -> calls c eval true st qs = Ok st' ->
  o_axis st' = scaled (o_axis st) (o_volume st) (o_volume st') /\ o_volume st' = det3 (o_axis st') /\ 0 < o_volume st'.
Proof.
  intros EC. remember (o_axis st) as A0. remember (o_volume st) as V0. intros EV HV HX.
  assert (G : o_axis st = scaled A0 V0 (o_volume st) /\ o_volume st = det3 (o_axis st) /\ 0 < o_volume st).
  { rewrite <- HeqA0, <- HeqV0. split; [|now split]. apply functional_extensionality. intros a. apply functional_extensionality. intros k. unfold scaled. replace (V0 / V0) with 1 by (field; lra). unfold Rpower. rewrite ln_1, Rmult_0_r, exp_0. ring. }
  clear HeqA0 HeqV0. revert st G. induction qs as [|q qs IH]; intros st G; cbn [calls]; [intros HC; apply ok_inj in HC; now subst|].
  destruct (step c eval true st q) as [st1|] eqn:E; cbn [bind]; [|discriminate]. apply IH; [intros x Hx; apply HX; now right|].
  destruct q as [x|x]; cbn [step] in E.
  - destruct (fun_relax_cell c eval st x) as [[st2 v]|] eqn:EF; cbn [bind fst] in E; [|discriminate]. apply ok_inj in E. subst st1.
    destruct G as [GA [GV GP]]. assert (Hx : 0 < x (size_pos c)) by (apply HX; now left). set (A := scaled (o_axis st) (o_volume st) (x (size_pos c))).
    assert (DA : det3 A = x (size_pos c)) by (unfold A; rewrite GV; apply det_scaled_eq; [now rewrite <- GV|exact Hx]).
    assert (TS : to_structure_relax_cell c st x = to_structure_fix_cell c (change_axis st A) x).
    { unfold to_structure_relax_cell. rewrite EC. unfold x_axis. rewrite Nat.add_0_r. reflexivity. }
    revert EF. unfold fun_relax_cell. cbn zeta. rewrite TS. destruct (fix_axis c (change_axis st A) x) as [EA [_ EVl]]. rewrite EA, EVl. cbn [change_axis o_axis o_volume].
    destruct (eval A _) as [[e f] s]. destruct (_ || _)%bool; [discriminate|]. intros EF. apply ok_inj in EF.
    assert (Ax : o_axis st2 = A) by (injection EF; intros; subst; reflexivity).
    assert (Vo : o_volume st2 = det3 A) by (injection EF; intros; subst; reflexivity).
    rewrite Ax, Vo. split; [|split; [reflexivity|now rewrite DA]]. rewrite DA. unfold A. rewrite GA at 1. now apply scaled_twice.
  - destruct (jac_relax_cell c st); cbn [bind] in E; [|discriminate]. apply ok_inj in E. now subst.
Qed.
Print Assumptions C40_volume_path.

(** A crystal with one atom: elastic energy of the cell and a periodic potential for the atom's first coordinate. *)
Definition toy (A f : mat R) : R * mat R * list R :=
  (sumn 3 (fun a => sumn 3 (fun k => A a k * A a k)) / 2 + cos (2 * PI * f 0%nat 0%nat),
   fun a i => if (i =? 0)%nat then 2 * PI * sin (2 * PI * f 0%nat 0%nat) * inv3 A 0%nat a else 0,
   six_of (fun a b => - mmul A (trans A) a b)).
Lemma cos_sin_Z x (z : Z) : cos (2 * PI * (x + IZR z)) = cos (2 * PI * x) /\ sin (2 * PI * (x + IZR z)) = sin (2 * PI * x).
Proof.
  assert (N : forall (y : R) (n : nat), cos (2 * PI * (y + INR n)) = cos (2 * PI * y) /\ sin (2 * PI * (y + INR n)) = sin (2 * PI * y)).
  { intros y n. replace (2 * PI * (y + INR n)) with (2 * PI * y + 2 * INR n * PI) by ring. now rewrite cos_period, sin_period. }
  destruct (Z_le_gt_dec 0 z) as [Hz|Hz].
  - rewrite <- (Z2Nat.id z Hz), <- INR_IZR_INZ. apply N.
  - destruct (N (x + IZR z) (Z.to_nat (- z))) as [E1 E2]. rewrite INR_IZR_INZ, Z2Nat.id in E1, E2 by lia. rewrite opp_IZR in E1, E2.
    replace (x + IZR z + - IZR z) with x in E1, E2 by ring. now split.
Qed.
Lemma sumR1 (f : nat -> R) : sumn 1 f = f 0%nat. Proof. unfold sumn. cbn. ring. Qed.
Lemma toy_periodic : periodic toy.
Proof.
  intros A f g H. destruct (H 0%nat 0%nat) as [z E]. unfold toy. rewrite E. destruct (cos_sin_Z (f 0%nat 0%nat) z) as [-> Es]. repeat f_equal.
  apply functional_extensionality. intros a. apply functional_extensionality. intros i. now rewrite Es.
Qed.
Lemma toy_derivative : derivative_forces 1 toy.
Proof.
  intros A f H u D. unfold E_, F_, S_, toy. cbn [fst snd].
  assert (HI : forall m k, (m < 3)%nat -> (k < 3)%nat -> mmul (inv3 A) A m k = if (m =? k)%nat then 1 else 0) by exact (inv3_l (F:=R) A D).
  set (s2 := sin (2 * PI * f 0%nat 0%nat)).
  replace (- sumn 3 (fun a => sumn 3 (fun b => tensor_of (six_of (fun a b => - mmul A (trans A) a b)) a b * mmul H (inv3 A) a b)))
    with (sumn 3 (fun a => sumn 3 (fun m => sumn 3 (fun k => H a m * A a k * mmul (inv3 A) A m k)))).
  2:{ unfold mmul, trans, tensor_of, six_of, rows3. rewrite !sumR3. cbn [nth n0 nmul R_num]. generalize (inv3 A). clear. intros J. ring. }
  replace (sumn 1 (fun i => sumn 3 (fun a => (if (i =? 0)%nat then 2 * PI * s2 * inv3 A 0%nat a else 0) * sumn 3 (fun k => A a k * u k i))))
    with (2 * PI * s2 * sumn 3 (fun k => mmul (inv3 A) A 0%nat k * u k 0%nat)).
  2:{ rewrite sumR1. cbn [Nat.eqb]. unfold mmul. rewrite !sumR3. cbn [nmul R_num]. ring. }
  rewrite !sumR3. rewrite !HI by lia. cbn [Nat.eqb].
  apply is_derive_ext with (f := fun t => (((ent A 0 0 + t * ent H 0 0) * (ent A 0 0 + t * ent H 0 0) + (ent A 0 1 + t * ent H 0 1) * (ent A 0 1 + t * ent H 0 1) + (ent A 0 2 + t * ent H 0 2) * (ent A 0 2 + t * ent H 0 2) +
     ((ent A 1 0 + t * ent H 1 0) * (ent A 1 0 + t * ent H 1 0) + (ent A 1 1 + t * ent H 1 1) * (ent A 1 1 + t * ent H 1 1) + (ent A 1 2 + t * ent H 1 2) * (ent A 1 2 + t * ent H 1 2)) +
     ((ent A 2 0 + t * ent H 2 0) * (ent A 2 0 + t * ent H 2 0) + (ent A 2 1 + t * ent H 2 1) * (ent A 2 1 + t * ent H 2 1) + (ent A 2 2 + t * ent H 2 2) * (ent A 2 2 + t * ent H 2 2))) / 2 + cos (2 * PI * (ent f 0 0 + t * ent u 0 0)))).
  - intros t. rewrite !sumR3. reflexivity.
  - unfold ent. auto_derive; [exact I|]. unfold s2. rewrite !Rmult_0_l, !Rplus_0_r. field.
Qed.
Definition toy_config (cell : bool) : oconfig := mk_oconfig cell true 1 3 9 eye eye (fun _ _ => 0) 1 160 (1 / 1000).
Definition toy_state : ostate := mk_ostate eye eye 1 (fun _ _ => 0) None None.
(** Cell diag(2,1,1), first coordinate of the atom 1/8. *)
Definition toy_x : vec R := fun j => nth j [1 / 8; 0; 0; 2; 0; 0; 0; 1; 0; 0; 0; 1] 0.
Example C40_example : derivative_forces 1 toy /\ periodic toy /\ det3 (cell_at (toy_config true) toy_x) = 2 /\ exists r, fun_relax_cell (toy_config true) toy toy_state toy_x = Ok r.
Proof.
  split; [exact toy_derivative|]. split; [exact toy_periodic|].
  assert (EC : eq3 (cell_at (toy_config true) toy_x) (rows3 [2; 0; 0] [0; 1; 0] [0; 0; 1])).
  { intros i j Hi Hj. destruct i as [|[|[|i]]]; [| | |exfalso; lia]; (destruct j as [|[|[|j]]]; [| | |exfalso; lia]); unfold cell_at; cbn; ring. }
  assert (ED : det3 (cell_at (toy_config true) toy_x) = 2).
  { etransitivity; [exact (det3_ext (F:=R) _ _ EC)|]. unfold det3, ent, rows3. cbn. ring. }
  split; [exact ED|].
  unfold fun_relax_cell. cbn zeta.
  assert (TS : to_structure_relax_cell (toy_config true) toy_state toy_x = to_structure_fix_cell (toy_config true) (change_axis toy_state (cell_at (toy_config true) toy_x)) toy_x) by reflexivity.
  destruct (fix_axis (toy_config true) (change_axis toy_state (cell_at (toy_config true) toy_x)) toy_x) as [_ [_ EV]]. rewrite <- TS in EV. cbn [change_axis o_volume] in EV.
  rewrite EV, ED. clear EV. destruct (toy _ _) as [[e f] s] eqn:ET.
  assert (HE : 0 - 1 <= e). { apply (f_equal (fun r => fst (fst r))) in ET. cbn [fst] in ET. rewrite <- ET. unfold toy. cbn [fst]. clear ET. pose proof (COS_bound (2 * PI * o_pos (to_structure_relax_cell (toy_config true) toy_state toy_x) 0%nat 0%nat)) as HB. rewrite !sumR3. generalize (o_axis (to_structure_relax_cell (toy_config true) toy_state toy_x)). intros A.
    assert (SQ : forall y : R, 0 <= y * y) by (intros y; apply Rle_0_sqr). pose proof (SQ (A 0%nat 0%nat)). pose proof (SQ (A 0%nat 1%nat)). pose proof (SQ (A 0%nat 2%nat)). pose proof (SQ (A 1%nat 0%nat)). pose proof (SQ (A 1%nat 1%nat)). pose proof (SQ (A 1%nat 2%nat)). pose proof (SQ (A 2%nat 0%nat)). pose proof (SQ (A 2%nat 1%nat)). pose proof (SQ (A 2%nat 2%nat)). lra. }
  replace (Rltb e (- 1000 * INR (c_atoms (toy_config true)))) with false by (symmetry; apply Rltb_false; cbn; lra).
  replace (Rltb 1000 (Rabs 2 / INR (c_atoms (toy_config true)))) with false by (symmetry; apply Rltb_false; rewrite Rabs_pos_eq by lra; cbn; lra).
  cbn [orb]. eexists. reflexivity.
Qed.
(** Volume only: the supplied number is not dH/dV. *)
Theorem C40_volume_refuted : exists c eval st x st' v g, derivative_forces (c_atoms c) eval /\ periodic eval /\ c_cell c = false /\ o_volume st = det3 (o_axis st) /\ fun_relax_cell c eval st x = Ok (st', v) /\ jac_relax_cell c st' = Ok g /\
  ~ is_derive (fun w => enthalpy eval (p_of c) (scaled (o_axis st) (o_volume st) w) (pos_at c (o_pos st) x)) (x (size_pos c)) (g (size_pos c)).
Proof.
  pose (ev := fun _ _ : mat R => (0, (fun _ _ : nat => 0), six_of (fun _ _ : nat => 0)) : R * mat R * list R).
  pose (c := mk_oconfig false false 1 0 0 (fun _ _ => 0) (fun _ _ => 0) (fun _ _ => 0) 1 1 (1 / 1000)). pose (x := fun _ : nat => 2).
  assert (HD : derivative_forces 1 ev).
  { intros A f H u _. unfold E_, F_, S_, ev. cbn [fst snd]. match goal with |- is_derive _ _ ?l => replace l with 0; [exact (is_derive_const (K:=R_AbsRing) (V:=R_NormedModule) 0 0)|] end.
    rewrite sumR1. unfold tensor_of, six_of, rows3. rewrite !sumR3. cbn [nth n0 R_num]. generalize (mmul H (inv3 A)). intros M. ring. }
  assert (HP : periodic ev) by (intros A f g _; reflexivity).
  assert (E1 : det3 (o_axis toy_state) = 1) by (cbn; ring).
  assert (EF : exists r, fun_relax_cell c ev toy_state x = Ok r).
  { unfold fun_relax_cell, ev. cbn zeta.
    assert (EV : o_volume (to_structure_relax_cell c toy_state x) = 2). { change (det3 (scaled eye 1 2) = 2). rewrite det_scaled, cube by lra. change (det3 eye) with (det3 (o_axis toy_state)). rewrite E1. field. }
    rewrite EV. cbn [c_atoms c INR]. replace (Rltb 0 (- 1000 * 1)) with false by (symmetry; apply Rltb_false; lra). replace (Rltb 1000 (Rabs 2 / 1)) with false by (symmetry; apply Rltb_false; rewrite Rabs_pos_eq by lra; lra). cbn [orb]. eexists. reflexivity. }
  destruct EF as [[st' v] EF].
  destruct (C40_volume c ev toy_state x st' v HD HP eq_refl (eq_sym E1) Rlt_0_1 Rlt_0_2 EF) as [_ [_ [g [EG HG]]]].
  exists c, ev, toy_state, x, st', v, g. split; [exact HD|]. split; [exact HP|]. split; [reflexivity|]. split; [exact (eq_sym E1)|]. split; [exact EF|]. split; [exact EG|]. intros HR.
  apply is_derive_unique in HG. apply is_derive_unique in HR. pose proof (eq_trans (eq_sym HG) HR) as HR'.
  assert (HX : is_derive (fun w => enthalpy ev (p_of c) (scaled (o_axis toy_state) (o_volume toy_state) w) (pos_at c (o_pos toy_state) x)) (x (size_pos c)) 1).
  { assert (EQ : forall w : R, 0 < w -> w = enthalpy ev (p_of c) (scaled (o_axis toy_state) (o_volume toy_state) w) (pos_at c (o_pos toy_state) x)).
    { intros w Hw. unfold enthalpy, E_, ev. cbn [fst]. rewrite det_scaled. change (o_volume toy_state) with 1. rewrite E1, cube by lra. unfold p_of. cbn. field. }
    change (x (size_pos c)) with 2. apply is_derive_ext_loc with (f := fun w => w); [|exact (is_derive_id (K:=R_AbsRing) 2)].
    exists (mkposreal 2 ltac:(lra)). intros w Hw. apply Rabs_lt_between' in Hw. cbn in Hw. apply EQ. lra. }
  apply is_derive_unique in HX. pose proof (eq_trans (eq_sym HX) HG) as HX'. clear - HR' HX'. change (x (size_pos c)) with 2 in *. generalize dependent (g (size_pos c)). intros y H1 H2. change (y / 2 = y) in H1. change (1 = y / 2) in H2. lra.
Qed.
Print Assumptions C40_volume_refuted.
