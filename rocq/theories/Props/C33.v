(** C33: displacements and displaced structures. *)
From Verif Require Import Base Num NumR Model.Neighbor Spec.Lattice Proofs.HalfFull Proofs.NeighborCell Proofs.Positions Model.Structure Model.StructureUtils.
From Coq Require Import Reals Lra.
Local Open Scope R_scope.

(** Shorter than half a cell in fractional coordinates. *)
Definition short (f : v3 R) : Prop := Rabs (vx f) < 1 / 2 /\ Rabs (vy f) < 1 / 2 /\ Rabs (vz f) < 1 / 2.
(** [q] is [p] moved by a lattice vector (fractional coordinates). *)
Definition moved (q p : v3 R) : Prop := exists a b c : Z, q = vadd p (V3 (IZR a) (IZR b) (IZR c)).

(** Displacing a structure and recovering the displacements returns them; the structures are otherwise the base structure.
    It also holds if the displaced positions are moved by lattice vectors (e.g. wrapped into the cell) in between. *)
Theorem C33_roundtrip (inv : cell R -> cell R) (st : structure (v3 R) (cell R) R) (disps : list (list (v3 R))) :
  (forall v, mv (axis st) (mv (inv (axis st)) v) = v) ->
  (forall d, In d disps -> length d = length (positions st) /\ forall u, In u d -> short (mv (inv (axis st)) u)) ->
  map (positions_to_disps st) (structures_from_disps inv disps st) = disps /\
  (forall s, In s (structures_from_disps inv disps st) -> axis s = axis st /\ types s = types st /\ elements s = elements st /\ n_atoms s = n_atoms st).
Proof.
  intros HI HD. split.
  - unfold structures_from_disps. rewrite map_map. transitivity (map snd (enumerate disps)).
    + apply map_ext_in. intros [i d] Hin. unfold positions_to_disps. cbn [positions set_positions axis fst snd].
      assert (Hd : In d disps) by (unfold enumerate in Hin; now apply in_combine_r in Hin). destruct (HD d Hd) as [HL HS].
      apply (disp_back inv (axis st) d (positions st)); [exact HI|exact HL|exact HS|].
      generalize (disp_positions inv (axis st) (positions st) d). induction l as [|p l IH]; constructor; [|exact IH]. exists 0%Z, 0%Z, 0%Z. destruct p. unfold vadd. cbn. f_equal; ring.
    + unfold enumerate. generalize 0%nat. induction disps as [|d disps IH]; intros k; cbn; [reflexivity|]. f_equal. apply IH. intros; apply HD; now right.
  - intros s Hs. apply in_map_iff in Hs. destruct Hs as [x [<- _]]. cbn. auto.
Qed.
Print Assumptions C33_roundtrip.
Theorem C33_wrapped (inv : cell R -> cell R) (st s s' : structure (v3 R) (cell R) R) (d : list (v3 R)) :
  (forall v, mv (axis st) (mv (inv (axis st)) v) = v) -> length d = length (positions st) -> (forall u, In u d -> short (mv (inv (axis st)) u)) ->
  structures_from_disps inv [d] st = [s] -> Forall2 moved (positions s') (positions s) -> positions_to_disps st s' = d.
Proof.
  intros HI HL HS [= <-] HM. cbn in HM. apply (disp_back inv (axis st) d (positions st)); assumption.
Qed.
Print Assumptions C33_wrapped.
(** For any two structures the recovered displacement equals the difference of the positions up to a lattice vector. *)
Theorem C33_lattice (st0 st : structure (v3 R) (cell R) R) :
  Forall2 (fun pp d => lattice (axis st0) (vsub (mv (axis st0) (vsub (fst pp) (snd pp))) d)) (combine (positions st) (positions st0)) (positions_to_disps st0 st).
Proof. apply (disp_mod (lattice (axis st0))). intros a b c. now exists a, b, c. Qed.
Print Assumptions C33_lattice.

(** Longer displacements are not recovered: the cubic cell of edge 4 and displacement 3 gives -1. *)
Definition cube : cell R := Cell (V3 4 0 0) (V3 0 4 0) (V3 0 0 4).
Definition cube_inv (_ : cell R) : cell R := Cell (V3 (1 / 4) 0 0) (V3 0 (1 / 4) 0) (V3 0 0 (1 / 4)).
Lemma cube_ok v : mv cube (mv (cube_inv cube) v) = v.
Proof. destruct v. unfold mv, to_cartesian, cube, cube_inv, vadd, vscale. cbn. f_equal; field. Qed.
Definition base : structure (v3 R) (cell R) R := mk_structure cube [V3 0 0 0; V3 (1 / 2) (1 / 2) (1 / 2)] [2%nat] [] [0; 0]%Z 64 None.
Example C33_example : map (positions_to_disps base) (structures_from_disps cube_inv [[V3 1 0 (-1); V3 0 (-1) (3 / 2)]] base) = [[V3 1 0 (-1); V3 0 (-1) (3 / 2)]].
Proof.
  apply C33_roundtrip; [apply cube_ok|]. intros d [<-|[]]. split; [reflexivity|]. intros u [<-|[<-|[]]]; unfold short, mv, to_cartesian, cube_inv, vadd, vscale; cbn; repeat split; apply Rabs_def1; lra.
Qed.
Theorem C33_long_refuted : map (positions_to_disps base) (structures_from_disps cube_inv [[V3 3 0 0; V3 0 0 0]] base) = [[V3 (-1) 0 0; V3 0 0 0]].
Proof.
  cbn. unfold positions_to_disps. cbn [positions axis base set_positions]. unfold zip_with, disp_positions, zip_with. cbn [combine map fst snd].
  unfold cube_inv, mv, to_cartesian, vsub, vadd, vscale, cube. cbn [vx vy vz ax0 ax1 ax2 nadd nsub nmul R_num].
  repeat match goal with |- context[rint ?x] => first [rewrite (rint_near x 1) by (apply Rabs_def1; lra)|rewrite (rint_near x 0) by (apply Rabs_def1; lra)] end.
  rewrite !nz_IZR. repeat (f_equal; try lra).
Qed.
Print Assumptions C33_long_refuted.
