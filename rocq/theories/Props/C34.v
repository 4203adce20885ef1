(** C34: diagonal supercells. *)
From Verif Require Import Base Num NumR Model.Neighbor Spec.Lattice Proofs.HalfFull Proofs.NeighborCell Proofs.Positions Model.Structure Model.StructureUtils Proofs.Supercell.
From Coq Require Import Reals Lra.
Import String.StringSyntax.
Local Open Scope R_scope.

(** An image of a point: fractional coordinates shifted by integers, in Cartesian coordinates. *)
Definition image (A : cell R) (p : v3 R) (s : Z * Z * Z) : v3 R :=
  let '(a, b, c) := s in comb A (vx p + IZR a) (vy p + IZR b) (vz p + IZR c).

(** With N = nx ny nz, atoms [a N .. a N + N - 1] of the supercell carry element and type of atom [a], and every periodic image of
    atom [a] of the unit cell is the periodic image of exactly one of them, shifted by exactly one supercell lattice vector.
    Conversely they have no other periodic images. *)
Theorem C34_images (tol : R) (st : structure (v3 R) (cell R) R) (nx ny nz : nat) : (0 < nx)%nat -> (0 < ny)%nat -> (0 < nz)%nat ->
  length (types st) = length (positions st) -> length (elements st) = length (positions st) ->
  let sup := supercell_diagonal tol st (nx, ny, nz) in
  let N := (nx * ny * nz)%nat in
  length (positions sup) = (length (positions st) * N)%nat /\ length (types sup) = length (positions sup) /\ length (elements sup) = length (positions sup) /\
  forall a, (a < length (positions st))%nat ->
    (forall q t e, (q < N)%nat -> nth (a * N + q) (types sup) t = nth a (types st) t /\ nth (a * N + q) (elements sup) e = nth a (elements st) e) /\
    (forall s, exists q z, (q < N)%nat /\ image (axis sup) (nth (a * N + q) (positions sup) v0) z = image (axis st) (nth a (positions st) v0) s) /\
    (forall q z, (q < N)%nat -> exists s, image (axis sup) (nth (a * N + q) (positions sup) v0) z = image (axis st) (nth a (positions st) v0) s) /\
    (Lattice.volume (axis st) <> 0 -> forall q q' z z', (q < N)%nat -> (q' < N)%nat ->
       image (axis sup) (nth (a * N + q) (positions sup) v0) z = image (axis sup) (nth (a * N + q') (positions sup) v0) z' -> q = q' /\ z = z').
Proof.
  intros Hx Hy Hz HT HE sup N.
  assert (RL : forall (X : Type) (l : list X) x, In x l -> length (repeat x N) = N) by (intros; apply repeat_length).
  assert (PL : forall p, In p (positions st) -> length (map (sup_position tol (nx, ny, nz) p) (trans_all nx ny nz)) = N) by (intros; rewrite map_length; apply trans_all_length).
  assert (L1 : length (positions sup) = (length (positions st) * N)%nat) by (unfold sup; cbn [positions supercell_diagonal]; now apply length_flat_map).
  assert (L2 : length (types sup) = length (positions sup)) by (rewrite L1, <- HT; unfold sup; cbn [types supercell_diagonal]; apply length_flat_map; intros; now apply repeat_length).
  assert (L3 : length (elements sup) = length (positions sup)) by (rewrite L1, <- HE; unfold sup; cbn [elements supercell_diagonal]; apply length_flat_map; intros; now apply repeat_length).
  split; [exact L1|]. split; [exact L2|]. split; [exact L3|]. intros a Ha.
  set (p := nth a (positions st) v0).
  assert (NP : forall q, (q < N)%nat -> nth (a * N + q) (positions sup) v0 = sup_position tol (nx, ny, nz) p (nth q (trans_all nx ny nz) (0, 0, 0)%nat)).
  { intros q Hq. unfold sup. cbn [positions supercell_diagonal]. rewrite (nth_flat_map _ N (positions st) a q v0 v0 PL Ha Hq). fold p.
    rewrite (nth_indep _ v0 (sup_position tol (nx, ny, nz) p (0, 0, 0)%nat)) by (rewrite map_length, trans_all_length; exact Hq). apply map_nth. }
  assert (IM : forall q z tx ty tz, (q < N)%nat -> nth q (trans_all nx ny nz) (0, 0, 0)%nat = (tx, ty, tz) ->
    image (axis sup) (nth (a * N + q) (positions sup) v0) z =
    comb (axis st) (INR nx * (refine1 tol ((vx p + INR tx) / INR nx) + IZR (fst (fst z)))) (INR ny * (refine1 tol ((vy p + INR ty) / INR ny) + IZR (snd (fst z)))) (INR nz * (refine1 tol ((vz p + INR tz) / INR nz) + IZR (snd z)))).
  { intros q [[z0 z1] z2] tx ty tz Hq E. rewrite (NP q Hq), E. unfold image, sup_position, sup. cbn [axis supercell_diagonal ax0 ax1 ax2 fst snd]. unfold vmap. cbn [vx vy vz]. rewrite !nnat_INR.
    unfold comb, vadd, vscale. cbn [vx vy vz ax0 ax1 ax2 nadd nmul ndiv R_num]. f_equal; ring. }
  split; [|split; [|split]].
  - intros q t e Hq. unfold sup. cbn [types elements supercell_diagonal]. unfold np_repeat. fold N. split.
    + rewrite (nth_flat_map _ N (types st) a q t t) by (intros; apply repeat_length || lia). now apply nth_rep.
    + rewrite (nth_flat_map _ N (elements st) a q e e) by (intros; apply repeat_length || lia). now apply nth_rep.
  - intros [[s0 s1] s2]. destruct (one_axis tol (vx p) nx s0 Hx) as (tx & z0 & Tx & E0). destruct (one_axis tol (vy p) ny s1 Hy) as (ty & z1 & Ty & E1). destruct (one_axis tol (vz p) nz s2 Hz) as (tz & z2 & Tz & E2).
    assert (I : In (tx, ty, tz) (trans_all nx ny nz)) by (apply trans_all_In; auto). apply (In_nth _ _ (0, 0, 0)%nat) in I. destruct I as [q [Hq Eq]]. rewrite trans_all_length in Hq.
    exists q, (z0, z1, z2). split; [exact Hq|]. rewrite (IM q _ tx ty tz Hq Eq). cbn [fst snd]. rewrite E0, E1, E2. reflexivity.
  - intros q z Hq. destruct (nth q (trans_all nx ny nz) (0, 0, 0)%nat) as [[tx ty] tz] eqn:Eq. rewrite (IM q z tx ty tz Hq Eq).
    destruct (one_axis_back tol (vx p) nx tx (fst (fst z)) Hx) as [s0 ->], (one_axis_back tol (vy p) ny ty (snd (fst z)) Hy) as [s1 ->], (one_axis_back tol (vz p) nz tz (snd z) Hz) as [s2 ->].
    exists (s0, s1, s2). reflexivity.
  - intros HV q q' z z' Hq Hq' H. destruct (nth q (trans_all nx ny nz) (0, 0, 0)%nat) as [[tx ty] tz] eqn:Eq. destruct (nth q' (trans_all nx ny nz) (0, 0, 0)%nat) as [[tx' ty'] tz'] eqn:Eq'.
    rewrite (IM q z _ _ _ Hq Eq), (IM q' z' _ _ _ Hq' Eq') in H.
    assert (B : (tx < nx /\ ty < ny /\ tz < nz)%nat) by (apply trans_all_In; rewrite <- Eq; apply nth_In; now rewrite trans_all_length).
    assert (B' : (tx' < nx /\ ty' < ny /\ tz' < nz)%nat) by (apply trans_all_In; rewrite <- Eq'; apply nth_In; now rewrite trans_all_length).
    pose proof (f_equal (fun v => frac (axis st) v 0) H) as H0. pose proof (f_equal (fun v => frac (axis st) v 1) H) as H1. pose proof (f_equal (fun v => frac (axis st) v 2) H) as H2.
    cbv beta in H0, H1, H2. rewrite !frac_comb in H0, H1, H2 by exact HV. apply one_axis_unique in H0, H1, H2; try tauto.
    destruct z as [[z0 z1] z2], z' as [[z0' z1'] z2']. cbn in *. destruct H0 as [-> ->], H1 as [-> ->], H2 as [-> ->]. split; [|reflexivity].
    rewrite <- Eq' in Eq. apply (proj1 (NoDup_nth _ (0, 0, 0)%nat) (trans_all_NoDup nx ny nz)); [now rewrite trans_all_length|now rewrite trans_all_length|exact Eq].
Qed.
Print Assumptions C34_images.

(** Counts and volume are multiplied by N; coordinates are refined. *)
Theorem C34_consistent (tol : R) (st : structure (v3 R) (cell R) R) (nx ny nz : nat) : 0 < tol < 1 ->
  let sup := supercell_diagonal tol st (nx, ny, nz) in
  let N := (nx * ny * nz)%nat in
  (sum (n_atoms sup) = sum (n_atoms st) * N)%nat /\
  Lattice.volume (axis sup) = INR N * Lattice.volume (axis st) /\ Structure.volume sup = Structure.volume st * INR N /\
  Forall (fun p => - tol < vx p <= 1 - tol /\ - tol < vy p <= 1 - tol /\ - tol < vz p <= 1 - tol) (positions sup).
Proof.
  intros Ht sup N. split; [|split; [|split]].
  - unfold sup. cbn [n_atoms supercell_diagonal]. fold N. induction (n_atoms st) as [|k l IH]; [reflexivity|]. cbn [map]. unfold sum in *. cbn [fold_right]. rewrite IH. lia.
  - unfold sup, N, Lattice.volume. cbn [axis supercell_diagonal ax0 ax1 ax2]. rewrite !nnat_INR, !mult_INR. unfold vdot, cross, vscale. cbn. ring.
  - unfold sup. cbn [Structure.volume supercell_diagonal]. rewrite nnat_INR. reflexivity.
  - apply Forall_forall. intros x Hx'. unfold sup in Hx'. cbn [positions supercell_diagonal] in Hx'. apply in_flat_map in Hx'. destruct Hx' as [p [_ Hp]]. apply in_map_iff in Hp. destruct Hp as [[[tx ty] tz] [<- _]].
    unfold sup_position, vmap. cbn [vx vy vz]. repeat match goal with |- context[refine1 tol ?x] => let H := fresh in pose proof (refine1_range tol x) as H; generalize dependent (refine1 tol x); intros end. lra.
Qed.
Print Assumptions C34_consistent.

Section Names.
  Local Open Scope string_scope.
  Definition Na : string := "Na". Definition Cl : string := "Cl".
End Names.
(** Two atoms doubled along the third axis. *)
Example C34_example :
  let st := mk_structure (Cell (V3 4 0 0) (V3 0 4 0) (V3 0 0 4)) [V3 0 0 0; V3 (1 / 2) 0 (1 / 2)] [1; 1]%nat [Na; Cl] [0; 1]%Z 64 None in
  let sup := supercell_diagonal (1 / 100) st (1, 1, 2)%nat in
  positions sup = [V3 0 0 0; V3 0 0 (1 / 2); V3 (1 / 2) 0 (1 / 4); V3 (1 / 2) 0 (3 / 4)] /\ types sup = [0; 0; 1; 1]%Z /\ n_atoms sup = [2; 2]%nat.
Proof.
  cbn -[refine1]. split; [|split; reflexivity]. unfold vmap. cbn -[refine1].
  repeat match goal with |- context[refine1 ?t ?x] => first [rewrite (refine1_canon t x 0) by (lra || (exists 0%Z; lra))|rewrite (refine1_canon t x (1 / 2)) by (lra || (exists 0%Z; lra))
    |rewrite (refine1_canon t x (1 / 4)) by (lra || (exists 0%Z; lra))|rewrite (refine1_canon t x (3 / 4)) by (lra || (exists 0%Z; lra))] end. reflexivity.
Qed.
