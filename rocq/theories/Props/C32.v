(** C32: refined fractional positions. *)
From Verif Require Import Base Num NumR Model.Neighbor Model.Structure Model.StructureUtils Proofs.HalfFull Proofs.Positions.
From Coq Require Import Reals Lra.
Local Open Scope R_scope.

Definition differ_by_integers (p q : v3 R) : Prop := exists a b c : Z, vsub p q = V3 (IZR a) (IZR b) (IZR c).
Definition all_coords (P : R -> Prop) (p : v3 R) : Prop := P (vx p) /\ P (vy p) /\ P (vz p).

(** Every refined position differs from the input by integers and lies in (-tol, 1 - tol]. *)
Theorem C32_refined (tol : R) (ps : list (v3 R)) : 0 < tol < 1 ->
  Forall2 (fun p q => differ_by_integers p q /\ all_coords (fun x => - tol < x <= 1 - tol) q) ps (refine_positions tol ps).
Proof.
  intros Ht. induction ps as [|p ps IH]; [constructor|]. cbn. constructor; [|exact IH].
  split; [|unfold all_coords, vmap; cbn; repeat split; destruct (refine1_range tol (vx p)) as [|[|]], (refine1_range tol (vy p)) as [|[|]], (refine1_range tol (vz p)) as [|[|]]; lra].
  unfold differ_by_integers, vmap, vsub. cbn. destruct (refine1_int tol (vx p)) as [a ->], (refine1_int tol (vy p)) as [b ->], (refine1_int tol (vz p)) as [c ->].
  exists a, b, c. f_equal; ring.
Qed.
Print Assumptions C32_refined.
(** The result is the only representative in that interval: equal for positions that differ by integers. *)
Theorem C32_canonical (tol : R) (p q : v3 R) : 0 < tol < 1 ->
  (refine_positions tol [p] = refine_positions tol [q] <-> differ_by_integers p q) /\
  (all_coords (fun x => - tol < x <= 1 - tol) p -> refine_positions tol [p] = [p]).
Proof.
  intros Ht. assert (C : forall x y, (exists z : Z, x - y = IZR z) -> refine1 tol x = refine1 tol y).
  { intros x y [z E]. apply refine1_canon; [exact Ht| |].
    - destruct (refine1_range tol y) as [|[|]]; lra.
    - destruct (refine1_int tol y) as [w ->]. exists (w + z)%Z. rewrite plus_IZR. lra. }
  split; [split|].
  - cbn. unfold vmap. intros [= H0 H1 H2]. unfold differ_by_integers, vsub. cbn.
    destruct (refine1_int tol (vx p)) as [a0 A0], (refine1_int tol (vx q)) as [b0 B0], (refine1_int tol (vy p)) as [a1 A1], (refine1_int tol (vy q)) as [b1 B1], (refine1_int tol (vz p)) as [a2 A2], (refine1_int tol (vz q)) as [b2 B2].
    exists (a0 - b0)%Z, (a1 - b1)%Z, (a2 - b2)%Z. rewrite !minus_IZR. f_equal; lra.
  - intros [a [b [c E]]]. unfold vsub in E. cbn in E. injection E as E0 E1 E2. cbn. unfold vmap. rewrite (C (vx p) (vx q)), (C (vy p) (vy q)), (C (vz p) (vz q)) by eauto. reflexivity.
  - intros [H0 [H1 H2]]. cbn. unfold vmap. destruct p as [x y z]. cbn in *.
    assert (I : forall w, - tol < w <= 1 - tol -> refine1 tol w = w). { intros w Hw. apply refine1_canon; [exact Ht|exact Hw|]. exists 0%Z. cbn. ring. }
    now rewrite !I.
Qed.
Print Assumptions C32_canonical.
Theorem C32_idempotent (tol : R) (ps : list (v3 R)) : 0 < tol < 1 -> refine_positions tol (refine_positions tol ps) = refine_positions tol ps.
Proof.
  intros Ht. induction ps as [|p ps IH]; [reflexivity|]. pose proof (C32_refined tol [p] Ht) as H. inversion H as [|? ? ? ? [_ HC] _]; subst.
  destruct (C32_canonical tol (vmap (refine1 tol) p) p Ht) as [_ HI]. specialize (HI HC). apply (f_equal (hd v0)) in HI. cbn [refine_positions map hd] in HI.
  cbn [refine_positions map] in *. rewrite HI. now f_equal.
Qed.
Print Assumptions C32_idempotent.
(** Not in [0, 1): a coordinate within tol below an integer becomes negative. *)
Theorem C32_negative_refuted (tol : R) : 0 < tol < 1 -> exists x : R, 0 <= x < 1 /\ vx (vmap (refine1 tol) (V3 x 0 0)) < 0.
Proof.
  intros Ht. exists (1 - tol / 2). split; [lra|]. cbn. replace (refine1 tol (1 - tol / 2)) with (- (tol / 2)); [lra|]. symmetry. apply refine1_canon; [exact Ht|lra|]. exists 1%Z. cbn. lra.
Qed.
Print Assumptions C32_negative_refuted.
Example C32_example : refine_positions (1 / 100) [V3 (13 / 4) (-1 / 4) 1] = [V3 (1 / 4) (3 / 4) 0].
Proof.
  cbn. unfold vmap. cbn [vx vy vz]. rewrite (refine1_canon (1 / 100) (13 / 4) (1 / 4)), (refine1_canon (1 / 100) (-1 / 4) (3 / 4)), (refine1_canon (1 / 100) 1 0); try lra; try reflexivity.
  - exists 1%Z. cbn. lra.
  - exists (-1)%Z. cbn. lra.
  - exists 3%Z. cbn. lra.
Qed.
