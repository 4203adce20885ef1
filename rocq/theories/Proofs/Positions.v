From Verif Require Import Base Num NumR Model.Neighbor Model.Structure Model.StructureUtils Spec.Lattice Proofs.HalfFull Proofs.NeighborCell.
From Coq Require Import Reals Lra.
Local Open Scope R_scope.

(** ** Refined coordinates *)
Lemma refine1_R (tol x : R) : refine1 tol x = (let y := x - IZR (Int_part x) in if Rltb (1 - tol) y then y - 1 else y).
Proof. unfold refine1. rewrite nz_IZR. reflexivity. Qed.
Lemma refine1_int (tol x : R) : exists z : Z, refine1 tol x = x - IZR z.
Proof.
  rewrite refine1_R. cbv zeta. destruct (Rltb _ _).
  - exists (Int_part x + 1)%Z. rewrite plus_IZR. ring.
  - exists (Int_part x). reflexivity.
Qed.
Lemma refine1_range (tol x : R) : - tol < refine1 tol x <= 1 - tol \/ 1 <= tol /\ -1 <= refine1 tol x < 0 \/ tol <= 0 /\ 0 <= refine1 tol x < 1.
Proof.
  rewrite refine1_R. cbv zeta. pose proof (base_Int_part x) as [B1 B2]. destruct (Rltb (1 - tol) _) eqn:E; [apply Rltb_true in E|apply Rltb_false in E];
    destruct (Rle_lt_dec tol 0); destruct (Rle_lt_dec 1 tol); lra.
Qed.
Lemma refine1_canon (tol x y : R) : 0 < tol < 1 -> - tol < y <= 1 - tol -> (exists z : Z, y = x - IZR z) -> refine1 tol x = y.
Proof.
  intros Ht Hy [z Ez]. destruct (refine1_int tol x) as [w Ew]. destruct (refine1_range tol x) as [H|[H|H]]; [|lra|lra].
  assert (z = w); [|congruence]. assert (L1 : IZR z < IZR (w + 1)) by (rewrite plus_IZR; lra). assert (L2 : IZR w < IZR (z + 1)) by (rewrite plus_IZR; lra).
  apply lt_IZR in L1, L2. lia.
Qed.

(** ** Rounding *)
Lemma rint_R x : rint (F := R) x = let f := Int_part x in let r := x - IZR f in
  if Rltb r (1 / 2) then f else if Rltb (1 / 2) r then Z.succ f else if Z.even f then f else Z.succ f.
Proof.
  unfold rint. rewrite nz_IZR. assert (H : (nhalf : R) = 1 / 2) by (unfold nhalf, two; cbn; field). rewrite H. reflexivity.
Qed.
Lemma rint_close x : Rabs (x - IZR (rint (F := R) x)) <= 1 / 2.
Proof.
  rewrite rint_R. cbv zeta. pose proof (base_Int_part x) as [B1 B2]. unfold Z.succ.
  destruct (Rltb _ (1 / 2)) eqn:E1; [apply Rltb_true in E1; apply Rabs_le; lra|apply Rltb_false in E1].
  destruct (Rltb (1 / 2) _) eqn:E2; [apply Rltb_true in E2; rewrite plus_IZR; apply Rabs_le; lra|apply Rltb_false in E2].
  destruct (Z.even _); rewrite ?plus_IZR; apply Rabs_le; lra.
Qed.
Lemma rint_near x z : Rabs (x - IZR z) < 1 / 2 -> rint (F := R) x = z.
Proof.
  intros H. pose proof (rint_close x) as C. set (w := rint x) in *. clearbody w.
  assert (D : Rabs (IZR w - IZR z) < 1). { replace (IZR w - IZR z) with ((x - IZR z) - (x - IZR w)) by ring. eapply Rle_lt_trans; [apply Rabs_triang|]. rewrite Rabs_Ropp. lra. }
  apply Rabs_def2 in D. assert (L1 : IZR w < IZR (z + 1)) by (rewrite plus_IZR; lra). assert (L2 : IZR z < IZR (w + 1)) by (rewrite plus_IZR; lra). apply lt_IZR in L1, L2. lia.
Qed.

(** ** Matrix and vectors *)
Lemma mv_comb A p : mv A p = comb A (vx p) (vy p) (vz p).
Proof. reflexivity. Qed.
Lemma mv_sub A p q : mv A (vsub p q) = vsub (mv A p) (mv A q).
Proof. unfold mv, to_cartesian, vsub, vadd, vscale. cbn. f_equal; ring. Qed.
Lemma mv_add A p q : mv A (vadd p q) = vadd (mv A p) (mv A q).
Proof. unfold mv, to_cartesian, vadd, vscale. cbn. f_equal; ring. Qed.
Lemma mv_inj A p q : volume A <> 0 -> mv A p = mv A q -> p = q.
Proof.
  intros HV H. rewrite !mv_comb in H. destruct p as [x y z], q as [x' y' z']. cbn in H.
  pose proof (f_equal (fun v => frac A v 0) H) as H0. pose proof (f_equal (fun v => frac A v 1) H) as H1. pose proof (f_equal (fun v => frac A v 2) H) as H2.
  cbn beta in *. rewrite !frac_comb in H0, H1, H2 by exact HV. congruence.
Qed.

(** ** Displacements *)
Lemma zip_with_length {X Y Z} (f : X -> Y -> Z) l m : length m = length l -> length (zip_with f l m) = length l.
Proof. intros H. unfold zip_with. rewrite map_length, combine_length. lia. Qed.
Lemma disp_back inv A d ps ps' : (forall v, mv A (mv (inv A) v) = v) -> length d = length ps ->
  (forall u, In u d -> let f := mv (inv A) u in Rabs (vx f) < 1 / 2 /\ Rabs (vy f) < 1 / 2 /\ Rabs (vz f) < 1 / 2) ->
  Forall2 (fun p' p => exists a b c : Z, p' = vadd p (V3 (IZR a) (IZR b) (IZR c))) ps' (disp_positions inv A ps d) ->
  map (mv A) (map (fun d => V3 (nsub (vx d) (nz (rint (vx d)))) (nsub (vy d) (nz (rint (vy d)))) (nsub (vz d) (nz (rint (vz d)))))
     (zip_with (fun p p0 => vsub p p0) ps' ps)) = d.
Proof.
  intros HI. revert ps ps'. induction d as [|u d IH]; intros [|p ps] ps' HL HS HF; try discriminate; [now inversion HF|].
  unfold disp_positions, zip_with in *. cbn [combine map fst snd] in *. inversion HF as [|p' x ps'' l [a [b [c E]]] HF' E1 E2]. subst x l ps'. cbn [combine map fst snd].
  f_equal; [|apply IH; [now injection HL|intros; apply HS; now right|exact HF']].
  destruct (HS u (or_introl eq_refl)) as [H0 [H1 H2]]. rewrite <- (HI u) at 1. f_equal. rewrite E. clear E HF HF' HS IH HI. destruct (mv (inv A) u) as [x y z]. cbn in H0, H1, H2.
  unfold vsub, vadd. cbn [vx vy vz nadd nsub R_num].
  assert (X : forall q w (k : Z), Rabs w < 1 / 2 -> q + w + IZR k - q - nz (rint (q + w + IZR k - q)) = w).
  { intros q w k Hw. rewrite (rint_near _ k) by (replace (q + w + IZR k - q - IZR k) with w by ring; exact Hw). rewrite nz_IZR. ring. }
  rewrite !X by assumption. reflexivity.
Qed.
Lemma disp_mod (L : v3 R -> Prop) A (ps ps' : list (v3 R)) : (forall a b c : Z, L (mv A (V3 (IZR a) (IZR b) (IZR c)))) ->
  Forall2 (fun pp d => L (vsub (mv A (vsub (fst pp) (snd pp))) d)) (combine ps' ps)
   (map (mv A) (map (fun d => V3 (nsub (vx d) (nz (rint (vx d)))) (nsub (vy d) (nz (rint (vy d)))) (nsub (vz d) (nz (rint (vz d)))))
     (zip_with (fun p p0 => vsub p p0) ps' ps))).
Proof.
  intros HL. unfold zip_with. generalize (combine ps' ps). induction l as [|[p q] l IH]; cbn [map]; [constructor|]. constructor; [|exact IH]. cbn [fst snd].
  rewrite <- mv_sub. specialize (HL (rint (vx (vsub p q))) (rint (vy (vsub p q))) (rint (vz (vsub p q)))).
  rewrite !nz_IZR in *. revert HL. generalize (IZR (rint (vx (vsub p q)))) (IZR (rint (vy (vsub p q)))) (IZR (rint (vz (vsub p q)))). intros a b c HL.
  replace (vsub (vsub p q) _) with (V3 a b c); [exact HL|]. unfold vsub. cbn. f_equal; ring.
Qed.
