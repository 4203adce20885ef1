(** C60: energies, forces and stresses depend on the periodic crystal only. *)
From Verif Require Import Base Num NumR Complex Spec.Neighbor Spec.Gtinv Spec.Lattice Spec.Crystal Model.Cxx Model.Mapping Model.ModelParams Model.Features Model.Potential
  Model.Neighbor Model.Compute Model.Eval Model.Harmonics Model.Structure Model.StructureUtils Proofs.EvalGtinv Proofs.NeighborList Proofs.NeighborCell Proofs.Harmonics Proofs.HalfFull
  Proofs.Supercell Proofs.FullSum Proofs.FullLocal Proofs.Crystal.
From Verif Require Props.C21 Props.C34 Props.C53 Props.C54 Props.C57.
From Coq Require Import Reals Lra.
Import String.StringSyntax.
Local Open Scope R_scope.

Definition model_ok (fp : fparams R) : Prop := gtinv_table fp \/ fp_gtinv fp = false.
(** Results of the fast evaluator for a cell, Cartesian positions and types. *)
Section Results.
  Variables (ftol tol rc : R) (fp : fparams R) (coeffs : list R) (A : cell R) (pos : list (v3 R)) (types : nat -> nat).
  Notation B := (real_basis (fp_cutoff fp) (fp_maxl fp)).
  Definition the_energy : R := energy ftol B (polymlp_eval fp coeffs) types (length pos) (neighbor_half tol A pos rc).
  Definition the_force (i c : nat) : R := forces ftol B (polymlp_eval fp coeffs) types (length pos) (neighbor_half tol A pos rc) c i.
  Definition the_stress (k : nat) : R := stress ftol B (polymlp_eval fp coeffs) types (length pos) (neighbor_half tol A pos rc) k.
End Results.

(** Two descriptions of one crystal, each atom of the first one being represented [m] times in the second one. *)
Theorem C60_crystal (ftol tol rc : R) (fp : fparams R) (coeffs : list R) (A A' : cell R) (pos pos' : list (v3 R)) (types types' : nat -> nat)
    (v : v3 R) (phi : nat -> nat) (m : nat) :
  model_ok fp -> 0 < tol -> 0 <= rc -> (forall i, (i < length pos)%nat -> (types i < fp_n_type fp)%nat) ->
  searchable tol A pos rc -> searchable tol A' pos' rc -> no_overlap A' pos' ->
  same_crystal A pos types A' pos' types' v phi ->
  (forall i c, (i < length pos')%nat -> the_force ftol tol rc fp coeffs A' pos' types' i c = the_force ftol tol rc fp coeffs A pos types (phi i) c) /\
  (represented (length pos) (length pos') phi m ->
   the_energy ftol tol rc fp coeffs A' pos' types' = INR m * the_energy ftol tol rc fp coeffs A pos types /\
   forall k, the_stress ftol tol rc fp coeffs A' pos' types' k = INR m * the_stress ftol tol rc fp coeffs A pos types k).
Proof.
  intros M Ht Hc HT S S' NV SC. unfold the_energy, the_force, the_stress. set (B := real_basis _ _).
  pose proof (the_half tol A pos rc) as R. pose proof (the_half tol A' pos' rc) as R'.
  pose proof (full_same tol Ht rc Hc A A' pos pos' types types' v phi SC NV S S') as P. pose proof (sc_atoms _ _ _ _ _ _ _ _ SC) as Ha. pose proof (sc_types _ _ _ _ _ _ _ _ SC) as Hy.
  rewrite !the_csr in *. clear S S' NV SC. revert R R' P Ha Hy HT.
  rewrite <- (the_len tol A pos rc), <- (the_len tol A' pos' rc). generalize (the_rows tol A pos rc) (the_rows tol A' pos' rc). intros rows rows' R R' P Ha Hy HT.
  assert (symE : forall types rows, (forall i, (i < length rows)%nat -> (types i < fp_n_type fp)%nat) -> forall i j d, (i < length rows)%nat -> (j < length rows)%nat ->
    pairE ftol B fp coeffs types rows j (i, vneg d) = pairE ftol B fp coeffs types rows i (j, d)).
  { intros ty rw H i j d Hi Hj. destruct M as [GT|PM]; [apply symE_gtinv|apply symE_pair]; try assumption. apply C53.C53_parity. lia. }
  assert (symF : forall types rows, (forall i, (i < length rows)%nat -> (types i < fp_n_type fp)%nat) -> forall c i j d, (i < length rows)%nat -> (j < length rows)%nat ->
    pairF ftol B fp coeffs types rows c j (i, vneg d) = nopp (pairF ftol B fp coeffs types rows c i (j, d))).
  { intros ty rw H c i j d Hi Hj. destruct M as [GT|PM]; [apply symF_gtinv|apply symF_pair]; try assumption. apply C53.C53_parity. lia. }
  split.
  - intros i c Hi. now apply (forces_local ftol B fp coeffs types types' rows rows' phi).
  - intros Hm. assert (Hm' : forall i, (i < length rows)%nat -> count_occ Nat.eq_dec (map phi (seq 0 (length rows'))) i = m) by (intros i Hi; rewrite count_filter; now apply Hm).
    rewrite <- nnat_INR. split.
    + refine (eq_trans (energy_local ftol B fp coeffs types types' rows rows' phi _ _ _ _ _ _ symE m Hm') eq_refl); assumption.
    + intros k. refine (eq_trans (stress_local ftol B fp coeffs types types' rows rows' phi _ _ _ _ _ _ symF m Hm' k) eq_refl); assumption.
Qed.
Print Assumptions C60_crystal.

(** Renumbered atoms, a rigid shift [v], single atoms moved by lattice vectors, and another cell of the same lattice. *)
Theorem C60_description (ftol tol rc : R) (fp : fparams R) (coeffs : list R) (A A' : cell R) (pos pos' : list (v3 R)) (types types' : nat -> nat)
    (v : v3 R) (sigma : nat -> nat) :
  model_ok fp -> 0 < tol -> 0 <= rc -> (forall i, (i < length pos)%nat -> (types i < fp_n_type fp)%nat) ->
  searchable tol A pos rc -> searchable tol A' pos' rc -> no_overlap A pos ->
  (forall t, lattice A' t <-> lattice A t) ->
  Permutation (map sigma (seq 0 (length pos'))) (seq 0 (length pos)) ->
  (forall i, (i < length pos')%nat -> types' i = types (sigma i) /\ lattice A (vsub (nth i pos' v0) (vadd (nth (sigma i) pos v0) v))) ->
  the_energy ftol tol rc fp coeffs A' pos' types' = the_energy ftol tol rc fp coeffs A pos types /\
  (forall i c, (i < length pos')%nat -> the_force ftol tol rc fp coeffs A' pos' types' i c = the_force ftol tol rc fp coeffs A pos types (sigma i) c) /\
  (forall k, the_stress ftol tol rc fp coeffs A' pos' types' k = the_stress ftol tol rc fp coeffs A pos types k).
Proof.
  intros M Ht Hc HT S S' NV HL HP HA.
  assert (Ha : forall i, (i < length pos')%nat -> (sigma i < length pos)%nat).
  { intros i Hi. assert (I : In (sigma i) (seq 0 (length pos))) by (apply (Permutation_in _ HP), in_map, in_seq; lia). apply in_seq in I. lia. }
  assert (Hs : forall j, (j < length pos)%nat -> exists i, (i < length pos')%nat /\ sigma i = j).
  { intros j Hj. assert (I : In j (map sigma (seq 0 (length pos')))) by (apply (Permutation_in _ (Permutation_sym HP)), in_seq; lia).
    apply in_map_iff in I. destruct I as [i [E Hi]]. apply in_seq in Hi. exists i. split; [lia|exact E]. }
  assert (PL : forall i p, (i < length pos')%nat -> at_place A' pos' i (vadd p v) <-> at_place A pos (sigma i) p).
  { intros i p Hi. destruct (HA i Hi) as [_ Q]. unfold at_place. rewrite HL. split; intros H; [pose proof (lattice_add _ _ _ H Q) as K|pose proof (lattice_sub _ _ _ H Q) as K];
      match type of K with lattice _ ?x => match goal with |- lattice _ ?y => replace y with x; [exact K|] end end; unfold vsub, vadd; cbn; f_equal; ring. }
  assert (W : forall p : v3 R, p = vadd (vsub p v) v) by (intros []; unfold vsub, vadd; cbn; f_equal; ring).
  assert (NVs : NoDup (map sigma (seq 0 (length pos')))) by (apply (Permutation_NoDup (Permutation_sym HP)), seq_NoDup).
  assert (inj : forall i j, (i < length pos')%nat -> (j < length pos')%nat -> sigma i = sigma j -> i = j).
  { intros i j Hi Hj E. apply (proj1 (NoDup_nth _ (sigma 0%nat)) NVs); try (rewrite map_length, seq_length; assumption). rewrite !map_nth, !seq_nth by assumption. exact E. }
  destruct (C60_crystal ftol tol rc fp coeffs A A' pos pos' types types' v sigma 1 M Ht Hc HT S S') as [HF HE].
  - intros i j p Hi Hj Pi Pj. rewrite (W p) in Pi, Pj. apply PL in Pi; [|exact Hi]. apply PL in Pj; [|exact Hj]. apply inj; try assumption. apply (NV _ _ _ (Ha i Hi) (Ha j Hj) Pi Pj).
  - split; [exact Ha|intros i Hi; apply (HA i Hi)|]. intros j p Hj. split.
    + intros P. destruct (Hs j Hj) as [i [Hi <-]]. exists i. split; [exact Hi|]. split; [reflexivity|]. now apply PL.
    + intros [i [Hi [<- P]]]. now apply (PL i p Hi).
  - destruct HE as [HE HS].
    + intros j Hj. rewrite <- count_filter. apply NoDup_count_occ'; [exact NVs|]. apply (Permutation_in _ (Permutation_sym HP)), in_seq. lia.
    + split; [rewrite HE; cbn; lra|]. split; [exact HF|]. intros k. rewrite HS. cbn. lra.
Qed.
Print Assumptions C60_description.

(** The diagonal supercells of supercell_utils.py (C34). *)
Definition cartesian (st : structure (v3 R) (cell R) R) : list (v3 R) := map (mv (axis st)) (positions st).
Definition type_of (st : structure (v3 R) (cell R) R) (i : nat) : nat := Z.to_nat (nth i (types st) 0%Z).
Lemma place_image st i p : (i < length (positions st))%nat ->
  at_place (axis st) (cartesian st) i p <-> exists s, p = C34.image (axis st) (nth i (positions st) v0) s.
Proof.
  intros Hi. unfold at_place, cartesian. rewrite (nth_indep _ v0 (mv (axis st) v0)) by (now rewrite map_length). rewrite map_nth.
  generalize (nth i (positions st) v0). intros q. destruct (axis st) as [[] [] []], q, p. unfold lattice, mv, to_cartesian, C34.image, comb, vsub, vadd, vscale. cbn. split.
  - intros (a & b & c & E). exists (a, b, c). injection E as E1 E2 E3. f_equal; lra.
  - intros [[[a b] c] E]. exists a, b, c. injection E as E1 E2 E3. f_equal; lra.
Qed.
Lemma cart_len st : length (cartesian st) = length (positions st).
Proof. apply map_length. Qed.
Lemma fibre_count N j k : (0 < N)%nat -> length (filter (fun i => (i / N =? j)%nat) (seq 0 (k * N))) = if (j <? k)%nat then N else 0%nat.
Proof.
  intros HN. induction k as [|k IH]; [reflexivity|]. replace (S k * N)%nat with (k * N + N)%nat by lia. rewrite seq_app, filter_app, app_length, IH, Nat.add_0_l.
  assert (E : forall i, In i (seq (k * N) N) -> (i / N =? j)%nat = (k =? j)%nat).
  { intros i Hi. apply in_seq in Hi. replace (i / N)%nat with k; [reflexivity|]. apply (Nat.div_unique i N k (i - k * N)); nia. }
  rewrite (filter_ext_in _ (fun _ => (k =? j)%nat) _ E).
  assert (X : forall l : list nat, length (filter (fun _ => (k =? j)%nat) l) = if (k =? j)%nat then length l else 0%nat).
  { intros l. destruct (k =? j)%nat; induction l as [|a l IHl]; cbn; congruence. }
  rewrite X, seq_length. destruct (Nat.ltb_spec j k), (Nat.ltb_spec j (S k)), (Nat.eqb_spec k j); lia.
Qed.
Theorem C60_supercell (ftol tol rc tolp : R) (fp : fparams R) (coeffs : list R) (st : structure (v3 R) (cell R) R) (nx ny nz : nat) :
  (0 < nx)%nat -> (0 < ny)%nat -> (0 < nz)%nat ->
  length (types st) = length (positions st) -> length (elements st) = length (positions st) ->
  let sup := supercell_diagonal tolp st (nx, ny, nz) in
  let N := (nx * ny * nz)%nat in
  model_ok fp -> 0 < tol -> 0 <= rc -> (forall i, (i < length (positions st))%nat -> (type_of st i < fp_n_type fp)%nat) ->
  searchable tol (axis st) (cartesian st) rc -> searchable tol (axis sup) (cartesian sup) rc -> no_overlap (axis st) (cartesian st) ->
  the_energy ftol tol rc fp coeffs (axis sup) (cartesian sup) (type_of sup) = INR N * the_energy ftol tol rc fp coeffs (axis st) (cartesian st) (type_of st) /\
  (forall i c, (i < length (positions sup))%nat ->
     the_force ftol tol rc fp coeffs (axis sup) (cartesian sup) (type_of sup) i c = the_force ftol tol rc fp coeffs (axis st) (cartesian st) (type_of st) (i / N) c) /\
  (forall k, the_stress ftol tol rc fp coeffs (axis sup) (cartesian sup) (type_of sup) k = INR N * the_stress ftol tol rc fp coeffs (axis st) (cartesian st) (type_of st) k).
Proof.
  intros Hx Hy Hz HT HE sup N M Ht Hc Hty S S' NV. destruct (C34.C34_images tolp st nx ny nz Hx Hy Hz HT HE) as (L1 & L2 & L3 & IM). fold sup N in L1, L2, L3, IM.
  assert (HN : (0 < N)%nat) by (unfold N; nia). pose proof (proj1 S) as HV.
  assert (Hi : forall i, (i < length (positions sup))%nat -> (i / N < length (positions st))%nat /\ (i mod N < N)%nat /\ i = (i / N * N + i mod N)%nat).
  { intros i Hi. rewrite L1 in Hi. split; [apply Nat.div_lt_upper_bound; lia|]. split; [apply Nat.mod_upper_bound; lia|]. rewrite (Nat.div_mod i N) at 1 by lia. lia. }
  destruct (C60_crystal ftol tol rc fp coeffs (axis st) (axis sup) (cartesian st) (cartesian sup) (type_of st) (type_of sup) v0 (fun i => i / N)%nat N M Ht Hc) as [HF HES].
  - now rewrite cart_len.
  - exact S.
  - exact S'.
  - intros i j p. rewrite cart_len. intros Li Lj Pi Pj. apply (place_image sup) in Pi; [|exact Li]. apply (place_image sup) in Pj; [|exact Lj]. destruct Pi as [z Ez], Pj as [z' Ez'].
    destruct (Hi i Li) as (Da & Ma & Ea). destruct (Hi j Lj) as (Db & Mb & Eb). rewrite Ea in Ez. rewrite Eb in Ez'.
    destruct (IM _ Da) as (_ & _ & Ba & _). destruct (IM _ Db) as (_ & _ & Bb & U). destruct (Ba _ z Ma) as [s Es]. destruct (Bb _ z' Mb) as [s' Es'].
    assert (Q : (i / N = j / N)%nat).
    { apply (NV _ _ p); rewrite ?cart_len; try assumption; apply place_image; try assumption; [exists s|exists s']; congruence. }
    rewrite Q in Ez. assert (Q' : (i mod N = j mod N)%nat) by (apply (U HV _ _ z z' Ma Mb); congruence). rewrite Ea, Eb, Q, Q'. reflexivity.
  - split; rewrite ?cart_len.
    + intros i Li. apply (Hi i Li).
    + intros i Li. destruct (Hi i Li) as (Da & Ma & Ea). unfold type_of. rewrite Ea at 1. f_equal. apply (proj1 (IM _ Da) _ 0%Z C34.Na Ma).
    + intros j p Lj. replace (vadd p v0) with p by (destruct p; unfold vadd, v0; cbn; f_equal; ring). rewrite place_image by exact Lj. destruct (IM j Lj) as (_ & I & Bk & _). split.
      * intros [s ->]. destruct (I s) as (q & z & Hq & E). exists (j * N + q)%nat. assert (Lq : (j * N + q < length (positions sup))%nat) by (rewrite L1; nia).
        split; [exact Lq|]. split; [symmetry; apply (Nat.div_unique _ N j q); lia|]. apply (place_image sup); [exact Lq|]. exists z. now symmetry.
      * intros (i & Li & <- & P). apply (place_image sup) in P; [|exact Li]. destruct P as [z ->]. destruct (Hi i Li) as (Da & Ma & Ea). destruct (Bk _ z Ma) as [s Es]. exists s. rewrite Ea at 1. exact Es.
  - destruct HES as [HE' HS].
    + intros j Hj. rewrite !cart_len in *. rewrite L1, fibre_count by exact HN. now rewrite (proj2 (Nat.ltb_lt _ _) Hj).
    + split; [exact HE'|]. split; [|exact HS]. intros i c Li. apply HF. now rewrite cart_len.
Qed.
Print Assumptions C60_supercell.

(** Orthogonal axes meet what the search asks for. *)
Lemma searchable_orthogonal tol rc A pos : 0 < tol -> 0 <= rc -> Lattice.volume A <> 0 -> C21.orthogonal A -> (forall c, (c < 3)%nat -> 3 * (tol * tol) <= norm2 (Lattice.axis A c)) ->
  (forall i j c, (i < length pos)%nat -> (j < length pos)%nat -> (c < 3)%nat -> -1 < frac A (vsub (nth j pos v0) (nth i pos v0)) c < 1) -> searchable tol A pos rc.
Proof.
  intros Ht Hc HV HO HA HP. split; [exact HV|]. split; [|split].
  - intros c _. unfold used. rewrite (C21.orth_ref _ HO). now apply C21.orth_reach.
  - intros _. exact HP.
  - intros t. unfold neighbor_cell. rewrite (C21.orth_ref _ HO). cbn [fst]. intros H L. apply translations_lattice in H. destruct H as (i & j & k & ->).
    pose proof (HA 0%nat ltac:(lia)) as H0. pose proof (HA 1%nat ltac:(lia)) as H1. pose proof (HA 2%nat ltac:(lia)) as H2. cbn [Lattice.axis] in H0, H1, H2. destruct HO as (E0 & E1 & E2).
    assert (Q : norm2 (comb A (IZR i) (IZR j) (IZR k)) = IZR i * IZR i * norm2 (ax0 A) + IZR j * IZR j * norm2 (ax1 A) + IZR k * IZR k * norm2 (ax2 A)).
    { transitivity (IZR i * IZR i * norm2 (ax0 A) + IZR j * IZR j * norm2 (ax1 A) + IZR k * IZR k * norm2 (ax2 A)
        + 2 * (IZR i * IZR j * vdot (ax0 A) (ax1 A) + IZR i * IZR k * vdot (ax0 A) (ax2 A) + IZR j * IZR k * vdot (ax1 A) (ax2 A))); [|rewrite E0, E1, E2; ring].
      unfold norm2, vdot, comb, vadd, vscale. cbn. ring. }
    rewrite Q in *. clear Q. assert (Z : forall z, IZR z * IZR z = 0 \/ 1 <= IZR z * IZR z).
    { intros z. destruct (Z.eq_dec z 0) as [->|Nz]; [left; ring|right]. rewrite <- mult_IZR. apply IZR_le. nia. }
    assert (T : 0 < tol * tol) by nra. revert H0 H1 H2 L T. generalize (norm2 (ax0 A)) (norm2 (ax1 A)) (norm2 (ax2 A)) (tol * tol). intros a b c T H0 H1 H2 L T0.
    destruct (Z i) as [Zi|Zi], (Z j) as [Zj|Zj], (Z k) as [Zk|Zk]; nra.
Qed.
Lemma frac_cart A p c : Lattice.volume A <> 0 -> frac A (mv A p) c = match c with 0%nat => vx p | 1%nat => vy p | _ => vz p end.
Proof. intros HV. exact (frac_comb A HV (vx p) (vy p) (vz p) c). Qed.
Definition within (lo hi : R) (p : v3 R) : Prop := (lo <= vx p <= hi) /\ (lo <= vy p <= hi) /\ (lo <= vz p <= hi).
Lemma searchable_cartesian tol rc (st : structure (v3 R) (cell R) R) lo hi : 0 < tol -> 0 <= rc -> Lattice.volume (axis st) <> 0 -> C21.orthogonal (axis st) ->
  (forall c, (c < 3)%nat -> 3 * (tol * tol) <= norm2 (Lattice.axis (axis st) c)) -> hi - lo < 1 -> Forall (within lo hi) (positions st) -> searchable tol (axis st) (cartesian st) rc.
Proof.
  intros Ht Hc HV HO HA HD HW. apply searchable_orthogonal; try assumption. rewrite cart_len. intros i j c Hi Hj Hc'. unfold cartesian.
  rewrite !(nth_indep _ v0 (mv (axis st) v0)) by (now rewrite map_length). rewrite !map_nth, frac_sub, !frac_cart by exact HV.
  rewrite Forall_forall in HW. destruct (HW _ (nth_In _ v0 Hi)) as (X & Y & Z), (HW _ (nth_In _ v0 Hj)) as (X' & Y' & Z').
  revert X Y Z X' Y' Z'. generalize (nth i (positions st) v0) (nth j (positions st) v0). intros [a b d] [a' b' d']. cbn [vx vy vz]. destruct c as [|[|]]; lra.
Qed.
(** Supercells of cells with orthogonal axes, without conditions on the search. *)
Theorem C60_orthogonal (ftol tol rc tolp : R) (fp : fparams R) (coeffs : list R) (st : structure (v3 R) (cell R) R) (nx ny nz : nat) (hi : R) :
  (0 < nx)%nat -> (0 < ny)%nat -> (0 < nz)%nat ->
  length (types st) = length (positions st) -> length (elements st) = length (positions st) ->
  let sup := supercell_diagonal tolp st (nx, ny, nz) in
  let N := (nx * ny * nz)%nat in
  model_ok fp -> 0 < tol -> 0 <= rc -> 0 < tolp < 1 -> (forall i, (i < length (positions st))%nat -> (type_of st i < fp_n_type fp)%nat) ->
  Lattice.volume (axis st) <> 0 -> C21.orthogonal (axis st) -> (forall c, (c < 3)%nat -> 3 * (tol * tol) <= norm2 (Lattice.axis (axis st) c)) ->
  hi < 1 -> Forall (within 0 hi) (positions st) -> no_overlap (axis st) (cartesian st) ->
  the_energy ftol tol rc fp coeffs (axis sup) (cartesian sup) (type_of sup) = INR N * the_energy ftol tol rc fp coeffs (axis st) (cartesian st) (type_of st) /\
  (forall i c, (i < length (positions sup))%nat ->
     the_force ftol tol rc fp coeffs (axis sup) (cartesian sup) (type_of sup) i c = the_force ftol tol rc fp coeffs (axis st) (cartesian st) (type_of st) (i / N) c) /\
  (forall k, the_stress ftol tol rc fp coeffs (axis sup) (cartesian sup) (type_of sup) k = INR N * the_stress ftol tol rc fp coeffs (axis st) (cartesian st) (type_of st) k).
Proof.
  intros Hx Hy Hz HT HE sup N M Ht Hc Hp Hty HV HO HA Hh HW NV. apply C60_supercell; try assumption.
  - apply (searchable_cartesian tol rc st 0 hi); try assumption. lra.
  - fold sup. destruct (C34.C34_consistent tolp st nx ny nz Hp) as (_ & EV & _ & RG). fold sup N in EV, RG.
    assert (P : forall n : nat, (0 < n)%nat -> 1 <= INR n) by (intros n Hn; apply (le_INR 1); lia).
    assert (HN : (0 < N)%nat) by (unfold N; nia). pose proof (P _ HN) as PN.
    assert (OS : C21.orthogonal (axis sup)).
    { destruct HO as (E0 & E1 & E2). unfold sup. cbn [axis supercell_diagonal].
      assert (D : forall a b (u w : v3 R), vdot u w = 0 -> vdot (vscale a u) (vscale b w) = 0).
      { intros a b u w E. transitivity (a * b * vdot u w); [unfold vdot, vscale; cbn; ring|rewrite E; ring]. }
      repeat split; cbn [ax0 ax1 ax2]; now apply D. }
    assert (VS : Lattice.volume (axis sup) <> 0). { rewrite EV. apply Rmult_integral_contrapositive_currified; [lra|exact HV]. }
    apply searchable_orthogonal; try assumption.
    + intros c Hc'. specialize (HA c Hc'). unfold sup. cbn [axis supercell_diagonal].
      assert (Q : forall (n : nat) (u : v3 R), (0 < n)%nat -> norm2 u <= norm2 (vscale (nnat n) u)).
      { intros n u Hn. replace (norm2 (vscale (nnat n) u)) with (INR n * INR n * norm2 u) by (rewrite nnat_INR; unfold norm2, vdot, vscale; cbn; ring).
        pose proof (P n Hn) as K1. pose proof (norm2_nonneg u) as K2. revert K1 K2. generalize (norm2 u) (INR n). intros x y K1 K2. assert (K3 : 1 <= y * y) by nra. assert (K4 : 0 <= (y * y - 1) * x) by (apply Rmult_le_pos; lra). lra. }
      destruct c as [|[|[|c]]]; [| | |lia]; cbn [Lattice.axis ax0 ax1 ax2] in *; (eapply Rle_trans; [exact HA|apply Q; assumption]).
    + rewrite cart_len. intros i j c Hi Hj Hc'. unfold cartesian. rewrite !(nth_indep _ v0 (mv (axis sup) v0)) by (now rewrite map_length). rewrite !map_nth, frac_sub, !frac_cart by exact VS.
      rewrite Forall_forall in RG. pose proof (RG _ (nth_In _ v0 Hi)) as X. pose proof (RG _ (nth_In _ v0 Hj)) as Y.
      revert X Y. generalize (nth i (positions sup) v0) (nth j (positions sup) v0). intros [a b d] [a' b' d']. cbn [vx vy vz]. destruct c as [|[|]]; lra.
Qed.
Print Assumptions C60_orthogonal.

(** A cell with two atoms of one type, repeated twice along the third axis, with the table of C57. *)
Definition two_atoms : structure (v3 R) (cell R) R :=
  mk_structure (Cell (V3 4 0 0) (V3 0 4 0) (V3 0 0 4)) [V3 0 0 0; V3 (1 / 2) (1 / 4) (1 / 2)] [2]%nat [C34.Na; C34.Na] [0; 0]%Z 64 None.
Lemma two_atoms_apart : no_overlap (axis two_atoms) (cartesian two_atoms).
Proof.
  intros i j p Hi Hj Pi Pj. pose proof (lattice_sub _ _ _ Pi Pj) as L. destruct L as (a & b & c & E).
  assert (Q : forall z : Z, IZR z <> 1 / 2 /\ IZR z <> - (1 / 2)). { intros z. split; intros H; [assert (K : IZR (2 * z) = IZR 1)|assert (K : IZR (2 * z) = IZR (-1))]; try (rewrite mult_IZR; lra); apply eq_IZR in K; lia. }
  destruct (Q a) as [Q1 Q2]. destruct p. cbn in Hi, Hj. unfold comb, vsub, vadd, vscale, two_atoms, cartesian, mv, to_cartesian in E.
  destruct i as [|[|i]]; destruct j as [|[|j]]; try lia; try reflexivity; cbn in E; injection E as E1 E2 E3; exfalso; [apply Q1|apply Q2]; lra.
Qed.
Example C60_example (coeffs : list R) :
  let sup := supercell_diagonal (1 / 100) two_atoms (1, 1, 2)%nat in
  the_energy 0 (1 / 10) 6 C57.Example.fp coeffs (axis sup) (cartesian sup) (type_of sup) =
  2 * the_energy 0 (1 / 10) 6 C57.Example.fp coeffs (axis two_atoms) (cartesian two_atoms) (type_of two_atoms).
Proof.
  pose proof (C60_orthogonal 0 (1 / 10) 6 (1 / 100) C57.Example.fp coeffs two_atoms 1 1 2 (1 / 2)) as H. cbv zeta in H.
  destruct H as [H _]; [lia|lia|lia|reflexivity|reflexivity|left; exact C57.Example.table_ok|lra|lra|lra| | | | |lra| |exact two_atoms_apart|exact H].
  - intros i Hi. destruct i as [|[|i]]; cbn in *; lia.
  - unfold Lattice.volume, vdot, cross. cbn. lra.
  - unfold C21.orthogonal, vdot. cbn. repeat split; ring.
  - intros c Hc. destruct c as [|[|[|c]]]; try lia; unfold norm2, vdot; cbn; lra.
  - repeat constructor; cbn; lra.
Qed.
