From Verif Require Import Base Num NumR Model.Tensor Model.Elastic Spec.Elastic Proofs.FC2.
From Coq Require Import Reals Lra.
Local Open Scope nat_scope.

Lemma el_full_eq (c : mat R) i j k l : i < 3 -> j < 3 -> k < 3 -> l < 3 -> el_full c i j k l = c (vix i j) (vix k l).
Proof.
  intros. destruct i as [|[|[|i]]]; try lia; (destruct j as [|[|[|j]]]; try lia); (destruct k as [|[|[|k]]]; try lia); (destruct l as [|[|[|l]]]; try lia); reflexivity.
Qed.
Definition vpair (v : nat) : nat * nat := nth v voidt (0, 0).
Lemma symmetrize_read (proj c : mat R) v1 v2 : v1 < 6 -> v2 < 6 ->
  symmetrize proj c v1 v2 = matvec 81 proj (flat4 (el_full c)) (27 * fst (vpair v1) + 9 * snd (vpair v1) + 3 * fst (vpair v2) + snd (vpair v2)).
Proof.
  intros. unfold symmetrize. generalize (matvec 81 proj (flat4 (el_full c))). intros full. unfold mat, vec in *. 
  do 6 (destruct v1 as [|v1]; [do 6 (destruct v2 as [|v2]; [reflexivity|]); exfalso; lia|]); exfalso; lia.
Qed.
Lemma constants_eq (sl : nat -> nat -> R) v1 v2 : v1 < 6 -> v2 < 6 ->
  fold_left (fun c v1 => fold_left (fun c v2 => set_at (set_at c v1 v2 (sl v1 v2)) v2 v1 (sl v1 v2)) (seq 0 6) c) (seq 0 6) (fun _ _ => 0%R) v1 v2 = sl (Nat.max v1 v2) (Nat.min v1 v2).
Proof.
  intros. do 6 (destruct v1 as [|v1]; [do 6 (destruct v2 as [|v2]; [reflexivity|]); exfalso; lia|]); exfalso; lia.
Qed.
(** Index bookkeeping of 81 components. *)
Lemma seq_shift_by b n s : map (fun k => b + k) (seq s n) = seq (b + s) n.
Proof. revert s. induction n as [|n IH]; intros s; [reflexivity|]. cbn. f_equal. rewrite IH. f_equal. lia. Qed.
Lemma sumn_split (m n : nat) (f : nat -> R) : sumn (n * m) f = sumn n (fun a => sumn m (fun b => f (a * m + b))).
Proof.
  induction n as [|n IH]; [reflexivity|]. rewrite (sumn_S n). rewrite <- IH. unfold sumn. replace (S n * m) with (n * m + m) by lia. rewrite seq_app, nsumf_app. f_equal.
  cbn [Nat.add]. replace (seq (n * m) m) with (map (fun b => n * m + b) (seq 0 m)); [apply nsumf_map|]. rewrite seq_shift_by. f_equal. lia.
Qed.
Lemma digits_of a b c d : a < 3 -> b < 3 -> c < 3 -> d < 3 -> digits (a * 27 + (b * 9 + (c * 3 + d))) = (a, b, c, d).
Proof. intros. destruct a as [|[|[|a]]]; try lia; (destruct b as [|[|[|b]]]; try lia); (destruct c as [|[|[|c]]]; try lia); (destruct d as [|[|[|d]]]; try lia); reflexivity. Qed.
Lemma digits_lt p : p < 81 -> let '(a, b, c, d) := digits p in a < 3 /\ b < 3 /\ c < 3 /\ d < 3 /\ p = a * 27 + (b * 9 + (c * 3 + d)).
Proof.
  intros H. unfold digits. pose proof (Nat.div_mod p 27). pose proof (Nat.mod_upper_bound (p / 9) 3). pose proof (Nat.mod_upper_bound (p / 3) 3). pose proof (Nat.mod_upper_bound p 3).
  assert (p / 27 < 3) by (apply Nat.div_lt_upper_bound; lia). pose proof (Nat.div_mod p 3). pose proof (Nat.div_mod (p / 3) 3). pose proof (Nat.div_mod (p / 9) 3).
  assert (E1 : p / 3 / 3 = p / 9) by (rewrite Nat.div_div by lia; reflexivity). assert (E2 : p / 9 / 3 = p / 27) by (rewrite Nat.div_div by lia; reflexivity). rewrite E1, E2 in *.
  lia.
Qed.
Lemma sumn_81 (f : nat -> R) : sumn 81 f = sumn 3 (fun a => sumn 3 (fun b => sumn 3 (fun c => sumn 3 (fun d => f (a * 27 + (b * 9 + (c * 3 + d))))))).
Proof.
  change 81 with (3 * 27) at 1. rewrite sumn_split. apply sumn_ext. intros a _. change 27 with (3 * 9) at 1. rewrite sumn_split. apply sumn_ext. intros b _.
  change 9 with (3 * 3) at 1. rewrite sumn_split. reflexivity.
Qed.
Lemma flat4_digits (t : tensor4 (F:=R)) p : flat4 t p = let '(a, b, c, d) := digits p in t a b c d.
Proof. reflexivity. Qed.
(** The projector on crystal symmetry keeps an invariant tensor. *)
Lemma kron4_fix (C r : mat R) p : p < 81 -> invariant C r -> matvec 81 (kron4 r) (flat4 (el_full C)) p = flat4 (el_full C) p.
Proof.
  intros Hp HI. pose proof (digits_lt p Hp) as HD. unfold matvec, dot. rewrite sumn_81. rewrite flat4_digits. destruct (digits p) as [[[a b] c] d] eqn:E. destruct HD as [Ha [Hb [Hc [Hd _]]]].
  rewrite el_full_eq by assumption. rewrite <- (HI a b c d Ha Hb Hc Hd). apply sumn_ext. intros i Hi. apply sumn_ext. intros j Hj. apply sumn_ext. intros k Hk. apply sumn_ext. intros l Hl.
  unfold kron4. rewrite E. rewrite flat4_digits, digits_of by assumption. rewrite el_full_eq by assumption. reflexivity.
Qed.
Lemma spg_fix (C : mat R) rots p : p < 81 -> rots <> [] -> (forall r, In r rots -> invariant C r) -> matvec 81 (spg_projector rots) (flat4 (el_full C)) p = flat4 (el_full C) p.
Proof.
  intros Hp HN HI. set (t := flat4 (el_full C)).
  transitivity (nsumf (fun r => matvec 81 (kron4 r) t p) rots / nnat (length rots))%R.
  - unfold matvec, dot, spg_projector. unfold sumn at 1. rewrite (nsumf_ext' _ (fun q => nsumf (fun r => nmul (kron4 r p q) (t q)) rots * / nnat (length rots))%R).
    + change Rmult with (nmul (F:=R)). rewrite (nsumf_scale_r (F:=R)). cbn [nmul R_num]. unfold Rdiv. f_equal. exact (nsumf_swap (F:=R) (fun q r => nmul (kron4 r p q) (t q)) (seq 0 81) rots).
    + intros q. change (nsum (map (fun r => kron4 r p q) rots)) with (nsumf (fun r => kron4 r p q) rots). rewrite (nsumf_scale_r (F:=R) (t q) (fun r => kron4 r p q)). cbn. unfold Rdiv. ring.
  - rewrite (nsumf_ext _ (fun _ => t p)) by (intros r Hr; apply kron4_fix; [exact Hp|now apply HI]). rewrite (nsumf_const (F:=R)). cbn [nmul R_num]. field. destruct rots; [congruence|]. apply (R_char0 (length rots)).
Qed.
(** The projector on index permutations keeps a tensor with the index symmetries. *)
Definition orbit_check (x : (nat * nat) * (nat * nat)) : bool :=
  let '((a, b), (c, d)) := x in
  forallb (fun p => let '(i, j, k, l) := digits p in
    (p <? 81) && ((vix i j =? vix a b) && (vix k l =? vix c d) || (vix i j =? vix c d) && (vix k l =? vix a b)) && (i <? 3) && (j <? 3) && (k <? 3) && (l <? 3)) (orbit x).
Lemma orbits_ok : forallb orbit_check (pairs_repl comb) = true. Proof. vm_compute. reflexivity. Qed.
Lemma orbit_counts : forallb (fun p => length (filter (fun x => mem p (orbit x)) (pairs_repl comb)) =? 1) (seq 0 81) = true. Proof. vm_compute. reflexivity. Qed.
Lemma vix_lt i j : vix i j < 6.
Proof. destruct i as [|[|[|i]]]; destruct j as [|[|[|j]]]; cbn; lia. Qed.
Definition orbit_val (C : mat R) (x : (nat * nat) * (nat * nat)) : R := C (vix (fst (fst x)) (snd (fst x))) (vix (fst (snd x)) (snd (snd x))).
Lemma orbit_value (C : mat R) x p : (forall a b, a < 6 -> b < 6 -> C a b = C b a) -> In x (pairs_repl comb) -> In p (orbit x) -> p < 81 /\ flat4 (el_full C) p = orbit_val C x.
Proof.
  intros HC Hx Hp. pose proof orbits_ok as K. rewrite forallb_forall in K. specialize (K x Hx). destruct x as [[a b] [c d]]. unfold orbit_check in K. rewrite forallb_forall in K. specialize (K p Hp).
  rewrite flat4_digits. destruct (digits p) as [[[i j] k] l]. unfold orbit_val. cbn [fst snd].
  rewrite !andb_true_iff, !Nat.ltb_lt, orb_true_iff, !andb_true_iff, !Nat.eqb_eq in K. destruct K as [[[[[K0 K] Hi] Hj] Hk] Hl]. split; [exact K0|].
  rewrite el_full_eq by assumption. destruct K as [[-> ->]|[-> ->]]; [reflexivity|]. apply HC; apply vix_lt.
Qed.
Lemma sumn_mem (l : list nat) (g : nat -> R) n : NoDup l -> (forall p, In p l -> p < n) -> sumn n (fun q => if mem q l then g q else 0%R) = nsumf g l.
Proof.
  intros HN HL. unfold sumn. etransitivity; [exact (eq_sym (nsumf_filter (F:=R) (fun q => mem q l) g (seq 0 n)))|]. apply nsumf_perm, NoDup_Permutation; [apply NoDup_filter, seq_NoDup|exact HN|].
  intros q. rewrite filter_In, in_seq, mem_In. split; [tauto|]. intros H. split; [|exact H]. specialize (HL q H). lia.
Qed.
Lemma orbit_nonempty x : exists p l, orbit x = p :: l.
Proof.
  destruct x as [[a b] [c d]]. unfold orbit. set (l := map _ _). assert (H : In (flat_index (a, b, c, d)) (nodup Nat.eq_dec l)) by (apply nodup_In; left; reflexivity).
  destruct (nodup Nat.eq_dec l) as [|p t]; [destruct H|eauto].
Qed.
Lemma perm_fix (C : mat R) p : p < 81 -> (forall a b, a < 6 -> b < 6 -> C a b = C b a) -> matvec 81 perm_projector (flat4 (el_full C)) p = flat4 (el_full C) p.
Proof.
  intros Hp HC. set (t := flat4 (el_full C)).
  transitivity (nsumf (fun x => if mem p (orbit x) then t p else 0%R) (pairs_repl comb)).
  - transitivity (nsumf (fun x => sumn 81 (fun q => basis x p * basis x q * t q)%R) (pairs_repl comb)).
    + unfold matvec, dot, perm_projector. unfold sumn. etransitivity; [|exact (nsumf_swap (F:=R) (fun q x => basis x p * basis x q * t q)%R (seq 0 81) (pairs_repl comb))]. apply nsumf_ext'. intros q.
      change (nsum (map (fun x => nmul (basis x p) (basis x q)) (pairs_repl comb))) with (nsumf (fun x => nmul (basis x p) (basis x q)) (pairs_repl comb)). rewrite <- (nsumf_scale_r (F:=R)). reflexivity.
    + apply nsumf_ext. intros x Hx. set (v := (1 / sqrt (nnat (length (orbit x))))%R).
      assert (HN : NoDup (orbit x)) by (destruct x as [[a b] [c d]]; apply NoDup_nodup).
      assert (HV : (v * v * nnat (length (orbit x)) = 1)%R).
      { unfold v. destruct (orbit_nonempty x) as [p0 [l El]]. rewrite El, nnat_INR. assert (HP : (0 < INR (length (p0 :: l)))%R) by (apply lt_0_INR; cbn; lia). pose proof (sqrt_lt_R0 _ HP) as HS. pose proof (sqrt_sqrt _ (Rlt_le _ _ HP)) as HQ. rewrite <- HQ at 3. field. lra. }
      destruct (mem p (orbit x)) eqn:E.
      * rewrite (sumn_ext 81 _ (fun q => if mem q (orbit x) then (v * v * orbit_val C x)%R else 0%R)).
        -- rewrite sumn_mem; [|exact HN|intros q Hq; now apply (orbit_value C x q HC Hx)]. rewrite (nsumf_const (F:=R)). cbn [nmul R_num].
           apply mem_In in E. destruct (orbit_value C x p HC Hx E) as [_ ET]. fold t in ET. rewrite ET. transitivity (v * v * nnat (length (orbit x)) * orbit_val C x)%R; [ring|]. rewrite HV. ring.
        -- intros q _. unfold basis. rewrite E. destruct (mem q (orbit x)) eqn:Eq; [|cbn; ring]. apply mem_In in Eq. destruct (orbit_value C x q HC Hx Eq) as [_ ET]. fold t in ET. rewrite ET. reflexivity.
      * rewrite (sumn_ext 81 _ (fun _ => 0%R)); [exact (nsumf_zero (F:=R) (seq 0 81))|]. intros q _. unfold basis. rewrite E. cbn. ring.
  - change 0%R with (n0 (F:=R)). etransitivity; [exact (eq_sym (nsumf_filter (F:=R) (fun x => mem p (orbit x)) (fun _ => t p) (pairs_repl comb)))|]. rewrite (nsumf_const (F:=R)).
    pose proof orbit_counts as K. rewrite forallb_forall in K. specialize (K p). rewrite Nat.eqb_eq in K. rewrite K by (apply in_seq; lia). cbn. ring.
Qed.
Lemma projector_fix (C : mat R) rots p : p < 81 -> (forall a b, a < 6 -> b < 6 -> C a b = C b a) -> rots <> [] -> (forall r, In r rots -> invariant C r) ->
  matvec 81 (projector rots) (flat4 (el_full C)) p = flat4 (el_full C) p.
Proof.
  intros Hp HC HN HI. set (t := flat4 (el_full C)). transitivity (matvec 81 perm_projector (matvec 81 (spg_projector rots) t) p).
  - unfold matvec, dot, projector. transitivity (sumn 81 (fun q => sumn 81 (fun k => perm_projector p k * (spg_projector rots k q * t q))))%R.
    + apply sumn_ext. intros q _. etransitivity; [symmetry; apply (nsumf_scale_r (F:=R))|]. apply nsumf_ext'. intros k. cbn. ring.
    + etransitivity; [apply (sumn_swap (F:=R))|]. apply sumn_ext. intros k _. etransitivity; [exact (nsumf_scale_l (F:=R) (perm_projector p k) (fun q => nmul (spg_projector rots k q) (t q)) (seq 0 81))|]. reflexivity.
  - unfold matvec at 1, dot. rewrite (sumn_ext 81 _ (fun k => perm_projector p k * t k)%R) by (intros k Hk; apply (f_equal (Rmult (perm_projector p k))); now apply spg_fix). now apply perm_fix.
Qed.
Lemma symmetrize_fix (C c : mat R) rots : (forall a b, a < 6 -> b < 6 -> C a b = C b a) -> rots <> [] -> (forall r, In r rots -> invariant C r) ->
  (forall a b, a < 6 -> b < 6 -> c a b = C a b) -> forall a b, a < 6 -> b < 6 -> symmetrize (projector rots) c a b = C a b.
Proof.
  intros HC HN HI HE a b Ha Hb. rewrite symmetrize_read by assumption.
  assert (EF : forall p, p < 81 -> flat4 (el_full c) p = flat4 (el_full C) p).
  { intros p Hp. pose proof (digits_lt p Hp) as HD. rewrite !flat4_digits. destruct (digits p) as [[[i j] k] l]. destruct HD as [? [? [? [? _]]]]. rewrite !el_full_eq by assumption. apply HE; apply vix_lt. }
  set (p := 27 * _ + _ + _ + _). assert (Hp : p < 81 /\ digits p = (fst (vpair a), snd (vpair a), fst (vpair b), snd (vpair b)) /\ vix (fst (vpair a)) (snd (vpair a)) = a /\ vix (fst (vpair b)) (snd (vpair b)) = b /\ fst (vpair a) < 3 /\ snd (vpair a) < 3 /\ fst (vpair b) < 3 /\ snd (vpair b) < 3).
  { unfold p. clear p. do 6 (destruct a as [|a]; [do 6 (destruct b as [|b]; [vm_compute; repeat split; lia|]); exfalso; lia|]); exfalso; lia. }
  destruct Hp as [Hp [HD [V1 [V2 [? [? [? ?]]]]]]].
  transitivity (matvec 81 (projector rots) (flat4 (el_full C)) p); [unfold matvec, dot; apply sumn_ext; intros q Hq; now rewrite EF|].
  rewrite projector_fix by assumption. rewrite flat4_digits, HD, el_full_eq by assumption. now rewrite V1, V2.
Qed.

Section Slope.
  Variable stress_at : mat R -> list R.
  Variables (axis : mat R) (volume EVtoGPa : R).
  Variable is_zero : R -> bool.
  Hypothesis zero_iff : forall x, is_zero x = true <-> x = 0%R.
  Variable C : mat R.
  Hypothesis HC : linear_solid stress_at axis volume EVtoGPa C.
  Definition unit_strain (v : nat) (mag : R) : mat R := let ij := nth v voidt (0, 0) in add_at (add_at (fun _ _ => 0%R) (fst ij) (snd ij) mag) (snd ij) (fst ij) mag.
  Lemma strain_eng v mag b : v < 6 -> b < 6 -> engineering (unit_strain v mag) b = if b =? v then (mag * (1 + 1))%R else 0%R.
  Proof.
    intros. do 6 (destruct v as [|v]; [do 6 (destruct b as [|b]; [cbn; ring|]); exfalso; lia|]); exfalso; lia.
  Qed.
  Lemma strain_sym v mag : v < 6 -> sym_strain (unit_strain v mag).
  Proof.
    intros Hv i j Hi Hj. destruct i as [|[|[|i]]]; try lia; (destruct j as [|[|[|j]]]; try lia); do 6 (destruct v as [|v]; [cbn; ring|]); exfalso; lia.
  Qed.
  Lemma strained_is v mag : v < 6 -> is_strained (unit_strain v mag) axis (strained axis (fst (nth v voidt (0, 0))) (snd (nth v voidt (0, 0))) mag).
  Proof.
    intros Hv i j Hi Hj. unfold strained, mmul. unfold sumn, nsumf, nsum. cbn [map seq fold_right].
    destruct i as [|[|[|i]]]; try lia; do 6 (destruct v as [|v]; [cbn; ring|]); exfalso; lia.
  Qed.
  Lemma eval_comp a k : k < 6 -> nth k (eval_one stress_at axis volume EVtoGPa a) 0%R = ((stress_comp (stress_at a) k - stress_comp (stress_at axis) k) * EVtoGPa / volume)%R.
  Proof. intros. do 6 (destruct k as [|k]; [reflexivity|]); exfalso; lia. Qed.
  Lemma slope_eq mags v1 v2 : v1 < 6 -> v2 < 6 -> (exists m, In m mags /\ m <> 0%R) -> slope stress_at axis volume EVtoGPa is_zero mags v1 v2 = C v2 v1.
  Proof.
    intros H1 H2 [m0 [Hm0 Hn0]]. unfold slope. cbv zeta.
    assert (EY : map (fun s => nopp (nth v2 s n0)) (map (fun mag => eval_one stress_at axis volume EVtoGPa (strained axis (fst (nth v1 voidt (0, 0))) (snd (nth v1 voidt (0, 0))) mag)) mags) = map (fun m => (C v2 v1 * (m * (1 + 1)))%R) mags).
    { rewrite map_map. apply map_ext. intros mag. cbn [nopp n0 R_num]. rewrite eval_comp by exact H2. rewrite (HC (unit_strain v1 mag)); [|now apply strain_sym|now apply strained_is|exact H2].
      rewrite (sumn_ext 6 _ (fun b => if b =? v1 then (C v2 v1 * (mag * (1 + 1)))%R else 0%R)).
      - do 6 (destruct v1 as [|v1]; [cbn; ring|]); exfalso; lia.
      - intros b Hb. rewrite strain_eng by assumption. destruct (Nat.eqb_spec b v1) as [->|]; ring. }
    rewrite EY. unfold lstsq1. cbn [nmul nadd n1 n0 ndiv R_num].
    set (X := map (fun m => (m * (1 + 1))%R) mags).
    assert (EX : nsum (map (fun '(a, b) => (a * b)%R) (combine X (map (fun m => (C v2 v1 * (m * (1 + 1)))%R) mags))) = (C v2 v1 * nsum (map (fun a => a * a) X))%R).
    { unfold X. induction mags as [|m l IH] in |- *; [cbn; ring|]. cbn [map combine nsum fold_right nadd R_num] in *. unfold nsum in IH. cbn [nadd R_num] in IH. rewrite IH. ring. }
    assert (P : (0 < nsum (map (fun a => a * a)%R X))%R).
    { unfold X. clear EX EY X. assert (NN : forall l : list R, (0 <= nsum (map (fun a => a * a)%R l))%R).
      { induction l as [|a l IH]; cbn; [lra|]. pose proof (Rle_0_sqr a) as S. unfold Rsqr in S. unfold nsum in IH. cbn in IH. lra. }
      induction mags as [|m l IH]; [destruct Hm0|]. cbn [map nsum fold_right nadd R_num]. destruct Hm0 as [->|Hm0].
      - pose proof (NN (map (fun m => (m * (1 + 1))%R) l)) as S. unfold nsum in S. cbn [nadd R_num] in S. assert (Q : (0 < m0 * (1 + 1) * (m0 * (1 + 1)))%R) by (apply Rsqr_pos_lt; lra). lra.
      - specialize (IH Hm0). unfold nsum in IH. cbn [nadd R_num] in IH. pose proof (Rle_0_sqr (m * (1 + 1))) as S. unfold Rsqr in S. lra. }
    destruct (is_zero _) eqn:Z; [apply zero_iff in Z; cbn [nmul R_num] in Z; lra|]. rewrite EX. field. lra.
  Qed.
End Slope.
  Lemma magnitudes_ok atol n eps : (0 <= atol < eps)%R -> 2 <= n -> exists m, In m (magnitudes atol n eps) /\ m <> 0%R.
  Proof.
    intros Ha Hn. exists (- eps)%R. split; [|lra]. unfold magnitudes. apply filter_In. split.
    - destruct n as [|[|n]]; try lia. apply in_map_iff. exists 0. split; [cbn; ring|]. apply in_seq. lia.
    - cbn. apply Rltb_true. rewrite Rabs_Ropp, Rabs_right; lra.
  Qed.
