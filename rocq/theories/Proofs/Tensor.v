From Verif Require Import Base Num NumR Model.Tensor.
From Coq Require Import Field Reals Lra Psatz.
Local Open Scope nat_scope.

Section Tensor.
  Context {F : Type} {N : Num F} {L : FieldLaws F}.
  Local Open Scope num_scope.
  Add Field Ff : (field_laws (F:=F)).
  Definition eq3 (a b : mat F) : Prop := forall i j, i < 3 -> j < 3 -> a i j = b i j.
  Lemma sum3 (f : nat -> F) : sumn 3 f = f 0%nat + f 1%nat + f 2%nat.
  Proof. cbn. ring. Qed.
  Lemma eq3_refl a : eq3 a a. Proof. intros i j _ _. reflexivity. Qed.
  Lemma eq3_sym a b : eq3 a b -> eq3 b a. Proof. intros H i j Hi Hj. symmetry. now apply H. Qed.
  Lemma eq3_trans a b c : eq3 a b -> eq3 b c -> eq3 a c. Proof. intros H G i j Hi Hj. rewrite H by assumption. now apply G. Qed.
  Lemma mmul_ext a a' b b' : eq3 a a' -> eq3 b b' -> eq3 (mmul a b) (mmul a' b').
  Proof. intros Ha Hb i j Hi Hj. apply sumn_ext. intros k Hk. now rewrite Ha, Hb. Qed.
  Lemma trans_ext a a' : eq3 a a' -> eq3 (trans a) (trans a').
  Proof. intros H i j Hi Hj. now apply H. Qed.
  Lemma mmul_assoc a b c : eq3 (mmul (mmul a b) c) (mmul a (mmul b c)).
  Proof. intros i j _ _. unfold mmul. rewrite !sum3. ring. Qed.
  Lemma trans_mmul a b : eq3 (trans (mmul a b)) (mmul (trans b) (trans a)).
  Proof. intros i j _ _. unfold trans, mmul. rewrite !sum3. ring. Qed.
  Lemma mmul_eye_l a : eq3 (mmul eye a) a.
  Proof. intros i j Hi Hj. unfold mmul. rewrite sum3. do 3 (destruct i as [|i]; [cbn; ring|]). lia. Qed.
  Lemma mmul_eye_r a : eq3 (mmul a eye) a.
  Proof. intros i j Hi Hj. unfold mmul. rewrite sum3. do 3 (destruct j as [|j]; [cbn; ring|]). lia. Qed.
  Lemma inv3_r a : det3 a <> 0 -> eq3 (mmul a (inv3 a)) eye.
  Proof.
    intros H i j Hi Hj. unfold mmul. rewrite sum3. unfold inv3, det3, ent in *.
    do 3 (destruct i as [|i]; [do 3 (destruct j as [|j]; [cbn [cofactor Nat.add Nat.modulo Nat.divmod Nat.sub fst snd eye Nat.eqb]; unfold cofactor; cbn [Nat.add Nat.modulo Nat.divmod Nat.sub fst snd]; field; exact H|]); lia|]). lia.
  Qed.
  Lemma inv3_l a : det3 a <> 0 -> eq3 (mmul (inv3 a) a) eye.
  Proof.
    intros H i j Hi Hj. unfold mmul. rewrite sum3. unfold inv3, det3, ent in *.
    do 3 (destruct i as [|i]; [do 3 (destruct j as [|j]; [cbn [cofactor Nat.add Nat.modulo Nat.divmod Nat.sub fst snd eye Nat.eqb]; unfold cofactor; cbn [Nat.add Nat.modulo Nat.divmod Nat.sub fst snd]; field; exact H|]); lia|]). lia.
  Qed.
  Lemma det3_ext a b : eq3 a b -> det3 a = det3 b.
  Proof. intros H. unfold det3, ent. now rewrite !H by lia. Qed.
  Lemma det3_mmul a b : det3 (mmul a b) = det3 a * det3 b.
  Proof. unfold det3, ent, mmul. rewrite !sum3. ring. Qed.
  Lemma det3_trans a : det3 (trans a) = det3 a.
  Proof. unfold det3, ent, trans. ring. Qed.
  Lemma det3_eye : det3 (eye (F:=F)) = 1.
  Proof. unfold det3, ent. cbn. ring. Qed.
  (** A one-sided inverse of a 3x3 matrix is two-sided. *)
  Lemma inverse_swap a b : (1 : F) <> 0 -> eq3 (mmul a b) eye -> eq3 (mmul b a) eye.
  Proof.
    intros H01 H. assert (D : det3 a * det3 b = 1) by (rewrite <- det3_mmul, (det3_ext _ _ H); apply det3_eye).
    assert (Da : det3 a <> 0) by (intros E; apply H01; rewrite <- D, E; ring).
    assert (E : eq3 b (inv3 a)).
    { eapply eq3_trans; [apply eq3_sym, mmul_eye_l|]. eapply eq3_trans; [apply mmul_ext; [apply eq3_sym, (inv3_l _ Da)|apply eq3_refl]|].
      eapply eq3_trans; [apply mmul_assoc|]. eapply eq3_trans; [apply mmul_ext; [apply eq3_refl|exact H]|]. apply mmul_eye_r. }
    eapply eq3_trans; [apply mmul_ext; [exact E|apply eq3_refl]|]. now apply inv3_l.
  Qed.
  (** Recovering quantities with an orthogonal matrix. *)
  Lemma forces_back r f i k : eq3 (mmul (trans r) r) eye -> i < 3 ->
    recover_rotated_forces (fun p a => sumn 3 (fun q => r p q * f q a)) r i k = f i k.
  Proof.
    intros H Hi. unfold recover_rotated_forces. transitivity (sumn 3 (fun q => mmul (trans r) r i q * f q k)); [unfold mmul; rewrite !sum3; ring|].
    rewrite (sumn_ext 3 _ (fun q => eye i q * f q k)) by (intros q Hq; now rewrite H). change (mmul eye (fun p q => f p q) i k = f i k). unfold mmul. rewrite sum3.
    do 3 (destruct i as [|i]; [cbn; ring|]). lia.
  Qed.
  Lemma stress_flat s r i j : i < 3 -> j < 3 -> recover_rotated_stress s r i j = mmul (mmul (trans r) s) r i j.
  Proof.
    intros Hi Hj. unfold recover_rotated_stress, matvec, dot, kron, mmul, trans. rewrite !sum3.
    replace ((3 * i + j) / 3)%nat with i by (apply (Nat.div_unique _ 3 i j); lia). replace ((3 * i + j) mod 3)%nat with j by (apply (Nat.mod_unique _ 3 i j); lia).
    cbn [sumn nsumf nsum map seq fold_right]. unfold sumn, nsumf, nsum. cbn [map seq fold_right Nat.div Nat.modulo Nat.divmod Nat.sub fst snd]. ring.
  Qed.
  Lemma stress_back r s i j : eq3 (mmul (trans r) r) eye -> i < 3 -> j < 3 -> recover_rotated_stress (mmul (mmul r s) (trans r)) r i j = s i j.
  Proof.
    intros H Hi Hj. rewrite stress_flat by assumption.
    assert (E : eq3 (mmul (mmul (trans r) (mmul (mmul r s) (trans r))) r) (mmul (mmul (trans r) r) (mmul s (mmul (trans r) r)))).
    { intros p q Hp Hq. unfold mmul, trans. rewrite !sum3. ring. }
    rewrite E by assumption. apply (eq3_trans _ (mmul eye (mmul s eye))); [apply mmul_ext; [exact H|apply mmul_ext; [apply eq3_refl|exact H]]| |assumption|assumption].
    eapply eq3_trans; [apply mmul_eye_l|apply mmul_eye_r].
  Qed.
End Tensor.

Local Open Scope R_scope.
Section Gram.
  Variables g00 g11 g22 g01 g02 g12 : R.
  Let d2 := g00 * g11 - g01 * g01.
  Let d3 := g00 * (g11 * g22 - g12 * g12) - g01 * (g01 * g22 - g12 * g02) + g02 * (g01 * g12 - g11 * g02).
  Hypothesis h0 : 0 < g00. Hypothesis h1 : 0 < g11. Hypothesis h2 : 0 < g22. Hypothesis hd2 : 0 < d2. Hypothesis hd3 : 0 < d3.
  Let a := sqrt g00. Let b := sqrt g11. Let c := sqrt g22.
  Let xy := b * (g01 / (a * b)). Let xz := c * (g02 / (c * a)).
  Let ly := sqrt (b * b - xy * xy). Let yz := (b * c * (g12 / (b * c)) - xy * xz) / ly. Let lz := sqrt (c * c - xz * xz - yz * yz).
  Lemma gram_tri : a * a = g00 /\ a * xy = g01 /\ a * xz = g02 /\ xy * xy + ly * ly = g11 /\ xy * xz + ly * yz = g12 /\ xz * xz + yz * yz + lz * lz = g22 /\ 0 < a /\ 0 < ly /\ 0 < lz.
  Proof.
    assert (Ha : 0 < a) by now apply sqrt_lt_R0. assert (Hb : 0 < b) by now apply sqrt_lt_R0. assert (Hc : 0 < c) by now apply sqrt_lt_R0.
    assert (Ea : a * a = g00) by (apply sqrt_sqrt; lra). assert (Eb : b * b = g11) by (apply sqrt_sqrt; lra). assert (Ec : c * c = g22) by (apply sqrt_sqrt; lra).
    assert (Exy : a * xy = g01) by (unfold xy; field; lra). assert (Exz : a * xz = g02) by (unfold xz; field; lra).
    assert (P1 : b * b - xy * xy = d2 / g00). { apply (Rmult_eq_reg_l g00); [|lra]. unfold d2. replace (g00 * (b * b - xy * xy)) with (g00 * (b * b) - (a * xy) * (a * xy)) by (rewrite <- Ea; ring). rewrite Exy, Eb. field. lra. }
    assert (P1p : 0 < b * b - xy * xy) by (rewrite P1; now apply Rdiv_lt_0_compat).
    assert (Hly : 0 < ly) by now apply sqrt_lt_R0. assert (Ely : ly * ly = b * b - xy * xy) by (apply sqrt_sqrt; lra).
    assert (Eyz : ly * yz = g12 - xy * xz) by (unfold yz; field; lra).
    assert (P2 : c * c - xz * xz - yz * yz = d3 / d2).
    { apply (Rmult_eq_reg_l (g00 * (ly * ly))); [|rewrite Ely; apply Rgt_not_eq, Rmult_gt_0_compat; lra].
      transitivity (g00 * (ly * ly) * (c * c) - (ly * ly) * ((a * xz) * (a * xz)) - g00 * ((ly * yz) * (ly * yz))); [rewrite <- Ea; ring|].
      rewrite Exz, Eyz, Ec, Ely, P1.
      assert (Q1 : xy = g01 / a) by (rewrite <- Exy; field; lra). assert (Q2 : xz = g02 / a) by (rewrite <- Exz; field; lra). rewrite Q1, Q2.
      replace (g01 / a * (g02 / a)) with (g01 * g02 / g00) by (rewrite <- Ea; field; lra). unfold d3, d2. field. unfold d2 in hd2. split; lra. }
    assert (P2p : 0 < c * c - xz * xz - yz * yz) by (rewrite P2; now apply Rdiv_lt_0_compat).
    assert (Hlz : 0 < lz) by now apply sqrt_lt_R0. assert (Elz : lz * lz = c * c - xz * xz - yz * yz) by (apply sqrt_sqrt; lra).
    repeat split; try assumption; lra.
  Qed.
End Gram.
Section Tri.
  Variable A : mat R.
  Hypothesis Hdet : det3 A <> 0.
  Let T := snd (fst (triangularize_axis A)).
  Let Rm := snd (triangularize_axis A).
  Notation col k := (column A k).
  Lemma gram_pos : 0 < dot 3 (col 0%nat) (col 0%nat) /\ 0 < dot 3 (col 1%nat) (col 1%nat) /\ 0 < dot 3 (col 2%nat) (col 2%nat) /\
    0 < dot 3 (col 0%nat) (col 0%nat) * dot 3 (col 1%nat) (col 1%nat) - dot 3 (col 0%nat) (col 1%nat) * dot 3 (col 0%nat) (col 1%nat).
  Proof.
    unfold det3, ent in Hdet. unfold dot. rewrite !sum3. unfold column. cbn [nadd nmul nsub R_num] in *.
    generalize dependent (A 0%nat 0%nat). generalize (A 0%nat 1%nat) (A 0%nat 2%nat) (A 1%nat 0%nat) (A 1%nat 1%nat) (A 1%nat 2%nat) (A 2%nat 0%nat) (A 2%nat 1%nat) (A 2%nat 2%nat).
    intros a01 a02 a10 a11 a12 a20 a21 a22 a00 H. 
    assert (S : forall x y z, (x <> 0 \/ y <> 0 \/ z <> 0) -> 0 < x * x + y * y + z * z).
    { intros x y z [E|[E|E]]; assert (E' := Rsqr_pos_lt _ E); unfold Rsqr in E'; pose proof (Rle_0_sqr x); pose proof (Rle_0_sqr y); pose proof (Rle_0_sqr z); unfold Rsqr in *; lra. }
    assert (D : forall x y z, (x = 0 -> y = 0 -> z = 0 -> False) -> x <> 0 \/ y <> 0 \/ z <> 0) by (intros x y z G; destruct (Req_dec x 0); [destruct (Req_dec y 0); [destruct (Req_dec z 0); [tauto|auto]|auto]|auto]).
    split; [|split; [|split]].
    - apply S, D. intros -> -> ->. apply H. ring.
    - apply S, D. intros -> -> ->. apply H. ring.
    - apply S, D. intros -> -> ->. apply H. ring.
    - replace (_ - _) with ((a10 * a21 - a11 * a20) * (a10 * a21 - a11 * a20) + (a00 * a21 - a01 * a20) * (a00 * a21 - a01 * a20) + (a00 * a11 - a01 * a10) * (a00 * a11 - a01 * a10)) by ring.
      apply S, D. intros E1 E2 E3. apply H. replace (_ + _) with (a02 * (a10 * a21 - a11 * a20) - a12 * (a00 * a21 - a01 * a20) + a22 * (a00 * a11 - a01 * a10)) by ring. rewrite E1, E2, E3. ring.
  Qed.
  Lemma tri_parts : eq3 (mmul (trans T) T) (mmul (trans A) A) /\ T 1%nat 0%nat = 0 /\ T 2%nat 0%nat = 0 /\ T 2%nat 1%nat = 0 /\ 0 < T 0%nat 0%nat /\ 0 < T 1%nat 1%nat /\ 0 < T 2%nat 2%nat.
  Proof.
    destruct gram_pos as [P0 [P1 [P2 D2]]].
    assert (D3 : 0 < dot 3 (col 0%nat) (col 0%nat) * (dot 3 (col 1%nat) (col 1%nat) * dot 3 (col 2%nat) (col 2%nat) - dot 3 (col 1%nat) (col 2%nat) * dot 3 (col 1%nat) (col 2%nat))
      - dot 3 (col 0%nat) (col 1%nat) * (dot 3 (col 0%nat) (col 1%nat) * dot 3 (col 2%nat) (col 2%nat) - dot 3 (col 1%nat) (col 2%nat) * dot 3 (col 2%nat) (col 0%nat))
      + dot 3 (col 2%nat) (col 0%nat) * (dot 3 (col 0%nat) (col 1%nat) * dot 3 (col 1%nat) (col 2%nat) - dot 3 (col 1%nat) (col 1%nat) * dot 3 (col 2%nat) (col 0%nat))).
    { replace (_ + _) with (det3 A * det3 A). { apply Rsqr_pos_lt in Hdet. exact Hdet. }
      unfold det3, ent, dot. rewrite !sum3. unfold column. cbn [nadd nmul nsub R_num]. ring. }
    destruct (gram_tri _ _ _ _ _ _ P0 P1 P2 D2 D3) as [E00 [E01 [E02 [E11 [E12 [E22 [Q0 [Q1 Q2]]]]]]]].
    split; [|repeat split; [exact Q0|exact Q1|exact Q2]].
    assert (M : forall i j, mmul (trans A) A i j = dot 3 (col i) (col j)) by reflexivity.
    intros i j Hi Hj. rewrite M. unfold mmul. rewrite sum3. unfold trans.
    assert (C : forall i j, dot 3 (col i) (col j) = dot 3 (col j) (col i)) by (intros; apply dot_comm).
    destruct i as [|[|[|i]]]; try (exfalso; lia); (destruct j as [|[|[|j]]]; try (exfalso; lia)).
    all: unfold T, triangularize_axis, norm3, rows3; cbn [fst snd nth nsqrt R_ord nadd nmul nsub ndiv n0 R_num].
    - etransitivity; [|exact E00]. ring.
    - etransitivity; [|exact E01]. ring.
    - rewrite (C 0%nat 2%nat). etransitivity; [|exact E02]. ring.
    - rewrite (C 1%nat 0%nat). etransitivity; [|exact E01]. ring.
    - etransitivity; [|exact E11]. ring.
    - etransitivity; [|exact E12]. ring.
    - etransitivity; [|exact E02]. ring.
    - rewrite (C 2%nat 1%nat). etransitivity; [|exact E12]. ring.
    - etransitivity; [|exact E22]. ring.
  Qed.
End Tri.
