From Verif Require Import Base Num Model.FC2 Spec.Harmonic.
From Coq Require Import Field.

Section FC2.
  Context {F : Type} {N : Num F} {L : FieldLaws F} {C0 : Char0 F}.
  Local Open Scope num_scope.
  Add Field Ff : (field_laws (F:=F)).
  Notation idx a i := (3 * a + i)%nat.
  Notation n3 n := (3 * n)%nat.

  Lemma two_neq0 : (1 + 1 : F) <> 0.
  Proof. intros H. apply (char0 (F:=F) 1). cbn [nnat]. transitivity (1 + 1 : F); [ring|exact H]. Qed.
  Lemma sumn_scale p c (f : nat -> F) : sumn p (fun i => c * f i) = c * sumn p f.
  Proof. apply nsumf_scale_l. Qed.
  Lemma sumn_add p (f g : nat -> F) : sumn p (fun i => f i + g i) = sumn p f + sumn p g.
  Proof. apply nsumf_add. Qed.
  Lemma sumn_opp p (f : nat -> F) : sumn p (fun i => - f i) = - sumn p f.
  Proof. apply nsumf_opp. Qed.
  Lemma sumn_3 (f : nat -> F) : sumn 3 f = f 0%nat + f 1%nat + f 2%nat.
  Proof. cbn. ring. Qed.
  Lemma sumn_split3 n (f : nat -> F) : sumn (n3 n) f = sumn n (fun a => sumn 3 (fun i => f (idx a i))).
  Proof.
    induction n as [|n IH]; [reflexivity|]. replace (3 * S n)%nat with (S (S (S (3 * n)))) by lia. rewrite (sumn_S (S (S (3 * n))) f), (sumn_S (S (3 * n)) f), (sumn_S (3 * n) f), (sumn_S n (fun a => _)), IH. rewrite (sumn_3 (fun i => f (idx n i))).
    replace (3 * n + 0)%nat with (3 * n)%nat by lia. replace (3 * n + 1)%nat with (S (3 * n)) by lia. replace (3 * n + 2)%nat with (S (S (3 * n))) by lia. ring.
  Qed.
  Lemma idx_div a i : i < 3 -> ((idx a i) / 3 = a)%nat.
  Proof. intros H. symmetry. apply (Nat.div_unique _ 3 a i); lia. Qed.
  Lemma idx_mod a i : i < 3 -> ((idx a i) mod 3 = i)%nat.
  Proof. intros H. symmetry. apply (Nat.mod_unique _ 3 a i); lia. Qed.
  Lemma idx_lt n a i : a < n -> i < 3 -> idx a i < n3 n.
  Proof. lia. Qed.

  (** Bilinear form. *)
  Definition form (p : nat) (fc : mat F) (u v : vec F) : F := dot p u (matvec p fc v).
  Lemma form_sum p fc u v : form p fc u v = sumn p (fun a => sumn p (fun b => u a * fc a b * v b)).
  Proof. unfold form, dot, matvec. apply sumn_ext. intros a _. unfold dot. rewrite <- sumn_scale. apply sumn_ext. intros b _. ring. Qed.
  Lemma form_sym p fc u v : (forall a b, a < p -> b < p -> fc a b = fc b a) -> form p fc u v = form p fc v u.
  Proof. intros H. rewrite !form_sum, sumn_swap. apply sumn_ext. intros a Ha. apply sumn_ext. intros b Hb. rewrite (H b a Hb Ha). ring. Qed.
  Lemma form_add_l p fc u v w : form p fc (fun a => u a + v a) w = form p fc u w + form p fc v w.
  Proof. apply dot_add_l. Qed.
  Lemma form_add_r p fc u v w : form p fc w (fun a => u a + v a) = form p fc w u + form p fc w v.
  Proof. unfold form. rewrite <- dot_add_r. apply dot_ext; [reflexivity|]. intros i _. apply dot_add_r. Qed.

  Notation energy n fc u := (h_energy (eval_properties_fc2 (n3 n) fc u)).
  Notation force n fc u := (h_forces (eval_properties_fc2 (n3 n) fc u)).

  Lemma force_eq n (fc : mat F) u i a : force n fc u i a = - matvec (n3 n) fc u (idx a i).
  Proof. cbn [h_forces eval_properties_fc2]. unfold matvec, dot. rewrite <- sumn_opp. apply sumn_ext. intros b _. ring. Qed.
  Lemma energy_form n (fc : mat F) u : energy n fc u = form (n3 n) fc u u / (1 + 1).
  Proof.
    cbn [h_energy eval_properties_fc2]. unfold nhalf, form. set (p := n3 n).
    replace (dot p (fun k => - u k) (matvec p fc (fun k => - u k))) with (dot p u (matvec p fc u)); [field; apply two_neq0|].
    unfold matvec. apply sumn_ext. intros k _. replace (dot p (fc k) (fun k => - u k)) with (- dot p (fc k) u); [ring|].
    unfold dot. rewrite <- sumn_opp. apply sumn_ext. intros b _. ring.
  Qed.
  Lemma form_force n (fc : mat F) u v : form (n3 n) fc v u = - sumn n (fun a => sumn 3 (fun i => force n fc u i a * v (idx a i))).
  Proof.
    unfold form, dot. rewrite sumn_split3, <- sumn_opp. apply sumn_ext. intros a _. rewrite <- sumn_opp. apply sumn_ext. intros i _. rewrite force_eq. ring.
  Qed.
  Lemma energy_forces n (fc : mat F) u :
    energy n fc u = sumn (n3 n) (fun p => sumn (n3 n) (fun q => u p * fc p q * u q)) / (1 + 1) /\
    (forall a i, a < n -> i < 3 -> force n fc u i a = - sumn n (fun b => sumn 3 (fun j => fc (idx a i) (idx b j) * u (idx b j)))) /\
    energy n fc u = - sumn n (fun a => sumn 3 (fun i => u (idx a i) * force n fc u i a)) / (1 + 1).
  Proof.
    split; [|split].
    - rewrite energy_form, form_sum. reflexivity.
    - intros a i _ _. rewrite force_eq. unfold matvec, dot. rewrite sumn_split3. reflexivity.
    - rewrite energy_form, form_force. f_equal. f_equal. apply sumn_ext. intros a _. apply sumn_ext. intros i _. ring.
  Qed.

  Lemma energy_expand n (fc : mat F) u v : symmetric n fc ->
    energy n fc (fun p => u p + v p) = energy n fc u - sumn n (fun a => sumn 3 (fun i => force n fc u i a * v (idx a i))) + energy n fc v.
  Proof.
    intros H. rewrite !energy_form. replace (sumn n _) with (- form (n3 n) fc v u) by (rewrite form_force; ring).
    rewrite form_add_l, !form_add_r. rewrite (form_sym _ fc u v H). field. apply two_neq0.
  Qed.
  Lemma energy_scale n (fc : mat F) c v : energy n fc (fun p => c * v p) = c * c * energy n fc v.
  Proof.
    rewrite !energy_form. replace (form (n3 n) fc (fun p => c * v p) (fun p => c * v p)) with (c * c * form (n3 n) fc v v); [field; apply two_neq0|].
    unfold form. rewrite dot_scale_l. replace (dot (n3 n) v (matvec (n3 n) fc (fun p => c * v p))) with (c * dot (n3 n) v (matvec (n3 n) fc v)); [ring|].
    rewrite <- dot_scale_r. apply dot_ext; [reflexivity|]. intros i _. unfold matvec. now rewrite dot_scale_r.
  Qed.


  Lemma acoustic_const n (fc : mat F) c p : acoustic n fc -> p < n3 n -> matvec (n3 n) fc (fun q => c (q mod 3)%nat) p = 0.
  Proof.
    intros HA Hp. unfold matvec, dot. rewrite sumn_split3. rewrite (sumn_ext n _ (fun b => sumn 3 (fun j => c j * fc p (idx b j)))).
    - rewrite sumn_swap. rewrite (sumn_ext 3 _ (fun _ => 0)); [apply nsumf_zero|]. intros j Hj. rewrite sumn_scale, HA by assumption. ring.
    - intros b _. apply sumn_ext. intros j Hj. rewrite idx_mod by exact Hj. ring.
  Qed.
  Lemma energy_shift n (fc : mat F) u c : symmetric n fc -> acoustic n fc ->
    energy n fc (shifted u c) = energy n fc u /\ forall a i, a < n -> i < 3 -> force n fc (shifted u c) i a = force n fc u i a.
  Proof.
    intros HS HA. assert (Z : forall w, form (n3 n) fc w (fun q => c (q mod 3)%nat) = 0).
    { intros w. unfold form, dot. rewrite (sumn_ext _ _ (fun _ => 0)); [apply nsumf_zero|]. intros p Hp. rewrite acoustic_const by assumption. ring. }
    split.
    - rewrite !energy_form. unfold shifted. rewrite form_add_l, !form_add_r, !Z. rewrite (form_sym _ fc (fun q => c (q mod 3)%nat) u HS), Z. f_equal. ring.
    - intros a i Ha Hi. rewrite !force_eq. unfold shifted. f_equal.
      transitivity (matvec (n3 n) fc u (idx a i) + matvec (n3 n) fc (fun q => c (q mod 3)%nat) (idx a i)); [apply dot_add_r|]. rewrite acoustic_const by (assumption || now apply idx_lt). ring.
  Qed.
  Lemma net_force n (fc : mat F) u i : symmetric n fc -> acoustic n fc -> i < 3 -> sumn n (fun a => force n fc u i a) = 0.
  Proof.
    intros HS HA Hi. rewrite (sumn_ext n _ (fun a => - sumn (n3 n) (fun q => fc (idx a i) q * u q))) by (intros; apply force_eq).
    rewrite sumn_opp, sumn_swap. rewrite (sumn_ext (n3 n) _ (fun _ => 0)); [unfold sumn; rewrite nsumf_zero; ring|].
    intros q Hq. rewrite (sumn_ext n _ (fun a => u q * fc q (idx a i))) by (intros a Ha; rewrite (HS (idx a i) q) by (assumption || now apply idx_lt); ring).
    rewrite sumn_scale, HA by assumption. ring.
  Qed.

  Lemma stress_deform n (fc : mat F) u e sxx syy szz sxy syz szx : symmetric n fc -> (forall i j, i < 3 -> j < 3 -> e i j = e j i) ->
    h_stress (eval_properties_fc2 (n3 n) fc u) = [sxx; syy; szz; sxy; syz; szx] ->
    energy n fc (fun p => u p + deformed e u p) =
    energy n fc u - (sxx * e 0%nat 0%nat + syy * e 1%nat 1%nat + szz * e 2%nat 2%nat + (1 + 1) * (sxy * e 0%nat 1%nat + syz * e 1%nat 2%nat + szx * e 2%nat 0%nat)) + energy n fc (deformed e u).
  Proof.
    intros HS He HT. rewrite energy_expand by exact HS. f_equal. f_equal.
    set (f := force n fc u).
    assert (E : forall i j, In (i, j) stress_indices -> nhalf * sumn n (fun a => f i a * u (idx a j) + f j a * u (idx a i)) = (sumn n (fun a => f i a * u (idx a j)) + sumn n (fun a => f j a * u (idx a i))) / (1 + 1)).
    { intros i j _. rewrite sumn_add. unfold nhalf. field. apply two_neq0. }
    assert (HS2 : exists S : nat -> nat -> F, forall i j, S i j = sumn n (fun a => f i a * u (idx a j))) by (eexists; reflexivity). destruct HS2 as [S HSv].
    assert (HT2 : map (fun '(i, j) => (S i j + S j i) / (1 + 1)) stress_indices = [sxx; syy; szz; sxy; syz; szx]).
    { rewrite <- HT. unfold eval_properties_fc2 at 1. cbn [h_stress]. replace (n3 n / 3)%nat with n by (rewrite Nat.mul_comm; symmetry; apply Nat.div_mul; lia). apply map_ext_in. intros [i j] Hij. symmetry. rewrite !HSv. now apply (E i j). }
    clear HT E. cbn [map stress_indices] in HT2. injection HT2 as <- <- <- <- <- <-.
    rewrite (sumn_ext n _ (fun a => sumn 3 (fun i => sumn 3 (fun j => e i j * (f i a * u (idx a j)))))).
    2:{ intros a _. apply sumn_ext. intros i Hi. unfold deformed. rewrite idx_mod, idx_div by exact Hi. unfold dot. rewrite <- sumn_scale. apply sumn_ext. intros j _. fold f. ring. }
    rewrite sumn_swap, sumn_3.
    rewrite !(sumn_swap n 3 (fun a j => e _ j * (f _ a * u (idx a j)))), !sumn_3, !sumn_scale. rewrite <- !HSv.
    rewrite (He 1 0)%nat, (He 2 1)%nat, (He 0 2)%nat by lia. field. apply two_neq0.
  Qed.
End FC2.
