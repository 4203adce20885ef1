From Verif Require Import Base Num Model.Regress Spec.Regress Proofs.RegressFinal.
From Coq Require Import Ring Field.

Lemma Forall2_impl {A B} (P Q : A -> B -> Prop) l m : (forall a b, P a b -> Q a b) -> Forall2 P l m -> Forall2 Q l m.
Proof. intros H. induction 1; constructor; auto. Qed.

Section Mse.
  Context {F : Type} {N : Num F} {L : FieldLaws F}.
  Local Open Scope num_scope.
  Add Field Ffield : (field_laws (F:=F)).

  Lemma sumn_nsumf_swap {A} p (f : nat -> A -> F) (l : list A) :
    sumn p (fun i => nsumf (f i) l) = nsumf (fun x => sumn p (fun i => f i x)) l.
  Proof. apply nsumf_swap. Qed.
  Lemma sumn_scale_l p c (f : nat -> F) : sumn p (fun i => c * f i) = c * sumn p f.
  Proof. apply nsumf_scale_l. Qed.
  Lemma sumn_scale_r p c (f : nat -> F) : sumn p (fun i => f i * c) = sumn p f * c.
  Proof. apply nsumf_scale_r. Qed.

  Lemma quad_xtx p (x : list (vec F)) (c : vec F) :
    dot p c (matvec p (xtx_of x) c) = nsumf (fun r => dot p r c * dot p r c) x.
  Proof.
    unfold matvec, dot, xtx_of.
    transitivity (sumn p (fun i => nsumf (fun r : vec F => c i * r i * sumn p (fun j => r j * c j)) x)).
    - apply sumn_ext. intros i _.
      transitivity (c i * sumn p (fun j => nsumf (fun r : vec F => r i * r j * c j) x)).
      { f_equal. apply sumn_ext. intros j _. now rewrite nsumf_scale_r. }
      rewrite sumn_nsumf_swap, <- nsumf_scale_l. apply nsumf_ext'. intros r.
      transitivity (c i * (r i * sumn p (fun j => r j * c j))); [|ring]. f_equal.
      rewrite <- sumn_scale_l. apply sumn_ext. intros; ring.
    - rewrite sumn_nsumf_swap. apply nsumf_ext'. intros r. rewrite sumn_scale_r. f_equal.
      apply sumn_ext. intros; ring.
  Qed.
  Lemma lin_xty p (x : list (vec F)) (y : list F) (c : vec F) :
    dot p c (xty_of x y) = nsumf (fun q => dot p (fst q) c * snd q) (combine x y).
  Proof.
    unfold dot, xty_of.
    transitivity (sumn p (fun i => nsumf (fun q : vec F * F => c i * (fst q i * snd q)) (combine x y))).
    - apply sumn_ext. intros i _. now rewrite nsumf_scale_l.
    - rewrite sumn_nsumf_swap. apply nsumf_ext'. intros q. rewrite <- sumn_scale_r. apply sumn_ext. intros; ring.
  Qed.

  Lemma nsumf_combine_l {A B} (f : A -> F) (x : list A) (y : list B) : length x = length y ->
    nsumf (fun q => f (fst q)) (combine x y) = nsumf f x.
  Proof. revert y; induction x as [|a x IH]; intros [|b y] H; try discriminate; [reflexivity|]. cbn [combine]. rewrite !nsumf_cons, IH by (cbn in H; lia). reflexivity. Qed.
  Lemma nsumf_combine_r {A B} (f : B -> F) (x : list A) (y : list B) : length x = length y ->
    nsumf (fun q => f (snd q)) (combine x y) = nsumf f y.
  Proof. revert y; induction x as [|a x IH]; intros [|b y] H; try discriminate; [reflexivity|]. cbn [combine]. rewrite !nsumf_cons, IH by (cbn in H; lia). reflexivity. Qed.

  Lemma mse_equal p (x : list (vec F)) (y : list F) (xtx : mat F) (xty : vec F) (yy : F) n c :
    length x = length y -> n = length y ->
    (forall i j, (i < p)%nat -> (j < p)%nat -> xtx i j = xtx_of x i j) ->
    (forall i, (i < p)%nat -> xty i = xty_of x y i) -> yy = ysq y ->
    compute_mse p xtx xty yy n c = mse_standard p x y c.
  Proof.
    intros Hl -> H1 H2 ->. unfold compute_mse, mse_standard. f_equal.
    rewrite (dot_ext p c c (matvec p xtx c) (matvec p (xtx_of x) c)); [|reflexivity|].
    2:{ intros i Hi. unfold matvec. apply dot_ext; [|reflexivity]. intros j Hj. auto. }
    rewrite quad_xtx.
    rewrite (dot_ext p _ (fun i => - (1 + 1) * c i) xty (xty_of x y)) by auto.
    rewrite dot_scale_l, lin_xty.
    rewrite <- (nsumf_combine_l (fun r => dot p r c * dot p r c) x y Hl).
    unfold ysq. rewrite <- (nsumf_combine_r (fun a => a * a) x y Hl).
    rewrite <- nsumf_scale_l, <- !nsumf_add. apply nsumf_ext'. intros q. ring.
  Qed.
End Mse.

Section Ridge.
  Context {F : Type} {N : Num F} {L : RingLaws F}.
  Local Open Scope num_scope.
  Add Ring Fr : (ring_laws (F:=F)).
  Variable solve : mat F -> vec F -> vec F.
  Variable p : nat.
  (** The solver looks at the p x p entries of the matrix only. *)
  Hypothesis solve_ext : forall m m' v, (forall i j, (i < p)%nat -> (j < p)%nat -> m i j = m' i j) ->
    forall i, (i < p)%nat -> solve m v i = solve m' v i.

  Lemma ridge_loop_spec xtx0 xty alphas : forall prev xtx cs,
    (forall i j, xtx i j = add_diag prev xtx0 i j) ->
    exists m cs', ridge_loop solve xty alphas prev xtx cs = (m, last alphas prev, cs ++ cs') /\
      (forall i j, m i j = add_diag (last alphas prev) xtx0 i j) /\
      Forall2 (fun a c => forall i, (i < p)%nat -> c i = solve (add_diag a xtx0) xty i) alphas cs'.
  Proof.
    induction alphas as [|a alphas IH]; intros prev xtx cs H; cbn [ridge_loop].
    - exists xtx, []. rewrite app_nil_r. auto.
    - set (xtx' := add_diag (a - prev) xtx).
      assert (H' : forall i j, xtx' i j = add_diag a xtx0 i j).
      { intros i j. unfold xtx', add_diag. rewrite H. unfold add_diag. destruct (i =? j)%nat; [ring|reflexivity]. }
      destruct (IH a xtx' (cs ++ [solve xtx' xty]) H') as [m [cs' [E [Hm HF]]]].
      exists m, (solve xtx' xty :: cs'). rewrite E, <- app_assoc. cbn [app].
      replace (last (a :: alphas) prev) with (last alphas a).
      + split; [reflexivity|]. split; [exact Hm|]. constructor; [|exact HF]. intros i Hi. apply solve_ext; auto.
      + clear. destruct alphas as [|b l]; [reflexivity|]. change (last (a :: b :: l) prev) with (last (b :: l) prev).
        revert b. induction l as [|c l IH]; intros b; [reflexivity|]. cbn [last]. apply (IH c).
  Qed.

  Lemma ridge_spec xtx xty alphas : alphas <> [] ->
    exists cs m, solver_ridge solve xtx xty alphas = Ok (cs, m) /\
      (forall i j, m i j = xtx i j) /\
      Forall2 (fun a c => forall i, (i < p)%nat -> c i = solve (fun k l => xtx k l + (if (k =? l)%nat then a else 0)) xty i) alphas cs.
  Proof.
    intros Hne. unfold solver_ridge.
    destruct (ridge_loop_spec xtx xty alphas 0 xtx []) as [m [cs [E [Hm HF]]]].
    { intros i j. unfold add_diag. destruct (i =? j)%nat; [ring|reflexivity]. }
    destruct alphas as [|a l]; [congruence|]. rewrite E. cbn [app]. eexists cs, _. split; [reflexivity|]. split.
    - intros i j. unfold add_diag. destruct (i =? j)%nat eqn:Eij; rewrite Hm; unfold add_diag; rewrite Eij; [ring|reflexivity].
    - eapply Forall2_impl; [|exact HF]. intros b c Hc i Hi. rewrite Hc by exact Hi. apply solve_ext; [|exact Hi].
      intros k l0 _ _. unfold add_diag. destruct (k =? l0)%nat; ring.
  Qed.

  Lemma ridge_solves xtx xty alphas :
    alphas <> [] ->
    (forall a, In a alphas -> let m := fun k l => xtx k l + (if (k =? l)%nat then a else 0) in
       forall i, (i < p)%nat -> matvec p m (solve m xty) i = xty i) ->
    exists cs m, solver_ridge solve xtx xty alphas = Ok (cs, m) /\ (forall i j, m i j = xtx i j) /\
      length cs = length alphas /\
      forall k a c, nth_error alphas k = Some a -> nth_error cs k = Some c ->
        forall i, (i < p)%nat -> dot p (xtx i) c + a * c i = xty i.
  Proof.
    intros Hne Hs. destruct (ridge_spec xtx xty alphas Hne) as [cs [m [E [Hm HF]]]]. exists cs, m.
    split; [exact E|]. split; [exact Hm|]. split; [symmetry; eapply Forall2_length, HF|].
    intros k a c Ha Hc.
    assert (Hac : forall i, (i < p)%nat -> c i = solve (fun k l => xtx k l + (if (k =? l)%nat then a else 0)) xty i).
    { clear -HF Ha Hc. revert k Ha Hc. induction HF as [|a' c' la lc H _ IH]; intros [|k] Ha Hc; cbn in Ha, Hc; try discriminate.
      - injection Ha as <-. injection Hc as <-. exact H.
      - eapply IH; eassumption. }
    intros i Hi. rewrite <- (Hs a (nth_error_In _ _ Ha) i Hi).
    unfold matvec, dot.
    transitivity (sumn p (fun j => xtx i j * c j) + sumn p (fun j => (if (i =? j)%nat then a else 0) * c j)).
    - f_equal. clear -Hi L. induction p as [|q IH]; [lia|]. rewrite sumn_S.
      destruct (Nat.eq_dec i q) as [->|Hne].
      + rewrite Nat.eqb_refl. transitivity (0 + a * c q); [ring|]. f_equal.
        transitivity (sumn q (fun _ => 0 * 0)); [|apply sumn_ext; intros j Hj; replace (q =? j)%nat with false by (symmetry; apply Nat.eqb_neq; lia); ring].
        unfold sumn. rewrite nsumf_scale_l. ring.
      + rewrite <- IH by lia. replace (i =? q)%nat with false by (symmetry; apply Nat.eqb_neq; exact Hne). ring.
    - unfold sumn. rewrite <- nsumf_add. apply nsumf_ext. intros j Hj. apply in_seq in Hj. rewrite <- Hac by lia. ring.
  Qed.
End Ridge.

Section Best.
  Context {F : Type} {N : Num F} {O : NumOrd F} {OL : OrdLaws F}.
  Local Open Scope num_scope.

  Lemma argmin_from_spec l : forall (pre : list F) k best m,
    k = length pre -> nth_error pre best = Some m ->
    (forall i a, nth_error pre i = Some a -> nltb a m = false) ->
    (forall i a, (i < best)%nat -> nth_error pre i = Some a -> nltb m a = true) ->
    let b := argmin_from k best m l in
    exists v, nth_error (pre ++ l) b = Some v /\
      (forall i a, nth_error (pre ++ l) i = Some a -> nltb a v = false) /\
      (forall i a, (i < b)%nat -> nth_error (pre ++ l) i = Some a -> nltb v a = true).
  Proof.
    induction l as [|x l IH]; intros pre k best m -> H1 H2 H3; cbn [argmin_from].
    - rewrite app_nil_r. exists m. auto.
    - replace (pre ++ x :: l) with ((pre ++ [x]) ++ l) by (rewrite <- app_assoc; reflexivity).
      assert (Hb : (best < length pre)%nat) by (apply nth_error_Some; congruence).
      destruct (nltb x m) eqn:E; cbn zeta.
      + apply IH.
        * rewrite app_length. cbn. lia.
        * rewrite nth_error_app2, Nat.sub_diag by lia. reflexivity.
        * intros i a Hi. destruct (Nat.lt_ge_cases i (length pre)) as [Hlt|Hge].
          -- rewrite nth_error_app1 in Hi by lia. eapply nltb_ntrans; [eapply H2, Hi|]. now apply nltb_asym.
          -- rewrite nth_error_app2 in Hi by lia. destruct (i - length pre)%nat as [|n]; cbn in Hi; [|destruct n; discriminate].
             injection Hi as <-. apply nltb_irrefl.
        * intros i a Hi Ha. rewrite nth_error_app1 in Ha by lia. destruct (nltb x a) eqn:Ex; [reflexivity|].
          exfalso. assert (nltb x m = false) by (eapply nltb_ntrans; [exact Ex|eapply H2, Ha]). congruence.
      + apply IH.
        * rewrite app_length. cbn. lia.
        * rewrite nth_error_app1 by lia. exact H1.
        * intros i a Hi. destruct (Nat.lt_ge_cases i (length pre)) as [Hlt|Hge].
          -- rewrite nth_error_app1 in Hi by lia. eapply H2, Hi.
          -- rewrite nth_error_app2 in Hi by lia. destruct (i - length pre)%nat as [|n]; cbn in Hi; [|destruct n; discriminate].
             injection Hi as <-. exact E.
        * intros i a Hi Ha. rewrite nth_error_app1 in Ha by lia. eapply H3; eassumption.
  Qed.

  Lemma argmin_spec l : l <> [] -> exists b (v : F), argmin l = Ok b /\ nth_error l b = Some v /\
      (forall i a, nth_error l i = Some a -> nltb a v = false) /\
      (forall i a, (i < b)%nat -> nth_error l i = Some a -> nltb v a = true).
  Proof.
    intros Hne. destruct l as [|x l]; [congruence|]. unfold argmin.
    destruct (argmin_from_spec l [x] 1 0 x eq_refl eq_refl) as [v H].
    - intros [|i] a Ha; cbn in Ha; [injection Ha as <-; apply nltb_irrefl|destruct i; discriminate].
    - intros i a Hi. lia.
    - cbn [app] in H. exists (argmin_from 1 0 x l), v. split; [reflexivity|exact H].
  Qed.

  Lemma best_spec (alphas : list F) (coefs : list (vec F)) (scales : vec F) rmse_train rmse_test :
    let n := length alphas in
    length coefs = n -> length rmse_train = n -> length rmse_test = n -> (1 <= n)%nat ->
    exists k r, get_best_model alphas coefs scales rmse_train rmse_test = Ok r /\
      nth_error alphas k = Some (p_alpha r) /\ nth_error coefs k = Some (p_coeffs r) /\
      nth_error rmse_train k = Some (p_rmse_train r) /\ nth_error rmse_test k = Some (p_rmse_test r) /\
      p_scales r = scales /\ (forall i, p_scaled r i = p_coeffs r i / scales i) /\
      (forall i e, nth_error rmse_test i = Some e -> nltb e (p_rmse_test r) = false) /\
      (forall i e, (i < k)%nat -> nth_error rmse_test i = Some e -> nltb (p_rmse_test r) e = true).
  Proof.
    intros n H1 H2 H3 H4. unfold get_best_model. fold n. rewrite H1, H2, H3, Nat.eqb_refl. cbn [negb].
    destruct (argmin_spec rmse_test) as [k [v [E [Hv [Ha Hb]]]]]; [destruct rmse_test; [cbn in H3; lia|discriminate]|].
    rewrite E. cbn [bind].
    assert (Hk : (k < n)%nat) by (rewrite <- H3; apply nth_error_Some; congruence).
    assert (G : forall {A} (l : list A), length l = n -> exists a, get l k = Ok a /\ nth_error l k = Some a).
    { intros A l Hl. destruct (nth_error l k) as [a|] eqn:En; [exists a; unfold get; rewrite En; auto|].
      apply nth_error_None in En. lia. }
    destruct (G _ coefs H1) as [c [Ec Ec']]. destruct (G _ rmse_train H2) as [t [Et Et']].
    destruct (G _ alphas eq_refl) as [al [Eal Eal']].
    unfold get at 3. rewrite Hv. rewrite Ec, Et, Eal. cbn [bind].
    eexists k, _. split; [reflexivity|]. cbn. repeat split; auto.
  Qed.
End Best.
