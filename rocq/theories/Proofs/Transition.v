From Verif Require Import Base Num NumR Model.Structure Model.Readers Model.Polyfit Model.Equilibrium Model.Transition Spec.Polyfit Spec.Equilibrium Spec.Transition
  Proofs.Readers Proofs.Polyfit Proofs.PolyfitModel Proofs.PolyfitSearch Proofs.Equilibrium Props.C72.
From Coq Require Import Reals Lra Psatz.
Local Open Scope R_scope.

(** ** Polynomials by their degree *)
Fixpoint poly (n : nat) (f : R -> R) : Prop :=
  match n with
  | O => exists c, forall x, f x = c
  | S n' => exists c g, poly n' g /\ forall x, f x = c + x * g x
  end.
Lemma poly_ext n f g : (forall x, f x = g x) -> poly n f -> poly n g.
Proof.
  destruct n as [|n]; cbn; intros E.
  - intros [c H]. exists c. intros x. now rewrite <- E.
  - intros [c [h [H1 H2]]]. exists c, h. split; [exact H1|]. intros x. now rewrite <- E.
Qed.
Lemma poly_lift n : forall f, poly n f -> poly (S n) f.
Proof.
  induction n as [|n IH]; intros f.
  - intros [c H]. exists c, (fun _ => 0). split; [now exists 0|]. intros x. rewrite H. ring.
  - intros [c [g [H1 H2]]]. exists c, g. split; [now apply IH|exact H2].
Qed.
Lemma poly_le n m f : (n <= m)%nat -> poly n f -> poly m f.
Proof. induction 1; auto using poly_lift. Qed.
Lemma poly_comb n : forall f g a b, poly n f -> poly n g -> poly n (fun x => a * f x + b * g x).
Proof.
  induction n as [|n IH]; intros f g a b.
  - intros [c H] [d K]. exists (a * c + b * d). intros x. now rewrite H, K.
  - intros [c [f' [H1 H2]]] [d [g' [K1 K2]]]. exists (a * c + b * d), (fun x => a * f' x + b * g' x). split; [now apply IH|]. intros x. rewrite H2, K2. ring.
Qed.
Lemma poly_divide n : forall f, poly (S n) f -> forall a, exists q, poly n q /\ forall x, f x - f a = (x - a) * q x.
Proof.
  induction n as [|n IH]; intros f [c [g [H1 H2]]] a.
  - destruct H1 as [d H1]. exists (fun _ => d). split; [now exists d|]. intros x. rewrite !H2, !H1. ring.
  - destruct (IH g H1 a) as [q [Q1 Q2]]. exists (fun x => 1 * g x + a * q x). split; [apply poly_comb; [exact H1|now apply poly_lift]|].
    intros x. rewrite !H2. replace (c + x * g x - (c + a * g a)) with ((x - a) * g x + a * (g x - g a)) by ring. rewrite Q2. ring.
Qed.
Lemma poly_roots n : forall f xs, poly n f -> NoDup xs -> (n < length xs)%nat -> (forall x, In x xs -> f x = 0) -> forall x, f x = 0.
Proof.
  induction n as [|n IH]; intros f [|a xs] H D L Z x; try (cbn in L; lia).
  - destruct H as [c H]. rewrite H. rewrite <- (H a). apply Z. now left.
  - destruct (poly_divide n f H a) as [q [Q1 Q2]]. inversion D as [|? ? D1 D2]. subst.
    assert (Zq : forall y, q y = 0).
    { apply (IH q xs Q1 D2); [cbn in L; lia|]. intros y Hy. specialize (Q2 y). rewrite (Z y (or_intror Hy)), (Z a (or_introl eq_refl)) in Q2.
      assert (NE : y - a <> 0) by (intros E; apply D1; replace a with y by lra; exact Hy). apply (Rmult_eq_reg_l (y - a)); [|exact NE]. lra. }
    specialize (Q2 x). rewrite Zq, (Z a (or_introl eq_refl)) in Q2. lra.
Qed.
(** Coefficients *)
Lemma sum_shift c x n : sum_f_R0 (fun i => c i * x ^ i) (S n) = c O + x * sum_f_R0 (fun i => c (S i) * x ^ i) n.
Proof.
  induction n as [|n IH]; [cbn; ring|]. rewrite tech5, IH, (tech5 (fun i => c (S i) * x ^ i)). cbn [pow]. ring.
Qed.
Lemma sum_poly n : forall c, poly n (fun x => sum_f_R0 (fun i => c i * x ^ i) n).
Proof.
  induction n as [|n IH]; intros c.
  - exists (c O). intros x. cbn. ring.
  - exists (c O), (fun x => sum_f_R0 (fun i => c (S i) * x ^ i) n). split; [apply (IH (fun i => c (S i)))|]. intros x. apply sum_shift.
Qed.
Lemma spread (n : nat) : exists xs : list R, NoDup xs /\ (n < length xs)%nat /\ ~ In 0 xs.
Proof.
  exists (map INR (seq 1 (S n))). split; [|split; [rewrite map_length, seq_length; lia|]].
  - apply FinFun.Injective_map_NoDup; [intros a b; apply INR_eq|apply seq_NoDup].
  - intros H. apply in_map_iff in H. destruct H as [k [H1 H2]]. apply in_seq in H2. apply (INR_eq k 0) in H1. lia.
Qed.
Lemma sum_zero n : forall c, (forall x, sum_f_R0 (fun i => c i * x ^ i) n = 0) -> forall i, (i <= n)%nat -> c i = 0.
Proof.
  induction n as [|n IH]; intros c H i Hi.
  - specialize (H 0). cbn in H. replace i with O by lia. lra.
  - assert (C0 : c O = 0). { specialize (H 0). rewrite sum_shift in H. lra. }
    destruct i as [|i]; [exact C0|]. apply (IH (fun i => c (S i))); [|lia].
    destruct (spread n) as [xs [X1 [X2 X3]]]. apply (poly_roots n _ xs); [apply (sum_poly n (fun i => c (S i)))|exact X1|exact X2|].
    intros x Hx. specialize (H x). rewrite sum_shift, C0 in H. assert (NE : x <> 0) by (intros ->; contradiction).
    apply (Rmult_eq_reg_l x); [|exact NE]. lra.
Qed.
Lemma sumn_sum n (f : nat -> R) : sumn (F:=R) (S n) f = sum_f_R0 f n.
Proof.
  induction n as [|n IH]; [rewrite (sumn_S (F:=R)); cbn; unfold sumn; cbn; ring|]. rewrite (sumn_S (F:=R)), IH. reflexivity.
Qed.
Notation kd o := (mk_kind o true true false).
Lemma value_sum o f x : c_sqrt f = 0 -> value (kd o) f x = sum_f_R0 (fun i => c_pow f i * x ^ i) o.
Proof. intros H. unfold value. cbn [k_order]. rewrite H, sumn_sum. ring. Qed.
Lemma distinct_determined o xs : NoDup xs -> (o < length xs)%nat -> determined (kd o) xs.
Proof.
  intros D L f [B _] Z. specialize (B eq_refl). split; [exact B|]. cbn [k_order]. apply sum_zero.
  apply (poly_roots o _ xs); [apply sum_poly|exact D|exact L|]. intros x Hx. rewrite <- value_sum by exact B. now apply Z.
Qed.
Lemma without_length {A} i (l : list A) : (i < length l)%nat -> length (without i l) = (length l - 1)%nat.
Proof. intros H. unfold without. rewrite app_length, firstn_length, skipn_length. lia. Qed.
Lemma without_NoDup {A} i (l : list A) : NoDup l -> NoDup (without i l).
Proof.
  intros H. unfold without. destruct (nth_error l i) as [a|] eqn:E.
  - rewrite (without_split l i a E) in H. eapply NoDup_remove_1. exact H.
  - apply nth_error_None in E. rewrite firstn_all2 by exact E. rewrite skipn_all2 by lia. now rewrite app_nil_r.
Qed.
Lemma squares_nonneg k D f : (forall q, In q D -> pw q = 1) -> 0 <= squares k D f.
Proof. intros H. unfold squares. apply nsumf_nonneg. intros q Hq. rewrite (H q Hq). cbn [nmul R_num]. apply Rmult_le_pos; [lra|]. cbn. rewrite Rmult_1_r. apply Rle_0_sqr. Qed.
Lemma plain_pw xs ys q : In q (plain xs ys) -> pw q = 1.
Proof. unfold plain. intros H. apply in_map_iff in H. destruct H as [z [<- _]]. reflexivity. Qed.
Lemma plain_in xs ys q : In q (plain xs ys) -> exists i, nth_error xs i = Some (px q) /\ nth_error ys i = Some (py q).
Proof.
  unfold plain. intros H. apply in_map_iff in H. destruct H as [z [<- H]]. apply In_nth_error in H. destruct H as [i H]. exists i.
  revert ys i H. induction xs as [|x xs IH]; intros [|y ys] [|i] H; cbn in *; try discriminate; [now inversion H|now apply IH].
Qed.
Lemma squares_zero k D f : (forall q, In q D -> py q = value k f (px q)) -> squares k D f = 0.
Proof. intros H. unfold squares. induction D as [|q D IH]; [now rewrite nsumf_nil|]. rewrite nsumf_cons, IH; [|intros; apply H; now right]. rewrite (H q (or_introl eq_refl)). cbn. ring. Qed.
Lemma mean_square_zeros es : es <> [] -> mean_square es = 0 -> forall e, In e es -> e = 0.
Proof.
  intros NE H. unfold mean_square in H.
  assert (P : 0 < INR (length es)) by (apply lt_0_INR; destruct es; [congruence|cbn; lia]).
  assert (S0 : 0 <= nsumf (fun e : R => e ^ 2) es) by (apply nsumf_nonneg; intros; apply pow2_ge_0).
  apply sqrt_eq_0 in H; [|apply Rmult_le_pos; [exact S0|left; now apply Rinv_0_lt_compat]].
  assert (Z : nsumf (fun e : R => e ^ 2) es = 0). { apply (Rmult_eq_reg_r (/ INR (length es))); [|apply Rinv_neq_0_compat; lra]. unfold Rdiv in H. lra. }
  clear -Z. induction es as [|a es IH]; [intros e []|]. rewrite nsumf_cons in Z. cbn [nadd R_num] in Z.
  assert (S1 : 0 <= nsumf (fun e : R => e ^ 2) es) by (apply nsumf_nonneg; intros; apply pow2_ge_0). pose proof (pow2_ge_0 a).
  intros e [<-|He]; [|apply IH; [lra|exact He]]. assert (A : a ^ 2 = 0) by lra. cbn in A. rewrite Rmult_1_r in A. apply Rmult_integral in A. lra.
Qed.
Lemma mean_square_repeat n : mean_square (repeat 0 n) = 0.
Proof.
  unfold mean_square. assert (Z : nsumf (fun e : R => e ^ 2) (repeat 0 n) = 0). { induction n as [|n IH]; cbn [repeat]; [now rewrite nsumf_nil|]. rewrite nsumf_cons, IH. cbn. ring. }
  rewrite Z. unfold Rdiv. rewrite Rmult_0_l. apply sqrt_0.
Qed.
Lemma mean_square_nonneg es : 0 <= mean_square es.
Proof. apply sqrt_pos. Qed.

(** ** Polynomials are reproduced *)
Section Exact.
  Variables (solve : nat -> mat R -> vec R -> option (vec R)) (inv : nat -> mat R -> option (mat R)) (best0 : R).
  Hypotheses (Hs : exact_solve solve) (Hi : exact_inv inv) (Hb : 0 < best0).
  Notation fit := (fit solve inv best0).
  Notation evalR := (eval (F:=R) (N:=R_num) (NO:=R_ord)).

  (** A function of the kind through all records *)
  Lemma exact_through o M xs ys f fh : polynomial M f -> (o <= M)%nat -> NoDup xs -> (M < length xs)%nat -> length ys = length xs ->
    (forall i x y, nth_error xs i = Some x -> nth_error ys i = Some y -> y = f x) -> belongs (kd o) fh ->
    (forall i x y, nth_error xs i = Some x -> nth_error ys i = Some y -> value (kd o) fh x = y) -> forall x, value (kd o) fh x = f x.
  Proof.
    intros [c P] Ho D L E Hy [B _] Hf x. specialize (B eq_refl).
    assert (Z : 1 * value (kd o) fh x + (-1) * f x = 0).
    { apply (poly_roots M (fun x => 1 * value (kd o) fh x + (-1) * f x) xs); [|exact D|exact L|].
      - apply poly_comb.
        + apply (poly_ext M (fun x => sum_f_R0 (fun i => c_pow fh i * x ^ i) o)); [intros z; now rewrite value_sum|]. apply (poly_le o); [exact Ho|]. apply sum_poly.
        + apply (poly_ext M (fun x => sum_f_R0 (fun i => c i * x ^ i) M)); [intros z; now rewrite P|]. apply sum_poly.
      - intros z Hz. apply In_nth_error in Hz. destruct Hz as [i Hz]. destruct (nth_error ys i) as [y|] eqn:Y; [|apply nth_error_None in Y; assert ((i < length xs)%nat) by (apply nth_error_Some; congruence); lia].
        rewrite (Hf i z y Hz Y). rewrite (Hy i z y Hz Y). ring. }
    lra.
  Qed.
  (** Residuals of a least squares function vanish where every left-out function meets its record. *)
  Lemma loo_exact k xs ys fh : length ys = length xs -> least_squares k (plain xs ys) fh ->
    forall i x y g, nth_error xs i = Some x -> nth_error ys i = Some y -> least_squares k (plain (without i xs) (without i ys)) g -> value k g x = y -> value k fh x = y.
  Proof.
    intros E [B1 LS] i x y g Hx Hy [B2 LG] Hg. destruct (plain_split xs ys i x y E Hx Hy) as [D1 [D2 [P1 [P2 _]]]].
    assert (S1 : forall f, squares k (plain xs ys) f = squares k (plain (without i xs) (without i ys)) f + (y - value k f x) ^ 2).
    { intros f. rewrite P1, P2. unfold squares. rewrite !(nsumf_app (F:=R)), nsumf_cons. cbn [pw py px nadd nmul R_num]. ring. }
    specialize (LS g B2). specialize (LG fh B1). rewrite !S1 in LS. rewrite Hg in LS. replace ((y - y) ^ 2) with 0 in LS by ring.
    assert (Q : (y - value k fh x) ^ 2 <= 0) by lra. pose proof (pow2_ge_0 (y - value k fh x)). assert (Q0 : (y - value k fh x) ^ 2 = 0) by lra.
    cbn in Q0. rewrite Rmult_1_r in Q0. apply Rmult_integral in Q0. lra.
  Qed.
  Theorem reproduction f M xs ys : polynomial M f -> (3 <= M)%nat -> NoDup xs -> (M + 2 <= length xs)%nat -> length ys = length xs ->
    (forall i x y, nth_error xs i = Some x -> nth_error ys i = Some y -> y = f x) ->
    exists pf, fit xs ys None M true true (Some false) false false = Ok pf /\ forall x, evalR pf x = f x.
  Proof.
    intros P HM D L E Hy. assert (NE : xs <> []) by (intros ->; cbn in L; lia).
    destruct P as [c P]. pose (F0 := mk_func 0 c).
    assert (B0 : belongs (kd M) F0) by (split; [reflexivity|split; discriminate]).
    assert (V0 : forall x, value (kd M) F0 x = f x) by (intros x; rewrite value_sum by reflexivity; now rewrite P).
    assert (SC : scorable (kd M) xs) by (intros i Li; apply distinct_determined; [now apply without_NoDup|rewrite without_length by exact Li; lia]).
    assert (S0 : score (kd M) xs ys 0).
    { exists (repeat 0 (length xs)). split; [apply repeat_length|]. split; [now rewrite mean_square_repeat|]. intros i x y e Hx Hy' He. exists F0.
      split; [|rewrite V0, <- (Hy i x y Hx Hy'); apply nth_error_In, repeat_spec in He; rewrite He; ring].
      split; [exact B0|]. intros g _. rewrite squares_zero; [apply squares_nonneg; apply plain_pw|]. intros q Hq. rewrite V0.
      assert (IN : In q (plain xs ys)). { destruct (plain_split xs ys i x y E Hx Hy') as [D1 [D2 [P1 [P2 _]]]]. rewrite P1. rewrite P2 in Hq. apply in_app_iff in Hq. apply in_app_iff. destruct Hq; [now left|right; now right]. }
      apply plain_in in IN. destruct IN as [j [J1 J2]]. now apply (Hy j). }
    assert (CH : choices None M (Some false) = map (fun o => (false, o)) (seq 2 (M - 1))) by (unfold choices; cbn [list_prod]; now rewrite app_nil_r).
    assert (IM : In (false, M) (choices None M (Some false))) by (rewrite CH; apply in_map_iff; exists M; split; [reflexivity|apply in_seq; lia]).
    destruct (C72_search solve inv best0 xs ys None M true true (Some false) Hs Hi E NE) as [[_ NB]|[pf [m [v [F1 [F2 [fh [F3 [F4 _]]]]]]]]].
    - rewrite CH, map_length, seq_length. lia.
    - intros m _. right. left. reflexivity.
    - exfalso. specialize (NB (false, M) 0 IM SC S0). lra.
    - exists pf. split; [exact F1|]. intros x. rewrite F4. rewrite records_plain in F3 by exact E.
      destruct F2 as [l1 [l2 [C1 [C2 [C3 [C4 [C5 C6]]]]]]].
      assert (MO : exists o, m = (false, o) /\ (o <= M)%nat).
      { assert (IN : In m (choices None M (Some false))) by (rewrite C1; apply in_app_iff; right; now left). rewrite CH in IN. apply in_map_iff in IN. destruct IN as [o [<- IN]]. apply in_seq in IN. exists o. split; [reflexivity|lia]. }
      destruct MO as [o [-> Ho]]. unfold kind_of in *. cbn [fst snd] in *.
      assert (TH : forall i a b, nth_error xs i = Some a -> nth_error ys i = Some b -> value (kd o) fh a = b).
      { assert (CASE : o = M \/ v = 0).
        { rewrite C1 in IM. apply in_app_iff in IM. destruct C3 as [es [_ [EV _]]]. pose proof (mean_square_nonneg es). destruct IM as [IM|[IM|IM]].
          - specialize (C5 _ 0 IM SC S0). right. lra.
          - left. congruence.
          - specialize (C6 _ 0 IM SC S0). right. lra. }
        destruct CASE as [-> | ->].
        - intros i a b Ha Hb'. destruct F3 as [B1 LS]. specialize (LS F0 B0).
          assert (Z0 : squares (kd M) (plain xs ys) F0 = 0) by (apply squares_zero; intros q Hq; rewrite V0; apply plain_in in Hq; destruct Hq as [j [J1 J2]]; now apply (Hy j)).
          rewrite Z0 in LS. destruct (plain_split xs ys i a b E Ha Hb') as [D1 [D2 [P1 [P2 _]]]].
          assert (SP : squares (kd M) (plain xs ys) fh = squares (kd M) (plain (without i xs) (without i ys)) fh + (b - value (kd M) fh a) ^ 2).
          { rewrite P1, P2. unfold squares. rewrite !(nsumf_app (F:=R)), nsumf_cons. cbn [pw py px nadd nmul R_num]. ring. }
          pose proof (squares_nonneg (kd M) (plain (without i xs) (without i ys)) fh (plain_pw _ _)). pose proof (pow2_ge_0 (b - value (kd M) fh a)).
          assert (Q0 : (b - value (kd M) fh a) ^ 2 = 0) by lra. cbn in Q0. rewrite Rmult_1_r in Q0. apply Rmult_integral in Q0. lra.
        - destruct C3 as [es [E1 [E2 E3]]]. intros i a b Ha Hb'.
          assert (EE : exists e, nth_error es i = Some e). { destruct (nth_error es i) as [e|] eqn:Q; [now exists e|]. apply nth_error_None in Q. assert ((i < length xs)%nat) by (apply nth_error_Some; congruence). lia. }
          destruct EE as [e He]. destruct (E3 i a b e Ha Hb' He) as [g [G1 G2]]. apply (loo_exact (kd o) xs ys fh E F3 i a b g Ha Hb' G1).
          assert (e = 0) by (apply (mean_square_zeros es); [intros ->; destruct xs; [congruence|discriminate]|now rewrite <- E2|eapply nth_error_In; exact He]). lra. }
      apply (exact_through o M xs ys f fh); auto; [now exists c|lia|]. now destruct F3.
  Qed.
  (** Straight lines, fitted with order 1 *)
  Theorem reproduction_line a b xs ys : (exists i j x y, nth_error xs i = Some x /\ nth_error xs j = Some y /\ x <> y) -> length ys = length xs ->
    (forall i x y, nth_error xs i = Some x -> nth_error ys i = Some y -> y = a + b * x) ->
    exists pf, fit xs ys (Some 1%nat) 6 true true (Some false) false false = Ok pf /\ forall x, evalR pf x = a + b * x.
  Proof.
    intros [i [j [x0 [x1 [X0 [X1 NE]]]]]] E Hy. pose (F0 := mk_func 0 (fun i => match i with O => a | S O => b | _ => 0 end)).
    assert (B0 : belongs (kd 1) F0) by (split; [reflexivity|split; discriminate]).
    assert (V0 : forall x, value (kd 1) F0 x = a + b * x) by (intros x; rewrite value_sum by reflexivity; cbn; ring).
    assert (DT : determined (kd 1) xs).
    { intros g [B _] Z. specialize (B eq_refl). split; [exact B|]. pose proof (Z x0 (nth_error_In _ _ X0)) as Z0. pose proof (Z x1 (nth_error_In _ _ X1)) as Z1. rewrite value_sum in Z0, Z1 by exact B. cbn in Z0, Z1.
      assert (C1 : c_pow g 1%nat = 0). { apply (Rmult_eq_reg_r (x0 - x1)); [|lra]. lra. }
      rewrite C1 in Z0. intros q Hq. destruct q as [|q]; [lra|]. destruct q as [|q]; [exact C1|cbn in Hq; lia]. }
    destruct (C72_fit solve inv best0 xs ys (Some 1%nat) 6 true true (Some false) false false (false, 1%nat) Hs E eq_refl) as [G _]; [right; left; reflexivity|discriminate|].
    destruct (G DT) as [pf [P1 [fh [P2 [P3 _]]]]]. exists pf. split; [exact P1|]. intros x. rewrite P3. rewrite records_plain in P2 by exact E. unfold kind_of in *. cbn [fst snd] in *.
    destruct P2 as [B1 LS]. specialize (LS F0 B0).
    assert (Z0 : squares (kd 1) (plain xs ys) F0 = 0) by (apply squares_zero; intros q Hq; rewrite V0; apply plain_in in Hq; destruct Hq as [r [J1 J2]]; now apply (Hy r)).
    rewrite Z0 in LS.
    assert (TH : forall r p q, nth_error xs r = Some p -> nth_error ys r = Some q -> value (kd 1) fh p = q).
    { intros r p q Hp Hq. destruct (plain_split xs ys r p q E Hp Hq) as [D1 [D2 [P4 [P5 _]]]].
      assert (SP : squares (kd 1) (plain xs ys) fh = squares (kd 1) (plain (without r xs) (without r ys)) fh + (q - value (kd 1) fh p) ^ 2).
      { rewrite P4, P5. unfold squares. rewrite !(nsumf_app (F:=R)), nsumf_cons. cbn [pw py px nadd nmul R_num]. ring. }
      pose proof (squares_nonneg (kd 1) (plain (without r xs) (without r ys)) fh (plain_pw _ _)). pose proof (pow2_ge_0 (q - value (kd 1) fh p)).
      assert (Q0 : (q - value (kd 1) fh p) ^ 2 = 0) by lra. cbn in Q0. rewrite Rmult_1_r in Q0. apply Rmult_integral in Q0. lra. }
    assert (YY : forall r p, nth_error xs r = Some p -> exists q, nth_error ys r = Some q).
    { intros r p Hp. destruct (nth_error ys r) as [q|] eqn:Q; [now exists q|]. apply nth_error_None in Q. assert ((r < length xs)%nat) by (apply nth_error_Some; congruence). lia. }
    destruct B1 as [B1 _]. specialize (B1 eq_refl). destruct (YY i x0 X0) as [y0 Y0]. destruct (YY j x1 X1) as [y1 Y1].
    pose proof (TH i x0 y0 X0 Y0) as T0. pose proof (TH j x1 y1 X1 Y1) as T1. rewrite (Hy i x0 y0 X0 Y0) in T0. rewrite (Hy j x1 y1 X1 Y1) in T1. rewrite value_sum in T0, T1 by exact B1. rewrite value_sum by exact B1. cbn in *.
    assert (C1 : c_pow fh 1%nat = b). { apply (Rmult_eq_reg_r (x0 - x1)); [|lra]. lra. }
    rewrite C1 in *. lra.
  Qed.
End Exact.
