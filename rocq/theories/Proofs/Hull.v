(** Convex sets of lists of numbers, extreme points, and the rows of Model.Hull. *)
From Verif Require Import Base Num NumR Model.Structure Model.Hull.
From Coq Require Import Reals Lra Classical_Prop.
Local Open Scope R_scope.

(** *** Points *)
Definition point := list R.
Fixpoint mix (t : R) (p q : point) : point := match p, q with a :: p', b :: q' => (t * a + (1 - t) * b) :: mix t p' q' | _, _ => [] end.
Definition convex (C : point -> Prop) : Prop := forall t p q, 0 <= t <= 1 -> C p -> C q -> C (mix t p q).
(** The convex hull of a list of points: what every convex set with them contains. *)
Definition conv (S : list point) (p : point) : Prop := forall C, convex C -> (forall q, In q S -> C q) -> C p.
(** Extreme points: not properly between others. *)
Definition extreme (S : list point) (p : point) : Prop := In p S /\ forall t a b, 0 < t < 1 -> conv S a -> conv S b -> p = mix t a b -> a = p /\ b = p.
(** All points on a hyperplane. *)
Fixpoint scal (w p : point) : R := match w, p with a :: w', b :: p' => a * b + scal w' p' | _, _ => 0 end.
Definition flat (k : nat) (S : list point) : Prop := exists w c, length w = k /\ (exists a, In a w /\ a <> 0) /\ forall p, In p S -> scal w p = c.

Lemma mix_length t p q k : length p = k -> length q = k -> length (mix t p q) = k.
Proof. revert q k. induction p as [|a p IH]; intros [|b q] [|k] H1 H2; cbn in *; try congruence. f_equal. apply IH; congruence. Qed.
Lemma mix_same t p : mix t p p = p.
Proof. induction p as [|a p IH]; cbn; [reflexivity|]. rewrite IH. f_equal. ring. Qed.
Lemma mix_one p q : length p = length q -> mix 1 p q = p.
Proof. revert q. induction p as [|a p IH]; intros [|b q] H; cbn in *; try congruence. rewrite IH by congruence. f_equal. ring. Qed.
Lemma mix_zero p q : length p = length q -> mix 0 p q = q.
Proof. revert q. induction p as [|a p IH]; intros [|b q] H; cbn in *; try congruence. rewrite IH by congruence. f_equal. ring. Qed.
Lemma mix_app t p q p' q' : length p = length q -> mix t (p ++ p') (q ++ q') = mix t p q ++ mix t p' q'.
Proof. revert q. induction p as [|a p IH]; intros [|b q] H; cbn in *; try congruence. rewrite IH by congruence. reflexivity. Qed.
Lemma scal_mix w t p q : length p = length w -> length q = length w -> scal w (mix t p q) = t * scal w p + (1 - t) * scal w q.
Proof. revert p q. induction w as [|x w IH]; intros [|a p] [|b q] H1 H2; cbn in *; try congruence; [ring|]. rewrite IH by congruence. ring. Qed.

Lemma conv_in S p : In p S -> conv S p.
Proof. intros H C _ I. now apply I. Qed.
Lemma conv_convex S : convex (conv S).
Proof. intros t p q T Hp Hq C CC I. apply CC; [exact T| |]; [now apply Hp|now apply Hq]. Qed.
Lemma conv_mono S S' p : (forall q, In q S -> conv S' q) -> conv S p -> conv S' p.
Proof. intros I H. apply H; [apply conv_convex|exact I]. Qed.
Lemma conv_length S k p : (forall q, In q S -> length q = k) -> conv S p -> length p = k.
Proof. intros L H. apply (H (fun p => length p = k)); [|exact L]. intros t a b _. apply mix_length. Qed.
Lemma conv_scal S w c k p : length w = k -> (forall q, In q S -> length q = k /\ scal w q = c) -> conv S p -> scal w p = c.
Proof.
  intros L I H. apply (H (fun p => length p = k /\ scal w p = c)); [|exact I].
  intros t a b _ [La Ha] [Lb Hb]. split; [now apply mix_length|]. rewrite scal_mix by congruence. rewrite Ha, Hb. ring.
Qed.
Lemma conv_scal_ge S w c k p : length w = k -> (forall q, In q S -> length q = k /\ c <= scal w q) -> conv S p -> c <= scal w p.
Proof.
  intros L I H. apply (H (fun p => length p = k /\ c <= scal w p)); [|exact I].
  intros t a b T [La Ha] [Lb Hb]. split; [now apply mix_length|]. rewrite scal_mix by congruence. nra.
Qed.
(** A point with the largest value of a linear function that others do not reach is extreme. *)
Lemma conv_nil p : ~ conv [] p.
Proof. intros H. apply (H (fun _ => False)); [intros t a b _ []|intros q []]. Qed.

(** Images under maps that respect mixtures. *)
Lemma conv_map f S k p : (forall q, In q S -> length q = k) -> (forall t a b, length a = k -> length b = k -> f (mix t a b) = mix t (f a) (f b)) -> conv S p -> conv (map f S) (f p).
Proof.
  intros L M H. apply (H (fun p => length p = k /\ conv (map f S) (f p))).
  - intros t a b T [La Ha] [Lb Hb]. split; [now apply mix_length|]. rewrite M by assumption. now apply conv_convex.
  - intros q Hq. split; [now apply L|]. apply conv_in. now apply in_map.
Qed.
Lemma conv_lift f S k p : (forall q, In q S -> length q = k) -> (forall t a b, length a = k -> length b = k -> f (mix t a b) = mix t (f a) (f b)) -> conv (map f S) p -> exists q, conv S q /\ f q = p.
Proof.
  intros L M H. apply (H (fun p => exists q, conv S q /\ f q = p)).
  - intros t a b T [qa [Ca <-]] [qb [Cb <-]]. exists (mix t qa qb). split; [now apply conv_convex|]. apply M; eapply conv_length; eauto.
  - intros q Hq. apply in_map_iff in Hq. destruct Hq as [r [<- Hr]]. exists r. split; [now apply conv_in|reflexivity].
Qed.

(** *** One point and the others *)
Lemma mix_mix p a b s t u v k : length p = k -> length a = k -> length b = k -> s * (1 - t) = (1 - (s * t + (1 - s) * u)) * v ->
  mix s (mix t p a) (mix u p b) = mix (s * t + (1 - s) * u) p (mix v a b).
Proof.
  intros Lp La Lb E. revert a b k Lp La Lb. induction p as [|x p IH]; intros [|y a] [|z b] [|k] Lp La Lb; cbn in *; try congruence.
  f_equal; [|eapply IH with (k := k); congruence]. set (w := s * t + (1 - s) * u) in *.
  replace (s * (t * x + (1 - t) * y) + (1 - s) * (u * x + (1 - u) * z)) with (w * x + (s * (1 - t)) * y + (1 - w - s * (1 - t)) * z) by (unfold w; ring).
  rewrite E. ring.
Qed.
Lemma conv_cons p S k x : length p = k -> (forall q, In q S -> length q = k) -> S <> [] -> conv (p :: S) x -> exists t a, 0 <= t <= 1 /\ conv S a /\ x = mix t p a.
Proof.
  intros Lp L NE H. apply (H (fun x => exists t a, 0 <= t <= 1 /\ conv S a /\ x = mix t p a)).
  - intros s x1 x2 Hs [t [a [Ht [Ca ->]]]] [u [b [Hu [Cb ->]]]].
    assert (La : length a = k) by (eapply conv_length; eauto). assert (Lb : length b = k) by (eapply conv_length; eauto).
    destruct (Req_dec (s * t + (1 - s) * u) 1) as [E|NE1].
    + exists (s * t + (1 - s) * u), (mix 0 a b). split; [lra|]. split; [apply conv_convex; auto; lra|]. apply (mix_mix p a b s t u 0 k); auto. rewrite E. nra.
    + assert (W : 0 <= s * t + (1 - s) * u <= 1) by nra. set (v := s * (1 - t) / (1 - (s * t + (1 - s) * u))).
      assert (Ev : s * (1 - t) = (1 - (s * t + (1 - s) * u)) * v) by (unfold v; field; lra).
      exists (s * t + (1 - s) * u), (mix v a b). split; [exact W|]. split; [|apply (mix_mix p a b s t u v k); auto].
      apply conv_convex; auto. assert (0 < 1 - (s * t + (1 - s) * u)) by lra. split.
      * unfold v. apply Rmult_le_pos; [nra|]. left. now apply Rinv_0_lt_compat.
      * apply Rmult_le_reg_l with (1 - (s * t + (1 - s) * u)); [assumption|]. rewrite <- Ev. nra.
  - intros q [<-|Hq].
    + destruct S as [|r S]; [easy|]. exists 1, r. split; [lra|]. split; [apply conv_in; now left|]. symmetry. apply mix_one. rewrite Lp. symmetry. apply L. now left.
    + exists 0, q. split; [lra|]. split; [now apply conv_in|]. symmetry. apply mix_zero. rewrite Lp. symmetry. now apply L.
Qed.
Lemma conv_one p x : conv [p] x -> x = p.
Proof. intros H. apply (H (fun x => x = p)); [intros t a b _ -> ->; apply mix_same|]. now intros q [<-|[]]. Qed.
Lemma solve_mix p a b s t u k : length p = k -> length a = k -> length b = k -> 0 < s * (1 - t) + (1 - s) * (1 - u) ->
  p = mix s (mix t p a) (mix u p b) -> p = mix (s * (1 - t) / (s * (1 - t) + (1 - s) * (1 - u))) a b.
Proof.
  intros Lp La Lb Hc. set (c := s * (1 - t) + (1 - s) * (1 - u)) in *. revert a b k Lp La Lb. induction p as [|x p IH]; intros [|y a] [|z b] [|k] Lp La Lb E; cbn in *; try congruence.
  injection E as E1 E2. f_equal; [|eapply IH with (k := k); congruence].
  assert (E3 : c * x = s * (1 - t) * y + (1 - s) * (1 - u) * z) by (unfold c; lra).
  apply Rmult_eq_reg_l with c; [|lra]. rewrite E3. unfold c. field. fold c. lra.
Qed.

(** *** Hulls of finitely many points are those of their extreme points *)
Lemma conv_perm S S' p : (forall q, In q S -> In q S') -> conv S p -> conv S' p.
Proof. intros I. apply conv_mono. intros q Hq. apply conv_in. now apply I. Qed.
Lemma minkowski_aux k (S : list point) : (forall q, In q S -> length q = k) -> forall n E, length E = n -> (forall q, In q E -> In q S) -> (forall q, In q S -> conv E q) ->
  exists E', (forall q, In q E' -> extreme S q) /\ (forall q, In q S -> conv E' q).
Proof.
  intros L. induction n as [n IH] using (well_founded_induction lt_wf). intros E LE IE CE.
  destruct (classic (exists E1 p E2, E = E1 ++ p :: E2 /\ conv (E1 ++ E2) p)) as [[E1 [p [E2 [-> Cp]]]]|Min].
  - apply (IH (length (E1 ++ E2)) ltac:(rewrite app_length in *; cbn in LE; lia) (E1 ++ E2) eq_refl).
    + intros q Hq. apply IE. apply in_app_iff in Hq. apply in_app_iff. cbn. tauto.
    + intros q Hq. generalize (CE q Hq). apply conv_mono. intros r Hr. apply in_app_iff in Hr. cbn in Hr. destruct Hr as [Hr|[<-|Hr]]; [apply conv_in, in_app_iff; now left|exact Cp|apply conv_in, in_app_iff; now right].
  - exists E. split; [|exact CE]. intros p Hp. split; [now apply IE|]. intros s a b Hs Ca Cb Ep.
    apply (conv_mono _ E) in Ca; [|exact CE]. apply (conv_mono _ E) in Cb; [|exact CE].
    destruct (in_split p E Hp) as [E1 [E2 EE]].
    assert (P : forall x, conv E x -> conv (p :: E1 ++ E2) x).
    { intros x. apply conv_perm. intros q Hq. rewrite EE in Hq. apply in_app_iff in Hq. cbn in *. rewrite in_app_iff. tauto. }
    assert (L' : forall q, In q (E1 ++ E2) -> length q = k). { intros q Hq. apply L, IE. rewrite EE. apply in_app_iff in Hq. apply in_app_iff. cbn. tauto. }
    assert (Lp : length p = k) by (apply L, IE, Hp).
    destruct (E1 ++ E2) as [|r E'] eqn:ER.
    + apply P in Ca. apply P in Cb. apply conv_one in Ca, Cb. now split.
    + assert (NE : r :: E' <> []) by discriminate. rewrite <- ER in *.
      destruct (conv_cons p (E1 ++ E2) k a Lp L' NE (P a Ca)) as [t [a' [Ht [Ca' Ea]]]]. destruct (conv_cons p (E1 ++ E2) k b Lp L' NE (P b Cb)) as [u [b' [Hu [Cb' Eb]]]].
      assert (La : length a' = k) by (eapply conv_length; eauto). assert (Lb : length b' = k) by (eapply conv_length; eauto).
      destruct (Rlt_or_le 0 (s * (1 - t) + (1 - s) * (1 - u))) as [Pos|Neg].
      * exfalso. apply Min. exists E1, p, E2. split; [exact EE|]. rewrite (solve_mix p a' b' s t u k Lp La Lb Pos) by congruence.
        apply conv_convex; auto. set (c := s * (1 - t) + (1 - s) * (1 - u)) in *. assert (0 <= s * (1 - t) <= c) by (unfold c; nra).
        split; [apply Rmult_le_pos; [lra|left; now apply Rinv_0_lt_compat]|]. apply Rmult_le_reg_r with c; [assumption|]. unfold Rdiv. rewrite Rmult_assoc, Rinv_l by lra. lra.
      * assert (t = 1) by nra. assert (u = 1) by nra. subst t u. rewrite Ea, Eb, !mix_one by congruence. now split.
Qed.
(** Every point is in the hull of extreme points. *)
Theorem minkowski k S : (forall q, In q S -> length q = k) -> exists E, (forall q, In q E -> extreme S q) /\ (forall q, In q S -> conv E q).
Proof. intros L. apply (minkowski_aux k S L (length S) S eq_refl); [auto|]. intros q Hq. now apply conv_in. Qed.

(** *** Combinations *)
Fixpoint total (l : list R) : R := match l with [] => 0 | a :: l' => a + total l' end.
Lemma total_nonneg l : Forall (fun a => 0 <= a) l -> 0 <= total l.
Proof. induction 1; cbn in *; lra. Qed.
Lemma total_zero l : Forall (fun a => 0 <= a) l -> total l = 0 -> forall v, scal l v = 0.
Proof. induction 1 as [|a l Ha Hl IH]; cbn; intros E v; [reflexivity|]. cbn beta in Ha. pose proof (total_nonneg l Hl). destruct v as [|b v]; [reflexivity|]. rewrite IH by lra. replace a with 0 by lra. ring. Qed.
Lemma mix_nth t p q j : length p = length q -> nth j (mix t p q) 0 = t * nth j p 0 + (1 - t) * nth j q 0.
Proof. revert q j. induction p as [|a p IH]; intros [|b q] j H; cbn in *; try congruence; [destruct j; ring|]. destruct j as [|j]; [reflexivity|]. apply IH. congruence. Qed.
Lemma combination k ws ps : length ws = length ps -> Forall (fun a => 0 <= a) ws -> (forall p, In p ps -> length p = k) -> 0 < total ws ->
  exists m, conv ps m /\ forall j, nth j m 0 * total ws = scal ws (map (fun p => nth j p 0) ps).
Proof.
  revert ps. induction ws as [|w ws IH]; intros [|p ps] L Nn Lk T; cbn in *; try congruence; [lra|].
  inversion Nn as [|? ? Hw Nn']; subst. pose proof (total_nonneg ws Nn') as T0. destruct (Rle_lt_or_eq_dec _ _ T0) as [Pos|Z].
  - destruct (IH ps ltac:(congruence) Nn' (fun q H => Lk q (or_intror H)) Pos) as [m [Cm Em]].
    assert (Lm : length m = k) by (eapply conv_length; [|exact Cm]; auto). assert (Lp : length p = k) by auto.
    exists (mix (w / (w + total ws)) p m). assert (W : 0 < w + total ws) by lra. split.
    + apply conv_convex; [|apply conv_in; now left|apply (conv_perm ps); [intros; now right|exact Cm]].
      split; [apply Rmult_le_pos; [lra|left; now apply Rinv_0_lt_compat]|]. apply Rmult_le_reg_r with (w + total ws); [exact W|]. unfold Rdiv. rewrite Rmult_assoc, Rinv_l by lra. lra.
    + intros j. rewrite mix_nth by congruence. rewrite <- Em. field. lra.
  - exists p. split; [apply conv_in; now left|]. intros j. rewrite total_zero by (auto; lra). rewrite <- Z. ring.
Qed.
Lemma scal_unit x n j a : length x = n -> scal x (map (fun k => if (j =? k)%nat then 1 else 0) (seq a n)) = if (a <=? j)%nat then if (j <? a + n)%nat then nth (j - a) x 0 else 0 else 0.
Proof.
  revert a n. induction x as [|y x IH]; intros a [|n] L; cbn [length] in L; try congruence; cbn [seq map scal].
  - destruct (Nat.leb_spec a j); [|reflexivity]. destruct (Nat.ltb_spec j (a + 0)); [lia|reflexivity].
  - rewrite (IH (S a) n) by congruence. destruct (Nat.eqb_spec j a) as [->|D].
    + destruct (Nat.leb_spec a a); [|lia]. destruct (Nat.ltb_spec a (a + S n)); [|lia]. destruct (Nat.leb_spec (S a) a); [lia|]. rewrite Nat.sub_diag. cbn. ring.
    + destruct (Nat.leb_spec a j), (Nat.leb_spec (S a) j); try lia; [|ring]. replace (a + S n)%nat with (S a + n)%nat by lia. destruct (Nat.ltb_spec j (S a + n)); [|ring].
      replace (j - a)%nat with (S (j - S a)) by lia. cbn [nth]. ring.
Qed.
Lemma unit_total n k : (k < n)%nat -> total (map (fun i => if (i =? k)%nat then 1 else 0) (seq 0 n)) = 1.
Proof.
  intros H. assert (G : forall n a, total (map (fun i => if (i =? k)%nat then 1 else 0) (seq a n)) = if (a <=? k)%nat then if (k <? a + n)%nat then 1 else 0 else 0).
  { clear. induction n as [|n IH]; intros a; cbn [seq map total].
    - destruct (Nat.leb_spec a k); [|reflexivity]. destruct (Nat.ltb_spec k (a + 0)); [lia|reflexivity].
    - rewrite IH. replace (a + S n)%nat with (S a + n)%nat by lia. destruct (Nat.eqb_spec a k), (Nat.leb_spec a k), (Nat.leb_spec (S a) k), (Nat.ltb_spec k (S a + n)); try lia; lra. }
  rewrite G. cbn [Nat.leb]. destruct (Nat.ltb_spec k (0 + n)); [reflexivity|lia].
Qed.
Lemma total_mix t p q : length p = length q -> total (mix t p q) = t * total p + (1 - t) * total q.
Proof. revert q. induction p as [|a p IH]; intros [|b q] H; cbn in *; try congruence; [ring|]. rewrite IH by congruence. ring. Qed.

(** *** Rows *)
Definition full (r : row (F := R)) : point := fst r ++ [snd r].
Definition good (n : nat) (r : row (F := R)) : Prop := length (fst r) = n /\ Forall (fun a => 0 <= a) (fst r) /\ total (fst r) = 1.
Lemma full_length n r : good n r -> length (full r) = S n.
Proof. intros [L _]. unfold full. rewrite app_length. cbn. lia. Qed.
Lemma project_full r : (0 < length (fst r))%nat -> project r = tl (full r).
Proof. intros H. unfold project, full. destruct r as [[|a x] e]; cbn in *; [lia|reflexivity]. Qed.
Lemma tl_mix t a b : tl (mix t a b) = mix t (tl a) (tl b) \/ (length a <> length b).
Proof. destruct a as [|x a], b as [|y b]; cbn; auto. Qed.
Lemma total_app l a : total (l ++ [a]) = total l + a.
Proof. induction l as [|b l IH]; cbn in *; [ring|]. rewrite IH. ring. Qed.
(** The first composition is determined by the others. *)
Lemma determined n x e x' e' : (0 < n)%nat -> length x = n -> length x' = n -> total x = total x' -> tl (x ++ [e]) = tl (x' ++ [e']) -> x = x' /\ e = e'.
Proof.
  intros H L L' T E. destruct x as [|a x], x' as [|b x']; cbn in *; try lia. apply app_inj_tail in E. destruct E as [-> ->]. split; [|reflexivity]. f_equal. lra.
Qed.
Lemma mix_nonneg t x y : 0 <= t <= 1 -> Forall (fun a => 0 <= a) x -> Forall (fun a => 0 <= a) y -> Forall (fun a => 0 <= a) (mix t x y).
Proof. intros T Px. revert y. induction Px as [|a x Ha Px IH]; intros y Py; cbn; [constructor|]. destruct Py as [|b y Hb Py]; constructor; [cbn beta in *; nra|auto]. Qed.
(** A convex combination of rows is x ++ [e] with a good x. *)
Lemma conv_rows n rows p : (forall r, In r rows -> good n r) -> conv (map full rows) p -> exists x e, p = x ++ [e] /\ good n (x, e).
Proof.
  intros G H. apply (H (fun p => exists x e, p = x ++ [e] /\ good n (x, e))).
  - intros t a b T [x [e [-> [L [P S]]]]] [y [f [-> [L' [P' S']]]]]. cbn in *. exists (mix t x y), (t * e + (1 - t) * f). rewrite mix_app by congruence. split; [reflexivity|].
    split; [now apply mix_length|]. split; [|cbn; rewrite total_mix by congruence; rewrite S, S'; ring].
    now apply mix_nonneg.
  - intros q Hq. apply in_map_iff in Hq. destruct Hq as [r [<- Hr]]. exists (fst r), (snd r). split; [reflexivity|]. rewrite <- surjective_pairing. now apply G.
Qed.
(** Rows above a set. *)
Definition above (D : list row) (x : list R) (e : R) : Prop := exists e0, e0 <= e /\ conv (map full D) (x ++ [e0]).
Lemma above_conv n D rows x e : (forall r, In r D -> good n r) -> (forall r, In r rows -> good n r /\ above D (fst r) (snd r)) -> conv (map full rows) (x ++ [e]) -> above D x e.
Proof.
  intros GD H C.
  assert (K : exists x' e', x ++ [e] = x' ++ [e'] /\ length x' = n /\ above D x' e').
  { apply (C (fun p => exists x e, p = x ++ [e] /\ length x = n /\ above D x e)).
    - intros t a b T [y [f [-> [L [f0 [Hf Cf]]]]]] [z [g [-> [L' [g0 [Hg Cg]]]]]]. exists (mix t y z), (t * f + (1 - t) * g). rewrite mix_app by congruence. split; [reflexivity|].
      split; [now apply mix_length|]. exists (t * f0 + (1 - t) * g0). split; [nra|]. change [t * f0 + (1 - t) * g0] with (mix t [f0] [g0]). rewrite <- mix_app by congruence. now apply conv_convex.
    - intros q Hq. apply in_map_iff in Hq. destruct Hq as [r [<- Hr]]. destruct (H r Hr) as [[L _] U]. exists (fst r), (snd r). now split. }
  destruct K as [x' [e' [E [_ U]]]]. apply app_inj_tail in E. destruct E as [-> ->]. exact U.
Qed.
(** Ends: for each pure composition a row; mixtures of them have every composition. *)
Definition unit_comp (n k : nat) : list R := map (fun i => if (i =? k)%nat then 1 else 0) (seq 0 n).
Lemma unit_good n k e : (k < n)%nat -> good n (unit_comp n k, e).
Proof.
  intros H. split; [cbn; unfold unit_comp; now rewrite map_length, seq_length|]. split; [|now apply unit_total]. apply Forall_forall. intros a Ha. cbn in Ha. apply in_map_iff in Ha. destruct Ha as [i [<- _]]. destruct (i =? k)%nat; lra.
Qed.
Lemma map_nth_in {X Y} (f : X -> Y) l i d d' : (i < length l)%nat -> nth i (map f l) d = f (nth i l d').
Proof. revert i. induction l as [|a l IH]; intros [|i] H; cbn in *; try lia; auto. apply IH. lia. Qed.
Lemma unit_nth n k j : (j < n)%nat -> nth j (unit_comp n k) 0 = if (j =? k)%nat then 1 else 0.
Proof. intros H. unfold unit_comp. rewrite (map_nth_in _ _ _ _ 0%nat) by now rewrite seq_length. now rewrite seq_nth. Qed.
Lemma unit_app_nth n k e j : (j <= n)%nat -> nth j (unit_comp n k ++ [e]) 0 = if (j =? n)%nat then e else if (j =? k)%nat then 1 else 0.
Proof.
  intros H. assert (L : length (unit_comp n k) = n) by (unfold unit_comp; now rewrite map_length, seq_length). destruct (Nat.eqb_spec j n) as [->|D].
  - rewrite app_nth2 by lia. rewrite L, Nat.sub_diag. reflexivity.
  - rewrite app_nth1 by lia. apply unit_nth. lia.
Qed.
Lemma ends_mix n D (ev : nat -> R) x : (forall k, (k < n)%nat -> In (unit_comp n k, ev k) D) -> good n (x, 0) -> conv (map full D) (x ++ [scal x (map ev (seq 0 n))]).
Proof.
  intros H [L [P T]]. cbn in *. set (ps := map (fun k => full (unit_comp n k, ev k)) (seq 0 n)).
  assert (LU : forall k, length (unit_comp n k) = n) by (intros k; unfold unit_comp; now rewrite map_length, seq_length).
  assert (Lps : forall p, In p ps -> length p = S n). { intros p Hp. apply in_map_iff in Hp. destruct Hp as [k [<- _]]. unfold full. cbn. rewrite app_length, LU. cbn. lia. }
  destruct (combination (S n) x ps) as [m [Cm Em]]; [unfold ps; now rewrite map_length, seq_length|exact P|exact Lps|lra|]. rewrite T in Em.
  assert (Lm : length m = S n) by (eapply conv_length; eauto).
  replace (x ++ [scal x (map ev (seq 0 n))]) with m.
  - apply (conv_perm ps); [|exact Cm]. intros q Hq. apply in_map_iff in Hq. destruct Hq as [k [<- Hk]]. apply in_seq in Hk. apply in_map. apply H. lia.
  - apply (nth_ext _ _ 0 0); [rewrite app_length, L; cbn; lia|]. intros j Hj. rewrite Lm in Hj. rewrite <- (Rmult_1_r (nth j m 0)), Em. unfold ps. rewrite map_map. unfold full. cbn.
    destruct (Nat.eq_dec j n) as [->|D'].
    + rewrite app_nth2 by lia. rewrite L, Nat.sub_diag. cbn. f_equal. apply map_ext_in. intros k Hk. rewrite unit_app_nth by lia. now rewrite Nat.eqb_refl.
    + rewrite app_nth1 by lia. rewrite (map_ext_in _ (fun k => if (j =? k)%nat then 1 else 0)).
      * rewrite (scal_unit x n j 0 L). cbn [Nat.leb]. destruct (Nat.ltb_spec j (0 + n)); [now rewrite Nat.sub_0_r|lia].
      * intros k Hk. rewrite unit_app_nth by lia. destruct (Nat.eqb_spec j n); [lia|reflexivity].
Qed.
Lemma scal_bound x v a : Forall (fun y => 0 <= y) x -> (forall y, In y v -> a <= y) -> length v = length x -> total x = 1 -> a <= scal x v.
Proof.
  intros P H L T. assert (G : a * total x <= scal x v); [|rewrite T in G; lra]. clear T. revert v H L. induction P as [|y x Hy P IH]; intros [|b v] H L; cbn in *; try congruence; [lra|].
  specialize (IH v (fun z Hz => H z (or_intror Hz)) ltac:(congruence)). specialize (H b (or_introl eq_refl)). nra.
Qed.
Lemma scal_bound_lt x v a : Forall (fun y => 0 <= y) x -> (forall y, In y v -> y < a) -> length v = length x -> total x = 1 -> scal x v < a.
Proof.
  intros P H L T. assert (G : 0 < total x -> scal x v < a * total x); [|rewrite T in G; lra].
  assert (G2 : scal x v <= a * total x). { clear T. revert v H L. induction P as [|y x Hy P IH]; intros [|b v] H L; cbn in *; try congruence; [lra|]. specialize (IH v (fun z Hz => H z (or_intror Hz)) ltac:(congruence)). specialize (H b (or_introl eq_refl)). nra. }
  clear T. revert v H L G2. induction P as [|y x Hy P IH]; intros [|b v] H L G2; cbn in *; try congruence; [lra|].
  assert (G3 : scal x v <= a * total x). { clear IH G2. assert (H' : forall y, In y v -> y < a) by auto. clear H. assert (L' : length v = length x) by congruence. clear L. revert v H' L'. induction P as [|z x Hz P IH]; intros [|c v] H L; cbn in *; try congruence; [lra|]. specialize (IH v (fun z Hz => H z (or_intror Hz)) ltac:(congruence)). specialize (H c (or_introl eq_refl)). nra. }
  pose proof (total_nonneg x P) as T0. intros T. pose proof (H b (or_introl eq_refl)). destruct (Rle_lt_or_eq_dec _ _ Hy) as [Y|Y].
  - nra.
  - subst y. specialize (IH v (fun z Hz => H z (or_intror Hz)) ltac:(congruence) G3). assert (0 < total x) by lra. specialize (IH ltac:(assumption)). lra.
Qed.

(** *** Sorting *)
Lemma insert_perm {F} {N : Num F} {O : NumOrd F} key i l : Permutation (insert_id (F := F) key i l) (i :: l).
Proof. induction l as [|j l IH]; cbn; [reflexivity|]. destruct (lex_ltb _ _); [reflexivity|]. rewrite IH. apply perm_swap. Qed.
Lemma lexsort_perm {F} {N : Num F} {O : NumOrd F} (data : list (row (F := F))) : Permutation (lexsort data) (seq 0 (length data)).
Proof.
  unfold lexsort. assert (G : forall l acc, Permutation (fold_left (fun l i => insert_id (fun j => sort_key (nth j data ([], n0))) i l) l acc) (acc ++ l)).
  { induction l as [|i l IH]; intros acc; cbn; [now rewrite app_nil_r|]. rewrite IH, insert_perm. cbn. apply Permutation_middle. }
  now rewrite G.
Qed.
(** Not after: the order of lists. *)
Lemma lex_ntrans k (a b c : list R) : length a = k -> length b = k -> length c = k -> lex_ltb b a = false -> lex_ltb c b = false -> lex_ltb c a = false.
Proof.
  revert a b c. induction k as [|k IH]; intros [|x a] [|y b] [|z c] La Lb Lc H1 H2; cbn in *; try congruence. unfold Rltb in *.
  destruct (Rlt_dec y x); [discriminate|]. destruct (Rlt_dec z y); [discriminate|]. cbn in *. destruct (Rlt_dec z x); [lra|]. cbn.
  destruct (Rlt_dec x z); [reflexivity|]. cbn. destruct (Rlt_dec x y); [lra|]. destruct (Rlt_dec y z); [lra|]. cbn in *. eapply IH; [| | |exact H1|exact H2]; congruence.
Qed.
Lemma lex_asym (a b : list R) : lex_ltb a b = true -> lex_ltb b a = false.
Proof.
  revert b. induction a as [|x a IH]; intros [|y b] H; cbn in *; try discriminate. unfold Rltb in *. destruct (Rlt_dec x y), (Rlt_dec y x); cbn in *; try lra; try discriminate; auto.
Qed.
Definition ordered (key : nat -> list R) : list nat -> Prop := StronglySorted (fun i j => lex_ltb (key j) (key i) = false).
Lemma insert_sorted key k i l : (forall j, In j (i :: l) -> length (key j) = k) -> ordered key l -> ordered key (insert_id key i l).
Proof.
  intros L H. induction H as [|j l Hl IH Hj]; cbn; [constructor; constructor|].
  destruct (lex_ltb (key i) (key j)) eqn:E.
  - constructor; [constructor; assumption|]. constructor; [now apply lex_asym|]. rewrite Forall_forall in *. intros m Hm. apply (lex_ntrans k (key i) (key j) (key m)); [apply L; cbn; tauto|apply L; cbn; tauto|apply L; cbn; tauto|now apply lex_asym|now apply Hj].
  - constructor; [apply IH; intros m Hm; apply L; cbn in *; tauto|]. apply Forall_forall. intros m Hm. apply (Permutation_in _ (insert_perm key i l)) in Hm. destruct Hm as [<-|Hm]; [exact E|]. rewrite Forall_forall in Hj. now apply Hj.
Qed.
Lemma lexsort_sorted k (data : list (row (F := R))) : (forall r, In r data -> length (fst r) = k) -> ordered (fun j => sort_key (nth j data ([], 0))) (lexsort data).
Proof.
  intros L. unfold lexsort. set (key := fun j => sort_key (nth j data ([], 0))).
  assert (LK : forall j, (j < length data)%nat -> length (key j) = S k). { intros j Hj. unfold key, sort_key. rewrite app_length, rev_length, L by now apply nth_In. cbn. lia. }
  assert (G : forall l acc, (forall j, In j (acc ++ l) -> (j < length data)%nat) -> ordered key acc -> ordered key (fold_left (fun l i => insert_id key i l) l acc)).
  { induction l as [|i l IH]; intros acc B H; cbn; [exact H|]. apply IH.
    - intros j Hj. apply B. apply in_app_iff in Hj. apply in_app_iff. destruct Hj as [Hj|Hj]; [|cbn; tauto]. apply (Permutation_in _ (insert_perm key i acc)) in Hj. cbn in *. tauto.
    - apply (insert_sorted key (S k)); [|exact H]. intros j Hj. apply LK, B. apply in_app_iff. cbn in *. tauto. }
  apply G; [|constructor]. intros j Hj. cbn in Hj. apply in_seq in Hj. lia.
Qed.

(** *** Slices *)
Lemma mapM_get {X} (l : list X) ids d : (forall i, In i ids -> (i < length l)%nat) -> mapM (get l) ids = Ok (map (fun i => nth i l d) ids).
Proof. intros H. apply mapM_Ok. intros i Hi. unfold get. rewrite (nth_error_nth' l d) by auto. reflexivity. Qed.
Lemma mapM_get_inv {X} (l : list X) ids v : mapM (get l) ids = Ok v -> Forall2 (fun i x => nth_error l i = Some x) ids v.
Proof.
  revert v. induction ids as [|i ids IH]; intros v; cbn; [intros [= <-]; constructor|]. unfold get at 1. destruct (nth_error l i) eqn:E; [|discriminate]. cbn.
  destruct (mapM (get l) ids) as [w|]; [|discriminate]. cbn. intros [= <-]. constructor; auto.
Qed.

(** *** What convex_hull returns *)
Lemma negative_filter_gen (tol : R) (data : list (row (F := R))) : forall pre, map (fun i => nth i (pre ++ data) ([], 0)) (filter (fun i => Rltb (snd (nth i (pre ++ data) ([], 0))) tol) (seq (length pre) (length data))) = filter (fun r : row (F := R) => Rltb (snd r) tol) data.
Proof.
  induction data as [|r data IH]; intros pre; [reflexivity|]. cbn [length seq filter].
  assert (E : nth (length pre) (pre ++ r :: data) ([], 0) = r) by (rewrite app_nth2, Nat.sub_diag by lia; reflexivity).
  specialize (IH (pre ++ [r])). rewrite <- app_assoc in IH. cbn [app] in IH. rewrite app_length in IH. cbn [length] in IH. replace (length pre + 1)%nat with (S (length pre)) in IH by lia.
  rewrite E. destruct (Rltb (snd r) tol); cbn [map]; rewrite IH; [now rewrite E|reflexivity].
Qed.
Lemma negative_filter (tol : R) data : map (fun i => nth i data ([], 0)) (negative tol data) = filter (fun r : row (F := R) => Rltb (snd r) tol) data.
Proof. exact (negative_filter_gen tol data []). Qed.
Lemma negative_range (tol : R) data i : In i (negative tol data) -> (i < length data)%nat.
Proof. intros H. apply filter_In in H. destruct H as [H _]. apply in_seq in H. lia. Qed.

Lemma slice_spec (data : list (row (F := R))) names ids : (forall i, In i ids -> (i < length data)%nat) -> (forall l, names = Some l -> length l = length data) ->
  slice_ data names ids = Ok (map (fun i => nth i data ([], 0)) ids, option_map (fun l => map (fun i => nth i l (Id 0)) ids) names).
Proof.
  intros B L. unfold slice_. rewrite (mapM_get data ids ([], 0) B). cbn. destruct names as [l|]; [|reflexivity]. rewrite (mapM_get l ids (Id 0)); [reflexivity|]. intros i Hi. rewrite (L l eq_refl). now apply B.
Qed.
Lemma slice_data (data : list (row (F := R))) names ids d n : slice_ data names ids = Ok (d, n) -> mapM (get data) ids = Ok d.
Proof. unfold slice_. destruct (mapM (get data) ids) as [v|]; [|discriminate]. cbn. destruct names as [l|]; [|intros [= -> _]; reflexivity]. destruct (mapM (get l) ids); [|discriminate]. intros [= -> _]. reflexivity. Qed.
Definition out_of (n : nat) (hull : list (list R) -> res (list nat)) (D out : list (row (F := R))) : Prop :=
  exists sel, out = map (fun i => nth i sel ([], 0)) (lexsort sel) /\ ((n < length D)%nat -> exists v, hull (map project D) = Ok v /\ Forall2 (fun i r => nth_error D i = Some r) v sel) /\ ((length D <= n)%nat -> sel = D).
Lemma in_range_perm {X} (l : list X) ids d : Permutation ids (seq 0 (length l)) -> Permutation (map (fun i => nth i l d) ids) l.
Proof.
  intros H. rewrite (Permutation_map _ H). assert (E : map (fun i => nth i l d) (seq 0 (length l)) = l); [|now rewrite E].
  apply (nth_ext _ _ d d); [now rewrite map_length, seq_length|]. intros i Hi. rewrite map_length, seq_length in Hi. rewrite (map_nth_in _ _ _ _ 0%nat) by now rewrite seq_length. now rewrite seq_nth.
Qed.
Section Rows.
  Variables (atol rtol : R) (els : list string) (hull : list (list R) -> res (list nat)).
  Notation state := (state (F := R)).
  Lemma hull_out (s s' : state) tol out : convex_hull atol rtol els hull s tol = Ok (s', out) ->
    exists d0, s_data s = Some d0 /\ s_data s' = Some (append_ends atol rtol els d0) /\ s_convex s' = Some out /\ s_names s' = append_names atol rtol els d0 (s_names s) /\ s_comp s' = s_comp s /\
      out_of (length els) hull (filter (fun r : row (F := R) => Rltb (snd r) tol) (append_ends atol rtol els d0)) out.
  Proof.
    unfold convex_hull. destruct (s_data s) as [d0|]; [|discriminate]. set (data := append_ends atol rtol els d0). set (names := append_names atol rtol els d0 (s_names s)).
    destruct (slice_ data names (negative tol data)) as [[D nm]|] eqn:E1; [|discriminate]. cbn [bind fst snd].
    apply slice_data in E1. rewrite (mapM_get data _ ([], 0)) in E1 by apply negative_range. injection E1 as E1. rewrite negative_filter in E1. unfold n_el.
    destruct (length els <? length D)%nat eqn:LT.
    - destruct (hull (map project D)) as [v|] eqn:EH; [|discriminate]. cbn [bind fst snd]. destruct (slice_ D nm v) as [[D' nm']|] eqn:E2; [|discriminate]. cbn [bind fst snd].
      destruct (slice_ D' nm' (lexsort D')) as [[D'' nm'']|] eqn:E3; [|discriminate]. cbn [bind fst snd]. intros [= <- <-]. exists d0. do 5 (split; [reflexivity|]). fold data.
      rewrite E1. exists D'. apply slice_data in E3. rewrite (mapM_get D' _ ([], 0)) in E3.
      + injection E3 as <-. split; [reflexivity|]. split; [|intros; apply Nat.ltb_lt in LT; lia]. intros _. exists v. split; [exact EH|]. apply mapM_get_inv. eapply slice_data; eauto.
      + intros i Hi. apply (Permutation_in _ (lexsort_perm D')) in Hi. apply in_seq in Hi. lia.
    - cbn [bind fst snd]. destruct (slice_ D nm (lexsort D)) as [[D'' nm'']|] eqn:E3; [|discriminate]. cbn [bind fst snd]. intros [= <- <-]. exists d0. do 5 (split; [reflexivity|]). fold data.
      rewrite E1. exists D. apply slice_data in E3. rewrite (mapM_get D _ ([], 0)) in E3.
      + injection E3 as <-. split; [reflexivity|]. split; [intros; apply Nat.ltb_ge in LT; lia|auto].
      + intros i Hi. apply (Permutation_in _ (lexsort_perm D)) in Hi. apply in_seq in Hi. lia.
  Qed.
  (** With names in step, only ConvexHull can fail. *)
  Lemma hull_total (s : state) d0 tol : s_data s = Some d0 -> (forall l, s_names s = Some l -> length l = length d0) ->
    (forall pts v i, hull pts = Ok v -> In i v -> (i < length pts)%nat) ->
    let D := filter (fun r : row (F := R) => Rltb (snd r) tol) (append_ends atol rtol els d0) in
    match (if (length els <? length D)%nat then hull (map project D) else Ok []) with
    | Err e => convex_hull atol rtol els hull s tol = Err e
    | Ok _ => exists s' out, convex_hull atol rtol els hull s tol = Ok (s', out)
    end.
  Proof.
    intros E L HR D. unfold convex_hull. rewrite E. set (data := append_ends atol rtol els d0) in *. set (names := append_names atol rtol els d0 (s_names s)).
    assert (LN : forall l, names = Some l -> length l = length data).
    { unfold names, append_names, data, append_ends. destruct (s_names s) as [l0|] eqn:EN; cbn; [|discriminate]. intros l [= <-]. rewrite !app_length, !map_length, (L l0 eq_refl). reflexivity. }
    rewrite (slice_spec data names (negative tol data) (negative_range tol data) LN). cbn [bind fst snd]. rewrite negative_filter. fold D. unfold n_el. set (nm := option_map _ names).
    assert (LD : length (negative tol data) = length D). { unfold D. rewrite <- negative_filter. now rewrite map_length. }
    assert (LM : forall l, nm = Some l -> length l = length D). { unfold nm. destruct names as [l0|]; cbn; [|discriminate]. intros l [= <-]. rewrite map_length. exact LD. }
    assert (FIN : forall D0 nm0, (forall l, nm0 = Some l -> length l = length D0) -> exists p, slice_ D0 nm0 (lexsort D0) = Ok p).
    { intros D0 nm0 LL. rewrite slice_spec; [eauto| |exact LL]. intros i Hi. apply (Permutation_in _ (lexsort_perm D0)) in Hi. apply in_seq in Hi. lia. }
    destruct (length els <? length D)%nat.
    - destruct (hull (map project D)) as [v|] eqn:EH; [|reflexivity]. cbn.
      assert (B : forall i, In i v -> (i < length D)%nat). { intros i Hi. pose proof (HR _ _ i EH Hi) as B. now rewrite map_length in B. }
      rewrite (slice_spec D nm v B LM). cbn [bind fst snd]. set (D1 := map (fun i => nth i D ([], 0)) v). set (nm1 := option_map (fun l => map (fun i => nth i l (Id 0)) v) nm).
      destruct (FIN D1 nm1) as [p Ep]. { unfold nm1, D1. destruct nm as [l0|]; cbn; [|discriminate]. intros l [= <-]. now rewrite !map_length. }
      rewrite Ep. cbn [bind fst snd]. eauto.
    - cbn [bind fst snd]. destruct (FIN D nm LM) as [p Ep]. rewrite Ep. cbn [bind fst snd]. eauto.
  Qed.
  (** Names stay with their rows. *)
  Lemma slice_names (Q : name -> row (F := R) -> Prop) data names ids d nm : Forall2 Q names data -> slice_ data (Some names) ids = Ok (d, nm) -> exists l, nm = Some l /\ Forall2 Q l d.
  Proof.
    intros H. unfold slice_. revert d nm. induction ids as [|i ids IH]; intros d nm; cbn; [intros [= <- <-]; exists []; split; [reflexivity|constructor]|].
    unfold get at 1. destruct (nth_error data i) as [r|] eqn:ER; [|discriminate]. cbn [bind fst snd]. destruct (mapM (get data) ids) as [d1|] eqn:E1; [|discriminate]. cbn [bind fst snd].
    unfold get at 1. destruct (nth_error names i) as [x|] eqn:EX; [|discriminate]. cbn [bind fst snd]. destruct (mapM (get names) ids) as [n1|] eqn:E2; [|discriminate]. cbn [bind fst snd]. intros [= <- <-].
    destruct (IH d1 (Some n1) eq_refl) as [l [[= <-] F]]. exists (x :: n1). split; [reflexivity|]. constructor; [|exact F].
    clear - H ER EX. revert i ER EX. induction H as [|a b names data Qab H IH]; intros [|i] ER EX; cbn in *; try discriminate; [congruence|eauto].
  Qed.
  Lemma hull_names (Q : name -> row (F := R) -> Prop) (s s' : state) d0 nm tol out : s_data s = Some d0 -> s_names s = Some nm -> Forall2 Q nm d0 -> (forall i, (i < length els)%nat -> Q (End (S i)) (target els i)) ->
    convex_hull atol rtol els hull s tol = Ok (s', out) -> exists l, s_names_convex s' = Some l /\ Forall2 Q l out.
  Proof.
    intros E EN F QE. unfold convex_hull. rewrite E, EN. set (data := append_ends atol rtol els d0). cbn [append_names option_map]. set (names := nm ++ _).
    assert (F0 : Forall2 Q names data).
    { unfold names, data, append_ends. apply Forall2_app; [exact F|]. assert (B : forall i, In i (missing atol rtol els d0) -> (i < length els)%nat). { intros i Hi. apply filter_In in Hi. destruct Hi as [Hi _]. apply in_seq in Hi. unfold n_el in Hi. lia. }
      induction (missing atol rtol els d0) as [|i l IH]; cbn; constructor; [apply QE, B; now left|apply IH; intros; apply B; now right]. }
    destruct (slice_ data (Some names) (negative tol data)) as [[D nm1]|] eqn:E1; [|discriminate]. cbn [bind fst snd]. destruct (slice_names Q _ _ _ _ _ F0 E1) as [l1 [-> F1]].
    assert (FIN : forall D0 l0 D1 nm2, Forall2 Q l0 D0 -> slice_ D0 (Some l0) (lexsort D0) = Ok (D1, nm2) -> exists l, nm2 = Some l /\ Forall2 Q l D1). { intros; eapply slice_names; eauto. }
    destruct (n_el els <? length D)%nat.
    - destruct (hull (map project D)) as [v|]; [|discriminate]. cbn [bind fst snd]. destruct (slice_ D (Some l1) v) as [[D' nm']|] eqn:E2; [|discriminate]. cbn [bind fst snd]. destruct (slice_names Q _ _ _ _ _ F1 E2) as [l2 [-> F2]].
      destruct (slice_ D' (Some l2) (lexsort D')) as [[D'' nm'']|] eqn:E3; [|discriminate]. cbn [bind fst snd]. intros [= <- <-]. cbn. eapply FIN; eauto.
    - cbn [bind fst snd]. destruct (slice_ D (Some l1) (lexsort D)) as [[D'' nm'']|] eqn:E3; [|discriminate]. cbn [bind fst snd]. intros [= <- <-]. cbn. eapply FIN; eauto.
  Qed.
End Rows.
