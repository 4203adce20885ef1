(** C88: candidate models and their input files. *)
From Coq Require Import ZArith Reals Lra.
From Verif Require Import Base Num NumR Model.Parser Spec.Parser Proofs.Parser Model.PotentialFile Proofs.PotentialFile Proofs.Mapping Model.Parser Model.Grid.
Import String.StringSyntax.
Local Open Scope string_scope.
Local Open Scope list_scope.
Local Open Scope nat_scope.

(** *** Ranges and products *)
Lemma py_range_pos a b s : (0 < s)%Z -> exists l, py_range a b s = Ok l /\ NoDup l /\ forall x, In x l <-> (exists k, 0 <= k /\ x = a + k * s)%Z /\ (x < b)%Z.
Proof.
  intros H. unfold py_range. destruct (Z.eqb_spec s 0); [lia|]. destruct (Z.ltb_spec 0 s); [|lia]. eexists. split; [reflexivity|]. split.
  - apply FinFun.Injective_map_NoDup; [|apply seq_NoDup]. intros i j E. assert (Z.of_nat i * s = Z.of_nat j * s)%Z by lia. apply Z.mul_reg_r in H1; lia.
  - intros x. rewrite in_map_iff. split.
    + intros (i & <- & Hi). apply in_seq in Hi. split; [exists (Z.of_nat i); lia|].
      assert (Z.of_nat i < (b - a + s - 1) / s)%Z by lia. assert (s * ((b - a + s - 1) / s) <= b - a + s - 1)%Z by (apply Z.mul_div_le; lia). nia.
    + intros [(k & Hk & ->) Hb]. exists (Z.to_nat k). rewrite Z2Nat.id by lia. split; [reflexivity|]. apply in_seq.
      assert (k < (b - a + s - 1) / s)%Z; [|lia]. apply Z.lt_le_trans with (k + 1)%Z; [lia|]. apply Z.div_le_lower_bound; nia.
Qed.
Lemma in_product {A} (ls : list (list A)) : forall v, In v (product ls) <-> Forall2 (@In A) v ls.
Proof.
  induction ls as [|l ls IH]; intros v; cbn [product].
  - split; [intros [<-|[]]; constructor|intros H; inversion H; now left].
  - rewrite in_flat_map. split.
    + intros (x & Hx & Hv). apply in_map_iff in Hv. destruct Hv as (t & <- & Ht). constructor; [exact Hx|now apply IH].
    + intros H. inversion H as [|x l0 t ls0 Hx Ht]; subst. exists x. split; [exact Hx|]. apply in_map. now apply IH.
Qed.
Lemma NoDup_product {A} (ls : list (list A)) : Forall (@NoDup A) ls -> NoDup (product ls).
Proof.
  induction 1 as [|l ls Hl HN IH]; cbn [product]; [constructor; [easy|constructor]|]. apply NoDup_flat_map; [exact Hl| |].
  - intros a _. apply FinFun.Injective_map_NoDup; [|exact IH]. intros x y E. congruence.
  - intros a b x _ _ Ha Hb. apply in_map_iff in Ha. apply in_map_iff in Hb. destruct Ha as (u & <- & _), Hb as (w & E & _). congruence.
Qed.
Lemma descending_spec lp : descending lp = true <-> forall i x y, nth_error lp i = Some x -> nth_error lp (S i) = Some y -> (y <= x)%Z.
Proof.
  unfold descending. induction lp as [|a [|b t] IH].
  - cbn. split; [|reflexivity]. intros _ [|i] x y H; discriminate.
  - cbn. split; [|reflexivity]. intros _ [|[|i]] x y H1 H2; discriminate.
  - change (removelast (a :: b :: t)) with (a :: removelast (b :: t)). cbn [tl combine forallb fst snd]. rewrite andb_true_iff. cbn [tl] in IH. rewrite IH. clear IH. split.
    + intros [H1 H2] [|i] x y Hx Hy; [cbn in Hx, Hy; assert (x = a /\ y = b) as [-> ->] by (split; congruence); lia|]. exact (H2 i x y Hx Hy).
    + intros H. split; [specialize (H 0 a b eq_refl eq_refl); lia|]. intros i x y Hx Hy. exact (H (S i) x y Hx Hy).
Qed.

(** *** The invariants tried *)
(** [lp] has between one and [n] entries, each a positive multiple of its interval within its bound, none larger than the one before. *)
Definition valid_maxl (ubs ints : list Z) (n : nat) (lp : list Z) : Prop :=
  1 <= length lp <= n /\
  (forall i x, nth_error lp i = Some x -> exists s u k, nth_error ints i = Some s /\ nth_error ubs i = Some u /\ (1 <= k /\ x = k * s /\ x <= u)%Z) /\
  (forall i x y, nth_error lp i = Some x -> nth_error lp (S i) = Some y -> (y <= x)%Z).
(** Polynomials of all invariants (type 2) only up to order three, with second number at most five. *)
Definition allowed (m : Z) (lp : list Z) : Prop := m = 2%Z -> exists a b, lp = [a; b] /\ (b <= 5)%Z.
Lemma include_spec m lp : lp <> [] -> (include_attr m lp = true <-> allowed m lp).
Proof.
  intros H. unfold include_attr, allowed. destruct (Z.eqb_spec m 2) as [->|NE]; cbn [andb]; [|split; [intros _ E; contradiction|reflexivity]].
  destruct lp as [|a [|b [|c t]]]; [contradiction| | |].
  - cbn. split; [discriminate|]. intros E. destruct (E eq_refl) as (x & y & Q & _). discriminate.
  - cbn [length Nat.ltb Nat.leb Nat.eqb nth]. destruct (Z.ltb_spec 5 b) as [L|L].
    + split; [discriminate|]. intros E. destruct (E eq_refl) as (x & y & Q & Hy). assert (y = b) by congruence. lia.
    + split; [intros _ _; exists a, b; split; [reflexivity|exact L]|reflexivity].
  - cbn [length Nat.ltb Nat.leb]. split; [discriminate|]. intros E. destruct (E eq_refl) as (x & y & Q & _). discriminate.
Qed.
Lemma mapM_nth {X Y} (f : X -> res Y) l ys : mapM f l = Ok ys -> length ys = length l /\ forall i x, nth_error l i = Some x -> exists y, f x = Ok y /\ nth_error ys i = Some y.
Proof.
  revert ys. induction l as [|a l IH]; intros ys H; cbn in H.
  - assert (ys = []) by congruence. subst. split; [reflexivity|]. intros [|i] x Q; discriminate.
  - destruct (f a) as [b|] eqn:E; [|discriminate]. cbn in H. destruct (mapM f l) as [bs|] eqn:E2; [|discriminate]. cbn in H. assert (ys = b :: bs) by congruence. subst. destruct (IH bs eq_refl) as [L1 L2]. split; [cbn; congruence|].
    intros [|i] x Q; [|exact (L2 i x Q)]. cbn in Q. assert (x = a) by congruence. subst. exists b. split; [exact E|reflexivity].
Qed.
Lemma nth_error_firstn {A} (l : list A) n i : nth_error (firstn n l) i = if i <? n then nth_error l i else None.
Proof.
  revert n i. induction l as [|a l IH]; intros [|n] [|i]; cbn [firstn nth_error]; try reflexivity.
  - now destruct (S i <? S n).
  - rewrite IH. change (S i <? S n) with (i <? n). reflexivity.
Qed.
Lemma Forall2_nth {A B} (P : A -> B -> Prop) v ls : Forall2 P v ls <-> length v = length ls /\ forall i x l, nth_error v i = Some x -> nth_error ls i = Some l -> P x l.
Proof.
  split.
  - induction 1 as [|x l v ls Hx H IH]; [split; [reflexivity|intros [|i] x l Q; discriminate]|]. destruct IH as [L IH]. split; [cbn; congruence|].
    intros [|i] y m Q1 Q2; [cbn in Q1, Q2; assert (y = x /\ m = l) as [-> ->] by (split; congruence); exact Hx|exact (IH i y m Q1 Q2)].
  - revert ls. induction v as [|x v IH]; intros [|l ls] [L H]; cbn in L; try discriminate; constructor.
    + apply (H 0 x l); reflexivity.
    + apply IH. split; [congruence|]. intros i y m Q1 Q2. exact (H (S i) y m Q1 Q2).
Qed.
(** Every combination once: all types given, all lists of highest angular numbers on the grid. *)
Theorem C88_invariants types order_ub ubs ints l : NoDup types -> (forall i s, i < Z.to_nat (order_ub - 1) -> nth_error ints i = Some s -> (0 < s)%Z) ->
  make_attrs types order_ub ubs ints = Ok l ->
  NoDup l /\ forall a, In a l <-> In (t_model a) types /\ valid_maxl ubs ints (Z.to_nat (order_ub - 1)) (t_maxl a) /\ allowed (t_model a) (t_maxl a) /\ t_order a = (Z.of_nat (length (t_maxl a)) + 1)%Z.
Proof.
  intros HT HI. unfold make_attrs. destruct (existsb _ _); [discriminate|]. set (n := Z.to_nat (order_ub - 1)) in *. destruct (maxl_lists ubs ints n) as [ml|] eqn:EM; [|discriminate]. cbn [bind]. intros HL.
  match type of HL with Ok ?x = _ => assert (l = x) by congruence; subst l end. clear HL.
  destruct (mapM_nth _ _ _ EM) as [LM HM]. rewrite seq_length in LM.
  assert (MI : forall i m, nth_error ml i = Some m -> NoDup m /\ exists s u, nth_error ints i = Some s /\ nth_error ubs i = Some u /\ (0 < s)%Z /\ forall x, In x m <-> exists k, (1 <= k /\ x = k * s /\ x <= u)%Z).
  { intros i m Hm. assert (Hi : i < n) by (rewrite <- LM; apply nth_error_Some; congruence).
    destruct (HM i i) as (y & Ey & Ny). { rewrite (nth_error_nth' _ 0) by (rewrite seq_length; exact Hi). now rewrite seq_nth. }
    assert (y = m) by congruence. subst y. destruct (get ints i) as [s|] eqn:E1; [|discriminate]. cbn [bind] in Ey. destruct (get ubs i) as [u|] eqn:E2; [|discriminate]. cbn [bind] in Ey.
    apply get_Some in E1. apply get_Some in E2. pose proof (HI i s Hi E1) as Hs. destruct (py_range_pos s (u + 1) s Hs) as (q & Eq & NQ & IQ). assert (q = m) by congruence. subst q. split; [exact NQ|]. exists s, u. split; [exact E1|]. split; [exact E2|]. split; [exact Hs|].
    intros x. rewrite IQ. split; [intros [(k & Hk & ->) Hb]; exists (k + 1)%Z; lia|]. intros (k & Hk & -> & Hb). split; [exists (k - 1)%Z; lia|lia]. }
  assert (LI : forall lp, In lp (l_list ml n) <-> valid_maxl ubs ints n lp).
  { intros lp. unfold l_list. rewrite in_flat_map. split.
    - intros (i & Hi & Hl). apply in_seq in Hi. apply filter_In in Hl. destruct Hl as [Hp Hd]. apply in_product in Hp. apply Forall2_nth in Hp. destruct Hp as [Lp Hp]. rewrite firstn_length, LM in Lp. split; [lia|]. split; [|now apply descending_spec].
      intros j x Hx. assert (Hj : j < length lp) by (apply nth_error_Some; congruence). destruct (nth_error ml j) as [m|] eqn:Em; [|apply nth_error_None in Em; lia].
      destruct (MI j m Em) as [_ (s & u & E1 & E2 & Hs & IM)]. assert (Q : In x m) by (apply (Hp j x m Hx); rewrite nth_error_firstn; destruct (Nat.ltb_spec j (i + 1)); [exact Em|lia]).
      apply IM in Q. destruct Q as (k & Hk). exists s, u, k. auto.
    - intros (HLn & HV & HD). exists (length lp - 1). split; [apply in_seq; lia|]. apply filter_In. split; [|now apply descending_spec]. apply in_product. apply Forall2_nth. split; [rewrite firstn_length; lia|].
      intros j x m Hx Hm. rewrite nth_error_firstn in Hm. destruct (j <? _); [|discriminate]. destruct (HV j x Hx) as (s & u & k & E1 & E2 & Hk). destruct (MI j m Hm) as [_ (s' & u' & F1 & F2 & _ & IM)]. apply IM. exists k. assert (s' = s /\ u' = u) as [-> ->] by (split; congruence). exact Hk. }
  assert (ND : NoDup (l_list ml n)).
  { unfold l_list. apply NoDup_flat_map; [apply seq_NoDup| |].
    - intros i _. apply NoDup_filter. apply NoDup_product. apply Forall_forall. intros m Hm. apply In_nth_error in Hm. destruct Hm as [j Hj]. rewrite nth_error_firstn in Hj. destruct (j <? i + 1); [|discriminate]. now apply (MI j m).
    - intros i j x Hi Hj Hx Hy. apply in_seq in Hi. apply in_seq in Hj. apply filter_In in Hx. apply filter_In in Hy. destruct Hx as [Hx _], Hy as [Hy _]. apply in_product in Hx. apply in_product in Hy. apply Forall2_nth in Hx. apply Forall2_nth in Hy. destruct Hx as [Hx _], Hy as [Hy _]. rewrite firstn_length, LM in Hx, Hy. lia. }
  split.
  - apply NoDup_flat_map; [exact HT| |].
    + intros m _. apply FinFun.Injective_map_NoDup; [intros x y E; congruence|]. now apply NoDup_filter.
    + intros a b x _ _ Ha Hb. apply in_map_iff in Ha. apply in_map_iff in Hb. destruct Ha as (u & <- & _), Hb as (w & E & _). congruence.
  - intros [m o lp]. cbn [t_model t_maxl t_order]. rewrite in_flat_map. split.
    + intros (m' & Hm & Hx). apply in_map_iff in Hx. destruct Hx as (lp' & E & Hlp). apply filter_In in Hlp. destruct Hlp as [H1 H2]. apply LI in H1. assert (m' = m /\ lp' = lp /\ o = (Z.of_nat (length lp') + 1)%Z) as (-> & -> & ->) by (repeat split; congruence).
      split; [exact Hm|]. split; [exact H1|]. split; [|reflexivity]. apply include_spec; [|exact H2]. destruct H1 as [H1 _]. intros ->. cbn in H1. lia.
    + intros (Hm & HV & HA & ->). exists m. split; [exact Hm|]. apply in_map_iff. exists lp. split; [reflexivity|]. apply filter_In. split; [now apply LI|]. apply include_spec; [|exact HA]. destruct HV as [H1 _]. intros ->. cbn in H1. lia.
Qed.
(** When there is none *)
Theorem C88_invariants_errors types order_ub ubs ints :
  ((exists i u s, nth_error ubs i = Some u /\ nth_error ints i = Some s /\ (u < s)%Z) -> make_attrs types order_ub ubs ints = Err RuntimeError) /\
  ((forall i u s, nth_error ubs i = Some u -> nth_error ints i = Some s -> (0 < s <= u)%Z) ->
   make_attrs types order_ub ubs ints = Err IndexError <-> min (length ubs) (length ints) < Z.to_nat (order_ub - 1)).
Proof.
  assert (NC : forall i, nth_error (combine ubs ints) i = match nth_error ubs i, nth_error ints i with Some u, Some s => Some (u, s) | _, _ => None end).
  { revert ints. induction ubs as [|u ubs IH]; intros [|s ints] [|i]; cbn; try reflexivity; [destruct (nth_error ubs i); reflexivity|apply IH]. }
  split.
  - intros (i & u & s & H1 & H2 & H3). unfold make_attrs. assert (existsb (fun q => fst q <? snd q)%Z (combine ubs ints) = true) as ->; [|reflexivity]. apply existsb_exists. exists (u, s). split; [apply (nth_error_In _ i); now rewrite NC, H1, H2|cbn; lia].
  - intros H. unfold make_attrs. assert (existsb (fun q => fst q <? snd q)%Z (combine ubs ints) = false) as ->.
    { apply not_true_is_false. intros Q. apply existsb_exists in Q. destruct Q as ([u s] & Q1 & Q2). apply In_nth_error in Q1. destruct Q1 as [i Q1]. rewrite NC in Q1. destruct (nth_error ubs i) eqn:E1; [|discriminate]. destruct (nth_error ints i) eqn:E2; [|discriminate]. assert (z = u /\ z0 = s) as [-> ->] by (split; congruence). specialize (H i u s E1 E2). cbn in Q2. lia. }
    set (n := Z.to_nat (order_ub - 1)). clearbody n. unfold maxl_lists.
    assert (G : forall a n, match mapM (fun i => do interval <- get ints i; do ub <- get ubs i; py_range interval (ub + 1)%Z interval) (seq a n) with Ok _ => a + n <= min (length ubs) (length ints) \/ n = 0 | Err e => e = IndexError /\ min (length ubs) (length ints) < a + n end).
    { clear n. intros a n. revert a. induction n as [|n IH]; intros a; [right; reflexivity|]. cbn [seq mapM].
      unfold get at 1. destruct (nth_error ints a) as [s|] eqn:E1; cbn [bind]; [|split; [reflexivity|apply nth_error_None in E1; lia]].
      unfold get at 1. destruct (nth_error ubs a) as [u|] eqn:E2; cbn [bind]; [|split; [reflexivity|apply nth_error_None in E2; lia]].
      assert (La : a < length ints) by (apply nth_error_Some; congruence). assert (Lb : a < length ubs) by (apply nth_error_Some; congruence).
      destruct (py_range_pos s (u + 1) s) as (q & -> & _); [specialize (H a u s E2 E1); lia|]. cbn [bind]. specialize (IH (S a)). destruct (mapM _ (seq (S a) n)) as [r|e]; cbn [bind]; [left; lia|]. destruct IH as [-> IH]. split; [reflexivity|lia]. }
    specialize (G 0 n). destruct (mapM _ (seq 0 n)) as [r|e]; cbn [bind]; [split; [discriminate|lia]|]. destruct G as [-> G]. split; [intros _; lia|reflexivity].
Qed.

(** *** Lines *)
  Lemma max_Z_spec l : l <> [] -> exists m, max_Z l = Ok m /\ In m l /\ forall x, In x l -> (x <= m)%Z.
  Proof.
    destruct l as [|a l]; [easy|]. intros _. cbn [max_Z]. eexists. split; [reflexivity|]. revert a. induction l as [|b l IH]; intros a; cbn [fold_left]; [split; [now left|]; intros x [->|[]]; lia|].
    destruct (IH (Z.max a b)) as [I1 I2]. split.
    - destruct I1 as [I1|I1]; [|right; now right]. destruct (Z.max_spec a b) as [[_ E]|[_ E]]; rewrite E in I1 |- *; rewrite <- I1; [right; now left|now left].
    - intros x [->|[->|Hx]]; [specialize (I2 _ (or_introl eq_refl)); lia|specialize (I2 _ (or_introl eq_refl)); lia|]. apply I2. now right.
  Qed.
  Lemma split_words ws : Forall token ws -> split (words ws) = ws.
  Proof.
    unfold split, words. induction ws as [|w ws IH]; [reflexivity|]. intros H. inversion H as [|? ? [W1 W2] H']; subst. destruct ws as [|v ws].
    - cbn [String.concat]. rewrite <- (append_nil w) at 1. rewrite split_token by exact W2. cbn. destruct (String.eqb_spec w String.EmptyString); [contradiction|reflexivity].
    - change (String.concat " " (w :: v :: ws)) with (String.append w (String.append " " (String.concat " " (v :: ws)))). rewrite split_token by exact W2. cbn [String.append].
      rewrite (split_flush w " ") || (change (String.String _ (String.concat " " (v :: ws))) with (String.append " " (String.concat " " (v :: ws))); rewrite split_flush by (try exact W1; easy)). now rewrite IH.
  Qed.
  Lemma read_words p t v vs : Forall token (t :: v :: vs) -> String.eqb "distance" t = false -> is_dataset_tag t = false -> read_line p (words (t :: v :: vs)) = mk_parsed (dset String.eqb (p_data p) t (v :: vs)) (p_distance p) (p_datasets p).
  Proof. intros H H1 H2. unfold read_line. now rewrite split_words, H1, H2. Qed.
  Lemma fold_words D t v vs rest : Forall token (t :: v :: vs) -> String.eqb "distance" t = false -> is_dataset_tag t = false ->
    fold_left read_line (words (t :: v :: vs) :: rest) (mk_parsed D [] []) = fold_left read_line rest (mk_parsed (dset String.eqb D t (v :: vs)) [] []).
  Proof. intros H H1 H2. cbn [fold_left]. now rewrite read_words. Qed.
  Lemma fold_blank D rest : fold_left read_line ("" :: rest) D = fold_left read_line rest D.
  Proof. reflexivity. Qed.
  Lemma mapM_show {T} (sh : T -> string) conv l : (forall x, conv (sh x) = Ok x) -> mapM conv (map sh l) = Ok l.
  Proof. intros H. induction l as [|x l IH]; [reflexivity|]. cbn. rewrite H, IH. reflexivity. Qed.
  Lemma tok_bool b : token (show_bool b).
  Proof. destruct b; (split; [discriminate|cbn; repeat split]). Qed.

Section Models.
  Context {F : Type} {NF : Num F} {OF : NumOrd F}.
  Variables (rint : F -> Z) (ofZ : Z -> F) (sizes : string -> option F).
  Notation grid := (@grid F).
  Notation params := (@params F).
  (** *** The models *)
  (** Pair models: every radial setting, type and polynomial order once; with invariants only type 2, else the types 1 and 2 asked for. *)
  Theorem C88_pair (g : grid) els : (forall p, In p (enum_pair g els) <-> exists c n t mp, In (c, n) (g_radial g) /\ In mp (g_maxps g) /\ (if g_gtinv g then t = 2%Z else In t (g_types g) /\ (t < 3)%Z) /\
      p = mk_params c t mp 0 None n els (g_alpha g) (g_force g) (g_stress g)) /\
    (NoDup (g_radial g) -> NoDup (g_types g) -> NoDup (g_maxps g) -> NoDup (enum_pair g els)).
  Proof.
    assert (MT : forall t, In t (model_types_pair g) <-> if g_gtinv g then t = 2%Z else In t (g_types g) /\ (t < 3)%Z).
    { intros t. unfold model_types_pair. destruct (g_gtinv g); [cbn; intuition congruence|]. rewrite filter_In. split; intros [H1 H2]; (split; [exact H1|lia]). }
    split.
    - intros p. unfold enum_pair. rewrite in_flat_map. split.
      + intros ([c n] & H1 & H). apply in_flat_map in H. destruct H as (t & H2 & H). apply in_map_iff in H. destruct H as (mp & <- & H3). exists c, n, t, mp. split; [exact H1|]. split; [exact H3|]. split; [now apply MT|reflexivity].
      + intros (c & n & t & mp & H1 & H3 & H2 & ->). exists (c, n). split; [exact H1|]. apply in_flat_map. exists t. split; [now apply MT|]. apply in_map_iff. exists mp. split; [reflexivity|exact H3].
    - intros N1 N2 N3. unfold enum_pair. apply NoDup_flat_map; [exact N1| |].
      + intros [c n] _. apply NoDup_flat_map; [unfold model_types_pair; destruct (g_gtinv g); [constructor; [easy|constructor]|now apply NoDup_filter]| |].
        * intros t _. apply FinFun.Injective_map_NoDup; [intros x y E; congruence|exact N3].
        * intros t t' x _ _ Ha Hb. apply in_map_iff in Ha. apply in_map_iff in Hb. destruct Ha as (u & <- & _), Hb as (w & E & _). congruence.
      + intros [c n] [c' n'] x _ _ Ha Hb. apply in_flat_map in Ha. apply in_flat_map in Hb. destruct Ha as (t & _ & Ha), Hb as (t' & _ & Hb). apply in_map_iff in Ha. apply in_map_iff in Hb. destruct Ha as (u & <- & _), Hb as (w & E & _). cbn in E. congruence.
  Qed.
  (** Models with invariants: every radial setting and every entry of the list of invariants once, always with polynomials of order two. *)
  Theorem C88_gtinv (g : grid) els attrs : g_attrs g = Some attrs -> (forall a, In a attrs -> t_maxl a <> []) ->
    exists l, enum_gtinv g els = Ok l /\
      (forall p, In p l <-> exists c n a ml, In (c, n) (g_radial g) /\ In a attrs /\ In ml (t_maxl a) /\ (forall x, In x (t_maxl a) -> (x <= ml)%Z) /\
         p = mk_params c (t_model a) 2 ml (Some a) n els (g_alpha g) (g_force g) (g_stress g)) /\
      (NoDup (g_radial g) -> NoDup attrs -> NoDup l).
  Proof.
    intros HA HN. unfold enum_gtinv. rewrite HA.
    set (f := fun q : (F * Z) * attr => mk_params (fst (fst q)) (t_model (snd q)) 2 (match max_Z (t_maxl (snd q)) with Ok m => m | Err _ => 0%Z end) (Some (snd q)) (snd (fst q)) els (g_alpha g) (g_force g) (g_stress g)).
    exists (map f (list_prod (g_radial g) attrs)). split; [|split].
    - apply mapM_Ok. intros [[c n] a] H. apply in_prod_iff in H. destruct H as [_ H]. unfold gtinv_params, f. cbn [fst snd]. destruct (max_Z_spec (t_maxl a) (HN a H)) as (m & -> & _). reflexivity.
    - intros p. rewrite in_map_iff. split.
      + intros ([[c n] a] & <- & H). apply in_prod_iff in H. destruct H as [H1 H2]. destruct (max_Z_spec (t_maxl a) (HN a H2)) as (m & E & I1 & I2). exists c, n, a, m. unfold f. cbn [fst snd]. rewrite E. auto 10.
      + intros (c & n & a & ml & H1 & H2 & H3 & H4 & ->). exists ((c, n), a). split; [|now apply in_prod_iff]. unfold f. cbn [fst snd]. destruct (max_Z_spec (t_maxl a) (HN a H2)) as (m & -> & I1 & I2). assert (m = ml) as -> by (specialize (I2 ml H3); specialize (H4 m I1); lia). reflexivity.
    - intros N1 N2. assert (NP : NoDup (list_prod (g_radial g) attrs)).
      { clear -N1 N2. induction (g_radial g) as [|r l IH]; [constructor|]. inversion N1 as [|? ? Hr N1']; subst. cbn [list_prod]. apply NoDup_app_intro; [|now apply IH|].
        - apply FinFun.Injective_map_NoDup; [intros x y E; congruence|exact N2].
        - intros [r' a] H1 H2. apply in_map_iff in H1. destruct H1 as (a' & E & _). apply in_prod_iff in H2. destruct H2 as [H2 _]. assert (r' = r) by congruence. subst. contradiction. }
      assert (INJ : forall x y, f x = f y -> x = y) by (intros [[c n] a] [[c' n'] a'] E; unfold f in E; cbn [fst snd] in E; congruence).
      apply FinFun.Injective_map_NoDup; [exact INJ|exact NP].
  Qed.

  (** *** Histories *)
  Notation step := (step rint ofZ sizes).
  Notation history := (history rint ofZ sizes).
  (** A run adds the pair models and, if asked for, the models with invariants to those enumerated before. *)
  Theorem C88_run els ops g l : s_grid (history els ops) = Some g -> (if g_gtinv g then enum_gtinv g els = Ok l else l = []) ->
    step els (history els ops) Run = (mk_search (Some g) (Some (held (history els ops) ++ enum_pair g els ++ l)) (s_hybrid (history els ops)), Ok tt).
  Proof.
    intros HG HL. cbn [Grid.step]. unfold run, do_pair. rewrite HG. cbn [s_grid]. destruct (g_gtinv g) eqn:E.
    - unfold do_gtinv. cbn [s_grid]. rewrite HL. unfold held at 1. cbn [s_params s_hybrid]. now rewrite app_assoc.
    - subst l. now rewrite app_nil_r.
  Qed.
  (** Without settings nothing is enumerated. *)
  Theorem C88_unset els (s : search) o : s_grid s = None -> (forall a, o <> SetParams a) -> step els s o = (s, Err RuntimeError).
  Proof.
    intros HG HO. destruct o as [a| | | | |]; cbn [Grid.step]; [exfalso; now apply (HO a)|unfold do_pair; now rewrite HG|unfold do_gtinv; now rewrite HG|unfold run, do_pair; now rewrite HG|unfold add_complex; now rewrite HG|unfold enum_hybrid; now rewrite HG].
  Qed.
  (** Hybrid models: each enumerated model twice, with a second model of two thirds of the cutoff. *)
  Theorem C88_hybrid els (s : search) (g : grid) (ps : list params) : s_grid s = Some g -> s_params s = Some ps ->
    exists hs, step els s Hybrid = (mk_search (Some g) (Some ps) (Some hs), Ok tt) /\ length hs = 2 * length ps /\
    forall i p, nth_error ps i = Some p ->
      let c := ofZ (rint (m_cutoff p * ofZ 2 / ofZ 3)%F) in
      let second ml := mk_params c 4 2 ml (Some (mk_attr 4 3 [ml; ml])) (rint ((c + ofZ 1) * ofZ 2)%F) els (g_alpha g) (g_force g) (g_stress g) in
      nth_error hs (2 * i) = Some (p, second 4%Z, i, 1) /\ nth_error hs (2 * i + 1) = Some (p, second 8%Z, i, 2).
  Proof.
    intros HG HP. cbn [Grid.step]. unfold enum_hybrid. rewrite HG, HP.
    set (f := fun q : nat * params => let c := ofZ (rint (m_cutoff (snd q) * ofZ 2 / ofZ 3)%F) in
      let second ml := mk_params c 4 2 ml (Some (mk_attr 4 3 [ml; ml])) (rint ((c + ofZ 1) * ofZ 2)%F) els (g_alpha g) (g_force g) (g_stress g) in
      [(snd q, second 4%Z, fst q, 1); (snd q, second 8%Z, fst q, 2)]).
    rewrite (mapM_Ok _ f) by (intros q _; reflexivity). eexists. split; [reflexivity|].
    assert (G : forall a (l : list params), length (concat (map f (combine (seq a (length l)) l))) = 2 * length l /\ forall i p, nth_error l i = Some p -> forall b, b < 2 -> nth_error (concat (map f (combine (seq a (length l)) l))) (2 * i + b) = nth_error (f (a + i, p)) b).
    { intros a l. revert a. induction l as [|x l IH]; intros a; [split; [reflexivity|intros [|i] p H; discriminate]|]. destruct (IH (S a)) as [L1 L2]. cbn [length seq combine map concat]. split; [rewrite app_length, L1; cbn; lia|].
      intros [|i] p H b Hb.
      - cbn in H. assert (p = x) by congruence. subst. rewrite Nat.add_0_r, nth_error_app1 by exact Hb. reflexivity.
      - rewrite nth_error_app2 by (cbn; lia). replace (2 * S i + b - length (f (a, x))) with (2 * i + b) by (cbn; lia). rewrite (L2 i p H b Hb). now replace (a + S i) with (S a + i) by lia. }
    destruct (G 0 ps) as [G1 G2]. split; [exact G1|]. intros i p H. cbv zeta. split.
    - specialize (G2 i p H 0 ltac:(lia)). rewrite Nat.add_0_r in G2. rewrite G2. reflexivity.
    - rewrite (G2 i p H 1 ltac:(lia)). reflexivity.
  Qed.

  (** Given invariants are taken as they are; a setting that is refused changes nothing. *)
  Theorem C88_set els (s : search) (a : settings) cs l : a_cutoffs a = Some cs -> a_gtinv a = true -> a_attrs a = Some l ->
    step els s (SetParams a) = if (length (a_alpha a) =? 3) then (mk_search (Some (mk_grid (auto_gaussians rint ofZ cs (a_nums a)) (a_types a) (a_maxps a) true (Some l) (a_force a) (a_stress a) (a_alpha a))) (s_params s) (s_hybrid s), Ok tt)
      else (s, Err RuntimeError).
  Proof using. intros H1 H2 H3. cbn [Grid.step]. unfold set_params, params_grid. rewrite H1, H2, H3. cbn [bind]. now destruct (length (a_alpha a) =? 3). Qed.
  (** Settings without invariants have none to enumerate; the list of models is there afterwards. *)
  Theorem C88_gtinv_unset els (s : search) (g : grid) : s_grid s = Some g -> g_attrs g = None -> step els s Gtinv = (mk_search (Some g) (Some (held s)) (s_hybrid s), Err TypeError).
  Proof using. intros H1 H2. cbn [Grid.step]. unfold do_gtinv, enum_gtinv. now rewrite H1, H2. Qed.
  (** Entries without orders of spherical harmonics are refused. *)
  Theorem C88_gtinv_empty (g : grid) els a t : g_attrs g = Some (a :: t) -> t_maxl a = [] -> g_radial g <> [] -> enum_gtinv g els = Err ValueError.
  Proof using. intros H1 H2 H3. unfold enum_gtinv. rewrite H1. destruct (g_radial g); [easy|]. cbn [list_prod map app mapM]. unfold gtinv_params at 1. cbn [snd]. now rewrite H2. Qed.
  Theorem C88_complex_unset els (s : search) (g : grid) n : s_grid s = Some g -> s_params s = None -> g_radial g <> [] -> (forall q, In q (g_radial g) -> (snd q <= n)%Z) -> (n < 15)%Z -> step els s Complex = (s, Err AttributeError).
  Proof using.
    intros H1 H2 H3 H4 H5. cbn [Grid.step]. unfold add_complex. rewrite H1, H2. destruct (max_Z_spec (map snd (g_radial g))) as (m & E & I & _); [now destruct (g_radial g)|]. rewrite E. unfold max_F. destruct (map fst (g_radial g)) eqn:EF; [now destruct (g_radial g)|]. cbn [bind].
    apply in_map_iff in I. destruct I as (q & <- & I). specialize (H4 q I). destruct (Z.leb_spec 15 (snd q)); [lia|reflexivity].
  Qed.

  (** *** Input files *)
  Variables (showZ : Z -> string) (showF : F -> string) (to_int : string -> res Z) (to_float : string -> res F).
  Hypothesis HZ : forall z, token (showZ z) /\ to_int (showZ z) = Ok z.
  Hypothesis HF : forall x, token (showF x) /\ to_float (showF x) = Ok x.
  (** Read back, the file of a model gives the model: its features, radial functions, polynomials, elements and penalties;
      stresses are not used without forces. *)
  Theorem C88_files (p : params) : m_elements p <> [] -> Forall token (m_elements p) -> length (m_alpha p) = 3 ->
    (forall a, m_gtinv p = Some a -> t_maxl a <> [] /\ Z.of_nat (length (t_maxl a)) = (t_order a - 1)%Z) ->
    exists f, save_params showZ showF p = Ok f /\
      read_params ofZ to_int to_float (read_file f) = Ok (mk_read (m_force p) (m_force p && m_stress p) (Z.of_nat (length (m_elements p))) (m_elements p) (m_alpha p) (m_cutoff p) (m_type p) (m_maxp p)
        (match m_gtinv p with Some _ => "gtinv" | None => "pair" end) (match m_gtinv p with Some a => t_order a | None => 3%Z end) (match m_gtinv p with Some a => t_maxl a | None => [2; 2]%Z end) (Some (m_ngauss p))) /\
      p_distance (read_file f) = [] /\ p_datasets (read_file f) = [].
  Proof using HZ HF.
    clear rint sizes. intros HE HT HA HG. destruct p as [c t mp ml gt ng els al fo st]. cbn [m_cutoff m_type m_maxp m_maxl m_gtinv m_ngauss m_elements m_alpha m_force m_stress] in *.
    destruct al as [|a0 [|a1 [|a2 [|a3 al]]]]; try (cbn in HA; lia). destruct els as [|e els]; [contradiction|]. unfold save_params. cbn [m_cutoff m_type m_maxp m_maxl m_gtinv m_ngauss m_elements m_alpha m_force m_stress]. eexists. split; [reflexivity|].
    assert (LIT : forall s, s <> String.EmptyString -> no_spaces s -> token s) by (intros; now split).
    assert (TL : token "feature_type" /\ token "cutoff" /\ token "n_gaussians" /\ token "model_type" /\ token "max_p" /\ token "gtinv_order" /\ token "gtinv_maxl" /\ token "include_force" /\ token "include_stress" /\ token "reg_alpha_params" /\ token "n_type" /\ token "elements" /\ token "gtinv" /\ token "pair").
    { repeat match goal with |- _ /\ _ => split end; apply LIT; (discriminate || (cbn; tauto)). }
    destruct TL as (L1 & L2 & L3 & L4 & L5 & L6 & L7 & L8 & L9 & L10 & L11 & L12 & L13 & L14).
    set (P := read_file _).
    assert (EP : P = mk_parsed ([("feature_type", [match gt with Some _ => "gtinv" | None => "pair" end]); ("cutoff", [showF c]); ("n_gaussians", [showZ ng]); ("model_type", [showZ t]); ("max_p", [showZ mp])]
        ++ match gt with Some a => [("gtinv_order", [showZ (t_order a)]); ("gtinv_maxl", map showZ (t_maxl a))] | None => [] end
        ++ [("include_force", [show_bool fo]); ("include_stress", [show_bool st]); ("reg_alpha_params", [showF a0; showF a1; showF a2]); ("n_type", [showZ (Z.of_nat (length (e :: els)))]); ("elements", e :: els)]) [] []).
    { unfold P, read_file, feature_name. cbn [m_gtinv]. inversion HT as [|? ? HT1 HT2]; subst.
      assert (TZ : forall l, Forall token (map showZ l)) by (intros l; apply Forall_forall; intros w Hw; apply in_map_iff in Hw; destruct Hw as (z & <- & _); apply HZ).
      assert (T1 : forall z, token (showZ z)) by (intros; apply HZ). assert (T2 : forall x, token (showF x)) by (intros; apply HF). pose proof (tok_bool fo) as T3. pose proof (tok_bool st) as T4.
      destruct gt as [a|].
      - destruct (HG a eq_refl) as [HN _]. destruct (t_maxl a) as [|m0 mls]; [contradiction|]. cbn [map app].
        repeat (rewrite fold_blank || (rewrite fold_words; [|repeat (apply Forall_cons; [auto|]); auto|reflexivity|reflexivity])). reflexivity.
      - cbn [map app].
        repeat (rewrite fold_blank || (rewrite fold_words; [|repeat (apply Forall_cons; [auto|]); auto|reflexivity|reflexivity])). reflexivity. }
    rewrite EP. split; [|split; reflexivity]. clear P EP.
    set (L := (_ ++ _)%list).
    assert (SB : forall b, strtobool (show_bool b) = Ok b) by (intros []; reflexivity).
    assert (D1 : dget String.eqb L "include_force" = Some [show_bool fo]) by (unfold L; destruct gt; reflexivity).
    assert (D2 : dget String.eqb L "include_stress" = Some [show_bool st]) by (unfold L; destruct gt; reflexivity).
    assert (D3 : dget String.eqb L "n_type" = Some [showZ (Z.of_nat (length (e :: els)))]) by (unfold L; destruct gt; reflexivity).
    assert (D4 : dget String.eqb L "elements" = Some (e :: els)) by (unfold L; destruct gt; reflexivity).
    assert (D5 : dget String.eqb L "reg_alpha_params" = Some [showF a0; showF a1; showF a2]) by (unfold L; destruct gt; reflexivity).
    assert (D6 : dget String.eqb L "cutoff" = Some [showF c]) by (unfold L; destruct gt; reflexivity).
    assert (D7 : dget String.eqb L "model_type" = Some [showZ t]) by (unfold L; destruct gt; reflexivity).
    assert (D8 : dget String.eqb L "max_p" = Some [showZ mp]) by (unfold L; destruct gt; reflexivity).
    assert (D9 : dget String.eqb L "feature_type" = Some [match gt with Some _ => "gtinv" | None => "pair" end]) by (unfold L; destruct gt; reflexivity).
    assert (D10 : dget String.eqb L "gtinv_order" = match gt with Some a => Some [showZ (t_order a)] | None => None end) by (unfold L; destruct gt; reflexivity).
    assert (D11 : dget String.eqb L "gtinv_maxl" = match gt with Some a => Some (map showZ (t_maxl a)) | None => None end) by (unfold L; destruct gt; reflexivity).
    assert (D12 : dget String.eqb L "n_gaussians" = Some [showZ ng]) by (unfold L; destruct gt; reflexivity).
    clearbody L. assert (Z1 : forall z, to_int (showZ z) = Ok z) by (intros; apply HZ). assert (F1 : forall x, to_float (showF x) = Ok x) by (intros; apply HF).
    assert (GP : forall {T} (conv : string -> res T) tag d v, dget String.eqb L tag = Some [v] -> get_param conv (mk_parsed L [] []) tag d = conv v).
    { intros T conv tag d v Q. unfold get_param. cbn [p_data]. rewrite Q. cbn [firstn mapM]. destruct (conv v); reflexivity. }
    unfold read_params, force_tags. rewrite (GP _ strtobool _ _ _ D1), SB. cbn [bind].
    assert (FT : (if fo then do s <- get_param strtobool (mk_parsed L [] []) "include_stress" (Ok true); Ok (fo, s) else Ok (fo, false)) = Ok (fo, fo && st)).
    { destruct fo; [|reflexivity]. rewrite (GP _ strtobool _ _ _ D2), SB. reflexivity. }
    rewrite FT. cbn [bind fst snd]. rewrite (GP _ to_int _ _ _ D3), Z1. cbn [bind]. rewrite !Nat2Z.id.
    unfold get_params at 1. cbn [p_data]. rewrite D4, firstn_all. assert (MO : forall l : list string, mapM Ok l = Ok l) by (intros l; rewrite (mapM_Ok Ok (fun x => x)) by reflexivity; now rewrite map_id).
    rewrite MO. cbn [bind]. unfold get_params at 1. cbn [p_data]. rewrite D5. cbn [firstn mapM]. rewrite !F1. cbn [bind length Nat.eqb].
    rewrite (GP _ to_float _ _ _ D6), F1. cbn [bind]. rewrite (GP _ to_int _ _ _ D7), Z1. cbn [bind]. rewrite (GP _ to_int _ _ _ D8), Z1. cbn [bind]. rewrite (GP _ Ok _ _ _ D9). cbn [bind].
    destruct gt as [a|].
    - destruct (HG a eq_refl) as [HN HL]. rewrite (GP _ to_int _ _ _ D10), Z1. cbn [bind]. unfold get_params at 1. cbn [p_data]. rewrite D11. replace (Z.to_nat (t_order a - 1)) with (length (map showZ (t_maxl a))) by (rewrite map_length; lia). rewrite firstn_all, (mapM_show showZ to_int) by exact Z1. cbn [bind].
      cbn [p_data]. rewrite D12. rewrite (GP _ to_int _ _ _ D12), Z1. cbn [bind]. rewrite Nat.eqb_refl. cbn [bind]. rewrite map_length, Nat.sub_diag. cbn [repeat]. now rewrite app_nil_r.
    - unfold get_param at 1. cbn [p_data]. rewrite D10. cbn [bind]. unfold get_params at 1. cbn [p_data]. rewrite D11. cbn [bind]. cbn [p_data]. rewrite D12. rewrite (GP _ to_int _ _ _ D12), Z1. cbn [bind]. rewrite Nat.eqb_refl. reflexivity.
  Qed.
End Models.

(** *** Directories *)
Lemma digits_zeros k s : digits 0 (repeat (char 48) k ++ s) = digits 0 s.
Proof. induction k as [|k IH]; [reflexivity|]. cbn [repeat app digits]. change (digit (char 48)) with (Some 0). exact IH. Qed.
Lemma zfill_inj n i j : zfill n (show_nat i) = zfill n (show_nat j) -> i = j.
Proof.
  intros H. apply (f_equal (digits 0)) in H. unfold zfill in H. rewrite !digits_zeros in H. unfold show_nat in H. rewrite !digits_uint in H.
  change (Nat.of_uint_acc (Nat.to_uint i) 0) with (Nat.of_uint (Nat.to_uint i)) in H. change (Nat.of_uint_acc (Nat.to_uint j) 0) with (Nat.of_uint (Nat.to_uint j)) in H. now rewrite !DecimalNat.Unsigned.of_to in H.
Qed.
(** Different models have different directories, whatever their number. *)
Theorem C88_directories i j : directory i = directory j -> i = j.
Proof. unfold directory. intros H. apply app_inv_head in H. now apply zfill_inj in H. Qed.
Theorem C88_directories_hybrid i j h k : (h = 1 \/ h = 2) -> (k = 1 \/ k = 2) -> (directory_hybrid i h = directory_hybrid j k -> i = j /\ h = k) /\ directory_hybrid i h <> directory j.
Proof.
  intros Hh Hk. assert (E : forall a, a = 1 \/ a = 2 -> lit "-h" ++ zfill 2 (show_nat a) = [char 45; char 104; char 48; char (48 + a)]) by (intros a [->| ->]; reflexivity).
  unfold directory_hybrid. rewrite (E h Hh), (E k Hk). split.
  - intros H. assert (L : forall x (a b c d : ascii), rev (x ++ [a; b; c; d]) = d :: c :: b :: a :: rev x) by (intros; rewrite rev_app_distr; reflexivity).
    apply (f_equal (@rev ascii)) in H. rewrite !L in H. assert (char (48 + h) = char (48 + k) /\ rev (directory i) = rev (directory j)) as [H1 H2] by (split; congruence).
    split; [apply C88_directories; rewrite <- (rev_involutive (directory i)), <- (rev_involutive (directory j)); now rewrite H2|]. destruct Hh as [->| ->], Hk as [->| ->]; try reflexivity; discriminate.
  - intros H. unfold directory in H. rewrite <- app_assoc in H. apply app_inv_head in H. assert (Q : In (char 45) (zfill 4 (show_nat j))) by (rewrite <- H; apply in_or_app; right; now left).
    assert (D : forall d, ~ In (char 45) (of_uint d)) by (induction d; cbn [of_uint]; [easy|..]; intros [K|K]; try (now apply IHd); discriminate).
    unfold zfill in Q. apply in_app_or in Q. destruct Q as [Q|Q]; [apply repeat_spec in Q; discriminate|]. exact (D _ Q).
Qed.

(** Every model is written to the directory of its number; a hybrid model has two files in its directory. *)
Theorem C88_saved {F} (showZ : Z -> string) (showF : F -> string) first s files : save_models showZ showF first s = Ok files ->
  exists ps, s_params s = Some ps /\ length files = length ps /\ forall i p, nth_error ps i = Some p -> exists f, save_params showZ showF p = Ok f /\ nth_error files i = Some (directory (first + i) ++ lit "/polymlp.in", f).
Proof.
  unfold save_models. destruct (s_params s) as [ps|]; [|discriminate]. intros H. apply mapM_nth in H. destruct H as [L N]. exists ps. split; [reflexivity|].
  assert (C : forall (l : list (params (F:=F))) k i p, nth_error l i = Some p -> nth_error (combine (seq k (length l)) l) i = Some (k + i, p)).
  { induction l as [|a l IH]; intros k [|i] p Hp; try discriminate; cbn in *; [rewrite Nat.add_0_r; congruence|]. rewrite (IH (S k) i p Hp). do 2 f_equal. lia. }
  split; [rewrite L, combine_length, seq_length; apply Nat.min_id|]. intros i p Hp. destruct (N i _ (C ps 0 i p Hp)) as (y & E & Hy). cbn [fst snd] in E. destruct (save_params showZ showF p) as [f|]; [|discriminate]. cbn [bind] in E. exists f. split; [reflexivity|]. rewrite Hy, (Nat.add_comm first i). cbn [plus] in E. now inversion E.
Qed.
Theorem C88_saved_hybrid {F} (showZ : Z -> string) (showF : F -> string) first s files : save_hybrid showZ showF first s = Ok files ->
  exists hs, s_hybrid s = Some hs /\ length files = 2 * length hs /\ forall p q i h, In (p, q, i, h) hs -> exists f f', save_params showZ showF p = Ok f /\ save_params showZ showF q = Ok f' /\
    In (directory_hybrid (first + i) h ++ lit "/polymlp.in.1", f) files /\ In (directory_hybrid (first + i) h ++ lit "/polymlp.in.2", f') files.
Proof.
  unfold save_hybrid. destruct (s_hybrid s) as [hs|]; [|discriminate]. intros H. exists hs. split; [reflexivity|]. destruct (mapM _ hs) as [r|] eqn:E; [|discriminate]. cbn [bind] in H. inversion H; subst; clear H.
  revert r E. induction hs as [|[[[p q] i] h] hs IH]; intros r E; cbn [mapM] in E; [inversion E; subst; split; [reflexivity|easy]|].
  destruct (save_params showZ showF p) as [f|] eqn:Ef; [|discriminate]. destruct (save_params showZ showF q) as [f'|] eqn:Eg; [|discriminate]. cbn [bind] in E. destruct (mapM _ hs) as [t|]; [|discriminate]. cbn [bind] in E. inversion E; subst. destruct (IH t eq_refl) as [L N].
  cbn [concat app length]. split; [rewrite L; lia|]. intros p' q' i' h' [X|X].
  - injection X as -> -> -> ->. exists f, f'. split; [exact Ef|]. split; [exact Eg|]. rewrite (Nat.add_comm first). split; [now left|right; now left].
  - destruct (N _ _ _ _ X) as (g & g' & G1 & G2 & G3 & G4). exists g, g'. split; [exact G1|]. split; [exact G2|]. split; right; now right.
Qed.
(** Nothing enumerated, nothing written *)
Theorem C88_saved_unset {F} (showZ : Z -> string) (showF : F -> string) first s : (s_params s = None -> save_models showZ showF first s = Err TypeError) /\ (s_hybrid s = None -> save_hybrid showZ showF first s = Err TypeError).
Proof. split; intros H; [unfold save_models|unfold save_hybrid]; now rewrite H. Qed.

(** *** Automatic settings *)
Section Auto.
  Local Open Scope R_scope.
  Variable rint : R -> Z.
  Hypothesis nearest : forall x, Rabs (IZR (rint x) - x) <= 1 / 2.
  Variable sizes : string -> option R.
  Lemma larger_spec a b : larger (F:=R) a b = Rmax a b.
  Proof using. unfold larger. change (nltb a b) with (Rltb a b). destruct (Rltb a b) eqn:E; [apply Rltb_true in E; rewrite Rmax_right; lra|apply Rltb_false in E; rewrite Rmax_left; lra]. Qed.
  (** Two cutoffs, six and eight or the rounded multiples of the largest element if these are larger. *)
  Theorem C88_cutoffs els szs : els <> [] -> Forall2 (fun e s => sizes e = Some s) els szs ->
    exists m, In m szs /\ (forall s, In s szs -> s <= m) /\
    auto_cutoff (F:=R) rint IZR sizes els = Ok [Rmax (IZR (rint (11 / 2 * m))) 6; Rmax (IZR (rint (15 / 2 * m))) 8] /\
    Rmax (IZR (rint (11 / 2 * m))) 6 < Rmax (IZR (rint (15 / 2 * m))) 8.
  Proof using nearest.
    intros HE HS. assert (HM : mapM (fun e => match sizes e with Some s => Ok s | None => Err KeyError end) els = Ok szs).
    { clear HE. induction HS as [|e s els szs H HS IH]; [reflexivity|]. cbn. rewrite H. cbn. now rewrite IH. }
    unfold auto_cutoff. rewrite HM. cbn [bind]. destruct szs as [|s0 szs]; [inversion HS; subst; contradiction|]. cbn [max_F bind].
    assert (MX : forall l a, let m := fold_left (fun m y => if nltb m y then y else m) l a in (m = a \/ In m l) /\ a <= m /\ forall x, In x l -> x <= m).
    { clear. induction l as [|b l IH]; intros a; cbn [fold_left]; [split; [now left|]; split; [lra|easy]|]. change (nltb a b) with (Rltb a b). destruct (Rltb a b) eqn:E.
      - apply Rltb_true in E. destruct (IH b) as (I1 & I2 & I3). split; [right; destruct I1 as [I1|I1]; [left; congruence|now right]|]. split; [lra|]. intros x [->|Hx]; [exact I2|now apply I3].
      - apply Rltb_false in E. destruct (IH a) as (I1 & I2 & I3). split; [destruct I1 as [I1|I1]; [now left|right; now right]|]. split; [exact I2|]. intros x [->|Hx]; [lra|now apply I3]. }
    destruct (MX szs s0) as (M1 & M2 & M3). set (m := fold_left _ szs s0) in *. exists m. split; [destruct M1 as [M1|M1]; [left; congruence|now right]|]. split; [intros s [->|Hs]; [exact M2|now apply M3]|].
    rewrite !larger_spec. cbn [ndiv nmul R_num]. set (x := IZR (rint (11 / 2 * m))). set (y := IZR (rint (15 / 2 * m))).
    assert (LT : Rmax x 6 < Rmax y 8).
    { pose proof (nearest (11 / 2 * m)) as N1. pose proof (nearest (15 / 2 * m)) as N2. fold x in N1. fold y in N2. unfold Rabs in N1, N2. destruct (Rcase_abs (x - 11 / 2 * m)), (Rcase_abs (y - 15 / 2 * m)); unfold Rmax; destruct (Rle_dec x 6), (Rle_dec y 8); lra. }
    change (nltb (Rmax x 6) (Rmax y 8)) with (Rltb (Rmax x 6) (Rmax y 8)). assert (Rltb (Rmax x 6) (Rmax y 8) = true) as -> by (now apply Rltb_true). split; [reflexivity|exact LT].
  Qed.
  (** Gaussians: the rounded cutoff plus one, a quarter more and half more; or the numbers given *)
  Theorem C88_gaussians cs nums c n : In (c, n) (auto_gaussians (F:=R) rint IZR cs nums) <-> In c cs /\ match nums with None => n = rint (c + 1) \/ n = rint (5 / 4 * (c + 1)) \/ n = rint (3 / 2 * (c + 1)) | Some ns => In n ns end.
  Proof using.
    clear nearest. unfold auto_gaussians. destruct nums as [ns|]; [apply in_prod_iff|]. rewrite in_flat_map. cbn [map In ndiv nmul nadd R_num].
    assert (E1 : forall x, (x + 1) * 1 = x + 1) by (intros; lra). assert (E2 : forall x, (x + 1) * (5 / 4) = 5 / 4 * (x + 1)) by (intros; lra). assert (E3 : forall x, (x + 1) * (3 / 2) = 3 / 2 * (x + 1)) by (intros; lra).
    split.
    - intros (x & Hx & [H|[H|[H|[]]]]); injection H as <- <-; rewrite ?E1, ?E2, ?E3; auto.
    - intros (Hc & H). exists c. split; [exact Hc|]. rewrite E1, E2, E3. destruct H as [->|[->| ->]]; auto.
  Qed.
  (** Two larger models at the largest cutoff, with more Gaussians than any other, unless there are fifteen already *)
  Theorem C88_complex els (s : search (F:=R)) g ps : s_grid s = Some g -> s_params s = Some ps -> g_radial g <> [] ->
    exists c n, In c (map fst (g_radial g)) /\ (forall x, In x (map fst (g_radial g)) -> x <= c) /\ In n (map snd (g_radial g)) /\ (forall x, In x (map snd (g_radial g)) -> (x <= n)%Z) /\
      ((15 <= n)%Z /\ step rint IZR sizes els s Complex = (s, Ok tt) \/
       exists n', (n < n')%Z /\ ((n < 12)%Z /\ n' = 12%Z \/ (12 <= n < 15)%Z /\ n' = 15%Z) /\
         let model order ml maxl := mk_params c 4 2 ml (Some (mk_attr 4 order maxl)) n' els (g_alpha g) (g_force g) (g_stress g) in
         step rint IZR sizes els s Complex = (mk_search (Some g) (Some (ps ++ [model 3%Z 8%Z [8; 8]%Z; model 4%Z 12%Z [12; 8; 2]%Z])) (s_hybrid s), Ok tt)).
  Proof using.
    clear nearest. intros HG HP HN. destruct (max_Z_spec (map snd (g_radial g))) as (n & E & I1 & I2); [now destruct (g_radial g)|].
    assert (MX : forall l a, exists m, max_F (F:=R) (a :: l) = Ok m /\ In m (a :: l) /\ forall x, In x (a :: l) -> x <= m).
    { clear. intros l a. cbn [max_F]. eexists. split; [reflexivity|]. revert a. induction l as [|b l IH]; intros a; cbn [fold_left]; [split; [now left|]; intros x [->|[]]; lra|]. change (nltb a b) with (Rltb a b). destruct (Rltb a b) eqn:E.
      - apply Rltb_true in E. destruct (IH b) as (J1 & J2). split; [right; exact J1|]. intros x [->|Hx]; [specialize (J2 b (or_introl eq_refl)); lra|now apply J2].
      - apply Rltb_false in E. destruct (IH a) as (J1 & J2). split; [destruct J1 as [J1|J1]; [now left|right; now right]|]. intros x [->|[->|Hx]]; [apply J2; now left|specialize (J2 a (or_introl eq_refl)); lra|apply J2; now right]. }
    destruct (map fst (g_radial g)) as [|a l] eqn:EF; [now destruct (g_radial g)|]. destruct (MX l a) as (c & EC & C1 & C2). exists c, n. do 4 (split; [assumption|]).
    cbn [step]. unfold add_complex. rewrite HG, HP, EF, EC, E. cbn [bind]. destruct (Z.leb_spec 15 n); [left; now split|]. right. destruct (Z.ltb_spec n 12).
    - exists 12%Z. split; [lia|]. split; [left; lia|]. reflexivity.
    - exists 15%Z. split; [lia|]. split; [right; lia|]. reflexivity.
  Qed.
  Theorem C88_no_elements : auto_cutoff (F:=R) rint IZR sizes [] = Err ValueError.
  Proof using. reflexivity. Qed.
End Auto.

(** *** Examples *)
#[local] Instance Z_ord : NumOrd Z := {| nltb := Z.ltb; nabs := Z.abs; nsqrt := Z.sqrt |}.
Definition rint0 (x : Z) : Z := x.
Definition settings0 : settings := mk_settings (F:=Z) (Some [6]%Z) (Some [7]%Z) [2; 3]%Z [2]%Z true 3 [8; 4]%Z [4; 4]%Z None true true [-4; 1; 6]%Z.
Notation hist0 := (history (F:=Z) rint0 (fun z => z) (fun _ => None) ["Mg"]).
Example ex_models : map (fun p => (m_type p, m_maxp p, match m_gtinv p with Some a => t_maxl a | None => [] end)) (held (hist0 [SetParams settings0; Run])) =
  [(2, 2, []); (2, 2, [4; 4]); (2, 2, [8; 4]); (3, 2, [4]); (3, 2, [8]); (3, 2, [4; 4]); (3, 2, [8; 4])]%Z.
Proof. reflexivity. Qed.
Example ex_directory : directory 12 = lit "/polymlp-0012" /\ directory (100 * 123) = lit "/polymlp-12300" /\ directory_hybrid 3 1 = lit "/polymlp-0003-h01".
Proof. repeat split. Qed.
(** Over histories a model can be there twice. *)
Theorem C88_once_refuted : ~ forall ops, NoDup (held (hist0 ops)).
Proof.
  intros H. specialize (H [SetParams settings0; Run; Run]). set (l := held _) in H. assert (E : nth_error l 0 = nth_error l 7) by reflexivity.
  assert (L : length l = 14) by reflexivity. pose proof (proj1 (NoDup_nth_error l) H 0 7) as Q. assert (0 = 7) by (apply Q; [lia|exact E]). lia.
Qed.
(** The penalties of an enumerated model are powers of the three numbers that describe the list, so one is a power of its length. *)
Theorem C88_penalties_refuted : exists p, In p (held (hist0 [SetParams settings0; Run])) /\ m_alpha p = [-4; 1; 6]%Z /\ forall pow10, alphas pow10 p = [pow10 (-4); pow10 1; pow10 6]%Z.
Proof. exists (hd (mk_params 0 0 0 0 None 0 [] [] false false)%Z (held (hist0 [SetParams settings0; Run]))). split; [now left|]. split; reflexivity. Qed.
(** Hybrid models are not enumerated anew with the models. *)
Theorem C88_hybrid_refuted : exists ops, length (held (hist0 ops)) = 14 /\ exists hs, s_hybrid (hist0 ops) = Some hs /\ length hs = 14.
Proof. exists [SetParams settings0; Run; Hybrid; Run]. split; [reflexivity|]. eexists. split; reflexivity. Qed.
(** Numbers can be printed and read as C88_files asks for. *)
Fixpoint show_pos (p : positive) : string := match p with xH => "1" | xO p => String.String (char 48) (show_pos p) | xI p => String.String (char 49) (show_pos p) end.
Fixpoint read_pos (s : string) : positive :=
  match s with String.String _ String.EmptyString => xH | String.String c t => if Ascii.eqb c (char 48) then xO (read_pos t) else xI (read_pos t) | _ => xH end.
Definition show_Z (z : Z) : string := match z with Z0 => "z" | Zpos p => String.String (char 43) (show_pos p) | Zneg p => String.String (char 45) (show_pos p) end.
Definition read_Z (s : string) : res Z :=
  match s with String.String c t => if Ascii.eqb c (char 43) then Ok (Zpos (read_pos t)) else if Ascii.eqb c (char 45) then Ok (Zneg (read_pos t)) else Ok Z0 | _ => Err ValueError end.
Example ex_numbers z : token (show_Z z) /\ read_Z (show_Z z) = Ok z.
Proof.
  assert (NE : forall p, show_pos p <> "") by (destruct p; discriminate).
  assert (T : forall p, no_spaces (show_pos p)) by (induction p; cbn [show_pos no_spaces]; repeat split; auto).
  assert (RP : forall p, read_pos (show_pos p) = p).
  { induction p as [p IH|p IH|]; cbn [show_pos read_pos]; [| |reflexivity]; specialize (NE p); destruct (show_pos p) as [|c t]; try contradiction; rewrite IH; reflexivity. }
  destruct z as [|p|p]; (split; [split; [discriminate|cbn; auto]|cbn; now rewrite ?RP]).
Qed.
Example ex_file : exists p f, nth_error (held (hist0 [SetParams settings0; Run])) 2 = Some p /\ save_params show_Z show_Z p = Ok f /\
  read_params (fun z => z) read_Z read_Z (read_file f) = Ok (mk_read true true 1 ["Mg"] [-4; 1; 6] 6 2 2 "gtinv" 3 [8; 4] (Some 7))%Z.
Proof. eexists. eexists. split; [reflexivity|]. split; vm_compute; reflexivity. Qed.
Example ex_alphas : read_params (fun z => z) read_Z read_Z (read_file ["elements Mg"; "reg_alpha_params z z"]) = Err AssertionError.
Proof. vm_compute. reflexivity. Qed.
Example ex_negative : make_attrs [3%Z] 2 [-3]%Z [-10]%Z = Ok [].
Proof. reflexivity. Qed.

Print Assumptions C88_invariants.
Print Assumptions C88_invariants_errors.
Print Assumptions C88_pair.
Print Assumptions C88_gtinv.
Print Assumptions C88_run.
Print Assumptions C88_unset.
Print Assumptions C88_hybrid.
Print Assumptions C88_files.
Print Assumptions C88_directories.
Print Assumptions C88_directories_hybrid.
Print Assumptions C88_cutoffs.
Print Assumptions C88_once_refuted.
Print Assumptions C88_penalties_refuted.
Print Assumptions C88_hybrid_refuted.
Print Assumptions C88_set.
Print Assumptions C88_gtinv_unset.
Print Assumptions C88_gtinv_empty.
Print Assumptions C88_complex_unset.
Print Assumptions C88_saved.
Print Assumptions C88_saved_hybrid.
Print Assumptions C88_saved_unset.
Print Assumptions C88_gaussians.
Print Assumptions C88_complex.
Print Assumptions C88_no_elements.
