(** Polynomial fits: columns and functions, least squares, leaving one record out. *)
From Verif Require Import Base Num NumR Model.Regress Model.Polyfit Spec.Polyfit Proofs.Gauss.
From Coq Require Import Reals Lra.
Local Open Scope R_scope.

Lemma npow_pow x k : npow (F:=R) (N:=R_num) x k = x ^ k.
Proof. induction k as [|k IH]; cbn; [reflexivity|]. now rewrite IH. Qed.

(** ** An exact solver over the real numbers *)
Definition Rzerob (x : R) : bool := if Req_EM_T x 0 then true else false.
Lemma Rzerob_true x : Rzerob x = true <-> x = 0.
Proof. unfold Rzerob. destruct (Req_EM_T x 0); split; congruence. Qed.
Definition Rsolve := gauss (F:=R) Rzerob.
Definition Rinverse := gauss_inv (F:=R) Rzerob.
Lemma Rsolve_exact : exact_solve Rsolve.
Proof. exact (gauss_exact Rzerob Rzerob_true). Qed.
Lemma Rinverse_exact : exact_inv Rinverse.
Proof. exact (gauss_inv_exact Rzerob Rzerob_true). Qed.
Lemma singular_dec p (m : mat R) : {singular p m} + {~ singular p m}.
Proof.
  pose proof (Rsolve_exact p m (fun _ => 0)) as H. destruct (Rsolve p m (fun _ => 0)); [right; exact (proj1 H)|left; exact H].
Qed.

Lemma sumn_zero n (f : nat -> R) : (forall i, (i < n)%nat -> f i = 0) -> sumn n f = 0.
Proof. intros H. transitivity (sumn n (fun _ => n0 (F:=R))); [apply sumn_ext; exact H|]. exact (nsumf_zero (F:=R) (seq 0 n)). Qed.

Lemma nsumf_subR {A} (f g : A -> R) l : nsumf f l - nsumf g l = nsumf (fun x => f x - g x) l.
Proof. exact (eq_sym (nsumf_sub (F:=R) f g l)). Qed.

(** ** Values of polynomials *)
Notation pv := (polyval (F:=R) (N:=R_num)).
Lemma pv_app l a x : pv (l ++ [a]) x = pv l x * x + a.
Proof. unfold polyval. now rewrite fold_left_app. Qed.
Lemma pv_cons a l x : pv (a :: l) x = a * x ^ length l + pv l x.
Proof.
  induction l as [|b l IH] using rev_ind.
  - unfold polyval. cbn. ring.
  - rewrite app_comm_cons, !pv_app, IH, app_length. cbn [length]. rewrite Nat.add_1_r. cbn [pow]. ring.
Qed.
Lemma pv_powers n a l x : length l = n -> nsumf (fun q => x ^ fst q * snd q) (combine (rev (seq a n)) l) = x ^ a * pv l x.
Proof.
  revert l; induction n as [|n IH]; intros [|b l] E; try discriminate.
  - cbn. unfold polyval. cbn. ring.
  - injection E as E. rewrite <- Nat.add_1_r, seq_app, rev_app_distr. cbn [seq rev app combine].
    rewrite nsumf_cons, (IH l E), pv_cons. cbn [nadd R_num fst snd]. rewrite E, pow_add. ring.
Qed.

Lemma nsumf_combine_app {A B} (f : A * B -> R) a1 a2 b1 b2 : length a1 = length b1 ->
  nsumf f (combine (a1 ++ a2) (b1 ++ b2)) = nsumf f (combine a1 b1) + nsumf f (combine a2 b2).
Proof.
  revert b1; induction a1 as [|a a1 IH]; intros [|b b1] E; try discriminate; cbn [app combine].
  - rewrite nsumf_nil. cbn. ring.
  - injection E as E. rewrite !nsumf_cons, (IH b1 E). cbn [nadd R_num]. ring.
Qed.
Lemma combine_map_l {A B C} (f : A -> B) (l : list A) (m : list C) : combine (map f l) m = map (fun q => (f (fst q), snd q)) (combine l m).
Proof. revert m; induction l as [|a l IH]; intros [|b m]; cbn; [reflexivity..|]. now rewrite IH. Qed.

(** ** Columns and functions *)
Notation cols k := (columns (k_order k) (k_intercept k) (k_first k) (k_sqrt k)).
Notation xrw := (x_row (F:=R) (N:=R_num) (NO:=R_ord)).
Notation ent := (entry (F:=R) (N:=R_num) (NO:=R_ord)).
Notation nc k := (length (cols k)).

Lemma dot_list (cs : list column) (c : vec R) x :
  dot (length cs) (xrw cs x) c = nsumf (fun q => ent (fst q) x * snd q) (combine cs (map c (seq 0 (length cs)))).
Proof.
  unfold dot, sumn. assert (G : forall b, nsumf (fun i => nmul (match nth_error cs (i - b) with Some e => ent e x | None => n0 end) (c i)) (seq b (length cs)) =
                       nsumf (fun q => ent (fst q) x * snd q) (combine cs (map c (seq b (length cs))))).
  { induction cs as [|e cs IH]; intros b; cbn [length seq map combine]; [reflexivity|]. rewrite !nsumf_cons. f_equal.
    - now rewrite Nat.sub_diag.
    - rewrite <- (IH (S b)). apply nsumf_ext. intros i Hi. apply in_seq in Hi. replace (i - b)%nat with (S (i - S b)) by lia. reflexivity. }
  rewrite <- (G 0%nat). apply nsumf_ext. intros i _. unfold x_row. now rewrite Nat.sub_0_r.
Qed.

(** Coefficients in the order of the columns, and the function they stand for *)
Definition re (k : kind) : nat := if k_first k then 0 else 1.
Definition coefs_of (k : kind) (f : func) : list R :=
  (if k_sqrt k then [c_sqrt f] else []) ++ map (c_pow f) (powers (k_order k) (re k)) ++ (if k_intercept k then [c_pow f 0%nat] else []).
Definition func_of (k : kind) (l : list R) : func :=
  let b := if k_sqrt k then 1%nat else 0%nat in
  mk_func (if k_sqrt k then nth 0 l 0 else 0)
    (fun i => if (i =? 0)%nat then (if k_intercept k then last l 0 else 0)
              else if (re k <? i)%nat && (i <=? k_order k)%nat then nth (b + (k_order k - i)) l 0 else 0).

Lemma powers_length o r : length (powers o r) = (o - r)%nat.
Proof. unfold powers. now rewrite rev_length, seq_length. Qed.
Lemma nc_eq k : nc k = ((if k_sqrt k then 1 else 0) + (k_order k - re k) + (if k_intercept k then 1 else 0))%nat.
Proof.
  unfold columns. rewrite !app_length, map_length, powers_length. unfold re. destruct (k_sqrt k), (k_intercept k), (k_first k); cbn [length]; lia.
Qed.
Lemma coefs_length k f : length (coefs_of k f) = nc k.
Proof.
  rewrite nc_eq. unfold coefs_of. rewrite !app_length, map_length, powers_length. destruct (k_sqrt k), (k_intercept k); cbn [length]; lia.
Qed.

Lemma pow_sum o (c : nat -> R) x : sumn (S o) (fun i => c i * x ^ i) =
  c 0%nat + nsumf (fun i => x ^ i * c i) (rev (seq 1 o)).
Proof.
  unfold sumn. cbn [seq]. rewrite nsumf_cons. cbn [nadd R_num]. rewrite pow_O. f_equal; [ring|].
  rewrite (nsumf_perm _ _ _ (Permutation_sym (Permutation_rev (seq 1 o)))). apply nsumf_ext'. intros. ring.
Qed.
Lemma nsumf_combine_map {A} (f : A -> R -> R) (c : A -> R) l : nsumf (fun q => f (fst q) (snd q)) (combine l (map c l)) = nsumf (fun i => f i (c i)) l.
Proof. induction l as [|a l IH]; [reflexivity|]. cbn [map combine]. rewrite !nsumf_cons, IH. reflexivity. Qed.

Definition colval (k : kind) (l : list R) (x : R) : R := nsumf (fun q => ent (fst q) x * snd q) (combine (cols k) l).

Lemma colval_split k a m i x : length a = (if k_sqrt k then 1 else 0)%nat -> length m = (k_order k - re k)%nat -> length i = (if k_intercept k then 1 else 0)%nat ->
  colval k (a ++ m ++ i) x = (if k_sqrt k then nth 0 a 0 * sqrt x else 0) + x ^ S (re k) * pv m x + (if k_intercept k then nth 0 i 0 else 0).
Proof.
  intros Ha Hm Hi. unfold colval, columns. fold (re k). rewrite nsumf_combine_app by (destruct (k_sqrt k); cbn; auto).
  rewrite nsumf_combine_app by (now rewrite map_length, powers_length). rewrite combine_map_l, nsumf_map. cbn [fst snd entry].
  replace (nsumf (fun q : nat * R => npow x (fst q) * snd q) (combine (powers (k_order k) (re k)) m)) with (x ^ S (re k) * pv m x).
  2:{ rewrite <- (pv_powers _ (S (re k)) m x Hm). unfold powers. apply nsumf_ext'. intros q. rewrite (npow_pow x (fst q)). reflexivity. }
  rewrite <- Rplus_assoc. f_equal; [f_equal|].
  - destruct (k_sqrt k); [|destruct a; [reflexivity|discriminate]]. destruct a as [|s [|]]; try discriminate. cbn. unfold nsumf. cbn. ring.
  - destruct (k_intercept k); [|destruct i; [reflexivity|discriminate]]. destruct i as [|s [|]]; try discriminate. cbn. unfold nsumf. cbn. ring.
Qed.

Lemma belongs_value k f x : belongs k f -> value k f x = colval k (coefs_of k f) x.
Proof.
  intros [B1 [B2 B3]]. unfold coefs_of. rewrite colval_split.
  2:{ now destruct (k_sqrt k). } 2:{ now rewrite map_length, powers_length. } 2:{ now destruct (k_intercept k). }
  unfold value. rewrite <- (pv_powers (k_order k - re k) (S (re k))) by now rewrite map_length, powers_length.
  unfold powers at 1. rewrite (nsumf_combine_map (fun i v => x ^ i * v) (c_pow f)).
  rewrite pow_sum. assert (E1 : c_sqrt f * sqrt x = if k_sqrt k then nth 0 (if k_sqrt k then [c_sqrt f] else []) 0 * sqrt x else 0).
  { destruct (k_sqrt k); [reflexivity|]. rewrite B1 by reflexivity. ring. }
  assert (E2 : c_pow f 0%nat = if k_intercept k then nth 0 (if k_intercept k then [c_pow f 0%nat] else []) 0 else 0).
  { destruct (k_intercept k); [reflexivity|]. now apply B2. }
  rewrite <- E1, <- E2. assert (E3 : nsumf (fun i => x ^ i * c_pow f i) (rev (seq 1 (k_order k))) = nsumf (fun i => x ^ i * c_pow f i) (rev (seq (S (re k)) (k_order k - re k)))).
  { unfold re. destruct (k_first k); [now rewrite Nat.sub_0_r|]. destruct (k_order k) as [|o]; [reflexivity|].
    cbn [seq rev]. rewrite nsumf_app, nsumf_cons, nsumf_nil, B3 by reflexivity. replace (S o - 1)%nat with o by lia. cbn [nadd n0 R_num]. ring. }
  rewrite E3. ring.
Qed.
Lemma func_belongs k l : belongs k (func_of k l).
Proof.
  unfold belongs, func_of, re. cbn [c_sqrt c_pow]. split; [|split].
  - intros ->. reflexivity.
  - intros ->. reflexivity.
  - intros ->. reflexivity.
Qed.
Lemma coefs_func k l : length l = nc k -> coefs_of k (func_of k l) = l.
Proof.
  intros E. rewrite nc_eq in E. unfold coefs_of, func_of. cbn [c_sqrt c_pow].
  set (b := if k_sqrt k then 1%nat else 0%nat) in *. set (n := (k_order k - re k)%nat) in *.
  assert (S1 : (if k_sqrt k then [if k_sqrt k then nth 0 l 0 else 0] else []) = firstn b l).
  { subst b. destruct (k_sqrt k); [|reflexivity]. destruct l; [discriminate|reflexivity]. }
  assert (S3 : (if k_intercept k then [if (0 =? 0)%nat then if k_intercept k then last l 0 else 0 else if (re k <? 0)%nat && (0 <=? k_order k)%nat then nth (b + (k_order k - 0)) l 0 else 0] else []) = skipn (b + n) l).
  { cbn [Nat.eqb]. destruct (k_intercept k).
    - assert (NE : l <> []) by (intros ->; cbn in E; lia). pose proof (app_removelast_last 0 NE) as AL.
      assert (LR : length (removelast l) = (b + n)%nat). { pose proof (f_equal (@length R) AL) as Q. rewrite app_length in Q. cbn in Q. lia. }
      rewrite AL at 2. rewrite skipn_app, LR, Nat.sub_diag, skipn_all2 by lia. reflexivity.
    - rewrite skipn_all2 by lia. reflexivity. }
  assert (S2 : map (fun i => if (i =? 0)%nat then if k_intercept k then last l 0 else 0 else if (re k <? i)%nat && (i <=? k_order k)%nat then nth (b + (k_order k - i)) l 0 else 0) (powers (k_order k) (re k)) = firstn n (skipn b l)).
  { apply nth_ext with (d := 0) (d' := 0).
    - rewrite map_length, powers_length, firstn_length, skipn_length. unfold n in *. lia.
    - intros i Hi. rewrite map_length, powers_length in Hi. fold n in Hi.
      assert (P : nth i (powers (k_order k) (re k)) 0%nat = (k_order k - i)%nat).
      { unfold powers. rewrite rev_nth; rewrite seq_length; [|lia]. rewrite seq_nth by lia. unfold n in *. lia. }
      rewrite (nth_indep _ 0 (if (0 =? 0)%nat then if k_intercept k then last l 0 else 0 else if (re k <? 0)%nat && (0 <=? k_order k)%nat then nth (b + (k_order k - 0)) l 0 else 0)) by (rewrite map_length, powers_length; exact Hi).
      rewrite (map_nth (fun i => if (i =? 0)%nat then if k_intercept k then last l 0 else 0 else if (re k <? i)%nat && (i <=? k_order k)%nat then nth (b + (k_order k - i)) l 0 else 0)), P.
      unfold n in *. assert (Q1 : (k_order k - i =? 0)%nat = false) by (apply Nat.eqb_neq; lia).
      assert (Q2 : (re k <? k_order k - i)%nat = true) by (apply Nat.ltb_lt; lia).
      assert (Q3 : (k_order k - i <=? k_order k)%nat = true) by (apply Nat.leb_le; lia).
      rewrite Q1, Q2, Q3. cbn [andb]. replace (k_order k - (k_order k - i))%nat with i by lia.
      rewrite <- (firstn_skipn b l) at 1. rewrite app_nth2; rewrite firstn_length; [|lia].
      replace (b + i - Nat.min b (length l))%nat with i by lia.
      rewrite <- (firstn_skipn (k_order k - re k) (skipn b l)) at 1. rewrite app_nth1; [reflexivity|]. rewrite firstn_length, skipn_length. lia. }
  rewrite S1, S2, S3. rewrite <- (firstn_skipn b l) at 4. f_equal. rewrite <- (firstn_skipn n (skipn b l)) at 2. f_equal.
  clear. revert l; induction b as [|b IH]; intros l; [reflexivity|]. destruct l; [cbn; now rewrite skipn_nil|]. exact (IH l).
Qed.

(** ** Vectors of coefficients *)
Section Kind.
  Variable k : kind.
  Notation p := (nc k).
  Notation xrow x := (xrw (cols k) x).
  Definition val (c : vec R) (x : R) : R := dot p (xrow x) c.
  Definition fo (c : vec R) : func := func_of k (map c (seq 0 p)).
  Definition cv (f : func) : vec R := fun j => nth j (coefs_of k f) 0.

  Lemma val_fo c x : value k (fo c) x = val c x.
  Proof.
    unfold fo, val. rewrite belongs_value by apply func_belongs. rewrite coefs_func by now rewrite map_length, seq_length.
    unfold colval. now rewrite dot_list.
  Qed.
  Lemma map_nth_seq (l : list R) : map (fun j => nth j l 0) (seq 0 (length l)) = l.
  Proof.
    induction l as [|a l IH]; [reflexivity|]. cbn [length seq map nth]. f_equal. rewrite <- seq_shift, map_map. exact IH.
  Qed.
  Lemma val_cv f x : belongs k f -> value k f x = val (cv f) x.
  Proof.
    intros B. rewrite (belongs_value _ _ _ B). unfold val, cv, colval. rewrite dot_list, <- (coefs_length k f), map_nth_seq. reflexivity.
  Qed.
  Lemma val_ext c c' x : (forall i, (i < p)%nat -> c i = c' i) -> val c x = val c' x.
  Proof. intros H. apply dot_ext; [reflexivity|exact H]. Qed.
  Lemma val_lin c d t x : val (fun i => c i + t * d i) x = val c x + t * val d x.
  Proof.
    unfold val. change (fun i => c i + t * d i) with (fun i => nadd (c i) (nmul t (d i))). rewrite dot_add_r, dot_scale_r. reflexivity.
  Qed.

  Definition vdet (xs : list R) : Prop := forall d : vec R, (forall x, In x xs -> val d x = 0) -> forall i, (i < p)%nat -> d i = 0.
  Lemma det_vdet xs : determined k xs <-> vdet xs.
  Proof.
    split.
    - intros D d H. specialize (D (fo d) (func_belongs k _)). destruct D as [D1 D2]; [intros x Hx; rewrite val_fo; now apply H|].
      intros i Hi. assert (E : map d (seq 0 p) = coefs_of k (fo d)) by (unfold fo; rewrite coefs_func; [reflexivity|now rewrite map_length, seq_length]).
      assert (Z : Forall (fun v => v = 0) (coefs_of k (fo d))).
      { unfold coefs_of. rewrite !Forall_app. split; [|split].
        - destruct (k_sqrt k); auto.
        - apply Forall_forall. intros v Hv. apply in_map_iff in Hv. destruct Hv as [j [<- Hj]]. unfold powers in Hj. apply in_rev, in_seq in Hj. apply D2. lia.
        - destruct (k_intercept k); auto. constructor; [|constructor]. apply D2. lia. }
      rewrite <- E in Z. rewrite Forall_forall in Z. apply Z. apply in_map_iff. exists i. split; [reflexivity|]. apply in_seq. lia.
    - intros D f B H. assert (Z : forall v, In v (coefs_of k f) -> v = 0).
      { intros v Hv. apply (In_nth _ _ 0) in Hv. destruct Hv as [i [Hi <-]]. rewrite coefs_length in Hi. apply (D (cv f)); [|exact Hi].
        intros x Hx. rewrite <- val_cv by exact B. now apply H. }
      destruct B as [B1 [B2 B3]]. unfold coefs_of in Z. split.
      + destruct (k_sqrt k); [|now apply B1]. apply Z. now left.
      + intros i Hi. destruct i as [|i].
        * destruct (k_intercept k); [|now apply B2]. apply Z. rewrite !in_app_iff. right. right. now left.
        * destruct (Nat.eq_dec i 0) as [->|Hne]; [destruct (k_first k) eqn:E; [|now apply B3]|];
            (apply Z; rewrite !in_app_iff; right; left; apply in_map; unfold powers, re; apply -> in_rev; apply in_seq; destruct (k_first k); try lia; discriminate).
  Qed.

  (** ** Normal equations *)
  Definition ne (D : list pt) (c : vec R) : Prop :=
    forall i, (i < p)%nat -> nsumf (fun q => pw q * xrow (px q) i * (val c (px q) - py q)) D = 0.
  Definition gram (D : list pt) : mat R := fun i j => nsumf (fun q => xrow (px q) i * pw q * xrow (px q) j) D.
  Definition rhs (D : list pt) : vec R := fun i => nsumf (fun q => xrow (px q) i * pw q * py q) D.
  Definition weighted (D : list pt) : Prop := forall q, In q D -> 0 < pw q.

  Lemma gram_val D c i : sumn p (fun j => gram D i j * c j) = nsumf (fun q => pw q * xrow (px q) i * val c (px q)) D.
  Proof.
    unfold gram, val, dot, sumn.
    transitivity (nsumf (fun j => nsumf (fun q => nmul (xrow (px q) i * pw q * xrow (px q) j) (c j)) D) (seq 0 p)).
    - apply nsumf_ext'. intros j. now rewrite nsumf_scale_r.
    - rewrite nsumf_swap. apply nsumf_ext'. intros q. change (pw q * xrow (px q) i) with (nmul (pw q) (xrow (px q) i)).
      change Rmult with (nmul (F:=R)). rewrite <- nsumf_scale_l. apply nsumf_ext'. intros j. cbn. ring.
  Qed.
  Lemma ne_solves D c : ne D c <-> forall i, (i < p)%nat -> sumn p (fun j => gram D i j * c j) = rhs D i.
  Proof.
    assert (E : forall i, nsumf (fun q => pw q * xrow (px q) i * (val c (px q) - py q)) D = sumn p (fun j => gram D i j * c j) - rhs D i).
    { intros i. rewrite gram_val. unfold rhs. change Rminus with (nsub (F:=R)). rewrite <- nsumf_sub. apply nsumf_ext'. intros q. cbn. ring. }
    split; intros H i Hi.
    - specialize (H i Hi). rewrite E in H. lra.
    - rewrite E, (H i Hi). lra.
  Qed.
  (** Sum of the normal equations over a direction *)
  Lemma ne_dir D c d : ne D c -> nsumf (fun q => pw q * (val c (px q) - py q) * val d (px q)) D = 0.
  Proof.
    intros H. transitivity (sumn p (fun i => nmul (nsumf (fun q => pw q * xrow (px q) i * (val c (px q) - py q)) D) (d i))).
    - unfold sumn. transitivity (nsumf (fun i => nsumf (fun q => nmul (pw q * xrow (px q) i * (val c (px q) - py q)) (d i)) D) (seq 0 p)).
      + rewrite nsumf_swap. apply nsumf_ext'. intros q. unfold val at 2, dot, sumn.
        change Rmult with (nmul (F:=R)). rewrite <- nsumf_scale_l. apply nsumf_ext'. intros i. cbn. ring.
      + apply nsumf_ext'. intros i. now rewrite nsumf_scale_r.
    - apply sumn_zero. intros i Hi. rewrite (H i Hi). cbn. ring.
  Qed.
  Lemma squares_shift D c d t : nsumf (fun q => pw q * (py q - val (fun i => c i + t * d i) (px q)) ^ 2) D =
    nsumf (fun q => pw q * (py q - val c (px q)) ^ 2) D + (2 * t * nsumf (fun q => pw q * (val c (px q) - py q) * val d (px q)) D +
    t * t * nsumf (fun q => pw q * (val d (px q)) ^ 2) D).
  Proof.
    change Rplus with (nadd (F:=R)). change Rmult with (nmul (F:=R)). rewrite <- !nsumf_scale_l, <- !nsumf_add. apply nsumf_ext'. intros q.
    change (nadd (F:=R)) with Rplus. change (nmul (F:=R)) with Rmult. rewrite val_lin. ring.
  Qed.
  Lemma squares_fo D c : squares k D (fo c) = nsumf (fun q => pw q * (py q - val c (px q)) ^ 2) D.
  Proof. unfold squares. apply nsumf_ext'. intros q. now rewrite val_fo. Qed.
  Lemma squares_cv D f : belongs k f -> squares k D f = nsumf (fun q => pw q * (py q - val (cv f) (px q)) ^ 2) D.
  Proof. intros B. unfold squares. apply nsumf_ext'. intros q. now rewrite (val_cv _ _ B). Qed.

  Lemma ne_least D c : weighted D -> ne D c -> least_squares k D (fo c).
  Proof.
    intros W H. split; [apply func_belongs|]. intros g B. rewrite squares_fo, (squares_cv _ _ B).
    set (d := fun i => cv g i - c i). replace (nsumf (fun q => pw q * (py q - val (cv g) (px q)) ^ 2) D) with
      (nsumf (fun q => pw q * (py q - val (fun i => c i + 1 * d i) (px q)) ^ 2) D).
    2:{ apply nsumf_ext'. intros q. rewrite (val_ext (fun i => c i + 1 * d i) (cv g)); [reflexivity|]. intros i _. unfold d. ring. }
    rewrite squares_shift, (ne_dir D c d H). assert (0 <= nsumf (fun q => pw q * val d (px q) ^ 2) D).
    { apply nsumf_nonneg. intros q Hq. specialize (W q Hq). apply Rmult_le_pos; [lra|]. apply pow2_ge_0. }
    lra.
  Qed.
  Lemma quadratic_zero a b : (forall t, 0 <= 2 * t * b + t * t * a) -> b = 0.
  Proof.
    intros H. destruct (Req_dec b 0) as [|Hb]; [assumption|]. exfalso. destruct (Rle_or_lt a 0) as [Ha|Ha].
    - specialize (H (- b)). assert (0 < b * b) by nra. assert (- b * - b * a <= 0) by nra. nra.
    - specialize (H (- b / a)). assert (E : 2 * (- b / a) * b + - b / a * (- b / a) * a = - (b * b / a)) by (field; lra).
      rewrite E in H. assert (0 < b * b / a) by (apply Rdiv_lt_0_compat; nra). lra.
  Qed.
  Lemma least_ne D f : least_squares k D f -> ne D (cv f).
  Proof.
    intros [B H] i Hi. set (d := fun j => if (j =? i)%nat then 1 else 0).
    assert (V : forall x, val d x = xrow x i).
    { intros x. unfold val, dot, d. transitivity (sumn p (fun j => if (j =? i)%nat then xrow x i else 0)).
      - apply sumn_ext. intros j _. destruct (j =? i)%nat eqn:E; cbn; [apply Nat.eqb_eq in E; subst; ring|ring].
      - clear - Hi. induction p as [|n IH]; [lia|]. rewrite sumn_S. destruct (Nat.eq_dec i n) as [->|].
        + rewrite Nat.eqb_refl. rewrite sumn_zero; [cbn; ring|].
          intros j Hj. assert (Q : (j =? n)%nat = false) by (apply Nat.eqb_neq; lia). now rewrite Q.
        + assert (Q : (n =? i)%nat = false) by (apply Nat.eqb_neq; lia). rewrite Q, IH by lia. cbn. ring. }
    assert (Z : nsumf (fun q => pw q * (val (cv f) (px q) - py q) * val d (px q)) D = 0).
    { apply (quadratic_zero (nsumf (fun q => pw q * (val d (px q)) ^ 2) D)). intros t.
      specialize (H (fo (fun j => cv f j + t * d j)) (func_belongs k _)). rewrite squares_fo, (squares_cv _ _ B), squares_shift in H. lra. }
    rewrite <- Z. apply nsumf_ext'. intros q. rewrite V. ring.
  Qed.

  Lemma sum_squares_zero {A} (f : A -> R) l : (forall x, In x l -> 0 <= f x) -> nsumf f l = 0 -> forall x, In x l -> f x = 0.
  Proof.
    induction l as [|a l IH]; intros P E x Hx; [contradiction|]. rewrite nsumf_cons in E. cbn in E.
    pose proof (P a (or_introl eq_refl)). assert (0 <= nsumf f l) by (apply nsumf_nonneg; intros; apply P; now right).
    destruct Hx as [<-|Hx]; [lra|]. apply IH; auto; [intros; apply P; now right|lra].
  Qed.
  (** d^T (X^T W X) d *)
  Lemma quad_form D d : sumn p (fun i => d i * sumn p (fun j => gram D i j * d j)) = nsumf (fun q => pw q * val d (px q) ^ 2) D.
  Proof.
    transitivity (sumn p (fun i => nmul (d i) (nsumf (fun q => pw q * xrow (px q) i * val d (px q)) D))).
    - apply sumn_ext. intros i _. now rewrite gram_val.
    - unfold sumn. transitivity (nsumf (fun i => nsumf (fun q => nmul (d i) (pw q * xrow (px q) i * val d (px q))) D) (seq 0 p)).
      + apply nsumf_ext'. intros i. now rewrite nsumf_scale_l.
      + rewrite nsumf_swap. apply nsumf_ext'. intros q. transitivity (nmul (pw q * val d (px q)) (val d (px q))); [|cbn; ring].
        unfold val at 3, dot, sumn. rewrite <- nsumf_scale_l. apply nsumf_ext'. intros i. cbn. ring.
  Qed.
  Lemma singular_det D : weighted D -> singular p (gram D) <-> ~ vdet (map px D).
  Proof.
    intros W. split.
    - intros [d [[i [Hi Hd]] Z]] V. apply Hd. apply V; [|exact Hi]. intros x Hx. apply in_map_iff in Hx. destruct Hx as [q [<- Hq]].
      assert (S0 : nsumf (fun q => pw q * val d (px q) ^ 2) D = 0).
      { rewrite <- quad_form. apply sumn_zero. intros j Hj.
        transitivity (d j * 0); [|cbn; ring]. f_equal. exact (Z j Hj). }
      assert (Q : pw q * val d (px q) ^ 2 = 0).
      { revert q Hq. apply sum_squares_zero; [|exact S0]. intros q Hq. specialize (W q Hq). apply Rmult_le_pos; [lra|apply pow2_ge_0]. }
      specialize (W q Hq). apply Rmult_integral in Q. destruct Q as [Q|Q]; [lra|]. apply Rsqr_0_uniq. unfold Rsqr. rewrite <- Q. ring.
    - intros V. destruct (singular_dec p (gram D)) as [S|S]; [exact S|]. exfalso. apply V. intros d Z i Hi.
      destruct (Req_dec (d i) 0) as [|Hd]; [assumption|]. exfalso. apply S. exists d. split; [now exists i|]. intros j Hj.
      transitivity (sumn p (fun j0 => gram D j j0 * d j0)); [reflexivity|]. rewrite gram_val.
      transitivity (nsumf (fun _ : pt => n0 (F:=R)) D); [|exact (nsumf_zero (F:=R) D)]. apply nsumf_ext. intros q Hq. rewrite (Z (px q)); [cbn; ring|]. now apply in_map.
  Qed.

  (** ** One record left out *)
  Lemma nonsingular_zero D d : ~ singular p (gram D) -> (forall i, (i < p)%nat -> sumn p (fun j => gram D i j * d j) = 0) ->
    forall i, (i < p)%nat -> d i = 0.
  Proof.
    intros S Z i Hi. destruct (Req_dec (d i) 0) as [|Hd]; [assumption|]. exfalso. apply S. exists d. split; [now exists i|exact Z].
  Qed.
  Lemma inverse_row (m b : mat R) (r : vec R) : (forall i j, (i < p)%nat -> (j < p)%nat -> sumn p (fun l => m i l * b l j) = if (i =? j)%nat then 1 else 0) ->
    forall i, (i < p)%nat -> sumn p (fun j => m i j * dot p (fun l => b j l) r) = r i.
  Proof.
    intros H i Hi. transitivity (sumn p (fun l => (if (i =? l)%nat then 1 else 0) * r l)).
    - transitivity (sumn p (fun l => nmul (sumn p (fun j => m i j * b j l)) (r l))).
      + unfold dot, sumn. transitivity (nsumf (fun j => nsumf (fun l => m i j * (b j l * r l)) (seq 0 p)) (seq 0 p)).
        * apply nsumf_ext'. intros j. exact (eq_sym (nsumf_scale_l (F:=R) (m i j) _ _)).
        * rewrite nsumf_swap. apply nsumf_ext'. intros l. rewrite <- nsumf_scale_r. apply nsumf_ext'. intros j. cbn. ring.
      + apply sumn_ext. intros l Hl. cbn [nmul R_num]. f_equal. now apply H.
    - clear - Hi. induction p as [|n IH]; [lia|]. rewrite sumn_S. destruct (Nat.eq_dec i n) as [->|].
      + rewrite Nat.eqb_refl, sumn_zero; [cbn; ring|]. intros j Hj. assert (Q : (n =? j)%nat = false) by (apply Nat.eqb_neq; lia). rewrite Q. ring.
      + assert (Q : (i =? n)%nat = false) by (apply Nat.eqb_neq; lia). rewrite Q, IH by lia. cbn. ring.
  Qed.
  Lemma matvec_sub (m : mat R) (u v : vec R) t i : sumn p (fun j => m i j * (u j - t * v j)) = sumn p (fun j => m i j * u j) - t * sumn p (fun j => m i j * v j).
  Proof.
    unfold sumn. change Rminus with (nsub (F:=R)). change Rmult with (nmul (F:=R)). rewrite <- nsumf_scale_l, <- nsumf_sub. apply nsumf_ext'. intros j. cbn. ring.
  Qed.

  Section Leave.
    Variables (D1 D2 : list pt) (q : pt) (b : mat R).
    Notation D := (D1 ++ q :: D2).
    Notation D' := (D1 ++ D2).
    Hypothesis Hw : pw q = 1.
    Hypothesis HS : ~ singular p (gram D).
    Hypothesis HB : forall i j, (i < p)%nat -> (j < p)%nat -> sumn p (fun l => gram D i l * b l j) = if (i =? j)%nat then 1 else 0.
    Notation h := (leverage p b (xrow (px q))).
    Notation br := (fun j => dot p (fun l => b j l) (xrow (px q))).

    Lemma split_sum (f : pt -> R) : nsumf f D = nsumf f D' + f q.
    Proof. rewrite !nsumf_app, nsumf_cons. cbn [nadd R_num]. ring. Qed.
    Lemma along d t : (forall i, (i < p)%nat -> sumn p (fun j => gram D i j * d j) = xrow (px q) i * t) ->
      val d (px q) = t * h.
    Proof.
      intros E. assert (Z : forall i, (i < p)%nat -> d i - t * br i = 0).
      { apply (nonsingular_zero D (fun i => d i - t * br i) HS). intros i Hi. rewrite matvec_sub, (E i Hi).
        rewrite (inverse_row (gram D) b (xrow (px q)) HB i Hi). ring. }
      unfold leverage, val. transitivity (dot p (xrow (px q)) (fun j => nmul t (br j))).
      - apply dot_ext; [reflexivity|]. intros i Hi. specialize (Z i Hi). cbn [nmul R_num]. lra.
      - now rewrite dot_scale_r.
    Qed.
    Lemma leave_value c c' : ne D c -> ne D' c' -> (val c' (px q) - py q) * (1 - h) = val c (px q) - py q.
    Proof.
      intros Hc Hc'. assert (E : val (fun i => c' i + -1 * c i) (px q) = (val c' (px q) - py q) * h).
      { apply along. intros i Hi. rewrite gram_val. specialize (Hc i Hi). specialize (Hc' i Hi).
        transitivity (nsumf (fun u => pw u * xrow (px u) i * (val c' (px u) - py u)) D - nsumf (fun u => pw u * xrow (px u) i * (val c (px u) - py u)) D).
        - rewrite nsumf_subR. apply nsumf_ext'. intros u. rewrite val_lin. ring.
        - rewrite (split_sum (fun u => pw u * xrow (px u) i * (val c' (px u) - py u))), Hc, Hc', Hw. cbn [n0 R_num]. ring. }
      rewrite val_lin in E. lra.
    Qed.
    Lemma leave_dir d : (forall x, In x (map px D') -> val d x = 0) -> forall i, sumn p (fun j => gram D i j * d j) = xrow (px q) i * val d (px q).
    Proof.
      intros Z i. rewrite gram_val, split_sum, Hw. rewrite (nsumf_ext _ (fun _ => n0 (F:=R)) D').
      - rewrite nsumf_zero. cbn. ring.
      - intros u Hu. rewrite (Z (px u)) by now apply in_map. cbn. ring.
    Qed.
    Lemma leave_det : (forall u, In u D' -> 0 < pw u) -> h = 1 <-> ~ vdet (map px D').
    Proof.
      intros W. split.
      - intros H1 V. pose (d0 := br : vec R). assert (E : forall i, (i < p)%nat -> sumn p (fun j => gram D i j * d0 j) = xrow (px q) i) by (intros i Hi; now apply inverse_row).
        assert (Vq : val d0 (px q) = 1) by exact H1.
        assert (Q : nsumf (fun u => pw u * val d0 (px u) ^ 2) D = 1).
        { rewrite <- quad_form. rewrite <- Vq at 1. unfold val, dot. apply sumn_ext. intros i Hi. rewrite (E i Hi). cbn. ring. }
        rewrite split_sum, Vq, Hw in Q. assert (Q0 : nsumf (fun u => pw u * val d0 (px u) ^ 2) D' = 0) by lra.
        assert (Z : forall i, (i < p)%nat -> d0 i = 0).
        { apply V. intros x Hx. apply in_map_iff in Hx. destruct Hx as [u [<- Hu]].
          assert (Qu : pw u * val d0 (px u) ^ 2 = 0).
          { revert u Hu. apply sum_squares_zero; [|exact Q0]. intros u Hu. specialize (W u Hu). apply Rmult_le_pos; [lra|apply pow2_ge_0]. }
          specialize (W u Hu). apply Rmult_integral in Qu. destruct Qu as [Qu|Qu]; [lra|]. apply Rsqr_0_uniq. unfold Rsqr. rewrite <- Qu. ring. }
        assert (V0 : val d0 (px q) = 0).
        { unfold val, dot. apply sumn_zero. intros i Hi. rewrite (Z i Hi). cbn. ring. }
        lra.
      - intros V. destruct (Req_dec h 1) as [|Hh]; [assumption|]. exfalso. apply V. intros d Z.
        pose proof (leave_dir d Z) as E. pose proof (along d (val d (px q)) (fun i _ => E i)) as A.
        assert (V0 : val d (px q) = 0) by nra. apply (nonsingular_zero D d HS). intros i Hi. rewrite (E i), V0. ring.
    Qed.
  End Leave.

  Lemma det_solution D : weighted D -> vdet (map px D) -> exists c, ne D c.
  Proof.
    intros W V. pose proof (Rsolve_exact p (gram D) (rhs D)) as H. destruct (Rsolve p (gram D) (rhs D)) as [c|].
    - exists c. apply ne_solves. exact (proj2 H).
    - exfalso. now apply (singular_det D W).
  Qed.
  Lemma vdet_sub xs xs' : (forall x, In x xs -> In x xs') -> vdet xs -> vdet xs'.
  Proof. intros S V d Z. apply V. intros x Hx. apply Z, S, Hx. Qed.
End Kind.
