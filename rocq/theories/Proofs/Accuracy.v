(** Lemmas on the errors of data sets. *)
From Verif Require Import Base Num NumR Model.Structure Model.DatasetDFT Model.Accuracy Spec.Dataset Spec.Accuracy.
From Coq Require Import Reals Lra.
Local Open Scope R_scope.

Lemma combine_flat {A B C} (f : A -> list B) (g : A -> list C) l : (forall x, In x l -> length (f x) = length (g x)) ->
  combine (flat_map f l) (flat_map g l) = flat_map (fun x => combine (f x) (g x)) l.
Proof.
  induction l as [|a l IH]; intros H; [reflexivity|]. cbn. rewrite <- IH by (intros; apply H; now right).
  specialize (H a (or_introl eq_refl)). clear IH. revert H. generalize (f a), (g a). intros x. induction x as [|b x IH]; intros [|c y] H; try discriminate; [reflexivity|].
  cbn. f_equal. apply IH. now injection H.
Qed.
Lemma map_flat {A B} (f : A -> B) l : map f l = flat_map (fun x => [f x]) l.
Proof. induction l; cbn; congruence. Qed.
Lemma flat_ext {A B} (f g : A -> list B) l : (forall x, In x l -> f x = g x) -> flat_map f l = flat_map g l.
Proof. induction l as [|a l IH]; intros H; [reflexivity|]. cbn. rewrite (H a) by now left. rewrite IH; [reflexivity|]. intros; apply H; now right. Qed.
Lemma map_flat_map {A B C} (f : B -> C) (g : A -> list B) l : map f (flat_map g l) = flat_map (fun x => map f (g x)) l.
Proof. induction l as [|a l IH]; [reflexivity|]. cbn. now rewrite map_app, IH. Qed.
Lemma flat_length {A B C} (f : A -> list B) (g : A -> list C) l : (forall x, In x l -> length (f x) = length (g x)) -> length (flat_map f l) = length (flat_map g l).
Proof. induction l as [|a l IH]; intros H; [reflexivity|]. cbn. rewrite !app_length, (H a) by now left. f_equal. apply IH. intros; apply H; now right. Qed.

Lemma zipb_ok (f : R -> R -> R) a b : length a = length b -> zipb f a b = Ok (map (fun q => f (fst q) (snd q)) (combine a b)).
Proof. intros H. unfold zipb. now rewrite H, Nat.eqb_refl. Qed.
Lemma zipb_flat {A} (f : R -> R -> R) (a b : A -> list R) l : (forall x, In x l -> length (a x) = length (b x)) ->
  zipb f (flat_map a l) (flat_map b l) = Ok (flat_map (fun x => map (fun q => f (fst q) (snd q)) (combine (a x) (b x))) l).
Proof. intros H. rewrite zipb_ok by now apply flat_length. now rewrite combine_flat, map_flat_map. Qed.

Lemma total_nsum l : nsum l = total l.
Proof. reflexivity. Qed.
Lemma total_app a b : total (a ++ b) = total a + total b.
Proof. unfold total. induction a as [|x a IH]; cbn; [lra|]. rewrite IH. lra. Qed.
Lemma total_perm a b : Permutation a b -> total a = total b.
Proof. unfold total. induction 1; cbn; lra. Qed.
Lemma sq_nonneg l : 0 <= total (map (fun x => x * x) l).
Proof. unfold total. induction l as [|x l IH]; cbn; [lra|]. pose proof (Rle_0_sqr x). unfold Rsqr in *. lra. Qed.
Lemma abs_nonneg l : 0 <= total (map Rabs l).
Proof. unfold total. induction l as [|x l IH]; cbn; [lra|]. pose proof (Rabs_pos x). lra. Qed.
Lemma len_pos {A} (l : list A) : l <> [] -> 0 < INR (length l).
Proof. destruct l; [congruence|]. intros _. apply lt_0_INR. cbn. lia. Qed.

Lemma mean_ok l : mean (F := R) l = total l / INR (length l).
Proof. unfold mean. now rewrite total_nsum, nnat_INR. Qed.
Lemma rms_ok d : d <> [] -> mean_square d (sqrt (mean (map (fun x => x * x) d))).
Proof.
  intros H. rewrite mean_ok, map_length. pose proof (len_pos d H) as HL. split; [apply sqrt_pos|].
  rewrite sqrt_sqrt; [field; lra|]. apply Rmult_le_pos; [apply sq_nonneg|]. left. now apply Rinv_0_lt_compat.
Qed.
Lemma abs_ok d : d <> [] -> mean_abs d (mean (map Rabs d)).
Proof. intros H. unfold mean_abs. rewrite mean_ok, map_length. pose proof (len_pos d H) as HL. field. lra. Qed.
Lemma rms_unique xs r r' : xs <> [] -> mean_square xs r -> mean_square xs r' -> r = r'.
Proof.
  intros H [P E] [P' E']. pose proof (len_pos xs H) as HL. apply Rsqr_inj; try assumption. unfold Rsqr.
  apply (Rmult_eq_reg_r (INR (length xs))); [|lra]. congruence.
Qed.
Lemma abs_unique xs m m' : xs <> [] -> mean_abs xs m -> mean_abs xs m' -> m = m'.
Proof. intros H E E'. pose proof (len_pos xs H) as HL. apply (Rmult_eq_reg_r (INR (length xs))); [|lra]. congruence. Qed.
Lemma rms_perm xs ys r : Permutation xs ys -> mean_square xs r -> mean_square ys r.
Proof. intros H [P E]. split; [exact P|]. rewrite <- (Permutation_length H), E. apply total_perm. now apply Permutation_map. Qed.
Lemma abs_perm xs ys m : Permutation xs ys -> mean_abs xs m -> mean_abs ys m.
Proof. unfold mean_abs. intros H E. rewrite <- (Permutation_length H), E. apply total_perm. now apply Permutation_map. Qed.
Lemma sq_zero xs : total (map (fun x => x * x) xs) = 0 <-> Forall (fun x => x = 0) xs.
Proof.
  unfold total. induction xs as [|x xs IH]; cbn; [split; [constructor|reflexivity]|]. pose proof (sq_nonneg xs) as H1. unfold total in H1. pose proof (Rle_0_sqr x) as H2. unfold Rsqr in H2. split.
  - intros H. constructor; [apply Rsqr_0_uniq; unfold Rsqr; lra|]. apply IH. lra.
  - intros H. inversion H as [|? ? HX HXS]; subst. apply IH in HXS. lra.
Qed.
Lemma rms_zero xs r : xs <> [] -> mean_square xs r -> (r = 0 <-> Forall (fun x => x = 0) xs).
Proof.
  intros H [P E]. pose proof (len_pos xs H) as HL. rewrite <- sq_zero, <- E. split; [intros ->; lra|]. intros H0. apply Rmult_integral in H0.
  destruct H0 as [H0|H0]; [|lra]. apply Rmult_integral in H0. now destruct H0.
Qed.
(** Cauchy-Schwarz: the mean of absolute values is below the root mean square. *)
Lemma cauchy (xs : list R) (m : R) : total (map (fun x => (Rabs x - m) * (Rabs x - m)) xs) = total (map (fun x => x * x) xs) - 2 * m * total (map Rabs xs) + m * m * INR (length xs).
Proof.
  induction xs as [|x xs IH]; cbn [map total fold_right length]; [cbn; lra|]. fold (total (map (fun x => (Rabs x - m) * (Rabs x - m)) xs)). rewrite IH. rewrite S_INR.
  fold (total (map (fun x => x * x) xs)) (total (map Rabs xs)). pose proof (Rsqr_abs x) as E. unfold Rsqr in E. lra.
Qed.
Lemma mae_rmse xs r m : xs <> [] -> mean_square xs r -> mean_abs xs m -> 0 <= m <= r.
Proof.
  intros H [P E] E'. unfold mean_abs in E'. pose proof (len_pos xs H) as HL. pose proof (cauchy xs m) as C. rewrite <- E, <- E' in C.
  assert (0 <= total (map (fun x => (Rabs x - m) * (Rabs x - m)) xs)).
  { clear. unfold total. induction xs as [|x xs IH]; cbn; [lra|]. pose proof (Rle_0_sqr (Rabs x - m)) as H. unfold Rsqr in H. lra. }
  assert (0 <= m). { pose proof (abs_nonneg xs). rewrite <- E' in H1. apply Rmult_le_reg_r with (INR (length xs)); lra. }
  split; [exact H1|]. apply Rsqr_incr_0; try assumption. unfold Rsqr. apply Rmult_le_reg_r with (INR (length xs)); [exact HL|]. nra.
Qed.

(** Scaling by one number for all the components of a record *)
Lemma scaled_diff c (a b : list R) n : length a = n -> length b = n ->
  map (fun q => fst q - snd q) (combine (map (fun q => fst q / snd q) (combine a (repeat c n))) (map (fun q => fst q / snd q) (combine b (repeat c n))))
  = map (fun q => (fst q - snd q) / c) (combine a b).
Proof.
  revert a b. induction n as [|n IH]; intros [|x a] [|y b] Ha Hb; try discriminate; [reflexivity|]. cbn. f_equal; [unfold Rdiv; ring|].
  injection Ha as Ha. injection Hb as Hb. now apply IH.
Qed.
Lemma scaled_len c (a : list R) n : length a = n -> length (map (fun q => fst q / snd q) (combine a (repeat c n))) = n.
Proof. intros <-. rewrite map_length, combine_length, repeat_length. lia. Qed.

Section Flat.
  Context {A : Type}.
  Variables (t p : A -> list R) (n : A -> nat) (c : A -> R) (l : list A).
  Hypothesis Ht : forall x, In x l -> length (t x) = n x.
  Hypothesis Hp : forall x, In x l -> length (p x) = n x.
  Definition quot (a : A -> list R) (x : A) : list R := map (fun q => fst q / snd q) (combine (a x) (repeat (c x) (n x))).
  Lemma rmse_flat : flat_map t l <> [] ->
    exists r m, compute_rmse (flat_map t l) (flat_map p l) (Some (flat_map (fun x => repeat (c x) (n x)) l)) = Ok (r, flat_map (quot t) l, flat_map (quot p) l) /\
      compute_mae (flat_map t l) (flat_map p l) (Some (flat_map (fun x => repeat (c x) (n x)) l)) = Ok m /\
      mean_square (flat_map (fun x => map (fun q => (fst q - snd q) / c x) (combine (t x) (p x))) l) r /\
      mean_abs (flat_map (fun x => map (fun q => (fst q - snd q) / c x) (combine (t x) (p x))) l) m.
  Proof.
    intros HN. set (d := flat_map (fun x => map (fun q => (fst q - snd q) / c x) (combine (t x) (p x))) l).
    assert (E1 : scaled (flat_map t l) (Some (flat_map (fun x => repeat (c x) (n x)) l)) = Ok (flat_map (quot t) l)).
    { cbn [scaled]. apply (zipb_flat Rdiv). intros x Hx. now rewrite repeat_length, Ht. }
    assert (E2 : scaled (flat_map p l) (Some (flat_map (fun x => repeat (c x) (n x)) l)) = Ok (flat_map (quot p) l)).
    { cbn [scaled]. apply (zipb_flat Rdiv). intros x Hx. now rewrite repeat_length, Hp. }
    assert (E3 : zipb Rminus (flat_map (quot t) l) (flat_map (quot p) l) = Ok d).
    { rewrite zipb_flat. - f_equal. apply flat_ext. intros x Hx. apply scaled_diff; auto.
      - intros x Hx. unfold quot. rewrite !scaled_len by auto. reflexivity. }
    assert (HD : d <> []).
    { intros H. apply HN. assert (HL : length d = length (flat_map t l)).
      { apply flat_length. intros x Hx. rewrite map_length, combine_length, Ht, Hp by auto. lia. }
      rewrite H in HL. destruct (flat_map t l); [reflexivity|discriminate]. }
    unfold compute_rmse, compute_mae, rmse. rewrite E1. cbn [bind]. rewrite E2. cbn [bind]. change (@nsub R R_num) with Rminus. rewrite E3. cbn [bind].
    eexists _, _. split; [reflexivity|]. split; [reflexivity|]. split; [now apply rms_ok|now apply abs_ok].
  Qed.
  Lemma rmse_plain : flat_map t l <> [] ->
    exists r m, compute_rmse (flat_map t l) (flat_map p l) None = Ok (r, flat_map t l, flat_map p l) /\
      compute_mae (flat_map t l) (flat_map p l) None = Ok m /\
      mean_square (flat_map (fun x => map (fun q => fst q - snd q) (combine (t x) (p x))) l) r /\
      mean_abs (flat_map (fun x => map (fun q => fst q - snd q) (combine (t x) (p x))) l) m.
  Proof.
    intros HN. set (d := flat_map (fun x => map (fun q => fst q - snd q) (combine (t x) (p x))) l).
    assert (E3 : zipb Rminus (flat_map t l) (flat_map p l) = Ok d).
    { apply (zipb_flat Rminus). intros x Hx. now rewrite Ht, Hp. }
    assert (HD : d <> []).
    { intros H. apply HN. assert (HL : length d = length (flat_map t l)).
      { apply flat_length. intros x Hx. rewrite map_length, combine_length, Ht, Hp by auto. lia. }
      rewrite H in HL. destruct (flat_map t l); [reflexivity|discriminate]. }
    unfold compute_rmse, compute_mae, rmse. cbn [scaled bind]. change (@nsub R R_num) with Rminus. rewrite E3. cbn [bind].
    eexists _, _. split; [reflexivity|]. split; [reflexivity|]. split; [now apply rms_ok|now apply abs_ok].
  Qed.
End Flat.
