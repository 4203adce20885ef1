(** Directions of predicted forces *)
From Verif Require Import Base Num NumR Model.Structure Model.DatasetDFT Model.Accuracy Spec.Dataset Spec.Accuracy Proofs.Accuracy.
From Coq Require Import Reals Lra Nsatz.
Local Open Scope R_scope.

Lemma rows3_components l : rows3 (components l) = Ok l.
Proof. unfold components. induction l as [|[[x y] z] l IH]; [reflexivity|]. cbn [flat_map app fst snd rows3]. now rewrite IH. Qed.
Lemma norm3_length v : norm3 v = length3 v.
Proof. destruct v as [[x y] z]. reflexivity. Qed.
Lemma length3_sq v : length3 v * length3 v = dot3 (F := R) v v.
Proof.
  destruct v as [[x y] z]. cbn. apply sqrt_sqrt. pose proof (Rle_0_sqr x). pose proof (Rle_0_sqr y). pose proof (Rle_0_sqr z). unfold Rsqr in *. lra.
Qed.
Lemma length3_pos v : 0 <= length3 v.
Proof. destruct v as [[x y] z]. apply sqrt_pos. Qed.
Definition cosine (v w : R * R * R) : R := dot3 (F := R) v w / (length3 v * length3 w).
Lemma unit_dot v w : length3 v <> 0 -> length3 w <> 0 -> dot3 (F := R) (unit3 v) (unit3 w) = cosine v w.
Proof.
  intros Hv Hw. unfold cosine, unit3. rewrite <- !norm3_length in *. destruct v as [[x y] z], w as [[x' y'] z']. cbn [dot3 nadd nmul ndiv R_num].
  set (a := norm3 (x, y, z)) in *. set (b := norm3 (x', y', z')) in *. clearbody a b. field. split; assumption.
Qed.
Lemma lagrange x y z x' y' z' : (x * x + y * y + z * z) * (x' * x' + y' * y' + z' * z') - (x * x' + y * y' + z * z') * (x * x' + y * y' + z * z')
  = (y * z' - z * y') * (y * z' - z * y') + (z * x' - x * z') * (z * x' - x * z') + (x * y' - y * x') * (x * y' - y * x').
Proof. ring. Qed.
Lemma dot_bound v w : dot3 (F := R) v w * dot3 (F := R) v w <= (length3 v * length3 w) * (length3 v * length3 w).
Proof.
  replace ((length3 v * length3 w) * (length3 v * length3 w)) with ((length3 v * length3 v) * (length3 w * length3 w)) by ring. rewrite !length3_sq.
  destruct v as [[x y] z], w as [[x' y'] z']. cbn [dot3 nadd nmul R_num]. pose proof (lagrange x y z x' y' z') as L.
  pose proof (Rle_0_sqr (y * z' - z * y')). pose proof (Rle_0_sqr (z * x' - x * z')). pose proof (Rle_0_sqr (x * y' - y * x')). unfold Rsqr in *. lra.
Qed.
Lemma cosine_bound v w : length3 v <> 0 -> length3 w <> 0 -> Rabs (cosine v w) <= 1.
Proof.
  intros Hv Hw. pose proof (length3_pos v). pose proof (length3_pos w). assert (0 < length3 v * length3 w) by (apply Rmult_lt_0_compat; lra).
  pose proof (dot_bound v w) as B. unfold cosine. unfold Rdiv. rewrite Rabs_mult, (Rabs_right (/ _)) by (apply Rle_ge; left; now apply Rinv_0_lt_compat).
  apply Rmult_le_reg_r with (length3 v * length3 w); [assumption|]. rewrite Rmult_assoc, Rinv_l by lra. rewrite Rmult_1_r, Rmult_1_l.
  rewrite <- (Rabs_right (length3 v * length3 w)) by lra. apply Rsqr_le_abs_0. unfold Rsqr. exact B.
Qed.
Lemma cosine_one v w : length3 v <> 0 -> length3 w <> 0 -> (Rabs (cosine v w) = 1 <-> parallel v w).
Proof.
  intros Hv Hw. pose proof (length3_pos v). pose proof (length3_pos w). assert (0 < length3 v * length3 w) by (apply Rmult_lt_0_compat; lra).
  assert (E : Rabs (cosine v w) = 1 <-> dot3 (F := R) v w * dot3 (F := R) v w = (length3 v * length3 v) * (length3 w * length3 w)).
  { unfold cosine, Rdiv. rewrite Rabs_mult, (Rabs_right (/ _)) by (apply Rle_ge; left; now apply Rinv_0_lt_compat). split.
    - intros HA. assert (HB : Rabs (dot3 (F := R) v w) = length3 v * length3 w) by (apply (Rmult_eq_reg_r (/ (length3 v * length3 w))); [|apply Rinv_neq_0_compat; lra]; rewrite HA; field; lra).
      pose proof (Rsqr_abs (dot3 (F := R) v w)) as HS. unfold Rsqr in HS. rewrite HS, HB. ring.
    - intros HA. replace (Rabs (dot3 (F := R) v w)) with (length3 v * length3 w); [field; lra|]. apply Rsqr_inj; [lra|apply Rabs_pos|]. rewrite <- Rsqr_abs. unfold Rsqr. rewrite HA. ring. }
  rewrite E, !length3_sq. clear E. assert (Hd : dot3 (F := R) v v <> 0) by (rewrite <- length3_sq; intros C; apply Rmult_integral in C; tauto).
  destruct v as [[x y] z], w as [[x' y'] z']. cbn [dot3 nadd nmul R_num] in *. pose proof (lagrange x y z x' y' z') as L. split.
  - intros HE. rewrite HE in L. set (a := y * z' - z * y') in *. set (b := z * x' - x * z') in *. set (c := x * y' - y * x') in *.
    assert (HZ : a = 0 /\ b = 0 /\ c = 0).
    { pose proof (Rle_0_sqr a). pose proof (Rle_0_sqr b). pose proof (Rle_0_sqr c). unfold Rsqr in *. repeat split; apply Rsqr_0_uniq; unfold Rsqr; lra. }
    destruct HZ as (Ha & Hb & Hc). unfold a, b, c in *. exists ((x * x' + y * y' + z * z') / (x * x + y * y + z * z)). cbn.
    clear HE L Hv Hw H H0 H1. clear a b c.
    assert (E1 : x' * (x * x + y * y + z * z) = (x * x' + y * y' + z * z') * x) by nsatz.
    assert (E2 : y' * (x * x + y * y + z * z) = (x * x' + y * y' + z * z') * y) by nsatz.
    assert (E3 : z' * (x * x + y * y + z * z) = (x * x' + y * y' + z * z') * z) by nsatz.
    f_equal; [f_equal|]; apply (Rmult_eq_reg_r (x * x + y * y + z * z)); try assumption; rewrite ?E1, ?E2, ?E3; field; assumption.
  - intros [k HK]. cbn in HK. injection HK as -> -> ->. ring.
Qed.

(** The mean of numbers below 1 is 1 exactly when all of them are. *)
Lemma mean_le l : l <> [] -> Forall (fun x => x <= 1) l -> mean (F := R) l <= 1 /\ (mean (F := R) l = 1 <-> Forall (fun x => x = 1) l).
Proof.
  intros HN HB. rewrite mean_ok. pose proof (len_pos l HN) as HL.
  assert (G : total l <= INR (length l) /\ (total l = INR (length l) <-> Forall (fun x => x = 1) l)).
  { clear HN HL. unfold total. induction HB as [|x l Hx HB IH]; [cbn; split; [lra|split; [constructor|reflexivity]]|]. cbn [fold_right length]. rewrite S_INR. destruct IH as [I1 I2].
    split; [lra|]. rewrite Forall_cons_iff, <- I2. split; [intros; split; lra|intros [-> ->]; lra]. }
  destruct G as [G1 <-]. split.
  - apply Rmult_le_reg_r with (INR (length l)); [exact HL|]. unfold Rdiv. rewrite Rmult_assoc, Rinv_l by lra. lra.
  - split; [intros E; apply (Rmult_eq_reg_r (/ INR (length l))); [|apply Rinv_neq_0_compat; lra]; rewrite Rinv_r by lra; exact E|]. intros ->. apply Rinv_r. lra.
Qed.
Lemma mean_abs_zero l : l <> [] -> (mean (F := R) (map Rabs l) = 0 <-> Forall (fun x => x = 0) l).
Proof.
  intros HN. rewrite mean_ok, map_length. pose proof (len_pos l HN) as HL. assert (G : total (map Rabs l) = 0 <-> Forall (fun x => x = 0) l).
  { clear. unfold total. induction l as [|x l IH]; cbn; [split; [constructor|reflexivity]|]. pose proof (abs_nonneg l) as H. unfold total in H. pose proof (Rabs_pos x). rewrite Forall_cons_iff, <- IH. split.
    - intros E. split; [|lra]. destruct (Req_dec x 0) as [|D]; [assumption|]. apply Rabs_no_R0 in D. lra.
    - intros [-> E]. rewrite Rabs_R0. lra. }
  rewrite <- G. split; [|intros ->; unfold Rdiv; ring]. intros E. apply Rmult_integral in E. destruct E as [E|E]; [exact E|]. apply Rinv_neq_0_compat in E; [destruct E|lra].
Qed.
