(** Real numbers as an instance. *)
From Verif Require Import Base Num.
From Coq Require Import Reals Lra.
Global Instance R_num : Num R := {
  n0 := 0%R; n1 := 1%R; nadd := Rplus; nmul := Rmult; nsub := Rminus; nopp := Ropp;
  ndiv := Rdiv; ninv := Rinv }.
Global Instance R_laws : FieldLaws R := RealField.Rfield.
Definition Rltb (a b : R) : bool := if Rlt_dec a b then true else false.
Global Instance R_ord : NumOrd R := { nltb := Rltb; nabs := Rabs; nsqrt := sqrt }.
Lemma Rltb_true a b : Rltb a b = true <-> (a < b)%R.
Proof. unfold Rltb. destruct (Rlt_dec a b); split; congruence || auto. Qed.
Lemma Rltb_false a b : Rltb a b = false <-> (b <= a)%R.
Proof. unfold Rltb. destruct (Rlt_dec a b); split; intros; try congruence; lra. Qed.
Global Instance R_ordlaws : OrdLaws R.
Proof.
  split; cbn; intros *; rewrite ?Rltb_true, ?Rltb_false; lra.
Qed.
Lemma nnat_INR n : nnat n = INR n.
Proof. induction n as [|n IH]; [reflexivity|]. cbn [nnat]. rewrite IH, S_INR. cbn. lra. Qed.
Global Instance R_char0 : Char0 R.
Proof. intros n. rewrite nnat_INR. cbn [n0 R_num]. apply not_0_INR. discriminate. Qed.
Lemma nsumf_nonneg {A} (f : A -> R) l : (forall x, In x l -> 0 <= f x)%R -> (0 <= nsumf f l)%R.
Proof.
  induction l as [|x l IH]; intros H; rewrite ?nsumf_nil, ?nsumf_cons; cbn [n0 nadd R_num]; [lra|].
  pose proof (H x (or_introl eq_refl)). assert (0 <= nsumf f l)%R by (apply IH; intros; apply H; right; assumption). lra.
Qed.
