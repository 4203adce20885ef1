(** Output keys *)
From Verif Require Import Base Num Model.Structure Model.DatasetDFT Model.Accuracy Spec.Accuracy Proofs.Structure.
From Coq Require String Ascii.
Import String.StringSyntax.
Local Open Scope string_scope.
Local Open Scope list_scope.
Local Open Scope nat_scope.

Definition not_char (a c : Ascii.ascii) : bool := negb (Ascii.eqb a c).
Lemma replace_absent a old new s : all_chars (not_char a) s = true -> replace (String.String a old) new s = s.
Proof.
  unfold replace. induction s as [|c s IH]; intros H; [reflexivity|]. cbn [all_chars] in H. apply andb_true_iff in H. destruct H as [H1 H2].
  cbn [replace_from String.prefix]. unfold not_char in H1. destruct (Ascii.ascii_dec a c) as [->|D]; [rewrite Ascii.eqb_refl in H1; discriminate|]. now rewrite IH.
Qed.
Lemma replace_through a old new s r : all_chars (not_char a) s = true -> replace (String.String a old) new (String.append s r) = String.append s (replace (String.String a old) new r).
Proof.
  unfold replace. induction s as [|c s IH]; intros H; [reflexivity|]. cbn [all_chars] in H. apply andb_true_iff in H. destruct H as [H1 H2].
  cbn [String.append replace_from String.prefix]. unfold not_char in H1. destruct (Ascii.ascii_dec a c) as [->|D]; [rewrite Ascii.eqb_refl in H1; discriminate|]. now rewrite IH.
Qed.
Lemma replace_head a old new s : all_chars (not_char a) s = true -> replace (String.String a (String.String a old)) new (String.String a s) = String.String a s.
Proof.
  intros H. pose proof (replace_absent a (String.String a old) new s H) as E. unfold replace in *. cbn [replace_from String.prefix].
  destruct (Ascii.ascii_dec a a) as [_|D]; [|congruence]. rewrite E. destruct s as [|c s]; [reflexivity|]. cbn [String.prefix]. cbn [all_chars] in H. apply andb_true_iff in H. destruct H as [H1 _].
  unfold not_char in H1. destruct (Ascii.ascii_dec a c) as [->|D]; [rewrite Ascii.eqb_refl in H1; discriminate|reflexivity].
Qed.
Lemma append_inj s a b : String.append s a = String.append s b -> a = b.
Proof. induction s as [|c s IH]; intros H; [exact H|]. cbn in H. injection H as H. auto. Qed.

Lemma lookup_set_same {B} k (v : B) d : lookup k (dict_set k v d) = Some v.
Proof. induction d as [|[k' v'] d IH]; cbn; [now rewrite String.eqb_refl|]. destruct (String.eqb k k') eqn:E; cbn; [now rewrite String.eqb_refl|now rewrite E]. Qed.
Lemma lookup_set_other {B} k k0 (v : B) d : k <> k0 -> lookup k (dict_set k0 v d) = lookup k d.
Proof.
  intros H. induction d as [|[k' v'] d IH]; cbn; [destruct (String.eqb_spec k k0); congruence|].
  destruct (String.eqb_spec k0 k') as [->|D]; cbn; [destruct (String.eqb_spec k k'); congruence|]. destruct (String.eqb k k'); [reflexivity|exact IH].
Qed.
Lemma set_fresh {B} k (v : B) d : ~ In k (map fst d) -> dict_set k v d = d ++ [(k, v)].
Proof.
  induction d as [|[k' v'] d IH]; intros H; [reflexivity|]. cbn in *. destruct (String.eqb_spec k k') as [->|D]; [tauto|]. f_equal. apply IH. tauto.
Qed.
