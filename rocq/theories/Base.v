(** Common vocabulary of the model: Python exceptions as values, and a few
    list facts used by several files. *)
From Coq Require Export List Arith ZArith Lia Bool Permutation Sorted.
From Coq Require Import ZifyBool ZifyNat.
Export ListNotations.

(** Exceptions that the modelled Python/C++ code can raise. *)
Inductive exn :=
| AssertionError | RuntimeError | ValueError | IndexError | KeyError
| TypeError | NameError | UnboundLocalError | AttributeError
| ZeroDivisionError | NotImplementedError.

Inductive res (A : Type) :=
| Ok (a : A)
| Err (e : exn).
Arguments Ok {A} a.
Arguments Err {A} e.

Definition bind {A B} (x : res A) (f : A -> res B) : res B :=
  match x with Ok a => f a | Err e => Err e end.
Notation "'do' x <- e ; f" := (bind e (fun x => f))
  (at level 200, x pattern, e at level 100, f at level 200).

Definition is_ok {A} (x : res A) : bool :=
  match x with Ok _ => true | Err _ => false end.

(** Python [assert b]. *)
Definition py_assert (b : bool) : res unit :=
  if b then Ok tt else Err AssertionError.

(** Map with exceptions, left to right (Python list comprehension). *)
Fixpoint mapM {A B} (f : A -> res B) (l : list A) : res (list B) :=
  match l with
  | [] => Ok []
  | a :: t => do b <- f a; do bs <- mapM f t; Ok (b :: bs)
  end.

(** Python indexing with a non-negative index: [IndexError] out of range. *)
Definition get {A} (l : list A) (i : nat) : res A :=
  match nth_error l i with Some a => Ok a | None => Err IndexError end.

(** Python slice [l[b:e]] for non-negative [b], [e]. *)
Definition slice {A} (b e : nat) (l : list A) : list A := skipn b (firstn e l).

Definition sum (l : list nat) : nat := fold_right Nat.add 0 l.

(** [mem i l] : boolean membership of a natural number. *)
Definition mem (i : nat) (l : list nat) : bool := existsb (Nat.eqb i) l.

(** Positions where a predicate holds, in increasing order
    ([np.where(mask)[0]]). *)
Fixpoint where_from {A} (k : nat) (p : A -> bool) (l : list A) : list nat :=
  match l with
  | [] => []
  | a :: t => if p a then k :: where_from (S k) p t else where_from (S k) p t
  end.
Definition where_ {A} (p : A -> bool) (l : list A) : list nat := where_from 0 p l.

Lemma mem_In i l : mem i l = true <-> In i l.
Proof.
  unfold mem. rewrite existsb_exists. split.
  - intros [x [Hx He]]. apply Nat.eqb_eq in He. subst. exact Hx.
  - intros H. exists i. split; [exact H|apply Nat.eqb_refl].
Qed.

Lemma mem_false i l : mem i l = false <-> ~ In i l.
Proof.
  rewrite <- mem_In. destruct (mem i l); split; congruence.
Qed.

Lemma mapM_length {A B} (f : A -> res B) l bs :
  mapM f l = Ok bs -> length bs = length l.
Proof.
  revert bs; induction l as [|a l IH]; cbn; intros bs H.
  - injection H as <-. reflexivity.
  - destruct (f a) as [b|e]; cbn in H; [|discriminate].
    destruct (mapM f l) as [bs'|e]; cbn in H; [|discriminate].
    injection H as <-. cbn. f_equal. apply IH. reflexivity.
Qed.

Lemma mapM_Ok {A B} (f : A -> res B) (g : A -> B) l :
  (forall a, In a l -> f a = Ok (g a)) -> mapM f l = Ok (map g l).
Proof.
  induction l as [|a l IH]; cbn; intros H; [reflexivity|].
  rewrite (H a) by (left; reflexivity). cbn.
  rewrite IH by (intros; apply H; right; assumption). reflexivity.
Qed.

Lemma get_Ok {A} (l : list A) i d : i < length l -> get l i = Ok (nth i l d).
Proof.
  intros H. unfold get. rewrite (nth_error_nth' l d H). reflexivity.
Qed.

Lemma get_Some {A} (l : list A) i a : get l i = Ok a <-> nth_error l i = Some a.
Proof.
  unfold get. destruct (nth_error l i); split; congruence.
Qed.

Lemma sum_app a b : sum (a ++ b) = sum a + sum b.
Proof. induction a as [|x a IH]; cbn; [reflexivity|]. fold (sum (a ++ b)). rewrite IH. unfold sum; lia. Qed.

Lemma slice_length {A} b e (l : list A) :
  length (slice b e l) = Nat.min e (length l) - b.
Proof. unfold slice. rewrite skipn_length, firstn_length. reflexivity. Qed.

Lemma StronglySorted_lt_NoDup l : StronglySorted lt l -> NoDup l.
Proof.
  induction 1 as [|a l Hs IH Hf]; constructor; auto.
  intros Hin. rewrite Forall_forall in Hf. specialize (Hf a Hin). lia.
Qed.

Lemma StronglySorted_seq b n : StronglySorted lt (seq b n).
Proof.
  revert b; induction n as [|n IH]; intros b; cbn; constructor; [apply IH|].
  apply Forall_forall. intros x Hx. apply in_seq in Hx. lia.
Qed.

Lemma StronglySorted_filter {A} (R : A -> A -> Prop) p l :
  StronglySorted R l -> StronglySorted R (filter p l).
Proof.
  induction 1 as [|a l Hs IH Hf]; cbn; [constructor|].
  destruct (p a); [|exact IH]. constructor; [exact IH|].
  rewrite Forall_forall in *. intros x Hx. apply filter_In in Hx. apply Hf, Hx.
Qed.

Lemma Forall2_length {A B} (R : A -> B -> Prop) l1 l2 :
  Forall2 R l1 l2 -> length l1 = length l2.
Proof. induction 1; cbn; congruence. Qed.
