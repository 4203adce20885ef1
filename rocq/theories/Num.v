(** Numbers of the model: float64 is replaced by an arbitrary type with operations.
    Models use only the operations; proofs assume the laws of a field (or ring). *)
From Verif Require Import Base.
From Coq Require Export Ring_theory Field_theory.
From Coq Require Import Ring Field.

Class Num (F : Type) := {
  n0 : F; n1 : F;
  nadd : F -> F -> F; nmul : F -> F -> F; nsub : F -> F -> F; nopp : F -> F;
  ndiv : F -> F -> F; ninv : F -> F }.

(** Comparison and the functions numpy applies elementwise. *)
Class NumOrd (F : Type) := {
  nltb : F -> F -> bool;     (** a < b *)
  nabs : F -> F;
  nsqrt : F -> F }.

Class RingLaws (F : Type) {N : Num F} : Prop :=
  ring_laws : ring_theory (n0 (F:=F)) n1 nadd nmul nsub nopp (@eq F).
Class FieldLaws (F : Type) {N : Num F} : Prop :=
  field_laws : field_theory (n0 (F:=F)) n1 nadd nmul nsub nopp ndiv ninv (@eq F).

Global Instance field_ring F {N : Num F} {L : FieldLaws F} : RingLaws F := F_R L.

Declare Scope num_scope.
Delimit Scope num_scope with F.
Notation "0" := n0 : num_scope.
Notation "1" := n1 : num_scope.
Infix "+" := nadd : num_scope.
Infix "*" := nmul : num_scope.
Infix "-" := nsub : num_scope.
Infix "/" := ndiv : num_scope.
Notation "- x" := (nopp x) : num_scope.

(** The integer n as a number. *)
Fixpoint nnat {F} {N : Num F} (n : nat) : F :=
  match n with O => n0 | S n' => nadd n1 (nnat n') end.

(** Sum of a list, and of a function over a list. *)
Definition nsum {F} {N : Num F} (l : list F) : F := fold_right nadd n0 l.
Definition nsumf {F A} {N : Num F} (f : A -> F) (l : list A) : F := nsum (map f l).

(** Vectors are functions of the component number; [dot p] adds the first p products. *)
Definition vec (F : Type) := nat -> F.
Definition mat (F : Type) := nat -> nat -> F.
Definition sumn {F} {N : Num F} (p : nat) (f : nat -> F) : F := nsumf f (seq 0 p).
Definition dot {F} {N : Num F} (p : nat) (u v : vec F) : F := sumn p (fun i => nmul (u i) (v i)).
Definition matvec {F} {N : Num F} (p : nat) (m : mat F) (v : vec F) : vec F := fun i => dot p (m i) v.

Section Laws.
  Context {F : Type} {N : Num F} {L : RingLaws F}.
  Local Open Scope num_scope.
  Add Ring Fring : (ring_laws (F:=F)).

  Lemma nsum_app (a b : list F) : nsum (a ++ b) = nsum a + nsum b.
  Proof. unfold nsum. induction a as [|x a IH]; cbn; [ring|]. rewrite IH. ring. Qed.
  Lemma nsumf_app {A} (f : A -> F) a b : nsumf f (a ++ b) = nsumf f a + nsumf f b.
  Proof. unfold nsumf. now rewrite map_app, nsum_app. Qed.
  Lemma nsumf_cons {A} (f : A -> F) x l : nsumf f (x :: l) = f x + nsumf f l.
  Proof. reflexivity. Qed.
  Lemma nsumf_nil {A} (f : A -> F) : nsumf f [] = 0.
  Proof. reflexivity. Qed.
  Lemma nsumf_ext {A} (f g : A -> F) l : (forall x, In x l -> f x = g x) -> nsumf f l = nsumf g l.
  Proof. intros H. unfold nsumf. f_equal. now apply map_ext_in. Qed.
  Lemma nsumf_ext' {A} (f g : A -> F) l : (forall x, f x = g x) -> nsumf f l = nsumf g l.
  Proof. intros H. apply nsumf_ext. auto. Qed.
  Lemma nsumf_add {A} (f g : A -> F) l : nsumf (fun x => f x + g x) l = nsumf f l + nsumf g l.
  Proof. induction l as [|x l IH]; rewrite ?nsumf_nil, ?nsumf_cons; [ring|]. rewrite IH. ring. Qed.
  Lemma nsumf_sub {A} (f g : A -> F) l : nsumf (fun x => f x - g x) l = nsumf f l - nsumf g l.
  Proof. induction l as [|x l IH]; rewrite ?nsumf_nil, ?nsumf_cons; [ring|]. rewrite IH. ring. Qed.
  Lemma nsumf_opp {A} (f : A -> F) l : nsumf (fun x => - f x) l = - nsumf f l.
  Proof. induction l as [|x l IH]; rewrite ?nsumf_nil, ?nsumf_cons; [ring|]. rewrite IH. ring. Qed.
  Lemma nsumf_scale_l {A} c (f : A -> F) l : nsumf (fun x => c * f x) l = c * nsumf f l.
  Proof. induction l as [|x l IH]; rewrite ?nsumf_nil, ?nsumf_cons; [ring|]. rewrite IH. ring. Qed.
  Lemma nsumf_scale_r {A} c (f : A -> F) l : nsumf (fun x => f x * c) l = nsumf f l * c.
  Proof. induction l as [|x l IH]; rewrite ?nsumf_nil, ?nsumf_cons; [ring|]. rewrite IH. ring. Qed.
  Lemma nsumf_zero {A} (l : list A) : nsumf (fun _ => 0) l = 0.
  Proof. induction l as [|x l IH]; rewrite ?nsumf_nil, ?nsumf_cons; [ring|]. rewrite IH. ring. Qed.
  Lemma nsumf_const {A} c (l : list A) : nsumf (fun _ => c) l = nnat (length l) * c.
  Proof. induction l as [|x l IH]; rewrite ?nsumf_nil, ?nsumf_cons; cbn; [ring|]. rewrite IH. ring. Qed.
  Lemma nsumf_map {A B} (g : A -> B) (f : B -> F) l : nsumf f (map g l) = nsumf (fun x => f (g x)) l.
  Proof. unfold nsumf. now rewrite map_map. Qed.
  Lemma nsumf_flat_map {A B} (g : A -> list B) (f : B -> F) l :
    nsumf f (flat_map g l) = nsumf (fun x => nsumf f (g x)) l.
  Proof. induction l as [|x l IH]; cbn [flat_map]; [reflexivity|]. now rewrite nsumf_app, nsumf_cons, IH. Qed.
  Lemma nsumf_perm {A} (f : A -> F) l l' : Permutation l l' -> nsumf f l = nsumf f l'.
  Proof.
    induction 1; rewrite ?nsumf_cons; [reflexivity|now rewrite IHPermutation|ring|congruence].
  Qed.
  Lemma nsumf_swap {A B} (f : A -> B -> F) l m :
    nsumf (fun x => nsumf (f x) m) l = nsumf (fun y => nsumf (fun x => f x y) l) m.
  Proof.
    induction l as [|x l IH]; [symmetry; apply nsumf_zero|]. rewrite nsumf_cons, IH, <- nsumf_add. reflexivity.
  Qed.
  Lemma nsumf_filter {A} (p : A -> bool) (f : A -> F) l :
    nsumf f (filter p l) = nsumf (fun x => if p x then f x else 0) l.
  Proof. induction l as [|x l IH]; [reflexivity|]. cbn [filter]. rewrite nsumf_cons. destruct (p x); rewrite ?nsumf_cons, IH; ring. Qed.
  Lemma nnat_add a b : nnat (F:=F) (a + b) = nnat a + nnat b.
  Proof. induction a as [|a IH]; cbn; [ring|]. rewrite IH. ring. Qed.
  Lemma nnat_mul a b : nnat (F:=F) (a * b) = nnat a * nnat b.
  Proof. induction a as [|a IH]; cbn; [ring|]. rewrite nnat_add, IH. ring. Qed.

  Lemma sumn_ext p (f g : nat -> F) : (forall i, i < p -> f i = g i) -> sumn p f = sumn p g.
  Proof. intros H. apply nsumf_ext. intros i Hi. apply in_seq in Hi. apply H. lia. Qed.
  Lemma sumn_S p (f : nat -> F) : sumn (S p) f = sumn p f + f p.
  Proof.
    unfold sumn. replace (S p) with (p + 1)%nat by lia. rewrite seq_app, nsumf_app. cbn. ring.
  Qed.
  Lemma sumn_swap p q (f : nat -> nat -> F) :
    sumn p (fun i => sumn q (fun j => f i j)) = sumn q (fun j => sumn p (fun i => f i j)).
  Proof. apply nsumf_swap. Qed.
  Lemma dot_comm p (u v : vec F) : dot p u v = dot p v u.
  Proof. apply nsumf_ext'. intros. ring. Qed.
  Lemma dot_ext p (u u' v v' : vec F) : (forall i, i < p -> u i = u' i) -> (forall i, i < p -> v i = v' i) ->
    dot p u v = dot p u' v'.
  Proof. intros H1 H2. apply sumn_ext. intros i Hi. now rewrite H1, H2. Qed.
  Lemma dot_add_r p (u v w : vec F) : dot p u (fun i => v i + w i) = dot p u v + dot p u w.
  Proof. unfold dot, sumn. rewrite <- nsumf_add. apply nsumf_ext'. intros. ring. Qed.
  Lemma dot_sub_r p (u v w : vec F) : dot p u (fun i => v i - w i) = dot p u v - dot p u w.
  Proof. unfold dot, sumn. rewrite <- nsumf_sub. apply nsumf_ext'. intros. ring. Qed.
  Lemma dot_scale_r p c (u v : vec F) : dot p u (fun i => c * v i) = c * dot p u v.
  Proof. unfold dot, sumn. rewrite <- nsumf_scale_l. apply nsumf_ext'. intros. ring. Qed.
  Lemma dot_scale_l p c (u v : vec F) : dot p (fun i => c * u i) v = c * dot p u v.
  Proof. unfold dot, sumn. rewrite <- nsumf_scale_l. apply nsumf_ext'. intros. ring. Qed.
  Lemma dot_add_l p (u v w : vec F) : dot p (fun i => u i + v i) w = dot p u w + dot p v w.
  Proof. unfold dot, sumn. rewrite <- nsumf_add. apply nsumf_ext'. intros. ring. Qed.
  Lemma dot_sub_l p (u v w : vec F) : dot p (fun i => u i - v i) w = dot p u w - dot p v w.
  Proof. unfold dot, sumn. rewrite <- nsumf_sub. apply nsumf_ext'. intros. ring. Qed.
End Laws.

(** Rational numbers. *)
From Coq Require Import QArith Qcanon.
Global Instance Qc_num : Num Qc := {
  n0 := 0%Qc; n1 := 1%Qc; nadd := Qcplus; nmul := Qcmult; nsub := Qcminus; nopp := Qcopp;
  ndiv := Qcdiv; ninv := Qcinv }.
Global Instance Qc_laws : FieldLaws Qc := Qcft.
Global Instance Z_num : Num Z := {
  n0 := 0%Z; n1 := 1%Z; nadd := Z.add; nmul := Z.mul; nsub := Z.sub; nopp := Z.opp;
  ndiv := Z.div; ninv := fun z => z }.
Global Instance Z_ring_laws : RingLaws Z.
Proof. exact InitialRing.Zth. Qed.

(** Characteristic zero. *)
Class Char0 (F : Type) {N : Num F} : Prop := char0 : forall n, nnat (F:=F) (S n) <> n0.
Lemma nnat_Qc n : nnat n = Q2Qc (inject_Z (Z.of_nat n)).
Proof.
  induction n as [|n IH]; [reflexivity|]. cbn [nnat]. rewrite IH. cbn [nadd n1 Qc_num].
  apply Qc_is_canon. unfold Qcplus, Q2Qc, this. rewrite !Qred_correct.
  rewrite Nat2Z.inj_succ. unfold Z.succ. rewrite inject_Z_plus. change (inject_Z 1) with 1%Q. ring.
Qed.
Global Instance Qc_char0 : Char0 Qc.
Proof.
  intros n H. rewrite nnat_Qc in H. cbn [n0 Qc_num] in H. apply (f_equal this) in H. cbn [this Q2Qc] in H.
  assert (E : Qeq (inject_Z (Z.of_nat (S n))) 0) by (rewrite <- (Qred_correct (inject_Z _)); rewrite H; reflexivity).
  unfold Qeq in E. cbn in E. lia.
Qed.
Global Instance Qc_ord : NumOrd Qc := {
  nltb := fun a b => negb (Qle_bool b a);
  nabs := fun a => if Qle_bool 0 a then a else Qcopp a;
  nsqrt := fun a => Q2Qc (Qmake (Z.sqrt (Qnum a)) (Z.to_pos (Z.sqrt (Zpos (Qden a))))) }.
(** The square root is exact on squares of rationals only. *)

(** Comparison is a strict total order. *)
Class OrdLaws (F : Type) {O : NumOrd F} : Prop := {
  nltb_asym : forall a b : F, nltb a b = true -> nltb b a = false;
  nltb_ntrans : forall a b c : F, nltb a b = false -> nltb b c = false -> nltb a c = false;
  nltb_antisym : forall a b : F, nltb a b = false -> nltb b a = false -> a = b }.
Global Instance Qc_ordlaws : OrdLaws Qc.
Proof.
  split; cbn.
  - intros a b H. apply negb_true_iff in H. apply negb_false_iff. apply Qle_bool_iff.
    destruct (Qlt_le_dec b a) as [C|C]; [|exact C]. exfalso. apply Qlt_le_weak, Qle_bool_iff in C. congruence.
  - intros a b c H1 H2. apply negb_false_iff in H1, H2. apply negb_false_iff. apply Qle_bool_iff in H1, H2.
    apply Qle_bool_iff. eapply Qle_trans; eassumption.
  - intros a b H1 H2. apply negb_false_iff in H1, H2. apply Qle_bool_iff in H1, H2. apply Qc_is_canon, Qle_antisym; assumption.
Qed.
