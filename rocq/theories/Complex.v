(** Complex numbers over a number type (std::complex<double>), and dual numbers (value, derivative),
    whose product carries the product rule; the latter are only used in specifications. *)
From Verif Require Import Base Num.
From Coq Require Import Ring.

Definition Cx (F : Type) := (F * F)%type.
Section Ops.
  Context {F : Type} {N : Num F}.
  Local Open Scope num_scope.
  Definition re (z : Cx F) : F := fst z.
  Definition im (z : Cx F) : F := snd z.
  Definition cadd (a b : Cx F) : Cx F := (re a + re b, im a + im b).
  Definition csub (a b : Cx F) : Cx F := (re a - re b, im a - im b).
  Definition copp (a : Cx F) : Cx F := (- re a, - im a).
  Definition cmul (a b : Cx F) : Cx F := (re a * re b - im a * im b, re a * im b + im a * re b).
  Definition conj (a : Cx F) : Cx F := (re a, - im a).
  (** product of a complex and a real number *)
  Definition cscale (x : F) (a : Cx F) : Cx F := (x * re a, x * im a).
  Definition of_real (x : F) : Cx F := (x, 0).
  (** division is not used on complex numbers; a placeholder completes the interface *)
  Global Instance Cx_num : Num (Cx F) := {
    n0 := (0, 0); n1 := (1, 0); nadd := cadd; nmul := cmul; nsub := csub; nopp := copp;
    ndiv := fun a _ => a; ninv := fun a => a }.
End Ops.

Section Laws.
  Context {F : Type} {N : Num F} {L : RingLaws F}.
  Local Open Scope num_scope.
  Add Ring Fring : (ring_laws (F:=F)).
  Lemma cx_eq (a b : Cx F) : re a = re b -> im a = im b -> a = b.
  Proof. destruct a, b. cbn. congruence. Qed.
  Global Instance Cx_laws : RingLaws (Cx F).
  Proof.
    split; intros; apply cx_eq; cbn; try ring.
  Qed.
  Lemma conj_add (a b : Cx F) : conj (a + b) = conj a + conj b.
  Proof. apply cx_eq; cbn; ring. Qed.
  Lemma conj_mul (a b : Cx F) : conj (a * b) = conj a * conj b.
  Proof. apply cx_eq; cbn; ring. Qed.
  Lemma conj_conj (a : Cx F) : conj (conj a) = a.
  Proof. apply cx_eq; cbn; ring. Qed.
  Lemma conj_real (x : F) : conj (of_real x) = of_real x.
  Proof. apply cx_eq; cbn; ring. Qed.
  Lemma conj_one : conj (n1 (F:=Cx F)) = n1.
  Proof. apply cx_eq; cbn; ring. Qed.
  Lemma conj_zero : conj (n0 (F:=Cx F)) = n0.
  Proof. apply cx_eq; cbn; ring. Qed.
  Lemma cscale_mul x (a : Cx F) : cscale x a = of_real x * a.
  Proof. apply cx_eq; cbn; ring. Qed.
  Lemma re_conj (a : Cx F) : re (conj a) = re a.
  Proof. reflexivity. Qed.
  Lemma re_add (a b : Cx F) : re (a + b) = re a + re b.
  Proof. reflexivity. Qed.
  Lemma re_scale x (a : Cx F) : re (of_real x * a) = x * re a.
  Proof. cbn. ring. Qed.
  Lemma of_real_mul x y : of_real (x * y) = of_real x * of_real y.
  Proof. apply cx_eq; cbn; ring. Qed.
  Lemma of_real_add x y : of_real (x + y) = of_real x + of_real y.
  Proof. apply cx_eq; cbn; ring. Qed.
  Lemma of_real_opp x : of_real (- x) = - of_real x.
  Proof. apply cx_eq; cbn; ring. Qed.
  Lemma re_sum {A} (f : A -> Cx F) l : re (nsumf f l) = nsumf (fun x => re (f x)) l.
  Proof. induction l as [|x l IH]; [reflexivity|]. rewrite !nsumf_cons, re_add, IH. reflexivity. Qed.
  Lemma im_sum {A} (f : A -> Cx F) l : im (nsumf f l) = nsumf (fun x => im (f x)) l.
  Proof. induction l as [|x l IH]; [reflexivity|]. rewrite !nsumf_cons. cbn [nadd Cx_num cadd im snd]. now rewrite IH. Qed.
  Lemma conj_sum {A} (f : A -> Cx F) l : conj (nsumf f l) = nsumf (fun x => conj (f x)) l.
  Proof. induction l as [|x l IH]; [apply conj_zero|]. rewrite !nsumf_cons, conj_add, IH. reflexivity. Qed.
  Lemma of_real_sum {A} (f : A -> F) l : of_real (nsumf f l) = nsumf (fun x => of_real (f x)) l.
  Proof. induction l as [|x l IH]; [reflexivity|]. rewrite !nsumf_cons, of_real_add, IH. reflexivity. Qed.
End Laws.

(** Dual numbers: [(v, d)] stands for [v + d eps] with [eps * eps = 0]. *)
Record dual (T : Type) := D { dval : T; dder : T }.
Arguments D {T}. Arguments dval {T}. Arguments dder {T}.
Global Instance dual_num {T} {N : Num T} : Num (dual T) := {
  n0 := D n0 n0; n1 := D n1 n0;
  nadd := fun a b => D (nadd (dval a) (dval b)) (nadd (dder a) (dder b));
  nmul := fun a b => D (nmul (dval a) (dval b)) (nadd (nmul (dder a) (dval b)) (nmul (dval a) (dder b)));
  nsub := fun a b => D (nsub (dval a) (dval b)) (nsub (dder a) (dder b));
  nopp := fun a => D (nopp (dval a)) (nopp (dder a));
  ndiv := fun a _ => a; ninv := fun a => a }.
Section DualLaws.
  Context {T : Type} {N : Num T} {L : RingLaws T}.
  Add Ring Tring : (ring_laws (F:=T)).
  Lemma dual_eq (a b : dual T) : dval a = dval b -> dder a = dder b -> a = b.
  Proof. destruct a, b. cbn. congruence. Qed.
  Global Instance dual_laws : RingLaws (dual T).
  Proof. split; intros; apply dual_eq; cbn; ring. Qed.
  Lemma dval_sum {A} (f : A -> dual T) l : dval (nsumf f l) = nsumf (fun x => dval (f x)) l.
  Proof. induction l as [|x l IH]; [reflexivity|]. rewrite !nsumf_cons. cbn. now rewrite IH. Qed.
  Lemma dder_sum {A} (f : A -> dual T) l : dder (nsumf f l) = nsumf (fun x => dder (f x)) l.
  Proof. induction l as [|x l IH]; [reflexivity|]. rewrite !nsumf_cons. cbn. now rewrite IH. Qed.
End DualLaws.
