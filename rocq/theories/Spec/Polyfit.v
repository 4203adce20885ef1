(** What a polynomial fit is: functions of a kind, least squares, leave-one-out scores. *)
From Verif Require Import Base Num NumR.
From Coq Require Import Reals.
Local Open Scope nat_scope.

(** ** Linear equations in exact arithmetic *)
Section Linear.
  Context {F : Type} {N : Num F}.
  Definition singular (p : nat) (m : mat F) : Prop :=
    exists d : vec F, (exists i, i < p /\ d i <> n0) /\ forall i, i < p -> sumn p (fun j => nmul (m i j) (d j)) = n0.
  (** A solver returns the solution, or nothing if the matrix is singular; the same for inverses. *)
  Definition exact_solve (solve : nat -> mat F -> vec F -> option (vec F)) : Prop := forall p m v,
    match solve p m v with
    | Some c => ~ singular p m /\ forall i, i < p -> sumn p (fun j => nmul (m i j) (c j)) = v i
    | None => singular p m
    end.
  Definition exact_inv (inv : nat -> mat F -> option (mat F)) : Prop := forall p m,
    match inv p m with
    | Some b => ~ singular p m /\ forall i k, i < p -> k < p -> sumn p (fun j => nmul (m i j) (b j k)) = if i =? k then n1 else n0
    | None => singular p m
    end.
End Linear.

(** ** Kinds of functions *)
Local Open Scope R_scope.
(** s sqrt(x) + c_0 + c_1 x + ... + c_n x^n *)
Record func := mk_func { c_sqrt : R; c_pow : nat -> R }.
Record kind := mk_kind { k_order : nat; k_intercept : bool; k_first : bool; k_sqrt : bool }.
Definition value (k : kind) (f : func) (x : R) : R :=
  c_sqrt f * sqrt x + sumn (S (k_order k)) (fun i => c_pow f i * x ^ i).
Definition belongs (k : kind) (f : func) : Prop :=
  (k_sqrt k = false -> c_sqrt f = 0) /\ (k_intercept k = false -> c_pow f 0%nat = 0) /\ (k_first k = false -> c_pow f 1%nat = 0).
(** The abscissae [xs] determine the functions of the kind [k]. *)
Definition determined (k : kind) (xs : list R) : Prop :=
  forall f, belongs k f -> (forall x, In x xs -> value k f x = 0) ->
  c_sqrt f = 0 /\ forall i, (i <= k_order k)%nat -> c_pow f i = 0.

(** ** Least squares *)
Record pt := mk_pt { px : R; py : R; pw : R }.
Definition squares (k : kind) (D : list pt) (f : func) : R := nsumf (fun q => pw q * (py q - value k f (px q)) ^ 2) D.
Definition least_squares (k : kind) (D : list pt) (f : func) : Prop :=
  belongs k f /\ forall g, belongs k g -> squares k D f <= squares k D g.
Definition plain (xs ys : list R) : list pt := map (fun q => mk_pt (fst q) (snd q) 1) (combine xs ys).
Definition mean_square (l : list R) : R := sqrt (nsumf (fun e => e ^ 2) l / INR (length l)).

(** ** Leave-one-out score *)
Definition without {A} (i : nat) (l : list A) : list A := firstn i l ++ skipn (S i) l.
(** Every single record can be left out. *)
Definition scorable (k : kind) (xs : list R) : Prop := forall i, (i < length xs)%nat -> determined k (without i xs).
(** [v] is the root mean square of the deviations of each record from the least squares function of the others. *)
Definition score (k : kind) (xs ys : list R) (v : R) : Prop :=
  exists es, length es = length xs /\ v = mean_square es /\
    forall i x y e, nth_error xs i = Some x -> nth_error ys i = Some y -> nth_error es i = Some e ->
      exists f, least_squares k (plain (without i xs) (without i ys)) f /\ e = value k f x - y.

(** Weights of the first and the last records *)
Definition weight_at (n : nat) (weight_begin weight_end : bool) (i : nat) : R :=
  if (weight_end && (n - i <=? 4))%nat then INR (6 - (n - i)) ^ 2
  else if (weight_begin && (i <? 4))%nat then INR (5 - i) ^ 2 else 1.
Definition records (xs ys : list R) (weight_begin weight_end : bool) : list pt :=
  map (fun q => mk_pt (fst (snd q)) (snd (snd q)) (weight_at (length xs) weight_begin weight_end (fst q))) (combine (seq 0 (length xs)) (combine xs ys)).

(** ** The kinds of a search *)
Section Kinds.
  Variables (xs ys : list R) (intercept first_order : bool).
  Definition kind_of (m : bool * nat) : kind := mk_kind (snd m) intercept first_order (fst m).
  (** The best score [v] of the models in [l], below [b0]; [m] is the first with that score. *)
  Definition first_best (b0 : R) (l : list (bool * nat)) (m : bool * nat) (v : R) : Prop :=
    exists l1 l2, l = l1 ++ m :: l2 /\ scorable (kind_of m) xs /\ score (kind_of m) xs ys v /\ v < b0 /\
      (forall m' v', In m' l1 -> scorable (kind_of m') xs -> score (kind_of m') xs ys v' -> v < v') /\
      (forall m' v', In m' l2 -> scorable (kind_of m') xs -> score (kind_of m') xs ys v' -> v <= v').
  Definition none_below (b0 : R) (l : list (bool * nat)) : Prop :=
    forall m' v', In m' l -> scorable (kind_of m') xs -> score (kind_of m') xs ys v' -> b0 <= v'.
End Kinds.
(** Some function of the kind is not zero everywhere. *)
Definition nontrivial (k : kind) : Prop := k_sqrt k = true \/ k_intercept k = true \/ ((if k_first k then 1 else 2) <= k_order k)%nat.
(** The combinations that are tried: with the square root first, then by order. *)
Definition choices (order : option nat) (max_order : nat) (add_sqrt : option bool) : list (bool * nat) :=
  list_prod (match add_sqrt with None => [true; false] | Some b => [b] end)
            (match order with None => seq 2 (max_order - 1) | Some o => [o] end).
