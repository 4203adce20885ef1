(** What a structure file says about the atoms. *)
From Verif Require Import Base Num Model.Structure Model.Parser Model.PotentialFile.
From Coq Require String Ascii.

(** Blank characters of Python; a word: not empty, without blank characters *)
Definition blank_char (c : ascii) : Prop := In (Ascii.nat_of_ascii c) [9; 10; 11; 12; 13; 28; 29; 30; 31; 32].
Definition is_word (t : text) : Prop := t <> [] /\ Forall (fun c => ~ blank_char c) t.
(** A line: no newline character *)
Definition is_line (t : text) : Prop := Forall (fun c => Ascii.nat_of_ascii c <> 10) t.
(** Latin letters *)
Definition latin (c : ascii) : Prop := 65 <= Ascii.nat_of_ascii c <= 90 \/ 97 <= Ascii.nat_of_ascii c <= 122.

(** Atom [k] belongs to block [b] of blocks of sizes [ns]. *)
Definition in_block (ns : list nat) (k b : nat) : Prop := b < length ns /\ sum (firstn b ns) <= k < sum (firstn (S b) ns).
(** Atoms of one block have one element. *)
Definition one_element {E} (ns : list nat) (els : list E) : Prop :=
  forall k k' b, in_block ns k b -> in_block ns k' b -> nth_error els k = nth_error els k'.
(** Types are names of elements: two atoms have the same type exactly if they have the same element. *)
Definition types_match {E} (els : list E) (ty : list Z) : Prop :=
  length ty = length els /\
  forall k k' e e' t t', nth_error els k = Some e -> nth_error els k' = Some e' -> nth_error ty k = Some t -> nth_error ty k' = Some t' -> (e = e' <-> t = t').
(** Equal elements stand together. *)
Definition together {E} (els : list E) : Prop :=
  forall i j k e, i < j < k -> nth_error els i = Some e -> nth_error els k = Some e -> nth_error els j = Some e.

(** Numbers are printed as words that are read as [rnd] of them; 1.0 is read as one. *)
Record prints {F} {N : Num F} (fmt : F -> text) (stod : text -> res F) (rnd : F -> F) : Prop := mk_prints {
  printed_word : forall x, is_word (fmt x);
  printed_read : forall x, stod (fmt x) = Ok (rnd x);
  read_one : stod (lit (String.String (Ascii.ascii_of_nat 49) (String.String (Ascii.ascii_of_nat 46) (String.String (Ascii.ascii_of_nat 48) String.EmptyString)))) = Ok n1
}.
(** Names of elements: words with a Latin letter *)
Definition element_name (e : string) : Prop := is_word (lit e) /\ Exists latin (lit e).
(** Every type has one element. *)
Definition types_determine {E} (els : list E) (ty : list Z) : Prop :=
  forall t e e', In (t, e) (combine ty els) -> In (t, e') (combine ty els) -> e = e'.
