(** Vocabulary for input files: words up to letter case, parts separated by white space. *)
From Verif Require Import Base Model.Parser.
From Coq Require String Ascii.

(** [s] is the word [w] with some letters in upper case. *)
Fixpoint same_word (w s : string) : Prop :=
  match w, s with
  | String.EmptyString, String.EmptyString => True
  | String.String c w', String.String d s' =>
      (d = c \/ 97 <= Ascii.nat_of_ascii c <= 122 /\ Ascii.nat_of_ascii d + 32 = Ascii.nat_of_ascii c) /\ same_word w' s'
  | _, _ => False
  end.
Fixpoint spaces (s : string) : Prop := match s with String.EmptyString => True | String.String c t => is_space c = true /\ spaces t end.
Fixpoint no_spaces (s : string) : Prop := match s with String.EmptyString => True | String.String c t => is_space c = false /\ no_spaces t end.
Definition token (s : string) : Prop := s <> String.EmptyString /\ no_spaces s.
(** A line: leading white space and parts, each followed by white space (possibly none after the last one). *)
Fixpoint line_of (parts : list (string * string)) : string :=
  match parts with [] => String.EmptyString | (t, s) :: r => String.append t (String.append s (line_of r)) end.
Definition last_free (parts : list (string * string)) : Prop := forall p q t s, parts = p ++ (t, s) :: q -> q <> [] -> s <> String.EmptyString.
Record line := mk_line { lead : string; parts : list (string * string) }.
Definition wf_line (l : line) : Prop := spaces (lead l) /\ (forall t s, In (t, s) (parts l) -> token t /\ spaces s) /\ last_free (parts l).
Definition text (l : line) : string := String.append (lead l) (line_of (parts l)).
Definition tokens (l : line) : list string := map fst (parts l).
