(** C46: boolean strings. *)
From Verif Require Import Base Model.Parser Spec.Parser Proofs.Parser.
Import String.StringSyntax.
Local Open Scope string_scope.
Local Open Scope list_scope.

(** A string is true (false) iff it is one of t, true, 1 (f, false, 0) up to letter case; all others raise. *)
Theorem C46_strtobool (s : string) :
  (strtobool s = Ok true <-> exists w, In w ["t"; "true"; "1"] /\ same_word w s) /\
  (strtobool s = Ok false <-> exists w, In w ["f"; "false"; "0"] /\ same_word w s) /\
  (strtobool s = Err RuntimeError <-> forall w, In w ["t"; "true"; "1"; "f"; "false"; "0"] -> ~ same_word w s).
Proof.
  assert (U : forall w, In w ["t"; "true"; "1"; "f"; "false"; "0"] -> no_upper w).
  { intros w H. repeat (destruct H as [<-|H]; [vm_compute; lia|]). destruct H. }
  assert (I : forall l, incl l ["t"; "true"; "1"; "f"; "false"; "0"] -> (str_in (lower s) l = true <-> exists w, In w l /\ same_word w s)).
  { intros l HI. rewrite str_in_In. split.
    - intros H. exists (lower s). split; [exact H|]. apply lower_is; [now apply U, HI|reflexivity].
    - intros [w [Hw H]]. apply lower_is in H; [now rewrite H|now apply U, HI]. }
  assert (IT : incl ["t"; "true"; "1"] ["t"; "true"; "1"; "f"; "false"; "0"]) by (intros w; cbn; tauto).
  assert (IF : incl ["f"; "false"; "0"] ["t"; "true"; "1"; "f"; "false"; "0"]) by (intros w; cbn; tauto).
  assert (D : str_in (lower s) ["t"; "true"; "1"] = true -> str_in (lower s) ["f"; "false"; "0"] = true -> False).
  { rewrite !str_in_In. generalize (lower s). intros x [<-|[<-|[<-|[]]]] [H|[H|[H|[]]]]; discriminate. }
  specialize (I ["t"; "true"; "1"] IT) as I1. specialize (I ["f"; "false"; "0"] IF) as I2. unfold strtobool.
  destruct (str_in (lower s) ["t"; "true"; "1"]) eqn:E1; destruct (str_in (lower s) ["f"; "false"; "0"]) eqn:E2; try (exfalso; now apply D).
  - split; [|split].
    + split; [intros _; now apply I1|reflexivity].
    + split; [discriminate|]. intros H. apply I2 in H. discriminate.
    + split; [discriminate|]. intros H. destruct (proj1 I1 eq_refl) as [w [Hw Hs]]. exfalso. apply (H w); [now apply IT|exact Hs].
  - split; [|split].
    + split; [discriminate|]. intros H. apply I1 in H. discriminate.
    + split; [intros _; now apply I2|reflexivity].
    + split; [discriminate|]. intros H. destruct (proj1 I2 eq_refl) as [w [Hw Hs]]. exfalso. apply (H w); [now apply IF|exact Hs].
  - split; [|split].
    + split; [discriminate|]. intros H. apply I1 in H. discriminate.
    + split; [discriminate|]. intros H. apply I2 in H. discriminate.
    + split; [|reflexivity]. intros _ w Hw Hs. assert (C : In w ["t"; "true"; "1"] \/ In w ["f"; "false"; "0"]) by (cbn in *; tauto).
      destruct C as [C|C]; [assert (false = true) by (apply I1; eauto)|assert (false = true) by (apply I2; eauto)]; discriminate.
Qed.
Print Assumptions C46_strtobool.
Example C46_example : strtobool "TrUe" = Ok true /\ strtobool "F" = Ok false /\ strtobool "yes" = Err RuntimeError /\ strtobool "" = Err RuntimeError.
Proof. repeat split. Qed.
