(** Reading a POSCAR file that was written. *)
From Verif Require Import Base Num Model.Structure Model.Parser Model.PotentialFile Model.Poscar Spec.PotentialFile Spec.Poscar Proofs.PotentialFile Proofs.Poscar.
From Coq Require String Ascii.
Import String.StringSyntax.
Local Open Scope string_scope.
Local Open Scope list_scope.
Local Open Scope nat_scope.

Lemma lit_1 s : lit " " ++ s = blank_c :: s.
Proof. reflexivity. Qed.
Lemma lit_2 s : lit "  " ++ s = blank_c :: blank_c :: s.
Proof. reflexivity. Qed.

Section Read.
  Context {F : Type} {N : Num F}.
  Variables (fmt : F -> text) (stod : text -> res F) (det : mat3 (F := F) -> F) (rnd : F -> F).
  Hypothesis mul_1 : forall x : F, nmul x n1 = x.
  Hypothesis one_text : stod (lit "1.0") = Ok n1.
  Hypothesis fmt_word : forall x, is_word (fmt x).
  Hypothesis fmt_read : forall x, stod (fmt x) = Ok (rnd x).
  Definition rnd3 (v : vec3 (F := F)) : vec3 := let '(x, y, z) := v in (rnd x, rnd y, rnd z).
  Definition rnd33 (m : mat3 (F := F)) : mat3 := let '(a, b, c) := m in (rnd3 a, rnd3 b, rnd3 c).
  Definition vec_text (v : vec3 (F := F)) : text := let '(x, y, z) := v in lit "  " ++ lit " " ++ fmt x ++ lit " " ++ fmt y ++ lit " " ++ fmt z.

  Lemma print_vec_text v : print_vec fmt v = print_line (vec_text v).
  Proof. destruct v as [[x y] z]. reflexivity. Qed.
  Lemma vec_line v : is_line (vec_text v).
  Proof.
    destruct v as [[x y] z]. pose proof (word_line _ (fmt_word x)). pose proof (word_line _ (fmt_word y)). pose proof (word_line _ (fmt_word z)).
    unfold vec_text. repeat apply is_line_app; try assumption; repeat constructor; discriminate.
  Qed.
  (** Whatever follows the three numbers (after a blank) is not read. *)
  Lemma row3_text v flags : row3 stod (vec_text v ++ flags) = Ok (rnd3 v) \/ flags <> [] /\ hd_error flags <> Some blank_c.
  Proof.
    destruct flags as [|c flags].
    - left. rewrite app_nil_r. destruct v as [[x y] z]. unfold row3, vec_text.
      rewrite lit_2, !lit_1. rewrite !words_blank.
      rewrite !words_word by apply fmt_word. rewrite words_last by apply fmt_word. cbn [firstn mapM]. rewrite !fmt_read. reflexivity.
    - destruct (Ascii.eqb c blank_c) eqn:E.
      + left. apply Ascii.eqb_eq in E. subst c. destruct v as [[x y] z]. unfold row3, vec_text. rewrite <- !app_assoc.
        rewrite lit_2, !lit_1. rewrite !words_blank.
        rewrite !words_word by apply fmt_word. cbn [firstn mapM]. rewrite !fmt_read. reflexivity.
      + right. split; [discriminate|]. cbn. intros H. injection H as ->. rewrite Ascii.eqb_refl in E. discriminate.
  Qed.
  Lemma row3_plain v : row3 stod (vec_text v) = Ok (rnd3 v).
  Proof. rewrite <- (app_nil_r (vec_text v)). destruct (row3_text v []) as [H|[H _]]; [exact H|easy]. Qed.
  Lemma row3_flags v flags : row3 stod (vec_text v ++ blank_c :: flags) = Ok (rnd3 v).
  Proof. destruct (row3_text v (blank_c :: flags)) as [H|[_ H]]; [exact H|now destruct H]. Qed.
  Lemma scale_1 v : scale n1 v = v.
  Proof. destruct v as [[x y] z]. cbn. now rewrite !mul_1. Qed.
  Lemma mapM_rows (front : list text) rows (ps : list (vec3 (F := F))) : Forall2 (fun l p => row3 stod l = Ok (rnd3 p)) rows ps ->
    forall rest, mapM (fun i => do l <- get (front ++ rows ++ rest) (length front + i); row3 stod l) (seq 0 (length ps)) = Ok (map rnd3 ps).
  Proof.
    intros H rest.
    assert (G : forall pre, mapM (fun i => do l <- get (front ++ pre ++ rows ++ rest) (length front + i); row3 stod l) (seq (length pre) (length ps)) = Ok (map rnd3 ps)).
    { induction H as [|l p rows ps HL HR IH]; intros pre; [reflexivity|]. cbn [length seq mapM map].
      unfold get at 1. rewrite nth_error_app2 by lia. replace (length front + length pre - length front) with (length pre) by lia. rewrite nth_error_app2, Nat.sub_diag by lia. cbn [app nth_error bind]. rewrite HL. cbn [bind].
      specialize (IH (pre ++ [l])). rewrite app_length in IH. cbn [length] in IH. replace (length pre + 1) with (S (length pre)) in IH by lia.
      replace (front ++ pre ++ l :: rows ++ rest) with (front ++ (pre ++ [l]) ++ rows ++ rest) by (rewrite <- !app_assoc; reflexivity). rewrite IH. reflexivity. }
    exact (G []).
  Qed.

  (** The result of reading lines that say: cell [ax], blocks [names] of sizes [ns], positions [ps] *)
  Definition content (fname : string) (ax : mat3 (F := F)) (names : list string) (ns : list nat) (ps : list (vec3 (F := F))) : structure vec3 mat3 F :=
    mk_structure ax ps ns (spread names ns) (block_types 0 ns) (det ax) (Some fname).
  Lemma parse_named fname (sel : bool) comment a b c names ns (sd : list text) mode rows (ps : list (vec3 (F := F))) :
    Forall is_word (map lit names) -> length names = length ns -> existsb letter (entries_text (map lit names)) = true ->
    length sd = (if sel then 1 else 0) ->
    Forall2 (fun l p => row3 stod l = Ok (rnd3 p)) rows ps -> length ps = sum ns -> 0 < sum ns ->
    parse_poscar stod det sel fname ([comment; lit "1.0"; vec_text a; vec_text b; vec_text c; entries_text (map lit names); entries_text (map show_nat ns)] ++ sd ++ mode :: rows) =
    Ok (content fname (rnd33 (a, b, c)) names ns (map rnd3 ps), comment).
  Proof.
    intros HW HN HLT HSD HR HP HZ. unfold parse_poscar. cbn [app]. unfold get at 1 2 4 5 6 7. cbn [nth_error bind].
    assert (W1 : is_word (lit "1.0")) by (split; [discriminate|]; repeat constructor; unfold blank_char; cbn; intuition discriminate).
    rewrite (words_last _ W1). unfold get at 1. cbn [nth_error bind]. rewrite one_text. cbn [bind]. rewrite !row3_plain. cbn [bind]. rewrite !scale_1.
    rewrite HLT. unfold get at 1. cbn [nth_error bind]. rewrite words_entries by (apply Forall_map, Forall_forall; intros; apply show_nat_word). rewrite mapM_py_int. cbn [bind].
    rewrite words_entries by assumption. pose proof (assign_spec [] names ns ltac:(lia)) as HA. cbn [app length] in HA. rewrite HA. cbn [bind].
    match goal with |- context [mapM ?f (seq 0 (sum ns))] => assert (EM : mapM f (seq 0 (sum ns)) = Ok (map rnd3 ps)) end.
    { rewrite <- HP. pose proof (mapM_rows ([comment; lit "1.0"; vec_text a; vec_text b; vec_text c; entries_text (map lit names); entries_text (map show_nat ns)] ++ sd ++ [mode]) rows ps HR []) as E.
      rewrite <- E. f_equal. rewrite app_nil_r, <- !app_assoc. rewrite !app_length, HSD. cbn [app length]. destruct sel; reflexivity. }
    rewrite EM. cbn [bind]. destruct ps as [|p ps]; [cbn in HP; lia|]. reflexivity.
  Qed.
  Lemma readlines_rows rows : Forall is_line rows -> forall s, readlines (flat_map print_line rows ++ s) = rows ++ readlines s.
  Proof. induction 1 as [|l rows HL HR IH]; intros s; [reflexivity|]. cbn [flat_map app]. rewrite <- app_assoc, readlines_line by assumption. now rewrite IH. Qed.
End Read.
