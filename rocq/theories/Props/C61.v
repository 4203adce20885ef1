(** C61: every file carries the weight and the flags of its source. *)
From Verif Require Import Base Model.Split Model.DatasetDFT Model.Dataset Model.DatasetLines Model.Parser
  Spec.Dataset Spec.Load Spec.FileMarks Proofs.Dataset Proofs.FileMarks.
Import String.StringSyntax.
Local Open Scope string_scope.
Local Open Scope list_scope.

Section C61.
  Context {W S : Type}.
  Variables (wzero wone : W) (wsub wadd : W -> W -> W) (wscale : nat -> W -> W) (wmul : W -> W -> W).
  Variable s_natoms : S -> list nat.
  Variable parse : dtype -> fileset -> res (dft W S).
  Variable imaginary : string -> bool.
  Variable fsort : list string -> list string.
  Variable part_name : string.
  Variable globbed : string -> list string.
  Variable float_of : string -> res W.
  Let from_single := from_single wzero wsub wadd wscale wmul s_natoms parse imaginary fsort part_name.

  (** Given training and test files. *)
  Theorem C61_train_test_files t inf ins w wimag a train test p q tr te :
    from_single t inf ins w wimag a (TrainTest train test) p q = Ok (tr, te) ->
    Permutation (flat_map marks tr) (marks_of wmul imaginary t wimag w inf ins (fsort train)) /\
    Permutation (flat_map marks te) (marks_of wmul imaginary t wimag w inf ins (fsort test)).
  Proof. exact (single_train_test_marks wzero wsub wadd wscale wmul s_natoms parse imaginary fsort part_name t inf ins w wimag a train test p q tr te). Qed.

  (** A list of files, split. *)
  Theorem C61_files t inf ins w wimag a l p q tr te :
    (0 < q)%Z -> (0 <= p <= q)%Z ->
    from_single t inf ins w wimag a (Files l) p q = Ok (tr, te) ->
    Permutation (flat_map marks (tr ++ te)) (marks_of wmul imaginary t wimag w inf ins (fsort l)).
  Proof. exact (single_files_marks wzero wsub wadd wscale wmul s_natoms parse imaginary fsort part_name t inf ins w wimag a l p q tr te). Qed.

  (** One file that holds everything. *)
  Theorem C61_one_file t inf ins w wimag a f p q tr te : is_sscha t = false ->
    from_single t inf ins w wimag a (OneString f) p q = Ok (tr, te) ->
    Forall (fun x => ds_weight x = w /\ ds_force x = inf /\ ds_stress x = ins) (tr ++ te) /\
    length tr = 1 /\ length te = 1.
  Proof. exact (single_string_settings wzero wsub wadd wscale wmul s_natoms parse imaginary fsort part_name t inf ins w wimag a f p q tr te). Qed.

  (** Structures given in memory. *)
  Theorem C61_structures t inf ins w a src p q tr te :
    from_structures wzero wsub wadd wscale s_natoms part_name t inf ins w a src p q = Ok (tr, te) ->
    Forall (fun x : ds W S => ds_weight x = w /\ ds_force x = inf /\ ds_stress x = ins) (tr ++ te) /\
    length tr = 1 /\ length te = 1.
  Proof. exact (structures_settings wzero wsub wadd wscale wmul s_natoms parse imaginary part_name t inf ins w a src p q tr te). Qed.

  (** Several file sets: one data set each, all files with the given weight. *)
  Theorem C61_multiple_filesets t inf ins w a train test tr te :
    from_multiple wzero wsub wadd wscale s_natoms parse fsort t inf ins w a train test = Ok (tr, te) ->
    map marks tr = map (fun l => map (fun f => (f, w, inf, ins)) (fsort l)) train /\
    map marks te = map (fun l => map (fun f => (f, w, inf, ins)) (fsort l)) test.
  Proof. exact (multiple_marks wzero wsub wadd wscale s_natoms parse fsort t inf ins w a train test tr te). Qed.

  (** Input file.  Each line of words becomes a data set whose settings are those of the words
      (except phono3py, below); the files of train_data lines are the training files, those of
      test_data lines the test files, those of data lines are shared out, all with the
      settings of their line; both halves of a line read as a whole have its settings. *)
  Theorem C61_input_file t prefix pf ps wimag a words p q tr te :
    (0 < q)%Z -> (0 <= p <= q)%Z -> is_phono3py t = false ->
    set_datasets wzero wsub wadd wscale wone wmul s_natoms parse imaginary part_name globbed float_of
                 t prefix pf ps wimag a words p q = Ok (tr, te) ->
    exists lines tr1 te1 parts dtr dte,
      Forall2 (fun gw l => fst l = fst gw /\ exists f, hd_error (snd gw) = Some f /\
                 listed_line wone globbed float_of (located prefix f) (snd gw) pf ps (snd l)) words lines /\
      tr = tr1 ++ map fst parts /\ te = te1 ++ map snd parts /\
      Permutation (dtr ++ dte) (lines_marks wmul imaginary t wimag (filter (has_tag Data) lines)) /\
      Permutation (flat_map marks tr1) (lines_marks wmul imaginary t wimag (filter (has_tag TrainData) lines) ++ dtr) /\
      Permutation (flat_map marks te1) (lines_marks wmul imaginary t wimag (filter (has_tag TestData) lines) ++ dte) /\
      Forall2 (fun l uv => same_settings (snd l) (fst uv) /\ same_settings (snd l) (snd uv))
              (filter (has_tag DataMD) lines) parts.
  Proof.
    intros Hq Hp Ht. unfold set_datasets. intros H.
    destruct (mapM _ words) as [lines|] eqn:M; cbn [bind] in H; [|discriminate]. apply mapM_Forall2 in M.
    assert (K : Forall2 (fun gw l => (fst l = fst gw /\ exists f, hd_error (snd gw) = Some f /\
                 listed_line wone globbed float_of (located prefix f) (snd gw) pf ps (snd l)) /\ fresh t l) words lines).
    { clear H. induction M as [|[g ws] l ws' ls Hl _ IH]; constructor; auto.
      cbn [snd fst] in Hl. destruct (line_ds wone globbed float_of t prefix pf ps ws) as [x|] eqn:E; [|discriminate].
      injection Hl as <-. apply line_listed in E; [|exact Ht]. destruct E as [f [E1 [E2 [E3 _]]]].
      cbn [fst snd]. split; [|exact E3]. split; [reflexivity|]. exists f. auto. }
    assert (Fr : Forall (fresh t) lines).
    { clear - K. induction K as [|? ? ? ? [_ K1] _ IH]; constructor; auto. }
    destruct (from_lines_marks wzero wsub wadd wscale wmul s_natoms parse imaginary part_name
                t wimag a lines p q tr te Hq Hp Fr H) as [tr1 [te1 [parts [dtr [dte [A [B [C [D [E G]]]]]]]]]].
    assert (Mn : forall l, In l lines -> exists fs, ds_files (snd l) = Many fs).
    { intros l Hl. apply (proj1 (Forall_forall _ _) Fr) in Hl. destruct Hl as [_ [_ Hl]].
      destruct (ds_files (snd l)); [congruence|eauto]. }
    exists lines, tr1, te1, parts, dtr, dte. split.
    { clear - K. induction K as [|? ? ? ? [K1 _] _ IH]; constructor; auto. }
    split; [exact A|]. split; [exact B|]. split; [|split; [exact D|split; [exact E|]]].
    - rewrite C. replace (filter (has_tag Data) lines) with (filter (fun l => has_tag Data l && negb (whole_line l)) lines); [reflexivity|].
      apply filter_ext_in. intros [g x] Hl. apply Mn in Hl. destruct Hl as [fs Hl]. cbn in Hl.
      unfold has_tag, whole_line. cbn. destruct g; try reflexivity. now rewrite Hl.
    - replace (filter (has_tag DataMD) lines) with (filter whole_line lines); [exact G|].
      apply filter_ext_in. intros [g x] Hl. apply Mn in Hl. destruct Hl as [fs Hl]. cbn in Hl.
      unfold has_tag, whole_line. cbn. destruct g; try reflexivity. now rewrite Hl.
  Qed.

  (** A phono3py line: the flags are those of the run and the weight is 1 whatever the line says. *)
  Theorem C61_phono3py_line prefix pf ps words (x : ds W S) :
    line_ds wone globbed float_of Phono3py prefix pf ps words = Ok x ->
    exists f, hd_error words = Some f /\ ds_files x = Single (located prefix f) /\
      ds_force x = pf /\ ds_stress x = ps /\ ds_weight x = wone.
  Proof.
    intros H. apply line_phono3py in H. destruct H as [f H]. exists f. tauto.
  Qed.

  (** What is refused: a list of phono3py files, and splitting the files of a data set that
      has been read or that is one file. *)
  Theorem C61_refused :
    (forall l inf ins w d, new_ds (W := W) (S := S) Phono3py (Many l) inf ins w d = Err RuntimeError) /\
    (forall (x : ds W S) p q, (0 < q)%Z -> (0 <= p <= q)%Z ->
       ds_dft x <> None \/ is_phono3py (ds_type x) = true \/ (exists f, ds_files x = Single f) ->
       split_files x p q = Err RuntimeError).
  Proof.
    split; [reflexivity|]. intros x p q Hq Hp H. unfold split_files.
    destruct (ds_dft x); [reflexivity|]. destruct (is_phono3py (ds_type x)); [reflexivity|].
    destruct H as [H|[H|[f H]]]; [congruence|discriminate|]. now rewrite H.
  Qed.
  (** A data set that has not been read has no data to split, slice, sort or lower. *)
  Theorem C61_unread argsort a (x : ds W S) p q b e : ds_dft x = None ->
    split_dft part_name x p q = Err RuntimeError /\ subtract wzero wsub wadd wscale s_natoms a x = Err RuntimeError /\ slice_dft part_name x b e = Err AttributeError /\ sort_dft argsort x = Err AttributeError.
  Proof. intros H. unfold split_dft, subtract, slice_dft, sort_dft. rewrite H. auto. Qed.
End C61.
Print Assumptions C61_train_test_files.
Print Assumptions C61_files.
Print Assumptions C61_one_file.
Print Assumptions C61_structures.
Print Assumptions C61_multiple_filesets.
Print Assumptions C61_input_file.
Print Assumptions C61_phono3py_line.
Print Assumptions C61_refused.
Print Assumptions C61_unread.

(** Example world: one record per file set; weights are integers and the
    weight of imaginary results is multiplied by 7. *)
Definition r61 : rec Z (list nat) := mk_rec [2; 1] 100%Z (repeat 0%Z 9) (repeat 0%Z 6) 1%Z 3 None.
Definition parse61 (_ : dtype) (_ : fileset) : res (dft Z (list nat)) := Ok (layout ["Mg"; "O"] true true [r61; r61]).
Definition scale61 (n : nat) (e : Z) : Z := (Z.of_nat n * e)%Z.
Definition imag61 (f : string) : bool := String.eqb f "b" || String.eqb f "md/b".
Definition glob61 (f : string) : list string :=
  if String.eqb f "run/*" then ["a"; "b"; "c"] else if String.eqb f "run/md" then ["md/a"; "md/b"] else [f].
Definition float61 (s : string) : res Z := if String.eqb s "3" then Ok 3%Z else Err ValueError.

(** The imaginary file b of the train_data line has weight 3 * 7; force and stress are off for
    the test_data line. *)
Example C61_example :
  match set_datasets 0%Z Z.sub Z.add scale61 1%Z Z.mul (fun s => s) parse61 imag61 "x" glob61 float61
          Sscha (Some "run") true true 7%Z [7; 5]%Z
          [(TrainData, ["*"; "True"; "3"]); (TestData, ["t"; "False"])] 1 2 with
  | Ok (tr, te) =>
      flat_map marks tr = [("a", 3%Z, true, true); ("c", 3%Z, true, true); ("b", 21%Z, true, true)] /\
      flat_map marks te = [("run/t", 1%Z, false, false)]
  | Err _ => False
  end.
Proof. vm_compute. split; reflexivity. Qed.

Example C61_example_single :
  match from_single 0%Z Z.sub Z.add scale61 Z.mul (fun s => s) parse61 imag61 (fun l => l) "x"
          Sscha true false 5%Z 7%Z [7; 5]%Z (Files ["a"; "b"; "c"]) 2 3 with
  | Ok (tr, te) => Permutation (flat_map marks (tr ++ te)) [("a", 5%Z, true, false); ("b", 35%Z, true, false); ("c", 5%Z, true, false)]
  | Err _ => False
  end.
Proof. vm_compute. apply NoDup_Permutation_bis; [repeat constructor; cbn; intuition discriminate|cbn; lia|]. intros z Hz. cbn in *. tauto. Qed.

(** The weight and the force flag written on a phono3py line are ignored. *)
Theorem C61_phono3py_refuted :
  exists x : ds Z (list nat),
    line_ds 1%Z glob61 float61 Phono3py None true true ["phono3py.yaml"; "False"; "3"] = Ok x /\
    ds_force x = true /\ ds_weight x = 1%Z.
Proof. eexists. split; [vm_compute; reflexivity|]. split; reflexivity. Qed.
Print Assumptions C61_phono3py_refuted.

(** Imaginary results keep their full weight when given as several file sets or on a
    data_md line. *)
Theorem C61_imaginary_refuted :
  (exists tr te,
     from_multiple 0%Z Z.sub Z.add scale61 (fun s => s) parse61 (fun l => l) Sscha true true 5%Z [7; 5]%Z
                   [["a"; "b"]] [["c"]] = Ok (tr, te) /\
     flat_map marks tr = [("a", 5%Z, true, true); ("b", 5%Z, true, true)] /\ imag61 "b" = true) /\
  (exists tr te,
     set_datasets 0%Z Z.sub Z.add scale61 1%Z Z.mul (fun s => s) parse61 imag61 "x" glob61 float61
        Sscha (Some "run") true true 7%Z [7; 5]%Z [(DataMD, ["md"; "True"; "3"])] 1 2 = Ok (tr, te) /\
     map ds_weight (tr ++ te) = [3%Z; 3%Z] /\ In "md/b" (glob61 "run/md") /\ imag61 "md/b" = true).
Proof.
  split; do 2 eexists; (split; [vm_compute; reflexivity|]); vm_compute; auto.
Qed.
Print Assumptions C61_imaginary_refuted.
