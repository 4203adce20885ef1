(** C06: atomic energies are subtracted exactly once. *)
From Verif Require Import Base Model.Split Model.DatasetDFT Model.Dataset Spec.Structure Spec.Dataset
  Spec.Load Proofs.StructureSpin2 Proofs.Dataset.
Import String.StringSyntax.
Local Open Scope string_scope.

Section C06.
  Context {W S : Type}.
  Variables (wzero : W) (wsub wadd : W -> W -> W) (wscale : nat -> W -> W) (wmul : W -> W -> W).
  Variable s_natoms : S -> list nat.
  Variable parse : dtype -> fileset -> res (dft W S).
  Variable imaginary : string -> bool.
  Variable fsort : list string -> list string.
  Variable part_name : string.
  Hypothesis Hparse : parses_records parse.
  Let lower := lower (S := S) wzero wsub wadd wscale s_natoms.
  Let parsed_once := parsed_once wzero wsub wadd wscale s_natoms parse.

  (** Several file sets (set_datasets_from_multiple_filesets). *)
  Theorem C06_multiple_filesets t inf ins w a train test tr te :
    from_multiple wzero wsub wadd wscale s_natoms parse fsort t inf ins w a train test = Ok (tr, te) ->
    Forall (parsed_once a) (tr ++ te) /\
    map ds_files tr = map (fun l => Many (fsort l)) train /\
    map ds_files te = map (fun l => Many (fsort l)) test.
  Proof. exact (from_multiple_once wzero wsub wadd wscale wmul s_natoms parse imaginary fsort part_name Hparse t inf ins w a train test tr te). Qed.

  (** Given training and test files (set_datasets_from_single_fileset). *)
  Theorem C06_train_test_files t inf ins w wimag a train test p q tr te :
    from_single wzero wsub wadd wscale wmul s_natoms parse imaginary fsort part_name
                t inf ins w wimag a (TrainTest train test) p q = Ok (tr, te) ->
    Forall (parsed_once a) (tr ++ te) /\
    Permutation (flat_map files_of tr) (fsort train) /\ Permutation (flat_map files_of te) (fsort test).
  Proof. exact (from_single_train_test wzero wsub wadd wscale wmul s_natoms parse imaginary fsort part_name Hparse t inf ins w wimag a train test p q tr te). Qed.

  (** A list of files, split (set_datasets_from_single_fileset). *)
  Theorem C06_files t inf ins w wimag a l p q tr te :
    (0 < q)%Z -> (0 <= p <= q)%Z ->
    from_single wzero wsub wadd wscale wmul s_natoms parse imaginary fsort part_name
                t inf ins w wimag a (Files l) p q = Ok (tr, te) ->
    Forall (parsed_once a) (tr ++ te) /\ Permutation (flat_map files_of (tr ++ te)) (fsort l).
  Proof. exact (from_single_files wzero wsub wadd wscale wmul s_natoms parse imaginary fsort part_name Hparse t inf ins w wimag a l p q tr te). Qed.

  (** Structures given in memory, split (set_datasets_from_structures). *)
  Theorem C06_structures t inf ins w a els ef es rs p q tr te :
    (0 < q)%Z -> (0 <= p <= q)%Z -> Forall rec_ok rs ->
    from_structures wzero wsub wadd wscale s_natoms part_name
                    t inf ins w a (Whole (layout els ef es rs)) p q = Ok (tr, te) ->
    exists rtr rte u v, Permutation (rtr ++ rte) rs /\ tr = [u] /\ te = [v] /\
      ds_dft u = Some (layout els ef es (map (lower a) rtr)) /\
      ds_dft v = Some (layout els ef es (map (lower a) rte)).
  Proof. exact (from_structures_whole wzero wsub wadd wscale s_natoms part_name t inf ins w a els ef es rs p q tr te). Qed.

  (** Training and test structures given in memory. *)
  Theorem C06_structures_parts t inf ins w a els1 ef1 es1 rs1 els2 ef2 es2 rs2 p q tr te :
    from_structures wzero wsub wadd wscale s_natoms part_name
      t inf ins w a (Parts (layout els1 ef1 es1 rs1) (layout els2 ef2 es2 rs2)) p q = Ok (tr, te) ->
    exists u v, tr = [u] /\ te = [v] /\
      ds_dft u = Some (layout els1 ef1 es1 (map (lower a) rs1)) /\
      ds_dft v = Some (layout els2 ef2 es2 (map (lower a) rs2)).
  Proof. exact (from_structures_parts wzero wsub wadd wscale s_natoms part_name t inf ins w a els1 ef1 es1 rs1 els2 ef2 es2 rs2 p q tr te). Qed.

  (** Input-file lines train_data, test_data, data, data_md (set_datasets of the parser). *)
  Theorem C06_input_file t wimag a lines p q tr te :
    (0 < q)%Z -> (0 <= p <= q)%Z ->
    Forall (fun l : tag * ds W S => ds_done (snd l) = false) lines ->
    from_lines wzero wsub wadd wscale wmul s_natoms parse imaginary part_name t wimag a lines p q = Ok (tr, te) ->
    exists tr1 te1 parts, tr = (tr1 ++ map fst parts)%list /\ te = (te1 ++ map snd parts)%list /\
      Forall (parsed_once a) (tr1 ++ te1) /\
      Forall (shared_once wzero wsub wadd wscale s_natoms parse a) parts.
  Proof. exact (from_lines_once wzero wsub wadd wscale wmul s_natoms parse imaginary fsort part_name Hparse t wimag a lines p q tr te). Qed.

  (** One file name given as a string (phono3py): the energies are lowered TWICE. *)
  Theorem C06_single_string_twice t inf ins w wimag a f p q tr te :
    is_sscha t = false -> (0 < q)%Z -> (0 <= p <= q)%Z ->
    from_single wzero wsub wadd wscale wmul s_natoms parse imaginary fsort part_name
                t inf ins w wimag a (OneString f) p q = Ok (tr, te) ->
    exists els ef es rs rtr rte u v,
      parse t (Single f) = Ok (layout els ef es rs) /\ Permutation (rtr ++ rte) rs /\
      tr = [u] /\ te = [v] /\
      ds_dft u = Some (layout els ef es (map (fun r => lower a (lower a r)) rtr)) /\
      ds_dft v = Some (layout els ef es (map (fun r => lower a (lower a r)) rte)).
  Proof. exact (from_single_string wzero wsub wadd wscale wmul s_natoms parse imaginary fsort part_name Hparse t inf ins w wimag a f p q tr te). Qed.

  (** One data set read once, then any sequence of sorting and further subtractions. *)
  Theorem C06_histories argsort a (x y : ds W S) h z :
    sorts argsort -> ds_done x = false ->
    parse_files wzero wsub wadd wscale s_natoms parse a x = Ok y ->
    run_touch wzero wsub wadd wscale s_natoms argsort h y = Ok z ->
    exists els ef es rs rs', parse (ds_type x) (ds_files x) = Ok (layout els ef es rs) /\
      Permutation rs' rs /\ ds_dft z = Some (layout els ef es (map (lower a) rs')).
  Proof.
    exact (fun Ha Hd Hp => history_once wzero wsub wadd wscale s_natoms parse argsort Hparse a x y h
                             (sorts_argsort_ok _ Ha) Hd Hp z).
  Qed.

  (** Atomic energies that do not match the elements of some structure are refused. *)
  Theorem C06_refused a (x : ds W S) els ef es rs : ds_done x = false ->
    parse (ds_type x) (ds_files x) = Ok (layout els ef es rs) ->
    (exists r, In r rs /\ length (s_natoms (r_structure r)) <> length a) ->
    parse_files wzero wsub wadd wscale s_natoms parse a x = Err ValueError.
  Proof.
    intros Hd Hp [r [Hr Hn]]. unfold parse_files, subtract. rewrite Hp. cbn [bind with_dft ds_dft ds_done].
    rewrite Hd. now rewrite (apply_layout_refused wzero wsub wadd wscale s_natoms els ef es rs a r Hr Hn).
  Qed.
End C06.
Print Assumptions C06_refused.
Print Assumptions C06_multiple_filesets.
Print Assumptions C06_train_test_files.
Print Assumptions C06_files.
Print Assumptions C06_structures.
Print Assumptions C06_structures_parts.
Print Assumptions C06_input_file.
Print Assumptions C06_single_string_twice.
Print Assumptions C06_histories.

(** Example world: a structure is its list of atom counts; every file set holds two
    structures, Mg2 O1 with energy 100 and Mg1 O3 with energy 200. *)
Definition r1 : rec Z (list nat) :=
  mk_rec [2; 1] 100%Z (repeat 0%Z 9) (repeat 0%Z 6) 1%Z 3 None.
Definition r2 : rec Z (list nat) :=
  mk_rec [1; 3] 200%Z (repeat 0%Z 12) (repeat 0%Z 6) 1%Z 4 None.
Definition parse_ex (_ : dtype) (_ : fileset) : res (dft Z (list nat)) := Ok (layout ["Mg"; "O"] true true [r1; r2]).
Example parse_ex_records : parses_records parse_ex.
Proof.
  intros t f d [= <-]. exists ["Mg"; "O"], true, true, [r1; r2]. split; [reflexivity|].
  repeat constructor.
Qed.
Definition energies_of (l : list (ds Z (list nat))) : list (option (list Z)) :=
  map (fun x => option_map energies (ds_dft x)) l.
Definition scale (n : nat) (e : Z) : Z := (Z.of_nat n * e)%Z.

(** Atomic energies 7 and 5: once lowered, 100 - 19 = 81 and 200 - 22 = 178. *)
Example C06_example_files :
  match from_single 0%Z Z.sub Z.add scale Z.mul (fun s => s) parse_ex (fun _ => false) (fun l => l) "x"
          Vasp true true 1%Z 1%Z [7; 5]%Z (Files ["a"; "b"; "c"]) 2 3 with
  | Ok (tr, te) => energies_of tr = [Some [81; 178]%Z] /\ energies_of te = [Some [81; 178]%Z]
  | Err _ => False
  end.
Proof. vm_compute. split; reflexivity. Qed.

(** The property fails for a phono3py file given as a string: 100 - 2*19 and 200 - 2*22. *)
Theorem C06_single_string_refuted :
  exists tr te,
    from_single 0%Z Z.sub Z.add scale Z.mul (fun s => s) parse_ex (fun _ => false) (fun l => l) "x"
      Phono3py true true 1%Z 1%Z [7; 5]%Z (OneString "phono3py.yaml") 1 2 = Ok (tr, te) /\
    energies_of te = [Some [62]%Z] /\ energies_of tr = [Some [156]%Z].
Proof. do 2 eexists. split; [vm_compute; reflexivity|]. split; reflexivity. Qed.
Print Assumptions C06_single_string_refuted.

(** Reading the files of one data set a second time leaves the energies unlowered. *)
Theorem C06_reparse_refuted :
  exists x y z,
    new_ds Vasp (Many ["a"]) true true 1%Z None = Ok x /\
    parse_files 0%Z Z.sub Z.add scale (fun s => s) parse_ex [7; 5]%Z x = Ok y /\
    parse_files 0%Z Z.sub Z.add scale (fun s => s) parse_ex [7; 5]%Z y = Ok z /\
    energies_of [y; z] = [Some [81; 178]%Z; Some [100; 200]%Z].
Proof. do 3 eexists. repeat (split; [vm_compute; reflexivity|]). reflexivity. Qed.
Print Assumptions C06_reparse_refuted.
