(** Data sets and the four ways of loading them.

    /repo/src/pypolymlp/core/dataset.py L22-719 (Dataset, DatasetList, set_datasets_from_...)
    and /repo/src/pypolymlp/core/parser_polymlp_params.py L230-288 (set_datasets).

    Simplifications: the content of files is an oracle [parse]; the sscha status flag is an
    oracle [imaginary]; [sorted] on file names is an oracle [fsort]; [glob] is not modelled
    (the file list is an argument); [name] and [verbose] are left out; [split_files] on a
    string (never called by the loaders) is RuntimeError.  Objects are values: the loaders
    never share a Dataset between two lists. *)
From Verif Require Import Base Model.Split Model.Structure Model.DatasetDFT.
From Coq Require String.

Inductive dtype := Vasp | Sscha | Electron | Phono3py | Openmx.
Definition is_phono3py (t : dtype) : bool := match t with Phono3py => true | _ => false end.
Definition is_sscha (t : dtype) : bool := match t with Sscha => true | _ => false end.

(** [files]: one string or a list of strings. *)
Inductive fileset := Single (f : string) | Many (l : list string).

Section Dataset.
  Context {W S : Type}.
  Variables (wzero : W) (wsub wadd : W -> W -> W) (wscale : nat -> W -> W).
  Variable wmul : W -> W -> W.
  Variable s_natoms : S -> list nat.
  Variable parse : dtype -> fileset -> res (dft W S).
  Variable imaginary : string -> bool.
  Variable fsort : list string -> list string.

  (** Attributes of Dataset (dataset.py L62-89). *)
  Record ds := mk_ds {
    ds_type : dtype;
    ds_files : fileset;
    ds_force : bool;
    ds_stress : bool;
    ds_weight : W;
    ds_dft : option (dft W S);
    ds_done : bool            (** _finished_atomic_energy *)
  }.

  (** [Dataset.__init__] with [files] (L59-89): phono3py wants one string. *)
  Definition new_ds (t : dtype) (f : fileset) (inf ins : bool) (w : W) (d : option (dft W S)) : res ds :=
    match t, f with
    | Phono3py, Many _ => Err RuntimeError
    | _, _ => Ok (mk_ds t f inf ins w d false)
    end.

  (** [split_files] (L142-174). *)
  Definition split_files (x : ds) (p q : Z) : res (ds * ds) :=
    match ds_dft x with
    | Some _ => Err RuntimeError
    | None =>
        if is_phono3py (ds_type x) then Err RuntimeError
        else match ds_files x with
             | Single _ => Err RuntimeError
             | Many l =>
                 do (tr, te) <- split_train_test l p q;
                 do a <- new_ds (ds_type x) (Many tr) (ds_force x) (ds_stress x) (ds_weight x) None;
                 do b <- new_ds (ds_type x) (Many te) (ds_force x) (ds_stress x) (ds_weight x) None;
                 Ok (a, b)
             end
    end.

  (** [split_dft] (L176-206); the file name of the parts is immaterial. *)
  Variable part_name : string.
  Definition split_dft (x : ds) (p q : Z) : res (ds * ds) :=
    match ds_dft x with
    | None => Err RuntimeError
    | Some d =>
        do (tr, te) <- d_split d p q;
        do a <- new_ds (ds_type x) (Single part_name) (ds_force x) (ds_stress x) (ds_weight x) tr;
        do b <- new_ds (ds_type x) (Single part_name) (ds_force x) (ds_stress x) (ds_weight x) te;
        Ok (a, b)
    end.

  Definition with_dft (x : ds) (d : dft W S) (done : bool) : ds :=
    mk_ds (ds_type x) (ds_files x) (ds_force x) (ds_stress x) (ds_weight x) (Some d) done.

  (** [slice_dft] (L208-222); [None.slice] is AttributeError. *)
  Definition slice_dft (x : ds) (b e : nat) : res ds :=
    match ds_dft x with
    | None => Err AttributeError
    | Some d => new_ds (ds_type x) (Single part_name) (ds_force x) (ds_stress x) (ds_weight x)
                       (Some (d_slice b e d))
    end.

  (** [sort_dft] (L224-227). *)
  Variable argsort : list Z -> list nat.
  Definition sort_dft (x : ds) : res ds :=
    match ds_dft x with
    | None => Err AttributeError
    | Some d => do d' <- d_sort argsort d; Ok (with_dft x d' (ds_done x))
    end.

  (** [subtract_atomic_energy] (L295-310). *)
  Definition subtract (a : list W) (x : ds) : res ds :=
    match ds_dft x with
    | None => Err RuntimeError
    | Some d =>
        if ds_done x then Ok x
        else do d' <- apply_atomic_energy W S wzero s_natoms wsub wadd wscale a d;
             Ok (with_dft x d' true)
    end.

  (** [parse_files] (L229-247). *)
  Definition parse_files (a : list W) (x : ds) : res ds :=
    do d <- parse (ds_type x) (ds_files x);
    subtract a (with_dft x d (ds_done x)).

  (** [split_imaginary] (L428-452 and interface_yaml.py L79-95); on a string the loop runs
      over its characters, which is not modelled (RuntimeError). *)
  Definition split_imag (wimag : W) (x : ds) : res (list ds) :=
    match ds_files x with
    | Single _ => Err RuntimeError
    | Many l =>
        let no := filter (fun f => negb (imaginary f)) l in
        let im := filter imaginary l in
        do a <- match no with
                | [] => Ok []
                | _ => do y <- new_ds (ds_type x) (Many no) (ds_force x) (ds_stress x) (ds_weight x) None; Ok [y]
                end;
        do b <- match im with
                | [] => Ok []
                | _ => do y <- new_ds (ds_type x) (Many im) (ds_force x) (ds_stress x)
                                      (wmul (ds_weight x) wimag) None; Ok [y]
                end;
        Ok (a ++ b)
    end.

  (** [DatasetList.split_imaginary] (L505-514). *)
  Definition split_imag_list (wimag : W) (l : list ds) : res (list ds) :=
    do ll <- mapM (split_imag wimag) l; Ok (concat ll).

  (** [set_datasets_from_multiple_filesets] (L527-564). *)
  Definition from_multiple (t : dtype) (inf ins : bool) (w : W) (a : list W)
             (train test : list (list string)) : res (list ds * list ds) :=
    do tr <- mapM (fun f => new_ds t (Many (fsort f)) inf ins w None) train;
    do te <- mapM (fun f => new_ds t (Many (fsort f)) inf ins w None) test;
    do tr1 <- mapM (parse_files a) tr;
    do te1 <- mapM (parse_files a) te;
    Ok (tr1, te1).

  (** [set_datasets_from_single_fileset] (L567-637). *)
  Inductive source := TrainTest (train test : list string) | OneString (f : string) | Files (l : list string).
  Definition from_single (t : dtype) (inf ins : bool) (w wimag : W) (a : list W)
             (src : source) (p q : Z) : res (list ds * list ds) :=
    do (tr, te, parse_end) <-
       match src with
       | TrainTest train test =>
           do x <- new_ds t (Many (fsort train)) inf ins w None;
           do y <- new_ds t (Many (fsort test)) inf ins w None;
           Ok (x, y, true)
       | OneString f =>
           do x <- new_ds t (Single f) inf ins w None;
           do x1 <- parse_files a x;
           do (u, v) <- split_dft x1 p q;
           Ok (u, v, false)
       | Files l =>
           do x <- new_ds t (Many (fsort l)) inf ins w None;
           do (u, v) <- split_files x p q;
           Ok (u, v, true)
       end;
    do trl <- (if is_sscha t then split_imag_list wimag [tr] else Ok [tr]);
    do tel <- (if is_sscha t then split_imag_list wimag [te] else Ok [te]);
    do trl1 <- (if (parse_end : bool) then mapM (parse_files a) trl else Ok trl);
    do tel1 <- (if (parse_end : bool) then mapM (parse_files a) tel else Ok tel);
    do trl2 <- mapM (subtract a) trl1;
    do tel2 <- mapM (subtract a) tel1;
    Ok (trl2, tel2).

  (** [set_datasets_from_structures] (L640-719), from data sets already constructed. *)
  Inductive dsource := Whole (d : dft W S) | Parts (tr te : dft W S).
  Definition from_structures (t : dtype) (inf ins : bool) (w : W) (a : list W)
             (src : dsource) (p q : Z) : res (list ds * list ds) :=
    do (tr, te) <-
       match src with
       | Whole d => do x <- new_ds t (Single part_name) inf ins w (Some d); split_dft x p q
       | Parts d1 d2 =>
           do x <- new_ds t (Single part_name) inf ins w (Some d1);
           do y <- new_ds t (Single part_name) inf ins w (Some d2);
           Ok (x, y)
       end;
    do x <- subtract a tr;
    do y <- subtract a te;
    Ok ([x], [y]).

  (** [set_datasets] of the input-file parser (parser_polymlp_params.py L230-288); a line is a
      tag and the data set made from its strings. *)
  Inductive tag := TrainData | TestData | Data | DataMD.
  Definition classify (p q : Z) (acc : list ds * list ds * list ds) (l : tag * ds)
    : list ds * list ds * list ds :=
    let '(tr, te, ns) := acc in
    let '(g, x) := l in
    match g with
    | TrainData => (tr ++ [x], te, ns)
    | TestData => (tr, te ++ [x], ns)
    | Data => match split_files x p q with
              | Ok (u, v) => (tr ++ [u], te ++ [v], ns)
              | Err _ => (tr, te, ns ++ [x])
              end
    | DataMD => (tr, te, ns ++ [x])
    end.
  Definition from_lines (t : dtype) (wimag : W) (a : list W) (lines : list (tag * ds)) (p q : Z)
    : res (list ds * list ds) :=
    let '(tr, te, ns) := fold_left (classify p q) lines ([], [], []) in
    do tr1 <- (if is_sscha t then split_imag_list wimag tr else Ok tr);
    do te1 <- (if is_sscha t then split_imag_list wimag te else Ok te);
    do tr2 <- mapM (parse_files a) tr1;
    do te2 <- mapM (parse_files a) te1;
    do ns2 <- mapM (parse_files a) ns;
    do parts <- mapM (fun x => split_dft x p q) ns2;
    Ok (tr2 ++ map fst parts, te2 ++ map snd parts).
End Dataset.

Arguments mk_ds {W S}. Arguments ds_type {W S}. Arguments ds_files {W S}.
Arguments ds_force {W S}. Arguments ds_stress {W S}. Arguments ds_weight {W S}.
Arguments ds_dft {W S}. Arguments ds_done {W S}. Arguments ds : clear implicits.
