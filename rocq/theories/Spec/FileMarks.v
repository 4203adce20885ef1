(** What it means that every file carries the settings of its source. *)
From Verif Require Import Base Model.DatasetDFT Model.Dataset Model.Parser Spec.Load.

(** A file with its weight, force flag and stress flag. *)
Definition marked (W : Type) : Type := string * W * bool * bool.
Definition marks {W S} (x : ds W S) : list (marked W) :=
  map (fun f => (f, ds_weight x, ds_force x, ds_stress x)) (files_of x).

(** Files [l] under the same settings; results of SSCHA runs with imaginary modes have their
    weight multiplied by [wimag]. *)
Definition weigh {W} (wmul : W -> W -> W) (imaginary : string -> bool) (t : dtype) (wimag w : W) (f : string) : W :=
  match t with
  | Sscha => if imaginary f then wmul w wimag else w
  | _ => w
  end.
Definition marks_of {W} (wmul : W -> W -> W) (imaginary : string -> bool) (t : dtype) (wimag w : W)
           (inf ins : bool) (l : list string) : list (marked W) :=
  map (fun f => (f, weigh wmul imaginary t wimag w f, inf, ins)) l.

(** The same settings. *)
Definition same_settings {W S} (x y : ds W S) : Prop :=
  ds_weight y = ds_weight x /\ ds_force y = ds_force x /\ ds_stress y = ds_stress x.

(** Lines [data_md], and [data] lines naming one file that holds everything, are read as a
    whole; the others are lists of files. *)
Definition whole_line {W S} (l : tag * ds W S) : bool :=
  match fst l with
  | DataMD => true
  | Data => match ds_files (snd l) with Single _ => true | Many _ => false end
  | _ => false
  end.
Definition has_tag {W S} (g : tag) (l : tag * ds W S) : bool :=
  match g, fst l with
  | TrainData, TrainData | TestData, TestData | Data, Data | DataMD, DataMD => true
  | _, _ => false
  end.
Definition lines_marks {W S} (wmul : W -> W -> W) (imaginary : string -> bool) (t : dtype) (wimag : W)
           (lines : list (tag * ds W S)) : list (marked W) :=
  flat_map (fun l => marks_of wmul imaginary t wimag (ds_weight (snd l)) (ds_force (snd l)) (ds_stress (snd l))
                              (files_of (snd l))) lines.

(** What a line of words says: files, force flag, stress flag and weight.  [asked_force] and
    [asked_stress] are the parameters of the whole run. *)
Definition listed_line {W S} (wone : W) (globbed : string -> list string) (float_of : string -> res W)
           (path : string) (words : list string) (asked_force asked_stress : bool) (x : ds W S) : Prop :=
  exists force,
    ds_files x = Many (globbed path) /\
    ds_force x = (force && asked_force)%bool /\ ds_stress x = (force && asked_stress)%bool /\
    match words with
    | [_] => force = true /\ ds_weight x = wone
    | [_; s] => strtobool s = Ok force /\ ds_weight x = wone
    | _ :: s :: n :: _ => strtobool s = Ok force /\ float_of n = Ok (ds_weight x)
    | [] => False
    end.
