(** Half and full neighbour lists. *)
From Verif Require Import Base Num Model.Neighbor.

(** Rows of a half neighbour list: every pair is listed under one of its atoms as (other atom, displacement). *)
Definition half_list {F} (rows : list (list (nat * v3 F))) : Prop :=
  forall i j d, i < length rows -> In (j, d) (nth i rows []) -> j < length rows.
(** All neighbours of atom [i]: its own row, and the rows in which it is listed, with the opposite displacement. *)
Definition mirrored {F} {N : Num F} (rows : list (list (nat * v3 F))) (i : nat) : list (nat * v3 F) :=
  nth i rows [] ++
  flat_map (fun k => flat_map (fun jd => if fst jd =? i then [(k, vneg (snd jd))] else []) (nth k rows [])) (seq 0 (length rows)).
(** All displacements multiplied by a factor. *)
Definition scaled_rows {F} {N : Num F} (len : F) (rows : list (list (nat * v3 F))) : list (list (nat * v3 F)) :=
  map (map (fun jd => (fst jd, vscale len (snd jd)))) rows.
