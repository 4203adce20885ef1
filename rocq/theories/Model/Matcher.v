(** Normal forms of fractional coordinates.

    /repo/src/pypolymlp/calculator/utils/structure_matcher/matcher.py L9-22 (_argsort_2d, _sort_positions), L25-39 (_round_positions),
    L42-53 (_apply_origin_shifts_1d), L56-92 (normalize_positions).

    Simplifications: coordinates are rational numbers with exact arithmetic; rounded coordinates are integers in units of the last decimal,
    so that the tolerance, which is smaller than this unit, is equality; [np.arange(0, 1, 1 / n)] are the n multiples of 1 / n. *)
From Verif Require Import Base Model.ThermoGrid.
From Coq Require Import QArith ZArith.
Local Open Scope nat_scope.

(** [np.round(x - np.rint(x), decimals)], a half becomes minus a half (L32-33) *)
Definition grid (d : nat) (x : Q) : Z :=
  let r := key d (x - inject_Z (rint x)) in if (2 * r =? unit_of d)%Z then (- r)%Z else r.
Definition coord (d : nat) (z : Z) : Q := (inject_Z z / inject_Z (unit_of d))%Q.
Definition qsum (l : list Q) : Q := fold_right Qplus 0%Q l.
Definition average (l : list Q) : Q := (qsum l / inject_Z (Z.of_nat (length l)))%Q.
(** One row with [use_center] (L34-38) *)
Definition centred (d : nat) (xs : list Q) : list Q :=
  let r := map (fun x => coord d (grid d x)) xs in map (fun p => (p - average r)%Q) r.

(** L9-11: lexicographic order; [np.lexsort] of rows by their first column, then the second, ... *)
Fixpoint lex (a b : list Z) : bool :=
  match a, b with
  | [], _ => true
  | _, [] => false
  | x :: a', y :: b' => if (x <? y)%Z then true else if (y <? x)%Z then false else lex a' b'
  end.
Fixpoint insert_by {A} (le : A -> A -> bool) (x : A) (l : list A) : list A :=
  match l with [] => [x] | y :: t => if le x y then x :: l else y :: insert_by le x t end.
Definition sort_by {A} (le : A -> A -> bool) (l : list A) : list A := fold_right (insert_by le) [] l.
(** L50, L91: the row of [_argsort_2d(...)[0]] *)
Definition least (c : list Z) (cs : list (list Z)) : list Z := fold_left (fun m x => if lex m x then m else x) cs c.
Fixpoint row_eqb (a b : list Z) : bool :=
  match a, b with [], [] => true | x :: a', y :: b' => (x =? y)%Z && row_eqb a' b' | _, _ => false end.

(** matcher.py L42-53, [_apply_origin_shifts_1d]; 1.0 / natom *)
Definition shifts (d : nat) (pos1d : list Q) : list (list Z) :=
  let pos := map (fun p => (p - average pos1d)%Q) pos1d in
  let n := length pos in
  map (fun k => map (fun p => grid d (p + inject_Z (Z.of_nat k) / inject_Z (Z.of_nat n))%Q) pos) (seq 0 n).
Definition origin_shifts (d : nat) (pos1d : list Q) : res (list (list Z)) :=
  if length pos1d =? 0 then Err ZeroDivisionError else
  let cands := shifts d pos1d in
  match map (sort_by Z.leb) cands with
  | [] => Err IndexError
  | c :: cs => let rep := least c cs in Ok (filter (fun c => row_eqb (sort_by Z.leb c) rep) cands)
  end.

(** Columns of three rows (L18) *)
Definition col := (Z * Z * Z)%type.
Definition cols (x y z : list Z) : list col := combine (combine x y) z.
Definition col_leb (a b : col) : bool := let '(x, y, z) := a in let '(x', y', z') := b in lex [x; y; z] [x'; y'; z'].
Definition flat (l : list col) : list Z := map (fun c => fst (fst c)) l ++ map (fun c => snd (fst c)) l ++ map snd l.
(** matcher.py L14-22, [_sort_positions] *)
Fixpoint sort_positions (n_atoms : list nat) (l : list col) : list col :=
  match n_atoms with [] => l | n :: t => sort_by col_leb (firstn n l) ++ sort_positions t (skipn n l) end.
(** L91, [reshape((3, -1))]; matcher.py L56-92, [normalize_positions] *)
Definition unflat (n : nat) (f : list Z) : list Z * list Z * list Z := (firstn n f, firstn n (skipn n f), skipn n (skipn n f)).
Definition normalize (d : nat) (x y z : list Q) (n_atoms : list nat) : res (list Z * list Z * list Z) :=
  do cx <- origin_shifts d (centred d x);
  do cy <- origin_shifts d (centred d y);
  do cz <- origin_shifts d (centred d z);
  let cands := map (fun q => flat (sort_positions n_atoms (cols (fst (fst q)) (snd (fst q)) (snd q)))) (list_prod (list_prod cx cy) cz) in
  match cands with
  | [] => Err IndexError
  | c :: cs => Ok (unflat (length x) (least c cs))
  end.
