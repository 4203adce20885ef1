(** Tables of polynomial invariants: the writer polyinv/binary/convert_binary.py, the two readers polyinv/binary/check_binary.py
    and cxx/src/polymlp/polymlp_gtinv_binary.cpp, polymlp_gtinv_data.cpp, and the selection in polymlp_read_gtinv.cpp.
    A file is a list of bytes (integers from 0 to 255), a double is its 64 bits. Memory is unlimited. *)
From Verif Require Import Base.
Local Open Scope Z_scope.

(** The k bytes of u, lowest first, and the number of bytes. *)
Fixpoint le (k : nat) (u : Z) : list Z := match k with O => [] | S k' => u mod 256 :: le k' (u / 256) end.
Fixpoint le_val (l : list Z) : Z := match l with [] => 0 | b :: t => b + 256 * le_val t end.
Definition signed (u : Z) : Z := if u <? 2 ^ 31 then u else u - 2 ^ 32.

Definition table : Type := list (list Z) * list (list Z) * list (list (list Z)).
Definition magic : list Z := [68; 65; 84; 65].

(** *** convert_binary.py *)
(** [write_int32] (L14-16), and the rows of np.int32 (L33-34, L56-57). struct.error and OverflowError appear as ValueError. *)
Definition write_int (x : Z) : res (list Z) := if (- 2 ^ 31 <=? x) && (x <? 2 ^ 31) then Ok (le 4 (x mod 2 ^ 32)) else Err ValueError.
(** The rows of np.float64 (L44-46). *)
Definition write_word (w : Z) : res (list Z) := Ok (le 8 w).
Definition write_list {A} (wr : A -> res (list Z)) (l : list A) : res (list Z) :=
  do n <- write_int (Z.of_nat (length l)); do bs <- mapM wr l; Ok (n ++ concat bs).
(** [save_2d_int] (L25-34), [save_2d_double] (L37-46), [save_3d_int] (L49-57), [save_all] (L60-68). *)
Definition save_all (t : table) : res (list Z) :=
  let '(l, c, m) := t in
  do n <- write_int 3;
  do t1 <- write_int 1; do b1 <- write_list (write_list write_int) l;
  do t2 <- write_int 2; do b2 <- write_list (write_list write_word) c;
  do t3 <- write_int 3; do b3 <- write_list (write_list (write_list write_int)) m;
  Ok (magic ++ n ++ (t1 ++ b1) ++ (t2 ++ b2) ++ (t3 ++ b3)).

(** *** Both readers: values in turn; a list is its length and its values. *)
Definition reader (S A : Type) : Type := S -> res (A * S).
Section Readers.
  Context {S : Type}.
  Fixpoint times {A} (rd : reader S A) (n : nat) : reader S (list A) := fun s =>
    match n with
    | O => Ok ([], s)
    | Datatypes.S n' => do (a, s) <- rd s; do (l, s) <- times rd n' s; Ok (a :: l, s)
    end.
  (** [neg]: what a negative length does. *)
  Definition rlist (neg : option exn) (int : reader S Z) {A} (rd : reader S A) : reader S (list A) := fun s =>
    do (n, s) <- int s;
    if n <? 0 then match neg with Some e => Err e | None => Ok ([], s) end else times rd (Z.to_nat n) s.
End Readers.

(** *** check_binary.py *)
(** [read_int32] (L7-9), [read_double] (L12-14): struct.error (ValueError) at the end of the file. *)
Definition p_bytes (k : nat) : reader (list Z) (list Z) := fun s => if (k <=? length s)%nat then Ok (firstn k s, skipn k s) else Err ValueError.
Definition p_int : reader (list Z) Z := fun s => do (b, s) <- p_bytes 4 s; Ok (signed (le_val b), s).
Definition p_word : reader (list Z) Z := fun s => do (b, s) <- p_bytes 8 s; Ok (le_val b, s).
(** [read_2d_int], [read_2d_double], [read_3d_int] (L17-58): range of a negative number is empty. *)
Definition p_list {A} (rd : reader (list Z) A) := rlist None p_int rd.
(** [load_all] (L61-92) *)
Definition load_all (file : list Z) : res table :=
  if negb (if list_eq_dec Z.eq_dec (firstn 4 file) magic then true else false) then Err ValueError
  else
    do (n, s) <- p_int (skipn 4 file); do _ <- py_assert (n =? 3);
    do (t1, s) <- p_int s; do _ <- py_assert (t1 =? 1); do (l, s) <- p_list (p_list p_int) s;
    do (t2, s) <- p_int s; do _ <- py_assert (t2 =? 2); do (c, s) <- p_list (p_list p_word) s;
    do (t3, s) <- p_int s; do _ <- py_assert (t3 =? 3); do (m, s) <- p_list (p_list (p_list p_int)) s;
    Ok (l, c, m).

(** *** polymlp_gtinv_binary.cpp, polymlp_gtinv_data.cpp *)
Section Cxx.
  (** What the uninitialised bytes of the n-th read that failed hold. *)
  Variable junk : nat -> list Z.
  (** Bytes that are left, and the number of failed reads. A read past the end takes what is left; all later ones take nothing. *)
  Definition stream : Type := list Z * nat.
  Definition c_bytes (k : nat) (s : stream) : list Z * stream :=
    if (k <=? length (fst s))%nat then (firstn k (fst s), (skipn k (fst s), snd s)) else (fst s ++ skipn (length (fst s)) (firstn k (junk (snd s))), ([], S (snd s))).
  (** [read_int32] (binary L11-21), [read_double] (L23-40) *)
  Definition c_int : reader stream Z := fun s => let '(b, s) := c_bytes 4 s in Ok (signed (le_val b), s).
  Definition c_word : reader stream Z := fun s => let '(b, s) := c_bytes 8 s in Ok (le_val b, s).
  (** [read_2d_int], [read_3d_int], [read_2d_double] (binary L42-90): std::length_error (ValueError) for negative lengths. *)
  Definition c_list {A} (rd : reader stream A) := rlist (Some ValueError) c_int rd.
  (** [GtinvData::parse] (data L35-66): [None] is a file that is not there. std::invalid_argument is ValueError. *)
  Definition parse (files : Z -> Z -> option (list Z)) (order version : Z) : res table :=
    if order <? 1 then Err ValueError else if 6 <? order then Err ValueError
    else if version <? 1 then Err ValueError else if 2 <? version then Err ValueError
    else
      match files version order with
      | None => Err RuntimeError
      | Some file =>
          let '(_, s) := c_bytes 4 (file, O) in
          do (_, s) <- c_int s;
          do (_, s) <- c_int s; do (l, s) <- c_list (c_list c_int) s;
          do (_, s) <- c_int s; do (c, s) <- c_list (c_list c_word) s;
          do (_, s) <- c_int s; do (m, s) <- c_list (c_list (c_list c_int)) s;
          Ok (l, c, m)
      end.

  (** *** polymlp_read_gtinv.cpp *)
  (** A selected invariant: its l, the indices of its terms, its coefficients (L52-54). Reads past the end of a vector are IndexError. *)
  Definition invariant : Type := list Z * list (list Z) * list Z.
  Definition lm_index (l m : Z) : Z := l * l + l + m.
  (** The loop over the table (L35-55) *)
  Definition screen_row (order : nat) (maxl : Z) (t : table) (i : nat) : res (option invariant) :=
    let '(ls, cs, ms) := t in
    do lcomb <- get ls i;
    do last <- get (rev lcomb) 0;
    if maxl <? last then Ok None
    else
      do mc <- get ms i;
      do lm <- mapM (fun mcomb => mapM (fun k => do l <- get lcomb k; do m <- get mcomb k; Ok (lm_index l m)) (seq 0 order)) mc;
      do c <- get cs i;
      Ok (Some (lcomb, lm, c)).
  Definition kept {A} (l : list (option A)) : list A := flat_map (fun o => match o with Some a => [a] | None => [] end) l.
  (** [screening] (L23-57) *)
  Definition screening (files : Z -> Z -> option (list Z)) (gtinv_order : Z) (gtinv_maxl : list Z) (version : Z) : res (list invariant) :=
    do parts <- mapM (fun order =>
        do t <- parse files (Z.of_nat order) version;
        do maxl <- (if (1 <? order)%nat then get gtinv_maxl (order - 2) else Ok 0);
        do rows <- mapM (screen_row order maxl t) (seq 0 (length (fst (fst t))));
        Ok (kept rows)) (seq 1 (Z.to_nat gtinv_order));
    Ok (concat parts).
End Cxx.
