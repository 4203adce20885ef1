(** Potential files: writing them and reading them by Python and by C++.

    /repo/src/pypolymlp/core/io_polymlp_yaml.py L17-84 (save_mlp_yaml), L87-154 (load_mlp_yaml);
    /repo/src/pypolymlp/core/data_format.py L89-137 (PolymlpGtinvParams), L240-328 (PolymlpParamsSingle, params_elements);
    /repo/src/pypolymlp/cxx/src/polymlp/polymlp_parse_potential.cpp L10-256 (replace, split, split_list, ParsePolymlpYaml, parse_polymlp);
    /repo/src/pypolymlp/cxx/src/compute/py_params.cpp L11-60 (convert_params_dict_to_feature_params);
    /repo/src/pypolymlp/cxx/src/compute/polymlp_eval.cpp L12-19 (doubling of the coefficients).

    Simplifications: text is a list of lines of ASCII characters; integers are natural numbers written in decimal; printing and reading of
    floating-point numbers are functions ([show], [fmt], [stod]); reading of YAML by PyYAML is external: the Python reader gets the printed
    values (coefficients after the rounding [rnd] of their printed form); undefined behaviour of C++ (indices out of range) is IndexError;
    files of the C++ reader are complete (no line is missing after the counts). *)
From Verif Require Import Base Num Model.Structure Model.SpinParams Model.Parser.
From Coq Require String Ascii DecimalNat.
Import String.StringSyntax.
Local Open Scope string_scope.
Local Open Scope list_scope.
Local Open Scope nat_scope.

Definition text := list ascii.
Definition lit (s : string) : text := String.list_ascii_of_string s.
Definition name (t : text) : string := String.string_of_list_ascii t.
Definition char (n : nat) : ascii := Ascii.ascii_of_nat n.
Definition blank_c : ascii := char 32.
Definition comma_c : ascii := char 44.
Definition colon_c : ascii := char 58.
Definition open_c : ascii := char 91.
Definition close_c : ascii := char 93.
Definition is_c (c d : ascii) : bool := Ascii.eqb c d.

(** ** Decimal numbers: [str(n)] and [std::stoi] (leading white space, digits, anything) *)
Fixpoint of_uint (d : Decimal.uint) : text :=
  match d with
  | Decimal.Nil => [] | Decimal.D0 d => char 48 :: of_uint d | Decimal.D1 d => char 49 :: of_uint d | Decimal.D2 d => char 50 :: of_uint d
  | Decimal.D3 d => char 51 :: of_uint d | Decimal.D4 d => char 52 :: of_uint d | Decimal.D5 d => char 53 :: of_uint d | Decimal.D6 d => char 54 :: of_uint d
  | Decimal.D7 d => char 55 :: of_uint d | Decimal.D8 d => char 56 :: of_uint d | Decimal.D9 d => char 57 :: of_uint d
  end.
Definition show_nat (n : nat) : text := of_uint (Nat.to_uint n).
Definition cspace (c : ascii) : bool := let n := Ascii.nat_of_ascii c in ((9 <=? n) && (n <=? 13)) || (n =? 32).
Definition digit (c : ascii) : option nat := let n := Ascii.nat_of_ascii c in if (48 <=? n) && (n <=? 57) then Some (n - 48) else None.
Fixpoint digits (acc : nat) (s : text) : nat := match s with [] => acc | c :: t => match digit c with Some d => digits (10 * acc + d) t | None => acc end end.
Fixpoint stoi (s : text) : res nat :=
  match s with
  | [] => Err ValueError
  | c :: t => if cspace c then stoi t else match digit c with Some d => Ok (digits d t) | None => Err ValueError end
  end.

(** ** Text functions of the C++ reader *)
(** [split] (L21-31): pieces between delimiters without the empty ones *)
Fixpoint pieces (d : ascii) (cur s : text) : list text :=
  match s with [] => [cur] | c :: t => if is_c c d then cur :: pieces d [] t else pieces d (cur ++ [c]) t end.
Definition split (d : ascii) (s : text) : list text := filter (fun p => match p with [] => false | _ => true end) (pieces d [] s).
(** [replace(str, ",", " ")] (L10-18) *)
Definition commas (s : text) : text := map (fun c => if is_c c comma_c then blank_c else c) s.
(** [while (!ss.eof()){ ss >> tmp; elems.push_back(tmp); }] (L44-47): an extraction that finds nothing leaves [tmp] as it was *)
Fixpoint extract (tmp cur s : text) : list text :=
  match s with
  | [] => match cur with [] => [tmp] | _ => [cur] end
  | c :: t => if cspace c then match cur with [] => extract tmp [] t | _ => cur :: extract cur [] t end else extract tmp (cur ++ [c]) t
  end.
(** [ss >> tmp] once *)
Fixpoint word (cur s : text) : text :=
  match s with [] => cur | c :: t => if cspace c then match cur with [] => word [] t | _ => cur end else word (cur ++ [c]) t end.
(** [split_list] (L33-56) *)
Definition split_list (s : text) : res (list text) :=
  if existsb (fun c => is_c c open_c) s then
    do str <- get (split open_c s) 1; do str <- get (split close_c str) 0; Ok (extract [] [] (commas str))
  else Ok [word [] s].

(** ** The C++ reader *)
Definition fields := list (string * list text).
Record cstate := mk_cstate { c_params : fields; c_rows : list (list text); c_pairs : list (list (list text)) }.
(** Lines still to be consumed by [assign_exceptional_parameters]: the header line, rows, pairs of lines *)
Inductive mode := Top | RowsHeader (n : nat) | Rows (n : nat) | PairsHeader (n : nat) | Pairs (n : nat) | PairSecond (n : nat) (i j : nat).
Definition rows_left (n : nat) : mode := match n with 0 => Top | _ => Rows n end.
Definition pairs_left (n : nat) : mode := match n with 0 => Top | _ => Pairs n end.
Definition fget (d : fields) (k : string) : list text := match dget String.eqb d k with Some l => l | None => [] end.
Fixpoint set_nth {A} (l : list A) (i : nat) (a : A) : res (list A) :=
  match l, i with [], _ => Err IndexError | _ :: t, 0 => Ok (a :: t) | x :: t, S i => do t' <- set_nth t i a; Ok (x :: t') end.
Definition set_pair {A} (m : list (list A)) (i j : nat) (a : A) : res (list (list A)) := do r <- get m i; do r' <- set_nth r j a; set_nth m i r'.
(** One line: the loop of the constructor (L68-81), [assign_exceptional_parameters] (L86-114), [parse_2d] (L116-126) *)
Definition read_line (q : cstate * mode) (line : text) : res (cstate * mode) :=
  let '(st, m) := q in
  match m with
  | Top =>
      match split colon_c line with
      | [] | [_] => Ok (st, Top)
      | k :: v :: _ =>
          let key := name (word [] k) in
          do toks <- split_list v;
          let st := mk_cstate (dset String.eqb (c_params st) key toks) (c_rows st) (c_pairs st) in
          if String.eqb key "n_pair_params" then do t <- get toks 0; do n <- stoi t; Ok (mk_cstate (c_params st) [] (c_pairs st), RowsHeader n)
          else if String.eqb key "n_type_pairs" then
            let n_types := length (fget (c_params st) "elements") in
            do t <- get toks 0; do n <- stoi t; Ok (mk_cstate (c_params st) (c_rows st) (repeat (repeat [] n_types) n_types), PairsHeader n)
          else Ok (st, Top)
      end
  | RowsHeader n => Ok (st, rows_left n)
  | Rows n => do toks <- split_list line; Ok (mk_cstate (c_params st) (c_rows st ++ [toks]) (c_pairs st), rows_left (n - 1))
  | PairsHeader n => Ok (st, pairs_left n)
  | Pairs n => do toks <- split_list line; do a <- get toks 0; do b <- get toks 1; do i <- stoi a; do j <- stoi b; Ok (st, PairSecond n i j)
  | PairSecond n i j => do toks <- split_list line; do p <- set_pair (c_pairs st) i j toks; Ok (mk_cstate (c_params st) (c_rows st) p, pairs_left (n - 1))
  end.
Definition read_lines (lines : list text) : res cstate := do q <- foldM read_line (mk_cstate [] [] [], Top) lines; Ok (fst q).

Section Files.
  Context {F : Type} {N : Num F} {G : Type}.
  Local Open Scope num_scope.
  Variables (show fmt : F -> text) (stod : text -> res F) (rnd : F -> F) (mass_of : text -> res F) (g0 : G) (readgtinv : nat -> list nat -> nat -> G).

  Record gtinv := mk_gtinv { g_order : nat; g_maxl : list nat; g_version : nat }.
  (** [PolymlpGtinvParams] (L105-137): check and the invariants it generates *)
  Definition gtinv_check (g : gtinv) : res unit := py_assert (g_order g - 1 <=? length (g_maxl g))%nat.
  Definition gtinv_lists (g : gtinv) : G := if (0 <? g_order g)%nat then readgtinv (g_order g) (g_maxl g) (g_version g) else g0.
  (** All attributes of PolymlpModelParams except those of the pair table, which [SpinParams.params] holds *)
  Record basis := mk_basis { b_cutoff : F; b_model_type : nat; b_max_p : nat; b_max_l : nat; b_feature : text; b_gtinv : gtinv; b_pair_type : text; b_pair_params : list (list F) }.
  Notation params := (params text F (list nat)).
  (** The object: the arguments (kept in _params_elements), the attributes after spin doubling and the two optional attributes that were passed *)
  Record object := mk_object { o_copy : params; o_now : params; o_basis : basis; o_full : option (nat * list nat) }.
  (** The construction; [pair_params_conditional] is present *)
  Definition construct (p : params) (b : basis) (full : option (nat * list nat)) : res object :=
    do _ <- gtinv_check (b_gtinv b); do q <- post_init text F (list nat) p; Ok (mk_object p (fst q) b full).

  (** ** The writer *)
  Inductive value := VInt (n : nat) | VFloat (x : F) | VWord (w : text) | VInts (l : list nat) | VFloats (l : list F) | VCoeffs (l : list F) | VWords (l : list text)
    | VRows (l : list (list F)) | VPairs (l : list ((nat * nat) * list nat)).
  (** [print("key:<pad>", value)], [print()] *)
  Inductive item := Entry (key : string) (pad : nat) (v : value) | Blank.
  Fixpoint join (sep : text) (l : list text) : text := match l with [] => [] | [a] => a | a :: t => a ++ sep ++ join sep t end.
  Definition brackets (l : list text) : text := [open_c] ++ join (lit ", ") l ++ [close_c].
  Definition show_value (v : value) : text :=
    match v with
    | VInt n => show_nat n | VFloat x => show x | VWord w => w
    | VInts l => brackets (map show_nat l) | VFloats l => brackets (map show l) | VCoeffs l => brackets (map fmt l) | VWords l => brackets l
    | VRows _ | VPairs _ => []
    end.
  Definition label (key : string) (pad : nat) : text := lit key ++ [colon_c] ++ repeat blank_c pad.
  Definition render (i : item) : list text :=
    match i with
    | Blank => [[]]
    | Entry key pad (VRows l) => label key pad :: map (fun r => lit "- " ++ brackets (map show r)) l
    | Entry key pad (VPairs l) =>
        label key pad :: flat_map (fun q => [lit "- atom_type_pair:      " ++ brackets (map show_nat [fst (fst q); snd (fst q)]); lit "  pair_params_indices: " ++ brackets (map show_nat (snd q))]) l
    | Entry key pad v => [label key pad ++ [blank_c] ++ show_value v]
    end.
  Definition text_eqb (a b : text) : bool := String.eqb (name a) (name b).
  (** [save_mlp_yaml] (L17-84); arrays of different lengths do not divide *)
  Definition save (o : object) (coeffs scales : list F) : res (list item) :=
    let p := o_copy o in let b := o_basis o in
    let cond := match p_pairs _ _ _ p with Some d => d | None => [] end in
    do mass <- mapM mass_of (p_elements _ _ _ (o_now o));
    do c <- (if (length coeffs =? length scales)%nat then Ok (map (fun q => fst q / snd q) (combine coeffs scales)) else Err ValueError);
    Ok ([Entry "elements" 5 (VWords (p_elements _ _ _ p));
         Entry "enable_spins" 1 (VInts (match p_spins _ _ _ p with None => map (fun _ => 0%nat) (p_elements _ _ _ p) | Some l => map (fun s : bool => if s then 1%nat else 0%nat) l end));
         Entry "cutoff" 7 (VFloat (b_cutoff b)); Entry "pair_type" 4 (VWord (b_pair_type b)); Entry "feature_type" 1 (VWord (b_feature b));
         Entry "model_type" 3 (VInt (b_model_type b)); Entry "max_p" 8 (VInt (b_max_p b)); Entry "max_l" 8 (VInt (b_max_l b)); Blank] ++
        (if text_eqb (b_feature b) (lit "gtinv") then
           [Entry "gtinv_order" 2 (VInt (g_order (b_gtinv b))); Entry "gtinv_maxl" 3 (VInts (g_maxl (b_gtinv b))); Entry "gtinv_sym" 4 (VInts (map (fun _ => 0%nat) (g_maxl (b_gtinv b))));
            Entry "gtinv_version" 0 (VInt (g_version (b_gtinv b))); Blank] else []) ++
        [Entry "electrostatic" 0 (VInt 0); Entry "mass" 9 (VFloats mass); Blank;
         Entry "n_pair_params" 0 (VInt (length (b_pair_params b))); Entry "pair_params" 0 (VRows (b_pair_params b)); Blank;
         Entry "n_type_pairs" 0 (VInt (length cond)); Entry "type_pairs" 0 (VPairs cond); Blank] ++
        (match o_full o with
         | Some (f, idx) => [Entry "type_full" 3 (VInt f); Entry "type_indices" 0 (VInts idx)]
         | None => [Entry "type_full" 3 (VInt 1); Entry "type_indices" 0 (VInts (seq 0 (p_n_type _ _ _ p)))]
         end) ++
        [Blank; Entry "n_coeffs" 0 (VInt (length coeffs)); Entry "coeffs" 0 (VCoeffs c)]).
  Definition lines_of (items : list item) : list text := flat_map render items.

  (** ** The Python reader *)
  Definition yget (d : list item) (k : string) : res value :=
    match find (fun i => match i with Entry key _ _ => String.eqb k key | Blank => false end) d with Some (Entry _ _ v) => Ok v | _ => Err KeyError end.
  Definition as_int (v : value) : res nat := match v with VInt n => Ok n | _ => Err TypeError end.
  Definition as_float (v : value) : res F := match v with VFloat x => Ok x | _ => Err TypeError end.
  Definition as_word (v : value) : res text := match v with VWord w => Ok w | _ => Err TypeError end.
  Definition as_ints (v : value) : res (list nat) := match v with VInts l => Ok l | _ => Err TypeError end.
  Definition as_floats (v : value) : res (list F) := match v with VFloats l => Ok l | VCoeffs l => Ok (map rnd l) | _ => Err TypeError end.
  Definition as_words (v : value) : res (list text) := match v with VWords l => Ok l | _ => Err TypeError end.
  Definition as_rows (v : value) : res (list (list F)) := match v with VRows l => Ok l | _ => Err TypeError end.
  Definition as_pairs (v : value) : res (list ((nat * nat) * list nat)) := match v with VPairs l => Ok l | _ => Err TypeError end.
  (** [load_mlp_yaml] (L87-154): object, mass, coefficients. A missing enable_spins is caught (L111-116). *)
  Definition load (d : list item) : res (object * list F * list F) :=
    do v <- yget d "elements"; do els <- as_words v; let n := length els in
    do v <- yget d "mass"; do mass <- as_floats v;
    let spins := match (do v <- yget d "enable_spins"; as_ints v) with Ok l => Some l | Err _ => None end in
    do v <- yget d "feature_type"; do feature <- as_word v;
    do g <- (if text_eqb feature (lit "gtinv") then
               do v <- yget d "gtinv_order"; do order <- as_int v; do v <- yget d "gtinv_maxl"; do maxl <- as_ints v; do v <- yget d "gtinv_version"; do version <- as_int v;
               Ok (mk_gtinv order maxl version)
             else Ok (mk_gtinv 0 [] 1));
    do v <- yget d "type_pairs"; do pairs <- as_pairs v; let cond := fold_left (fun acc q => dict_set (list nat) acc (fst q) (snd q)) pairs [] in
    do v <- yget d "cutoff"; do cutoff <- as_float v; do v <- yget d "model_type"; do model_type <- as_int v;
    do v <- yget d "max_p"; do max_p <- as_int v; do v <- yget d "max_l"; do max_l <- as_int v;
    do v <- yget d "pair_type"; do pair_type <- as_word v; do v <- yget d "pair_params"; do pair_params <- as_rows v;
    do v <- yget d "type_full"; do full <- as_int v; do v <- yget d "type_indices"; do idx <- as_ints v;
    do o <- construct (mk_params text F (list nat) n els (match spins with Some l => Some (map (fun _ => 0) l) | None => None end)
                                 (match spins with Some l => Some (map (fun s => negb (s =? 0)%nat) l) | None => None end) (Some cond))
                      (mk_basis cutoff model_type max_p max_l feature g pair_type pair_params) (Some (full, idx));
    do v <- yget d "coeffs"; do coeffs <- as_floats v;
    Ok (o, mass, coeffs).

  (** ** What the C++ evaluator is built from *)
  Record feature_params := mk_fp { f_n_type : nat; f_params : list (list F); f_cond : list (list (list nat)); f_cutoff : F; f_pair_type : text; f_feature : text;
    f_model_type : nat; f_maxp : nat; f_maxl : nat; f_gtinv : G }.
  (** [convert_params_dict_to_feature_params]: entries (j, i), j <= i, of the dict; the rest of the square is empty *)
  Definition py_cond (n : nat) (d : list ((nat * nat) * list nat)) : res (list (list (list nat))) :=
    mapM (fun j => mapM (fun i => if (j <=? i)%nat then match dict_get (list nat) d (j, i) with Some l => Ok l | None => Err KeyError end else Ok []) (seq 0 n)) (seq 0 n).
  Definition of_object (o : object) (coeffs : list F) : res (feature_params * list F) :=
    let p := o_now o in let b := o_basis o in
    do d <- (match p_pairs _ _ _ p with Some d => Ok d | None => Err TypeError end);
    do cond <- py_cond (p_n_type _ _ _ p) d;
    Ok (mk_fp (p_n_type _ _ _ p) (b_pair_params b) cond (b_cutoff b) (b_pair_type b) (b_feature b) (b_model_type b) (b_max_p b) (b_max_l b) (gtinv_lists (b_gtinv b)),
        map (fun c => (1 + 1) * c) coeffs).
  (** [params[key][0]] *)
  Definition first (st : cstate) (k : string) : res text := get (fget (c_params st) k) 0.
  (** [parse_polymlp] (L214-256): parameters, coefficients, elements, mass *)
  Definition of_file (lines : list text) : res (feature_params * list F * list text * list F) :=
    do st <- read_lines lines;
    let els := fget (c_params st) "elements" in
    do t <- first st "cutoff"; do cutoff <- stod t;
    do pair_type <- first st "pair_type"; do feature <- first st "feature_type";
    do t <- first st "model_type"; do model_type <- stoi t; do t <- first st "max_p"; do maxp <- stoi t; do t <- first st "max_l"; do maxl <- stoi t;
    do g <- (if text_eqb feature (lit "gtinv") then
               do t <- first st "gtinv_order"; do order <- stoi t; do ml <- mapM stoi (fget (c_params st) "gtinv_maxl"); do t <- first st "gtinv_version"; do version <- stoi t;
               Ok (readgtinv order ml (if (version =? 2)%nat then 2%nat else 1%nat))
             else Ok g0);
    do coeffs <- mapM stod (fget (c_params st) "coeffs");
    do rows <- mapM (mapM stod) (c_rows st);
    do cond <- mapM (mapM (mapM stoi)) (c_pairs st);
    do mass <- mapM stod (fget (c_params st) "mass");
    do _ <- mapM stoi (fget (c_params st) "type_indices");
    Ok (mk_fp (length els) rows cond cutoff pair_type feature model_type maxp maxl g, map (fun c => c * (1 + 1)) coeffs, els, mass).
End Files.
