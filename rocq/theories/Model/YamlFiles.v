(** YAML files of structures, of their properties and of self-consistent harmonic calculations: the lines written and what is read from them.

    /repo/src/pypolymlp/utils/yaml_utils.py L13-27 (print_array1d, print_array2d), L30-69 (save_cell), L72-88 (save_cells), L91-104 (load_cell),
      L107-117 (load_cells), L120-153 (save_data), L156-171 (load_data);
    /repo/src/pypolymlp/core/data_format.py L46-60 (PolymlpStructure: volume and check_errors);
    /repo/src/pypolymlp/calculator/sscha/sscha_io.py L18-150 (save_sscha_yaml);
    /repo/src/pypolymlp/calculator/sscha/sscha_data.py L49-61;
    /repo/src/pypolymlp/calculator/sscha/sscha_restart.py L19-76 (Restart), L107-171 (properties, in kJ/mol);
    /repo/src/pypolymlp/core/interface_yaml.py L34-76 (parse_sscha_yamls), L158-171 (parse_property_yamls).

    Simplifications: float64 is a type [F]; repr and float() are functions; arrays of shape (3, n) are the list of their n columns, which are the
    rows of the file.  PyYAML is modelled for the lines that occur: block mappings, block sequences of scalars or flow sequences, plain and single-quoted
    scalars, resolved by the rules of YAML 1.1 as in PyYAML (a float needs a point); other text is rejected.  Files are never cut short by the
    system.  Attributes that are not written (name, masses, ...) are left out. *)
From Verif Require Import Base Model.Structure Model.Parser Model.PotentialFile.
From Coq Require Import Ascii String List.
Import String.StringSyntax.
Local Open Scope string_scope.
Local Open Scope list_scope.
Local Open Scope nat_scope.

Definition quote_c : ascii := char 39.
Definition hash_c : ascii := char 35.
Definition minus_c : ascii := char 45.
Definition plus_c : ascii := char 43.
Definition dot_c : ascii := char 46.
Definition show_Z (z : Z) : text := if (z <? 0)%Z then minus_c :: show_nat (Z.to_nat (- z)) else show_nat (Z.to_nat z).
Definition is_digit (c : ascii) : bool := match digit c with Some _ => true | None => false end.
Definition text_eqb (a b : text) : bool := if list_eq_dec Ascii.ascii_dec a b then true else false.

(** ** Scalars: what PyYAML makes of a plain scalar *)
Section Scalars.
  Context {F : Type}.
  Variable repr : F -> text.
  Variable fl : text -> option F.                   (** float() of a string *)
  Inductive sc := SNum (x : F) | SInt (z : Z) | SStr (s : text) | SBool (b : bool) | SNull.
  Definition unsigned (t : text) : text := match t with c :: t' => if is_c c minus_c || is_c c plus_c then t' else t | [] => [] end.
  (** [-+]?[0-9]+ *)
  Definition is_int (t : text) : bool := match unsigned t with [] => false | ds => forallb is_digit ds end.
  Definition int_of (t : text) : Z :=
    let n := Z.of_nat (digits 0 (unsigned t)) in match t with c :: _ => if is_c c minus_c then (- n)%Z else n | [] => n end.
  (** [-+]?[0-9]+\.[0-9]*([eE][-+][0-9]+)? ; also .5 and .inf are left to the rest *)
  Fixpoint skip_digits (t : text) : text := match t with c :: t' => if is_digit c then skip_digits t' else t | [] => [] end.
  Definition is_exp (t : text) : bool :=
    match t with
    | [] => true
    | e :: s :: ds => (is_c e (char 101) || is_c e (char 69)) && (is_c s minus_c || is_c s plus_c) && match ds with [] => false | _ => forallb is_digit ds end
    | _ => false
    end.
  Definition is_float (t : text) : bool :=
    match unsigned t with
    | c :: t' => is_digit c && match skip_digits t' with d :: rest => is_c d dot_c && is_exp (skip_digits rest) | [] => false end
    | [] => false
    end.
  Definition bools : list (text * bool) :=
    [(lit "True", true); (lit "False", false); (lit "true", true); (lit "false", false); (lit "TRUE", true); (lit "FALSE", false); (lit "yes", true); (lit "no", false);
     (lit "Yes", true); (lit "No", false); (lit "YES", true); (lit "NO", false); (lit "on", true); (lit "off", false); (lit "On", true); (lit "Off", false); (lit "ON", true); (lit "OFF", false)].
  Definition nulls : list text := [lit "null"; lit "Null"; lit "NULL"; lit "~"].
  Definition bool_of (t : text) : option bool := option_map snd (find (fun e => text_eqb (fst e) t) bools).
  Definition resolve (t : text) : sc :=
    match bool_of t with
    | Some b => SBool b
    | None =>
        if existsb (text_eqb t) nulls then SNull
        else if is_int t then SInt (int_of t)
        else if is_float t then match fl t with Some x => SNum x | None => SStr t end
        else SStr t
    end.
  (** Characters that a plain scalar of these files may have; spaces, colons and the like are left to quotes *)
  Definition plain_char (c : ascii) : bool := let n := nat_of_ascii c in
    ((48 <=? n) && (n <=? 57)) || ((65 <=? n) && (n <=? 90)) || ((97 <=? n) && (n <=? 122)) || (n =? 43) || (n =? 45) || (n =? 46) || (n =? 47) || (n =? 95).
  Definition quoted_char (c : ascii) : bool := let n := nat_of_ascii c in (32 <=? n) && (n <=? 126) && negb (n =? 39) && negb (n =? 44) && negb (n =? 91) && negb (n =? 93).
  Definition scalar (t : text) : option sc :=
    match t with
    | [] => None
    | c :: t' =>
        if is_c c quote_c then
          match rev t' with
          | d :: body => if is_c d quote_c && forallb quoted_char body then Some (SStr (rev body)) else None
          | [] => None
          end
        else if forallb plain_char t then Some (resolve t) else None
    end.
  Fixpoint trim_l (t : text) : text := match t with c :: t' => if is_c c blank_c then trim_l t' else t | [] => [] end.
  Definition trim (t : text) : text := rev (trim_l (rev (trim_l t))).
  Inductive val := One (s : sc) | Flow (l : list sc).
  Definition all_some {A} (l : list (option A)) : option (list A) := fold_right (fun a r => match a, r with Some a, Some r => Some (a :: r) | _, _ => None end) (Some []) l.
  (** A value on one line; [pieces] splits at commas *)
  Definition value (t : text) : option val :=
    match t with
    | c :: t' =>
        if is_c c open_c then
          match rev t' with
          | d :: body => if is_c d close_c then
                           match rev body with
                           | [] => Some (Flow [])
                           | body => option_map Flow (all_some (map (fun p => scalar (trim p)) (pieces comma_c [] body)))
                           end
                         else None
          | [] => None
          end
        else option_map One (scalar t)
    | [] => None
    end.

  (** ** Blocks *)
  Inductive yaml := Val (v : val) | Seq (l : list val) | Map (l : list (text * yaml)).
  Fixpoint indent (t : text) : nat := match t with c :: t' => if is_c c blank_c then S (indent t') else 0 | [] => 0 end.
  Definition tokens (lines : list text) : list (nat * text) :=
    map (fun l => (indent l, trim l)) (filter (fun l => match trim_l l with [] => false | _ => true end) lines).
  Definition item (c : text) : option text := match c with a :: b :: t => if is_c a minus_c && is_c b blank_c then Some (trim t) else None | _ => None end.
  (** key and what follows the first colon *)
  Fixpoint key_of (c : text) : option (text * text) :=
    match c with
    | [] => None
    | a :: t => if is_c a colon_c then match t with [] => Some ([], []) | b :: _ => if is_c b blank_c then Some ([], trim t) else None end
                else match key_of t with Some (k, r) => Some (a :: k, r) | None => None end
    end.
  (** Lines of the given indent, each with the lines below it; first: the lines before any *)
  Fixpoint group (n : nat) (toks : list (nat * text)) : list (nat * text) * list (text * list (nat * text)) :=
    match toks with
    | [] => ([], [])
    | (i, c) :: t => let '(lead, es) := group n t in if (i =? n) then ([], (c, lead) :: es) else ((i, c) :: lead, es)
    end.
  Fixpoint block (depth : nat) (toks : list (nat * text)) : option yaml :=
    match toks with
    | [] => Some (Val (One SNull))
    | (n, c) :: _ =>
        match item c with
        | Some _ => option_map Seq (all_some (map (fun tok => if (fst tok =? n) then match item (snd tok) with Some t => value t | None => None end else None) toks))
        | None =>
            match depth with
            | 0 => None
            | S depth =>
                if forallb (fun tok => (n <=? fst tok)) toks then
                  option_map Map (all_some (map (fun e =>
                    match key_of (fst e) with
                    | Some (k, []) => option_map (pair k) (block depth (snd e))
                    | Some (k, v) => match snd e with [] => option_map (fun v => (k, Val v)) (value v) | _ => None end
                    | None => None
                    end) (snd (group n toks))))
                else None
            end
        end
    end.
  (** yaml.safe_load *)
  Definition safe_load (lines : list text) : option yaml := block 2 (tokens lines).
  (** d[k]; a key that occurs again replaces the value *)
  Definition ykey (y : yaml) (k : text) : res yaml :=
    match y with
    | Map l => match find (fun e => text_eqb (fst e) k) (rev l) with Some e => Ok (snd e) | None => Err KeyError end
    | _ => Err TypeError
    end.

  (** ** Writing: print with values *)
  Inductive py := PF (x : F) | PI (z : Z) | PQ (s : text) | PS (s : text) | PB (b : bool) | PNone.
  (** str(x), inside a list repr(x): only strings differ; [PQ] is a string in a list, [PS] one that is printed alone *)
  Definition show (v : py) : text :=
    match v with
    | PF x => repr x | PI z => show_Z z | PQ s => quote_c :: s ++ [quote_c] | PS s => s | PB true => lit "True" | PB false => lit "False" | PNone => lit "None"
    end.
  Fixpoint join (l : list text) : text := match l with [] => [] | [a] => a | a :: t => a ++ comma_c :: blank_c :: join t end.
  Definition show_list (l : list py) : text := open_c :: join (map show l) ++ [close_c].
  Definition sp (n : nat) : text := repeat blank_c n.
  Definition header (i : nat) (k : string) : text := sp i ++ lit k ++ [colon_c].
  (** print("  key:  ", v): [pad] blanks before the value, one of them by print *)
  Definition entry (i : nat) (k : string) (pad : nat) (v : text) : text := sp i ++ lit k ++ colon_c :: sp (S pad) ++ v.
  Definition print_array1d (l : list py) (tag : string) (i : nat) : list text := header i tag :: map (fun d => sp i ++ lit " - " ++ show d) l.
  Definition print_array2d (rows : list (list py)) (tag : string) (i : nat) : list text := header i tag :: map (fun d => sp i ++ lit " - " ++ show_list d) rows.
  Definition empty_line : text := [].

  (** ** Structures *)
  Variable det : list (list F) -> F.
  Inductive matrix := M3 (l : list Z) | M9 (rows : list (list Z)).
  (** A loaded volume may be a string: PyYAML takes 1e-05 for one *)
  Record cell := mk_cell { axis : list (list F); positions : list (list F); n_atoms : list nat; types : list nat; elements : list text;
                           volume : option sc; n_units : option Z; matrix_of : option matrix }.
  Definition floats (l : list (list F)) : list (list py) := map (map PF) l.
  Definition nats (l : list nat) : text := show_list (map (fun n => PI (Z.of_nat n)) l).
  Definition of_sc (v : sc) : py := match v with SNum x => PF x | SInt z => PI z | SStr s => PS s | SBool b => PB b | SNull => PNone end.
  Definition rows_of (m : matrix) : list (list Z) :=
    match m with M3 l => map (fun i => map (fun j => if (i =? j) then nth i l 0%Z else 0%Z) (seq 0 3)) (seq 0 3) | M9 rows => rows end.
  (** The lines, and the exception: a supercell needs its matrix (enumerate over a 0-dimensional array) *)
  Definition save_cell (c : cell) (tag : string) : list text * res unit :=
    let head := [header 0 tag] ++ print_array2d (floats (axis c)) "axis" 2 ++ print_array2d (floats (positions c)) "positions" 2
      ++ [entry 2 "n_atoms" 2 (nats (n_atoms c)); entry 2 "types" 4 (nats (types c)); entry 2 "elements" 1 (show_list (map PQ (elements c)))]
      ++ match volume c with Some v => [entry 2 "volume" 3 (show (of_sc v))] | None => [] end in
    if String.eqb tag "supercell" then
      let head := head ++ match n_units c with Some n => [entry 2 "n_unitcells" 1 (show_Z n)] | None => [] end in
      match matrix_of c with
      | Some m => (head ++ print_array2d (map (map PI) (rows_of m)) "supercell_matrix" 2 ++ [empty_line], Ok tt)
      | None => (head ++ [header 2 "supercell_matrix"], Err TypeError)
      end
    else (head ++ [empty_line], Ok tt).
  Definition save_cells (uc super : cell) : list text * res unit :=
    let '(a, ra) := save_cell uc "unitcell" in
    match ra with Err e => (a, Err e) | Ok _ => let '(b, rb) := save_cell super "supercell" in (a ++ b, rb) end.

  (** np.array(x, dtype=float) of rows; float(x) *)
  Definition to_float (s : sc) (of_Z : Z -> F) : res F :=
    match s with
    | SNum x => Ok x | SInt z => Ok (of_Z z) | SStr t => match fl t with Some x => Ok x | None => Err ValueError end
    | SBool b => Ok (of_Z (if b then 1 else 0)%Z) | SNull => Err TypeError
    end.
  Variable of_Z : Z -> F.
  Definition flow (v : val) : res (list sc) := match v with Flow l => Ok l | One _ => Err ValueError end.
  (** rows of different lengths are refused *)
  Definition same_len {A} (l : list (list A)) : bool := match l with [] => true | a :: t => forallb (fun b => (length b =? length a)) t end.
  Definition rows (y : yaml) : res (list (list sc)) :=
    match y with Seq l => do r <- mapM flow l; if same_len r then Ok r else Err ValueError | _ => Err ValueError end.
  Definition float_rows (y : yaml) : res (list (list F)) := do r <- rows y; mapM (mapM (fun s => to_float s of_Z)) r.
  Definition nat_of (s : sc) : res nat := match s with SInt z => if (z <? 0)%Z then Err ValueError else Ok (Z.to_nat z) | _ => Err TypeError end.
  Definition nat_list (y : yaml) : res (list nat) := match y with Val (Flow l) => mapM nat_of l | _ => Err TypeError end.
  Definition string_list (y : yaml) : res (list text) := match y with Val (Flow l) => mapM (fun s => match s with SStr t => Ok t | _ => Err TypeError end) l | _ => Err TypeError end.
  Definition int_rows (y : yaml) : res (list (list Z)) := do r <- rows y; mapM (mapM (fun s => match s with SInt z => Ok z | _ => Err TypeError end)) r.
  Definition optional {A} (y : yaml) (k : string) (f : yaml -> res A) : res (option A) := match ykey y (lit k) with Ok v => do a <- f v; Ok (Some a) | Err _ => Ok None end.
  (** [load_cell] with the construction of the structure *)
  Definition load_cell (data : yaml) (tag : string) : res cell :=
    do d <- ykey data (lit tag);
    do a <- ykey d (lit "axis"); do a <- float_rows a;
    do p <- ykey d (lit "positions"); do p <- float_rows p;
    do n <- ykey d (lit "n_atoms"); do n <- nat_list n;
    do t <- ykey d (lit "types"); do t <- nat_list t;
    do e <- ykey d (lit "elements"); do e <- string_list e;
    do v <- optional d "volume" (fun y => match y with Val (One s) => Ok s | _ => Err TypeError end);
    do u <- optional d "n_unitcells" (fun y => match y with Val (One (SInt z)) => Ok z | _ => Err TypeError end);
    do m <- match ykey d (lit "supercell_matrix") with Ok (Val (One SNull)) | Err _ => Ok None | Ok y => do r <- int_rows y; Ok (Some r) end;
    do _ <- py_assert ((length a =? 3) && forallb (fun r => (length r =? 3)) a);
    do _ <- py_assert (forallb (fun r => (length r =? 3)) p && (length p =? length e) && (length e =? length t) && (length e =? sum n));
    Ok (mk_cell a p n t e (Some match v with Some v => v | None => SNum (det a) end) u (option_map M9 m)).
  Definition load_cells (data : yaml) : res (cell * cell) :=
    do u <- load_cell data "unitcell";
    do s <- load_cell data "supercell";
    do d <- ykey data (lit "supercell");
    do m <- ykey d (lit "supercell_matrix"); do m <- int_rows m;
    Ok (u, mk_cell (axis s) (positions s) (n_atoms s) (types s) (elements s) (volume s) (n_units s) (Some (M9 m))).

  (** ** Properties of a structure *)
  Definition save_data (c : cell) (energy : F) (forces : option (list (list F))) (stress : option (list F)) : list text :=
    fst (save_cell c "structure") ++ [entry 0 "energy" 0 (repr energy)]
    ++ match forces with Some f => print_array2d (floats f) "forces" 0 | None => [] end
    ++ match stress with Some s => [entry 0 "stress" 0 (show_list (map PF s))] | None => [] end.
  (** np.array without a type: numbers, or strings as soon as there is one *)
  Inductive arr := Nums (l : list (list F)) | Strs (l : list (list sc)).
  Definition is_str (s : sc) : bool := match s with SStr _ => true | _ => false end.
  Definition array (l : list (list sc)) : res arr :=
    if existsb (existsb is_str) l then Ok (Strs l) else do r <- mapM (mapM (fun s => to_float s of_Z)) l; Ok (Nums r).
  Definition one (y : yaml) : res sc := match y with Val (One s) => Ok s | _ => Err TypeError end.
  Definition flow_of (y : yaml) : res (list sc) := match y with Val (Flow l) => Ok l | _ => Err TypeError end.
  Definition load_data (data : yaml) : res (cell * (F * arr * arr)) :=
    do c <- load_cell data "structure";
    do e <- ykey data (lit "energy"); do e <- one e; do e <- to_float e of_Z;
    do f <- ykey data (lit "forces"); do f <- rows f; do f <- array f;
    do s <- ykey data (lit "stress"); do s <- flow_of s; do s <- array [s];
    Ok (c, (e, f, s)).
  (** [parse_property_yamls] for one file; the energies are put in an array afterwards *)
  Definition sym9 {A} (d : A) (l : list A) : list (list A) := let g i := nth i l d in [[g 0; g 3; g 5]; [g 3; g 1; g 4]; [g 5; g 4; g 2]].
  Definition parse_property (data : yaml) : res (cell * sc * arr * arr) :=
    do c <- load_cell data "structure";
    do e <- ykey data (lit "energy"); do e <- one e;
    do f <- ykey data (lit "forces"); do f <- rows f; do f <- array f;
    do s <- ykey data (lit "stress"); do s <- flow_of s;
    if (length s <? 6) then Err IndexError else
    do s <- array (sym9 SNull s);
    Ok (c, e, f, s).

  (** ** Results of self-consistent harmonic calculations *)
  Record data := mk_data { d_temp : py; d_static : F; d_harm : F; d_anh : F; d_free : F; d_entropy : F; d_cv : F; d_delta : F; d_converge : bool; d_imaginary : bool;
                           d_harmpot : F; d_avgpot : F; d_forces : list (list F); d_sforces : list (list F); d_stress : list F; d_sstress : list F }.
  Record params := mk_params { s_pot : list text; s_multi : bool; s_init : option Z; s_final : option Z; s_tol : F; s_mixing : F; s_mesh : list Z;
                               s_unit : cell; s_super : cell; s_matrix : list (list F) }.
  Variable add : F -> F -> F.
  Variable per_ev : F -> F.                          (** x / EVtoKJmol *)
  Variable trunc : F -> Z.                           (** astype(int) *)
  (** [symmetrize_properties] *)
  Variable sym_f : list (list F) -> list (list F).
  Variable sym_s : list F -> list F.
  Definition add_rows (a b : list (list F)) : list (list F) := map (fun '(x, y) => map (fun '(u, v) => add u v) (combine x y)) (combine a b).
  Definition opt_int (o : option Z) : text := match o with Some z => show_Z z | None => lit "None" end.
  Definition print_forces (f : list (list F)) (tag : string) : list text := print_array2d (floats f) tag 0 ++ [empty_line].
  Definition print_stress (z : F) (s : list F) (tag : string) : list text := print_array2d (floats (sym9 z s)) tag 0 ++ [empty_line].
  Definition save_sscha (p : params) (logs : list data) (symmetrize : bool) : list text * res unit :=
    match rev logs with
    | [] => ([], Err IndexError)
    | d :: _ =>
        let head := [header 0 "parameters";
             entry 2 "pot" 5 (if s_multi p then show_list (map PQ (s_pot p)) else concat (s_pot p));
             entry 2 "temperature" 3 (show (d_temp d)); entry 2 "n_steps" 7 (opt_int (s_init p)); entry 2 "n_steps_final" 1 (opt_int (s_final p));
             entry 2 "tolerance" 5 (repr (s_tol p)); entry 2 "mixing" 8 (repr (s_mixing p)); entry 2 "mesh_phonon" 3 (show_list (map PI (s_mesh p))); empty_line;
             header 0 "units";
             entry 2 "free_energy" 11 (lit "kJ/mol"); entry 2 "static_potential" 6 (lit "kJ/mol"); entry 2 "entropy" 15 (lit "J/K/mol");
             entry 2 "harmonic_heat_capacity" 0 (lit "J/K/mol"); entry 2 "force" 17 (lit "eV/angstrom"); entry 2 "stress_tensor" 9 (lit "eV/unitcell"); empty_line;
             header 0 "properties";
             entry 2 "free_energy" 11 (repr (d_free d)); entry 2 "harmonic_free_energy" 2 (repr (d_harm d)); entry 2 "anharmonic_free_energy" 0 (repr (d_anh d));
             entry 2 "static_potential" 6 (repr (d_static d)); entry 2 "entropy" 15 (repr (d_entropy d)); entry 2 "harmonic_heat_capacity" 0 (repr (d_cv d)); empty_line;
             header 0 "properties_eV";
             entry 2 "free_energy" 11 (repr (per_ev (d_free d))); entry 2 "harmonic_free_energy" 2 (repr (per_ev (d_harm d)));
             entry 2 "anharmonic_free_energy" 0 (repr (per_ev (d_anh d))); entry 2 "static_potential" 6 (repr (per_ev (d_static d))); empty_line;
             header 0 "status";
             entry 2 "delta_fc" 2 (repr (d_delta d)); entry 2 "converge" 2 (show (PB (d_converge d))); entry 2 "imaginary" 1 (show (PB (d_imaginary d))); empty_line] in
        let '(u, ru) := save_cell (s_unit p) "unitcell" in
        match ru with Err e => (head ++ u, Err e) | Ok _ =>
        let head := head ++ u ++ print_array2d (map (map (fun x => PI (trunc x))) (s_matrix p)) "supercell_matrix" 0 ++ [empty_line] in
        let '(s, rs) := save_cell (s_super p) "supercell" in
        match rs with Err e => (head ++ s, Err e) | Ok _ =>
        let f := d_forces d in let st := d_stress d in
        let tf := add_rows f (d_sforces d) in let ts := map (fun '(u, v) => add u v) (combine st (d_sstress d)) in
        let z := d_free d in
        (head ++ s ++ print_forces f "average_forces" ++ print_stress z st "average_stress_tensor" ++ print_forces tf "total_forces" ++ print_stress z ts "total_stress_tensor"
         ++ (if symmetrize then print_forces (sym_f f) "symmetrized_average_forces" ++ print_stress z (sym_s st) "symmetrized_average_stress_tensor"
               ++ print_forces (sym_f tf) "symmetrized_total_forces" ++ print_stress z (sym_s ts) "symmetrized_total_stress_tensor" else [])
         ++ [header 0 "logs"] ++ print_array1d (map (fun l => PF (d_free l)) logs) "free_energy" 2 ++ [empty_line] ++ print_array1d (map (fun l => PF (d_harmpot l)) logs) "harmonic_potential" 2 ++ [empty_line]
         ++ print_array1d (map (fun l => PF (d_avgpot l)) logs) "average_potential" 2 ++ [empty_line] ++ print_array1d (map (fun l => PF (d_anh l)) logs) "anharmonic_free_energy" 2 ++ [empty_line], Ok tt)
        end end
    end.

  (** [Restart] *)
  Record restart := mk_restart { k_pot : val; k_temp : sc; k_static : sc; k_harm : option sc; k_anh : option sc; k_free : sc; k_entropy : sc; k_cv : sc;
                                 k_delta : res sc; k_converge : res sc; k_imaginary : res sc; k_logs : yaml; k_unit : cell; k_matrix : list (list Z) }.
  Definition value_of (y : yaml) : res val := match y with Val v => Ok v | _ => Err TypeError end.
  Definition field (y : yaml) (k : string) : res sc := do v <- ykey y (lit k); one v.
  Definition load_sscha (data : yaml) (pot : option val) : res restart :=
    do par <- ykey data (lit "parameters");
    do pot <- match pot with Some v => Ok v | None => do v <- ykey par (lit "pot"); value_of v end;
    do prop <- ykey data (lit "properties");
    do st <- ykey data (lit "status");
    do logs <- ykey data (lit "logs");
    do temp <- field par "temperature";
    do static <- field prop "static_potential";
    do free <- field prop "free_energy";
    do ent <- field prop "entropy";
    do cv <- field prop "harmonic_heat_capacity";
    do uc <- load_cell data "unitcell";
    do m <- ykey data (lit "supercell_matrix"); do m <- int_rows m;
    let opt k := match field prop k with Ok s => Some s | Err _ => None end in
    Ok (mk_restart pot temp static (opt "harmonic_free_energy") (opt "anharmonic_free_energy") free ent cv (field st "delta_fc") (field st "converge") (field st "imaginary") logs uc m).
  (** x * 1.0, for a number that PyYAML has read *)
  Definition times_one (s : sc) : res F := match s with SNum x => Ok x | SInt z => Ok (of_Z z) | SBool b => Ok (of_Z (if b then 1 else 0)%Z) | SStr _ | SNull => Err TypeError end.
  Definition free_energy (r : restart) : res F := times_one (k_free r).
  Definition static_potential (r : restart) : res F := times_one (k_static r).
  Definition harmonic_free_energy (r : restart) : res F := match k_harm r with Some s => times_one s | None => Err TypeError end.
  Definition anharmonic_free_energy (r : restart) : res F := match k_anh r with Some s => times_one s | None => Err TypeError end.
  Definition entropy (r : restart) : res F := times_one (k_entropy r).
  Definition heat_capacity (r : restart) : res F := times_one (k_cv r).
End Scalars.
