(** Candidate models: their enumeration and their input files.

    /repo/src/pypolymlp/utils/grid_search/grid_utils.py L10-140 (GtinvAttrs, GaussianAttrs, ParamsGrid);
    /repo/src/pypolymlp/utils/grid_search/grid_enum.py L9-92 (enum_pair_models, enum_gtinv_models, add_single_model);
    /repo/src/pypolymlp/utils/grid_search/grid_io.py L6-35 (save_params);
    /repo/src/pypolymlp/utils/grid_search/api_grid_search.py L19-239 (PolymlpGridSearch);
    /repo/src/pypolymlp/core/data_format.py L263-266 (penalties);
    /repo/src/pypolymlp/core/parser_polymlp_params.py L51-78, L95-138, L140-216 (what set_params reads).

    Simplifications: an integer given for a tuple is the tuple of it; printing and reading of numbers are functions; lines are without
    their end; printing to the terminal is left out; of the input file the tags for energies of atoms, spins, distances and data sets,
    which are not written, are not read. *)
From Verif Require Import Base Num Model.Parser Model.PotentialFile.
From Coq Require Import ZArith.
Import String.StringSyntax.
Local Open Scope string_scope.
Local Open Scope list_scope.

(** [range(a, b, s)] *)
Definition py_range (a b s : Z) : res (list Z) :=
  (if s =? 0 then Err ValueError
   else
     let n := if 0 <? s then (b - a + s - 1) / s else (a - b - s - 1) / (- s) in
     Ok (map (fun i => a + Z.of_nat i * s) (seq 0 (Z.to_nat n))))%Z.
(** [itertools.product] of a list of lists *)
Fixpoint product {A} (ls : list (list A)) : list (list A) :=
  match ls with [] => [[]] | l :: t => flat_map (fun x => map (cons x) (product t)) l end.
(** grid_utils.py L124: [np.all(lp[:-1] - lp[1:] >= 0)] *)
Definition descending (lp : list Z) : bool := forallb (fun q => 0 <=? fst q - snd q)%Z (combine (removelast lp) (tl lp)).

Record attr := mk_attr { t_model : Z; t_order : Z; t_maxl : list Z }.
(** grid_utils.py L127-137 *)
Definition include_attr (m : Z) (lp : list Z) : bool :=
  if (m =? 2)%Z && (2 <? length lp) then false
  else if (m =? 2)%Z && (length lp =? 1) then false
  else if (m =? 2)%Z && (5 <? nth 1 lp 0)%Z then false
  else true.
(** grid_utils.py L114-125 *)
Definition maxl_lists (ubs ints : list Z) (n : nat) : res (list (list Z)) :=
  mapM (fun i => do interval <- get ints i; do ub <- get ubs i; py_range interval (ub + 1)%Z interval) (seq 0 n).
Definition l_list (maxl : list (list Z)) (n : nat) : list (list Z) :=
  flat_map (fun i => filter descending (product (firstn (i + 1) maxl))) (seq 0 n).
(** [_set_gtinv_params] (L105-140) without given attributes *)
Definition make_attrs (types : list Z) (order_ub : Z) (ubs ints : list Z) : res (list attr) :=
  if existsb (fun q => fst q <? snd q)%Z (combine ubs ints) then Err RuntimeError
  else
    let n := Z.to_nat (order_ub - 1) in
    do maxl <- maxl_lists ubs ints n;
    Ok (flat_map (fun m => map (fun lp => mk_attr m (Z.of_nat (length lp) + 1) lp) (filter (include_attr m) (l_list maxl n))) types).

Section Grid.
  Context {F : Type} {NF : Num F} {OF : NumOrd F}.
  (** [np.rint] and [np.round], and the number again *)
  Variables (rint : F -> Z) (ofZ : Z -> F).
  (** [get_atomic_size_scales] (core/utils.py) *)
  Variable sizes : string -> option F.
  Variable pow10 : F -> F.

  Record grid := mk_grid { g_radial : list (F * Z); g_types : list Z; g_maxps : list Z; g_gtinv : bool; g_attrs : option (list attr);
                           g_force : bool; g_stress : bool; g_alpha : list F }.
  (** [__post_init__], [_check_type], [_set_pair_params] (grid_utils.py L73-105) *)
  Definition params_grid (radial : list (F * Z)) (types maxps : list Z) (gtinv : bool) (order_ub : Z) (ubs ints : list Z)
      (attrs : option (list attr)) (force stress : bool) (alpha : list F) : res grid :=
    if negb (length alpha =? 3) then Err RuntimeError
    else if gtinv then
      match attrs with
      | Some l => Ok (mk_grid radial types maxps gtinv (Some l) force stress alpha)
      | None => do l <- make_attrs types order_ub ubs ints; Ok (mk_grid radial types maxps gtinv (Some l) force stress alpha)
      end
    else Ok (mk_grid radial (filter (fun t => t <? 3)%Z types) maxps gtinv attrs force stress alpha).
  (** [get_model_types_pair] (L95-99) *)
  Definition model_types_pair (g : grid) : list Z := if g_gtinv g then [2%Z] else filter (fun t => t <? 3)%Z (g_types g).

  (** PolymlpModelParams and PolymlpParamsSingle, as far as they are set; [None]: a pair model *)
  Record params := mk_params { m_cutoff : F; m_type : Z; m_maxp : Z; m_maxl : Z; m_gtinv : option attr; m_ngauss : Z;
                               m_elements : list string; m_alpha : list F; m_force : bool; m_stress : bool }.
  (** data_format.py L266 *)
  Definition alphas (p : params) : list F := map pow10 (m_alpha p).
  (** [max(...)] *)
  Definition max_Z (l : list Z) : res Z := match l with [] => Err ValueError | x :: t => Ok (fold_left Z.max t x) end.
  Definition max_F (l : list F) : res F := match l with [] => Err ValueError | x :: t => Ok (fold_left (fun m y => if nltb m y then y else m) t x) end.

  Definition enum_pair (g : grid) (els : list string) : list params :=
    flat_map (fun rad => flat_map (fun t => map (fun mp =>
      mk_params (fst rad) t mp 0 None (snd rad) els (g_alpha g) (g_force g) (g_stress g)) (g_maxps g)) (model_types_pair g)) (g_radial g).
  Definition gtinv_params (g : grid) (els : list string) (rad : F * Z) (a : attr) : res params :=
    do ml <- max_Z (t_maxl a);
    Ok (mk_params (fst rad) (t_model a) 2 ml (Some a) (snd rad) els (g_alpha g) (g_force g) (g_stress g)).
  Definition enum_gtinv (g : grid) (els : list string) : res (list params) :=
    match g_attrs g with
    | None => Err TypeError
    | Some l => mapM (fun q => gtinv_params g els (fst q) (snd q)) (list_prod (g_radial g) l)
    end.
  Definition add_single (g : grid) (els : list string) (cutoff : F) (ngauss order : Z) (maxl : list Z) : res params :=
    do ml <- max_Z maxl;
    Ok (mk_params cutoff 4 2 ml (Some (mk_attr 4 order maxl)) ngauss els (g_alpha g) (g_force g) (g_stress g)).

  (** [_auto_cutoff] (api_grid_search.py L31-38) *)
  Definition larger (a b : F) : F := if nltb a b then b else a.
  Definition auto_cutoff (els : list string) : res (list F) :=
    do szs <- mapM (fun e => match sizes e with Some s => Ok s | None => Err KeyError end) els;
    do m <- max_F szs;
    let x := larger (ofZ (rint (ofZ 11 / ofZ 2 * m)%F)) (ofZ 6) in
    let y := larger (ofZ (rint (ofZ 15 / ofZ 2 * m)%F)) (ofZ 8) in
    Ok (if nltb x y then [x; y] else if nltb y x then [y; x] else [x]).
  (** [_auto_gaussians] (L40-53) *)
  Definition auto_gaussians (cutoffs : list F) (nums : option (list Z)) : list (F * Z) :=
    match nums with
    | None => flat_map (fun c => map (fun r => (c, rint ((c + ofZ 1) * r)%F)) [ofZ 1; (ofZ 5 / ofZ 4)%F; (ofZ 3 / ofZ 2)%F]) cutoffs
    | Some ns => list_prod cutoffs ns
    end.

  (** ** The object *)
  Record search := mk_search { s_grid : option grid; s_params : option (list params); s_hybrid : option (list (params * params * nat * nat)) }.
  Definition new_search : search := mk_search None None None.
  Record settings := mk_settings { a_cutoffs : option (list F); a_nums : option (list Z); a_types : list Z; a_maxps : list Z; a_gtinv : bool; a_order_ub : Z;
                                   a_ubs : list Z; a_ints : list Z; a_attrs : option (list attr); a_force : bool; a_stress : bool; a_alpha : list F }.
  (** [set_params] (L55-110) *)
  Definition set_params (els : list string) (a : settings) (s : search) : search * res unit :=
    match (do cs <- match a_cutoffs a with Some l => Ok l | None => auto_cutoff els end;
           params_grid (auto_gaussians cs (a_nums a)) (a_types a) (a_maxps a) (a_gtinv a) (a_order_ub a) (a_ubs a) (a_ints a) (a_attrs a) (a_force a) (a_stress a) (a_alpha a)) with
    | Ok g => (mk_search (Some g) (s_params s) (s_hybrid s), Ok tt)
    | Err e => (s, Err e)
    end.
  Definition held (s : search) : list params := match s_params s with Some l => l | None => [] end.
  (** [enum_pair_models], [enum_gtinv_models] (L119-141) *)
  Definition do_pair (els : list string) (s : search) : search * res unit :=
    match s_grid s with
    | None => (s, Err RuntimeError)
    | Some g => (mk_search (s_grid s) (Some (held s ++ enum_pair g els)) (s_hybrid s), Ok tt)
    end.
  Definition do_gtinv (els : list string) (s : search) : search * res unit :=
    match s_grid s with
    | None => (s, Err RuntimeError)
    | Some g =>
        match enum_gtinv g els with
        | Ok l => (mk_search (s_grid s) (Some (held s ++ l)) (s_hybrid s), Ok tt)
        | Err e => (mk_search (s_grid s) (Some (held s)) (s_hybrid s), Err e)
        end
    end.
  (** [run] (L112-117) *)
  Definition run (els : list string) (s : search) : search * res unit :=
    match do_pair els s with
    | (s', Ok tt) => match s_grid s' with Some g => if g_gtinv g then do_gtinv els s' else (s', Ok tt) | None => (s', Ok tt) end
    | q => q
    end.
  (** [add_complex_models] (L143-179) *)
  Definition add_complex (els : list string) (s : search) : search * res unit :=
    match s_grid s with
    | None => (s, Err RuntimeError)
    | Some g =>
        match (do c <- max_F (map fst (g_radial g)); do n <- max_Z (map snd (g_radial g)); Ok (c, n)) with
        | Err e => (s, Err e)
        | Ok (c, n) =>
            if (15 <=? n)%Z then (s, Ok tt)
            else
              let n' := if (n <? 12)%Z then 12%Z else 15%Z in
              match (do p <- add_single g els c n' 3 [8; 8]%Z; do q <- add_single g els c n' 4 [12; 8; 2]%Z; Ok [p; q]), s_params s with
              | Err e, _ => (s, Err e)
              | Ok _, None => (s, Err AttributeError)
              | Ok l, Some ps => (mk_search (s_grid s) (Some (ps ++ l)) (s_hybrid s), Ok tt)
              end
        end
    end.
  (** [enum_hybrid_models] (L181-211) *)
  Definition hybrid_of (g : grid) (els : list string) (q : nat * params) : res (list (params * params * nat * nat)) :=
    let c := ofZ (rint (m_cutoff (snd q) * ofZ 2 / ofZ 3)%F) in
    let n := rint ((c + ofZ 1) * ofZ 2)%F in
    do a <- add_single g els c n 3 [4; 4]%Z;
    do b <- add_single g els c n 3 [8; 8]%Z;
    Ok [(snd q, a, fst q, 1); (snd q, b, fst q, 2)].
  Definition enum_hybrid (els : list string) (s : search) : search * res unit :=
    match s_grid s, s_params s with
    | None, _ | _, None => (s, Err RuntimeError)
    | Some g, Some ps =>
        match mapM (hybrid_of g els) (combine (seq 0 (length ps)) ps) with
        | Ok l => (mk_search (s_grid s) (s_params s) (Some (concat l)), Ok tt)
        | Err e => (s, Err e)
        end
    end.

  Inductive op := SetParams (a : settings) | Pair | Gtinv | Run | Complex | Hybrid.
  Definition step (els : list string) (s : search) (o : op) : search * res unit :=
    match o with
    | SetParams a => set_params els a s | Pair => do_pair els s | Gtinv => do_gtinv els s | Run => run els s | Complex => add_complex els s | Hybrid => enum_hybrid els s
    end.
  Definition history (els : list string) (ops : list op) : search := fold_left (fun s o => fst (step els s o)) ops new_search.

  (** ** Input files *)
  Variables (showZ : Z -> string) (showF : F -> string) (to_int : string -> res Z) (to_float : string -> res F).
  (** [print] separates by a blank *)
  Definition words (l : list string) : string := String.concat " " l.
  Definition show_bool (b : bool) : string := if b then "True" else "False".
  Definition feature_name (p : params) : string := match m_gtinv p with Some _ => "gtinv" | None => "pair" end.
  (** [save_params]: the lines of the file; IndexError if there are fewer than three numbers for the penalties *)
  Definition save_params (p : params) : res (list string) :=
    match m_alpha p with
    | a0 :: a1 :: a2 :: _ =>
        Ok ([words ["feature_type"; feature_name p]; words ["cutoff"; showF (m_cutoff p)]; words ["n_gaussians"; showZ (m_ngauss p)];
             words ["model_type"; showZ (m_type p)]; words ["max_p"; showZ (m_maxp p)]] ++
            match m_gtinv p with Some a => [words ["gtinv_order"; showZ (t_order a)]; words ("gtinv_maxl" :: map showZ (t_maxl a))] | None => [] end ++
            [""; words ["include_force"; show_bool (m_force p)]; words ["include_stress"; show_bool (m_stress p)];
             words ["reg_alpha_params"; showF a0; showF a1; showF a2]; "";
             words ["n_type"; showZ (Z.of_nat (length (m_elements p)))]; words ("elements" :: m_elements p)])
    | _ => Err IndexError
    end.
  (** [str(n).zfill(4)] and the names of the directories (api_grid_search.py L213-229) *)
  Definition zfill (n : nat) (s : text) : text := repeat (char 48) (n - length s) ++ s.
  Definition directory (id : nat) : text := lit "/polymlp-" ++ zfill 4 (show_nat id).
  Definition directory_hybrid (id hyb : nat) : text := directory id ++ lit "-h" ++ zfill 2 (show_nat hyb).
  Definition save_models (first_id : nat) (s : search) : res (list (text * list string)) :=
    match s_params s with
    | None => Err TypeError
    | Some ps => mapM (fun q => do f <- save_params (snd q); Ok (directory (fst q + first_id) ++ lit "/polymlp.in", f)) (combine (seq 0 (length ps)) ps)
    end.
  Definition save_hybrid (first_id : nat) (s : search) : res (list (text * list string)) :=
    match s_hybrid s with
    | None => Err TypeError
    | Some hs =>
        do l <- mapM (fun '(p, q, i, h) => do f <- save_params p; do f' <- save_params q;
                      Ok [(directory_hybrid (i + first_id) h ++ lit "/polymlp.in.1", f); (directory_hybrid (i + first_id) h ++ lit "/polymlp.in.2", f')]) hs;
        Ok (concat l)
    end.

  (** What is read from an input file (parser_polymlp_params.py): penalties as start, stop, number *)
  Record read := mk_read { r_force : bool; r_stress : bool; r_ntype : Z; r_elements : list string; r_alpha : list F; r_cutoff : F; r_type : Z; r_maxp : Z;
                           r_feature : string; r_order : Z; r_maxl : list Z; r_ngauss : option Z }.
  Definition read_params (p : parsed) : res read :=
    do fs <- force_tags p;
    do n <- get_param to_int p "n_type" (Ok 1%Z);
    do els <- get_params Ok p "elements" (Z.to_nat n) required;
    do al <- get_params to_float p "reg_alpha_params" 3 (Ok [ofZ (-3); ofZ 1; ofZ 5]);
    do _ <- (if length al =? 3 then Ok tt else Err AssertionError);
    do c <- get_param to_float p "cutoff" (Ok (ofZ 6));
    do t <- get_param to_int p "model_type" (Ok 1%Z);
    do mp <- get_param to_int p "max_p" (Ok 1%Z);
    do ft <- get_param Ok p "feature_type" (Ok "gtinv");
    do o <- get_param to_int p "gtinv_order" (Ok 3%Z);
    do ml <- get_params to_int p "gtinv_maxl" (Z.to_nat (o - 1)) (Ok (repeat 2%Z (Z.to_nat (o - 1))));
    do ng <- match dget String.eqb (p_data p) "n_gaussians" with None => Ok None | Some _ => do x <- get_param to_int p "n_gaussians" (Ok 0%Z); Ok (Some x) end;
    do _ <- (if (length els =? Z.to_nat n) then Ok tt else Err AssertionError);
    Ok (mk_read (fst fs) (snd fs) n els al c t mp ft o (ml ++ repeat 2%Z (Z.to_nat (o - 1) - length ml)) ng).
End Grid.
