(** Linear features, their products and derivatives, polynomial terms.
    Source: src/pypolymlp/cxx/src/polymlp/polymlp_features.cpp, polymlp_features_utils.cpp,
    polymlp_features_mapping_utils.cpp, polymlp_features_polynomial.cpp, polymlp_products.(h,cpp).
    Simplifications: order-parameter vectors are functions of the index, other vectors are lists read with a
    default (reading out of range is undefined behaviour in C++); [1e-20] is the parameter [tol]; [release_memory], which frees maps
    after construction, has no effect here. *)
From Verif Require Import Base Num Complex Model.Cxx Model.Mapping Model.ModelParams.

(** struct [feature_params] (polymlp_mlpcpp.h): the fields read by the core. [params_conditional] is a function of
    the two types. *)
Record fparams (F : Type) := FP {
  fp_n_type : nat; fp_gtinv : bool; fp_params : list (list F); fp_cond : nat -> nat -> list nat;
  fp_cutoff : F; fp_model_type : nat; fp_maxp : nat; fp_maxl : nat;
  fp_l_comb : list (list nat); fp_lm_array : list (list (list nat)); fp_lm_coeffs : list (list F) }.
Arguments FP {F}. Arguments fp_n_type {F}. Arguments fp_gtinv {F}. Arguments fp_params {F}.
Arguments fp_cond {F}. Arguments fp_cutoff {F}. Arguments fp_model_type {F}. Arguments fp_maxp {F}.
Arguments fp_maxl {F}. Arguments fp_l_comb {F}. Arguments fp_lm_array {F}. Arguments fp_lm_coeffs {F}.

(** The constructor [Mapping] fills one of the two halves (polymlp_mapping.cpp L11-32). *)
Record maps := Maps { mp_pair : pair_maps; mp_gt : gtinv_maps }.
Definition mapping {F} (fp : fparams F) : maps :=
  let nt := fp_n_type fp in
  if fp_gtinv fp
  then Maps (PMaps [] (repeat [] nt) [] []) (mapping_gtinv nt (length (fp_params fp)) (fp_maxl fp) (fp_cond fp))
  else Maps (mapping_pair nt (fp_cond fp)) (GMaps [] [] (repeat [] nt) (repeat [] nt) [] []).

(** polymlp_structs.h [is_conj], [get_noconj_id] (L150-156). *)
Definition a_dflt : nlmtpAttr := NLM 0 0 (lm_attr 0 0) 0 0 0 0 0 0 0 0.
Definition is_conj (M : maps) (t h : nat) : bool := lm_conj (a_lm (nth h (nth t (gm_loc (mp_gt M)) []) a_dflt)).
Definition noconj_id (M : maps) (t h : nat) : nat := a_inc (nth h (nth t (gm_loc (mp_gt M)) []) a_dflt).

(** [ModelParams] (polymlp_model_params.cpp): linear terms and polynomial combinations. *)
Definition fp_linear {F} (fp : fparams F) : list linearTerm :=
  linear_terms (fp_n_type fp) (length (fp_params fp)) (tp_to_n (fp_n_type fp) (fp_cond fp)) (fp_l_comb fp).
Definition fp_tp_combs {F} (fp : fparams F) : list (list (list nat)) :=
  tp_combs (fp_n_type fp) (length (last (fp_l_comb fp) [])).
Definition n_linear {F} (fp : fparams F) : nat :=
  if fp_gtinv fp then length (fp_linear fp) else length (pm_ntp (mp_pair (mapping fp))).
Definition modelp {F} (fp : fparams F) : model_params :=
  if fp_gtinv fp then model_params_gtinv (fp_n_type fp) (fp_model_type fp) (fp_maxp fp) (fp_linear fp)
  else model_params_pair (fp_n_type fp) (fp_model_type fp) (fp_maxp fp) (pm_ntp (mp_pair (mapping fp))).

(** [compute_product] (polymlp_products.h L54-62), [compute_products] (L65-77). *)
Definition compute_product {T} {NT : Num T} (prod : list nat) (el : nat -> T) : T :=
  match prod with
  | [] => n1
  | p :: rest => fold_left (fun v i => nmul v (el i)) rest (el p)
  end.
Definition compute_products {T} {NT : Num T} (prods : list (list nat)) (el : nat -> T) : list T :=
  map (fun p => compute_product p el) prods.

(** struct [PolynomialTerm]. *)
Record polyTerm := PT { pt_gid : nat; pt_ids : list nat }.
(** [FeaturesPoly::set_polynomial] (polymlp_features_polynomial.cpp L22-56), for one type. *)
Definition map1 (c1 : list nat) : umap nat :=
  fold_left (fun m ik => um_set [fst ik] (snd ik) m) (combine c1 (seq 0 (length c1))) [].
Definition set_polynomial (nl : nat) (mp : model_params) (t : nat) : list polyTerm :=
  let c1 := nth t (mp_comb1 mp) [] in
  let loc c k := um_get [nth k c 0] (map1 c1) in
  map (fun ik => PT (fst ik) [snd ik]) (combine c1 (seq 0 (length c1)))
  ++ map (fun i => let c := nth i (mp_comb2 mp) [] in PT (nl + i) [loc c 0; loc c 1]) (nth t (mp_ind2 mp) [])
  ++ map (fun i => let c := nth i (mp_comb3 mp) [] in
                   PT (nl + length (mp_comb2 mp) + i) [loc c 0; loc c 1; loc c 2]) (nth t (mp_ind3 mp) []).
Definition n_variables (nl : nat) (mp : model_params) : nat := nl + length (mp_comb2 mp) + length (mp_comb3 mp).

(** [for i: insert erase_a_key(ids, i)] over a list of key vectors. *)
Definition erased (ids : list nat) : list (list nat) := map (erase_a_key ids) (seq 0 (length ids)).
(** [FeaturesPoly::set_mappings] (L58-74), for one type. *)
Definition poly_prods (poly : list polyTerm) : list (list nat) :=
  set_of lexn (flat_map (fun t => erased (pt_ids t)) poly).

Section Features.
  Context {F : Type} {N : Num F} {NO : NumOrd F}.
  Local Open Scope num_scope.
  Variable tol : F.      (** 1e-20 *)

  (** structs [SingleTerm] (coeff, nlmtp_ids), [SingleFeature]. *)
  Definition sterm := (F * list nat)%type.
  Definition sfeature := list sterm.

  (** [set_linear_features_pair] (polymlp_features_utils.cpp L23-45): features of every type. *)
  Definition lin_pair_step (types : list (nat * nat)) (iloc : umap nat) (v : list (list sfeature)) (a : ntpAttr) :=
    let '(t1, t2) := nth (p_tp a) types (0, 0)%nat in
    let v1 := push t1 [(1, [um_get [p_gid a; t1] iloc])] v in
    if t1 =? t2 then v1 else push t2 [(1, [um_get [p_gid a; t2] iloc])] v1.
  Definition linear_features_pair (nt : nat) (M : pair_maps) : list (list sfeature) :=
    fold_left (lin_pair_step (tp_to_types nt) (pm_iloc M)) (pm_ntp M) (repeat [] nt).

  (** [nlmtp_vec_to_global], [nlmtp_global_vec_to_iloc] (polymlp_structs.h L194-209). *)
  Definition vec_to_global (M : gtinv_maps) (n : nat) (lms tps : list nat) : list nat :=
    map (fun k => um_get [n; nth k lms 0%nat; nth k tps 0%nat] (gm_global M)) (seq 0 (length lms)).
  Definition vec_to_iloc (M : gtinv_maps) (t : nat) (g : list nat) : list nat :=
    map (fun i => um_get [i; t] (gm_iloc M)) g.
  (** the ids of one product: L64-68, and [find_local_ids] (L109-132) *)
  Definition ids_plain (M : gtinv_maps) (t n : nat) (lms tps : list nat) : list nat :=
    vec_to_iloc M t (sortn (vec_to_global M n lms tps)).
  Definition ids_rep (M : gtinv_maps) (t n : nat) (lms tps : list nat) : list nat :=
    let g1 := sortn (vec_to_global M n lms tps) in
    let g2 := sortn (map (global_conj (gm_all M)) g1) in
    vec_to_iloc M t (hd [] (set_of lexn [g1; g2])).
  (** [set_linear_features_gtinv] (L48-76), [get_linear_features_gtinv_with_reps] (L79-106): same loops, with the
      two ways to find the ids. *)
  Definition lin_gtinv_feature (ids : nat -> list nat -> list nat -> list nat) (fp : fparams F) (x : linearTerm) : sfeature :=
    let tps := nth (lt_tp x) (nth (lt_order x) (fp_tp_combs fp) []) [] in
    let lms := nth (lt_lm x) (fp_lm_array fp) [] in
    let cs := nth (lt_lm x) (fp_lm_coeffs fp) [] in
    map (fun i => (nth i cs 0, ids (lt_n x) (nth i lms []) tps)) (seq 0 (length lms)).
  Definition linear_features_gtinv (ids : nat -> nat -> list nat -> list nat -> list nat) (fp : fparams F) : list (list sfeature) :=
    fold_left (fun v x => fold_left (fun v t => push t (lin_gtinv_feature (ids t) fp x) v) (lt_type1 x) v)
      (fp_linear fp) (repeat [] (fp_n_type fp)).

  (** [get_nonequiv_ids] (polymlp_features_mapping_utils.cpp L23-31), [get_nonequiv_deriv_ids] (L33-50). *)
  Definition nonequiv_ids (features : list sfeature) : list (list nat) :=
    set_of lexn (flat_map (map snd) features).
  Definition nonequiv_deriv_ids (elim : nat -> bool) (features : list sfeature) : list (list nat) :=
    set_of lexn (flat_map (fun sf => flat_map (fun st : sterm =>
      map (erase_a_key (snd st)) (filter (fun i => negb (elim (nth i (snd st) 0%nat))) (seq 0 (length (snd st))))) sf) features).

  (** [_convert_single_feature_to_map] (L53-65): the unordered_map keyed by the product id. *)
  Definition plus_at (k : list nat) (c : F) (m : umap F) : umap F :=
    um_alter k (fun o => match o with None => c | Some x => x + c end) m.
  Definition feature_map (pm : umap nat) (sf : sfeature) : umap F :=
    fold_left (fun m st => plus_at [um_get (snd st) pm] (fst st) m) sf [].
  (** [convert_to_mapped_features_algo1] (L68-84), [.._algo2] (L86-101): lists of (coeff, id). *)
  Definition mapped_algo1 (features : list sfeature) (pm : umap nat) (n_prod : nat) : list (list (F * nat)) :=
    fold_left (fun v fs => fold_left (fun v kv => push (hd 0%nat (fst kv)) (snd kv, fst fs) v) (feature_map pm (snd fs)) v)
      (combine (seq 0 (length features)) features) (repeat [] n_prod).
  Definition mapped_algo2 (features : list sfeature) (pm : umap nat) : list (list (F * nat)) :=
    map (fun sf => map (fun kv => (snd kv, hd 0%nat (fst kv))) (feature_map pm sf)) features.
  (** struct [MappedSingleDerivTerm]; [convert_to_mapped_features_deriv_algo2] (L132-158) with the sort (L160-169). *)
  Record derivTerm := DT { dt_coeff : F; dt_prod : nat; dt_head : nat }.
  Definition deriv_leb (a b : derivTerm) : bool :=
    if dt_head a =? dt_head b then dt_prod a <=? dt_prod b else dt_head a <? dt_head b.
  Definition deriv_map (dm : umap nat) (sf : sfeature) : umap F :=
    fold_left (fun m st => fold_left (fun m i =>
        plus_at [nth i (snd st) 0%nat; um_get (erase_a_key (snd st) i) dm] (fst st) m) (seq 0 (length (snd st))) m) sf [].
  Definition mapped_deriv (features : list sfeature) (dm : umap nat) : list (list derivTerm) :=
    map (fun sf => sort_by deriv_leb (map (fun kv => DT (snd kv) (nth 1 (fst kv) 0%nat) (nth 0 (fst kv) 0%nat)) (deriv_map dm sf))) features.

  (** The members of class [Features] for one type. *)
  Record ftype := FType {
    f_features : list sfeature;          (** maps_type.features *)
    f_prod : list (list nat);            (** prod *)
    f_mapped : list (list (F * nat));    (** mapped_features *)
    f_dmap : umap nat;                   (** prod_map_deriv_from_keys *)
    f_dprod : list (list nat);           (** prod_deriv *)
    f_poly : list polyTerm;              (** maps_type.polynomial *)
    f_pmap : umap nat;                   (** poly.prod_features_map *)
    f_pprod : list (list nat);           (** poly.prod_features *)
    f_mapped_d : list (list derivTerm)   (** mapped_features_deriv *)
  }.
  Definition threshold_prod : nat := 1000.
  (** [set_mappings_standard] (polymlp_features.cpp L69-87; no representatives, algorithm 2),
      [set_mappings_efficient] (L90-122), [set_deriv_mappings] (L124-136), [set_mapped_features_deriv] (L139-152). *)
  Definition build_ftype (gtinv set_deriv : bool) (elim : nat -> bool) (features reps : list sfeature) (poly : list polyTerm) : ftype :=
    let prod := nonequiv_ids reps in
    let pm := set_map prod in
    let dprod := nonequiv_deriv_ids elim features in
    let pprod := poly_prods poly in
    FType features prod
      (if gtinv && (threshold_prod <? length prod) then mapped_algo1 reps pm (length prod) else mapped_algo2 reps pm)
      (set_map dprod) dprod poly (set_map pprod) pprod
      (if set_deriv then mapped_deriv features (set_map dprod) else []).
  (** The constructor (L27-58). *)
  Definition features (fp : fparams F) (set_deriv_i : bool) : list ftype :=
    let M := mapping fp in
    let poly t := set_polynomial (n_linear fp) (modelp fp) t in
    if fp_gtinv fp then
      let fs := linear_features_gtinv (ids_plain (mp_gt M)) fp in
      let reps := linear_features_gtinv (ids_rep (mp_gt M)) fp in
      map (fun t => build_ftype true set_deriv_i (fun h => negb set_deriv_i && is_conj M t h) (nth t fs []) (nth t reps []) (poly t))
        (seq 0 (fp_n_type fp))
    else
      let fs := linear_features_pair (fp_n_type fp) (mp_pair M) in
      map (fun t => build_ftype false false (fun _ => false) (nth t fs []) (nth t fs []) (poly t)) (seq 0 (fp_n_type fp)).
  Definition ftype0 : ftype := FType [] [] [] [] [] [] [] [] [].

  (** [Features::compute_features] for pair models (L155-170). *)
  Definition compute_features_pair (f : ftype) (antp : nat -> F) : list F :=
    map (fun mf => antp (nth 0 (nth (snd (nth 0 mf (0, 0%nat))) (f_prod f) []) 0%nat)) (f_mapped f).

  (** [prod_real] (polymlp_products.h L86-88), [compute_product_real] (polymlp_products.cpp L21-37). *)
  Definition prod_real (a b : Cx F) : F := re a * re b - im a * im b.
  Definition compute_product_real (prod : list nat) (el : nat -> Cx F) : F :=
    match prod with
    | [] => 1
    | [a] => re (el a)
    | [a; b] => prod_real (el a) (el b)
    | [a; b; c] => prod_real (nmul (el a) (el b)) (el c)
    | [a; b; c; d] => prod_real (nmul (nmul (el b) (el c)) (el d)) (el a)
    | a :: b :: rest => prod_real (fold_left (fun v i => nmul v (el i)) rest (el b)) (el a)
    end.

  (** [Features::compute_features] for gtinv models (L173-206). *)
  Definition add_at (i : nat) (x : F) (v : list F) : list F := upd i (fun y => y + x) v.
  Definition compute_features_gtinv (f : ftype) (a : nat -> Cx F) : list F :=
    if threshold_prod <? length (f_prod f) then
      fold_left (fun v pm =>
          let val := compute_product_real (fst pm) a in
          if nltb tol (nabs val) then fold_left (fun v mf => add_at (snd mf) (fst mf * val) v) (snd pm) v else v)
        (combine (f_prod f) (f_mapped f)) (repeat 0 (length (f_features f)))
    else
      let vals := map (fun p => compute_product_real p a) (f_prod f) in
      map (fun mf => fold_left (fun s ci => s + fst ci * nth (snd ci) vals 0) mf 0) (f_mapped f).

  (** [compute_features_deriv_single_component] (L229-248): one column [d] of [anlmtp_d]. *)
  Definition compute_features_deriv (f : ftype) (a d : nat -> Cx F) : list F :=
    let prods := compute_products (f_dprod f) a in
    map (fun mf => fold_left (fun s t => s + prod_real (cscale (dt_coeff t) (nth (dt_prod t) prods (0, 0))) (d (dt_head t))) mf 0)
      (f_mapped_d f).

  (** [FeaturesPoly::compute_prod_features] (polymlp_features_polynomial.cpp L77-83). *)
  Definition compute_prod_features (f : ftype) (vals : list F) : list F :=
    compute_products (f_pprod f) (fun i => nth i vals 0).
End Features.
Arguments sterm F : clear implicits. Arguments sfeature F : clear implicits.
Arguments ftype F : clear implicits. Arguments derivTerm F : clear implicits.
