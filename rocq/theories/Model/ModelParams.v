(** Linear features and polynomial combinations of a model.
    Source: src/pypolymlp/cxx/src/polymlp/polymlp_model_params_gtinv.(h,cpp),
    polymlp_model_params_polynomial.cpp, polymlp_model_params.cpp.
    Simplification: the exits on a wrong model type or maxp > 3 are a boolean test ([params_ok]). *)
From Verif Require Import Base Model.Cxx Model.Mapping.

(** [Permutenr] (polymlp_model_params_gtinv.h L15-27); [k] = r - output.size(). *)
Fixpoint permutenr {A} (k : nat) (input output : list A) (all : list (list A)) : list (list A) :=
  match k with
  | O => all ++ [output]
  | S k' => fold_left (fun acc x => permutenr k' input (output ++ [x]) acc) input all
  end.

(** [check_type_in_type_pairs] (polymlp_model_params_gtinv.cpp L11-22). *)
Definition check_type (tbl : list (list nat)) (tp_comb : list nat) (type1 : nat) : bool :=
  forallb (fun tp => existsb (Nat.eqb tp) (nth type1 tbl [])) tp_comb.

(** [vector_intersection] (L25-33). *)
Definition vector_intersection (v1 v2 : list nat) : list nat := set_intersection (sortn v1) (sortn v2).

(** [_enumerate_tp_combs] (L44-67): entry [order] of [tp_combs] (entry 0 is empty). *)
Definition tp_combs_order (n_type order : nat) : list (list nat) :=
  match order with
  | O => []
  | _ => filter (fun p => existsb (check_type (type_pairs n_type) p) (seq 0 n_type))
           (permutenr order (seq 0 (length (tp_to_types n_type))) [] [])
  end.
Definition tp_combs (n_type gtinv_order : nat) : list (list (list nat)) :=
  map (tp_combs_order n_type) (seq 0 (gtinv_order + 1)).

(** [_enumerate_nonzero_n] (L70-89), for one combination of type pairs. *)
Definition nonzero_n (tpn : list (list nat)) (tp_comb : list nat) : list nat :=
  match tp_comb with
  | [] => []
  | tp :: rest => fold_left (fun acc tp' => vector_intersection acc (nth tp' tpn [])) rest (nth tp tpn [])
  end.
Definition nonzero_n_list (tpn : list (list nat)) (tpc : list (list (list nat))) : list (list (list nat)) :=
  map (map (nonzero_n tpn)) tpc.

(** struct [LinearTerm] (polymlp_structs.h L90-96). *)
Record linearTerm := LT { lt_n : nat; lt_lm : nat; lt_tp : nat; lt_order : nat; lt_type1 : list nat }.

(** A [std::multiset<pair<int,int>>] is a sorted list. *)
Definition pair_leb (a b : nat * nat) : bool := match cmp_pair a b with Gt => false | _ => true end.
Definition lmt_multiset (l_comb tp_comb : list nat) : list (nat * nat) := sort_by pair_leb (combine l_comb tp_comb).

(** [uniq_gtinv_type] (L92-151). [uniq_lmt]: the set of L116-123; [lt_of]: the loop body L125-143
    for one element of it. *)
Definition uniq_lmt (l_comb : list nat) (tpc : list (list nat)) : list (list (nat * nat)) :=
  set_of (lex cmp_pair) (map (lmt_multiset l_comb) tpc).
Definition types_of (n_type : nat) (tp_comb : list nat) : list nat :=
  filter (check_type (type_pairs n_type) tp_comb) (seq 0 n_type).
Definition lt_of (n_type : nat) (tpn : list (list nat)) (tpc : list (list nat)) (lm_comb_id order : nat)
    (lt : list (nat * nat)) : list linearTerm :=
  let tp_comb := map snd lt in
  let id := find_id leqb tp_comb tpc in
  map (fun n => LT n lm_comb_id id order (types_of n_type tp_comb)) (nth id (map (nonzero_n tpn) tpc) []).
(** all terms in the order of the loops, before they are grouped by [n] *)
Definition lt_all (n_type : nat) (tpn : list (list nat)) (l_comb : list (list nat)) : list linearTerm :=
  let gtinv_order := length (last l_comb []) in
  flat_map (fun il =>
    let tpc := nth (length (snd il)) (tp_combs n_type gtinv_order) [] in
    flat_map (lt_of n_type tpn tpc (fst il) (length (snd il))) (uniq_lmt (snd il) tpc))
    (combine (seq 0 (length l_comb)) l_comb).
Definition linear_terms (n_type n_fn : nat) (tpn : list (list nat)) (l_comb : list (list nat)) : list linearTerm :=
  concat (group n_fn lt_n (fun t => t) (lt_all n_type tpn l_comb)).

(** Polynomials (polymlp_model_params_polynomial.cpp).
    [select_linear_terms_pair] (L40-55), [select_linear_terms_gtinv] (L58-86). *)
Definition params_ok (gtinv : bool) (model_type maxp : nat) : bool :=
  (model_type <=? (if gtinv then 4 else 2)) && (maxp <=? 3).
Definition select_pair (model_type n_linear : nat) : list nat :=
  if model_type =? 2 then seq 0 n_linear else [].
Definition select_gtinv (model_type : nat) (lts : list linearTerm) : list nat :=
  if model_type =? 2 then seq 0 (length lts)
  else if 2 <? model_type then
    let max_order := if model_type =? 3 then 1 else 2 in
    filter (fun n => lt_order (nth n lts (LT 0 0 0 0 [])) <=? max_order) (seq 0 (length lts))
  else [].

(** The nested loops over positions i1, i2 <= i1 (, i3 <= i2). *)
Definition loop2 (n : nat) : list (list nat) :=
  flat_map (fun i1 => map (fun i2 => [i1; i2]) (seq 0 (S i1))) (seq 0 n).
Definition loop3 (n : nat) : list (list nat) :=
  flat_map (fun i1 => flat_map (fun i2 => map (fun i3 => [i1; i2; i3]) (seq 0 (S i2))) (seq 0 (S i1))) (seq 0 n).

(** [append_combs_pair] (L163-182) and [append_combs_gtinv] (L236-251): [types] are the types matched;
    state = (target_comb, target_comb_indices, i_comb). *)
Definition append_combs (types : list nat) (comb : list nat) (st : list (list nat) * list (list nat) * nat) :=
  let '(target, ind, i_comb) := st in
  match types with
  | [] => st
  | _ => (target ++ [comb], fold_left (fun v t => push t i_comb v) types ind, S i_comb)
  end.
Definition match_pair (n_type : nat) (ntp : list ntpAttr) (ids : list nat) : list nat :=
  types_of n_type (map (fun i => p_tp (nth i ntp (NTP 0 0 0 0 0 0))) ids).
(** [intersection_types_in_polynomial] (L254-273). *)
Definition match_gtinv (lts : list linearTerm) (ids : list nat) : list nat :=
  match map (fun i => lt_type1 (nth i lts (LT 0 0 0 0 []))) ids with
  | [] => []
  | t :: rest => fold_left set_intersection rest t
  end.
(** [combination2_*], [combination3_*] (L128-160, L195-233): [matched] gives the types of a combination,
    the ids being passed in the order i1, i2(, i3) and stored reversed. *)
Definition combos (n_type : nat) (matched : list nat -> list nat) (iarray : list nat) (loop : list (list nat)) :=
  fold_left (fun st pos => let ids := map (fun p => nth p iarray 0) pos in
                           append_combs (matched ids) (rev ids) st)
    loop ([], repeat [] n_type, 0).
(** [combination1_pair] (L112-125), [combination1_gtinv] (L185-192): indices per type. *)
Definition comb1 (n_type n_linear : nat) (matched : list nat -> list nat) : list (list nat) :=
  fold_left (fun v i => fold_left (fun v t => push t i v) (matched [i]) v) (seq 0 n_linear) (repeat [] n_type).

(** Class [ModelParamsPoly]: what the rest of the code reads. *)
Record model_params := MP {
  mp_comb1 : list (list nat);
  mp_comb2 : list (list nat); mp_ind2 : list (list nat);
  mp_comb3 : list (list nat); mp_ind3 : list (list nat) }.
(** constructor L12-35 with [set_polynomials_pair] / [set_polynomials_gtinv] (L89-110). *)
Definition model_poly (n_type model_type maxp n_linear : nat) (iarray : list nat)
    (matched : list nat -> list nat) : model_params :=
  let none := ([], repeat [] n_type, 0) in
  let c2 := if (1 <? model_type) && (1 <? maxp) then combos n_type matched iarray (loop2 (length iarray)) else none in
  let c3 := if (1 <? model_type) && (2 <? maxp) then combos n_type matched iarray (loop3 (length iarray)) else none in
  MP (comb1 n_type n_linear matched) (fst (fst c2)) (snd (fst c2)) (fst (fst c3)) (snd (fst c3)).
Definition model_params_pair (n_type model_type maxp : nat) (ntp : list ntpAttr) : model_params :=
  model_poly n_type model_type maxp (length ntp) (select_pair model_type (length ntp)) (match_pair n_type ntp).
Definition model_params_gtinv (n_type model_type maxp : nat) (lts : list linearTerm) : model_params :=
  model_poly n_type model_type maxp (length lts) (select_gtinv model_type lts) (match_gtinv lts).
