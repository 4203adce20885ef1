(** The potential in the form used by the fast evaluator.
    Source: src/pypolymlp/cxx/src/polymlp/polymlp_potential.cpp. *)
From Verif Require Import Base Num Complex Model.Cxx Model.Mapping Model.ModelParams Model.Features.

Section Potential.
  Context {F : Type} {N : Num F} {NO : NumOrd F}.
  Local Open Scope num_scope.
  Variable tol : F.

  (** struct [PotentialTerm] (polymlp_structs.h L129-134). *)
  Record potTerm := PoT { po_e : F; po_f : F; po_prod : nat; po_pf : nat }.

  (** [get_feature_size] (polymlp_structs.h L158-160). *)
  Definition feature_size (features : list (sfeature F)) (id : nat) : nat :=
    length (snd (hd (0, []) (nth id features []))).
  (** [set_terms_using_mapping] (L47-121) for one type; [elim] is [elim_conj and is_conj(head_id)].
      First the map (head, product, product of features) -> (coeff_e, coeff_f) (L60-94). *)
  Definition plus2_at (k : list nat) (c : F * F) (m : umap (F * F)) : umap (F * F) :=
    um_alter k (fun o => match o with None => c | Some x => (fst x + fst c, snd x + snd c) end) m.
  Definition terms_map (f : ftype F) (elim : nat -> bool) (pot : list F) : umap (F * F) :=
    fold_left (fun m term =>
      let ids := pt_ids term in
      let n_prods := fold_left (fun s id => (s + feature_size (f_features f) id)%nat) ids 0%nat in
      fold_left (fun m i =>
        let pf := um_get (erase_a_key ids i) (f_pmap f) in
        fold_left (fun m (st : sterm F) =>
          let coeff_f := nth (pt_gid term) pot 0 * fst st in
          let coeff_e := coeff_f / nnat n_prods in
          fold_left (fun m j =>
            let head := nth j (snd st) 0%nat in
            if elim head then m
            else plus2_at [head; um_get (erase_a_key (snd st) j) (f_dmap f); pf] (coeff_e, coeff_f) m)
            (seq 0 (length (snd st))) m)
          (nth (nth i ids 0%nat) (f_features f) []) m)
        (seq 0 (length ids)) m)
      (f_poly f) [].
  (** then the terms of every head (L96-118); [target] is the identity or [get_noconj_id]. *)
  Definition terms_of (n_head : nat) (elim : nat -> bool) (target : nat -> nat) (m : umap (F * F)) : list (list potTerm) :=
    fold_left (fun v kc =>
      let head := nth 0 (fst kc) 0%nat in
      let t := PoT (fst (snd kc)) (snd (snd kc)) (nth 1 (fst kc) 0%nat) (nth 2 (fst kc) 0%nat) in
      if elim head then v else push (target head) t v) m (repeat [] n_head).

  (** [sort_potential_model] (L124-139), [flatten_potential_model] (L141-156). *)
  Definition pot_leb (a b : potTerm) : bool :=
    if po_prod a =? po_prod b then po_pf a <=? po_pf b else po_prod a <? po_prod b.
  Definition flat_offsets {A} (m : list (list A)) : list nat :=
    fold_left (fun off l => off ++ [(last off 0 + length l)%nat]) m [0%nat].

  (** The members of class [Potential] for one type. *)
  Record ptype := PType {
    p_ft : ftype F;
    p_model : list (list potTerm);      (** potential_model *)
    p_flat : list potTerm;              (** potential_model_flat *)
    p_off : list nat }.                 (** offset *)
  Definition potential_type (fp : fparams F) (pot : list F) (M : maps) (t : nat) (f : ftype F) : ptype :=
    let elim_conj := negb (0 <? length (pm_ntp (mp_pair M))) in
    let elim h := elim_conj && is_conj M t h in
    let n_ntp := length (nth t (pm_loc (mp_pair M)) []) in
    let n_head := if (0 <? n_ntp)%nat then n_ntp else length (nth t (gm_nc (mp_gt M)) []) in
    let target h := if elim_conj then noconj_id M t h else h in
    let m := map (sort_by pot_leb) (terms_of n_head elim target (terms_map f elim pot)) in
    PType f m (concat m) (flat_offsets m).
  (** The constructor (L25-39). *)
  Definition potential (fp : fparams F) (pot : list F) : list ptype :=
    map (fun tf => potential_type fp pot (mapping fp) (fst tf) (snd tf))
      (combine (seq 0 (fp_n_type fp)) (features fp true)).
  Definition ptype0 : ptype := PType ftype0 [] [] [0%nat].

  (** [compute_sum_of_prod_antp] (L203-232): the vectors prod_sum_e, prod_sum_f. *)
  Definition half : F := 1 / (1 + 1).
  Definition sum_of_prod_antp (p : ptype) (antp : nat -> F) : list F * list F :=
    let fvals := compute_prod_features (p_ft p) (compute_features_pair (p_ft p) antp) in
    let derivs := compute_products (f_dprod (p_ft p)) antp in
    let prod t := nth (po_pf t) fvals 0 * nth (po_prod t) derivs 0 in
    (map (fun ts => half * fold_left (fun s t => s + po_e t * prod t) ts 0) (p_model p),
     map (fun ts => half * fold_left (fun s t => s + po_f t * prod t) ts 0) (p_model p)).

  (** [compute_sum_of_prod_anlmtp] (L235-294): reads the flat copy. *)
  Definition sum_of_prod_anlmtp (p : ptype) (a : nat -> Cx F) : list (Cx F) * list (Cx F) :=
    let fvals := compute_prod_features (p_ft p) (compute_features_gtinv tol (p_ft p) a) in
    let derivs := compute_products (f_dprod (p_ft p)) a in
    let sum (c : potTerm -> F) i :=
      let b := nth i (p_off p) 0%nat in
      let e := nth (S i) (p_off p) 0%nat in
      fold_left (fun s j =>
          let pt := nth j (p_flat p) (PoT 0 0 0%nat 0%nat) in
          let d := nth (po_prod pt) derivs (0, 0) in
          let sc := nth (po_pf pt) fvals 0 * c pt in
          (re s + re d * sc, im s + im d * sc)) (seq b (e - b)) (0, 0) in
    (map (sum po_e) (seq 0 (length (p_off p) - 1)), map (sum po_f) (seq 0 (length (p_off p) - 1))).

  (** [Potential::convert_unit] (L323-333): the nested model only. *)
  Definition convert_terms (c : F) (m : list (list potTerm)) : list (list potTerm) :=
    map (map (fun t => PoT (po_e t * c) (po_f t * c) (po_prod t) (po_pf t))) m.
  Definition convert_unit_type (c : F) (p : ptype) : ptype :=
    PType (p_ft p) (convert_terms c (p_model p)) (p_flat p) (p_off p).

  (** Class [PolymlpAPI] holding a potential: parameters, coefficients, potential.
      [set_potential_model] (polymlp_api.cpp L35-41), [convert_unit] (L210-222). *)
  Record api := API { ap_fp : fparams F; ap_pot : list F; ap_model : list ptype }.
  Definition set_potential_model (fp : fparams F) (pot : list F) : api := API fp pot (potential fp pot).
  Definition convert_param (len inv_len : F) (p : list F) : list F :=
    upd 1 (fun x => x * len) (upd 0 (fun x => x * (inv_len * inv_len)) p).
  Definition convert_fp (len inv_len : F) (fp : fparams F) : fparams F :=
    FP (fp_n_type fp) (fp_gtinv fp) (map (convert_param len inv_len) (fp_params fp)) (fp_cond fp) (fp_cutoff fp * len)
       (fp_model_type fp) (fp_maxp fp) (fp_maxl fp) (fp_l_comb fp) (fp_lm_array fp) (fp_lm_coeffs fp).
  Definition convert_unit (energy len inv_len : F) (a : api) : api :=
    let fp := convert_fp len inv_len (ap_fp a) in
    API fp (ap_pot a) (map (convert_unit_type energy) (potential fp (ap_pot a))).
End Potential.
Arguments potTerm F : clear implicits. Arguments ptype F : clear implicits. Arguments api F : clear implicits.
