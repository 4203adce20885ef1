(** Numbering of type pairs, radial functions and order parameters.
    Source: src/pypolymlp/cxx/src/polymlp/polymlp_mapping.cpp, structs in polymlp_structs.h.
    Simplifications: C++ ints are naturals except [m] and [global_conj_id] (signed);
    the doubles [cc_coeff], [sign_j] (values 1, -1) are integers; numeric parameters
    ([tp_to_params]) are looked up in Model/Potential.v. *)
From Verif Require Import Base Model.Cxx.

(** structs [ntpAttr], [lmAttr], [nlmtpAttr] and the compact ones (polymlp_structs.h L32-83). *)
Record ntpAttr := NTP { p_n : nat; p_n_id : nat; p_tp : nat; p_gid : nat; p_il : nat; p_jl : nat }.
Record ntpAttrC := NTPC { pc_n_id : nat; pc_il : nat; pc_jl : nat }.
Record lmAttr := LM { lm_l : nat; lm_m : Z; lm_key : nat; lm_conj : bool; lm_cc : Z; lm_sign : Z }.
Record nlmtpAttr := NLM {
  a_n : nat; a_n_id : nat; a_lm : lmAttr; a_tp : nat;
  a_gid : nat; a_gnc : nat; a_gcj : Z;
  a_il : nat; a_inc : nat; a_jnc : nat; a_icj : nat }.
Record nlmtpAttrC := NLMC { c_n_id : nat; c_key : nat; c_m : Z; c_sign : Z; c_inc : nat; c_jnc : nat }.

(** [set_type_pairs] (L36-56): the table and the list of pairs; [tp] is the number of pairs so far. *)
Definition set2 (i j v : nat) (t : list (list nat)) : list (list nat) := upd i (upd j (fun _ => v)) t.
Definition tp_loop (n : nat) : list (nat * nat) :=
  flat_map (fun i => map (pair i) (seq i (n - i))) (seq 0 n).
Definition tp_step (st : list (list nat) * list (nat * nat)) (ij : nat * nat) :=
  let '(tbl, types) := st in
  let '(i, j) := ij in
  let tp := length types in
  (set2 i j tp (set2 j i tp tbl), types ++ [(i, j)]).
Definition set_type_pairs (n_type : nat) : list (list nat) * list (nat * nat) :=
  fold_left tp_step (tp_loop n_type) (repeat (repeat 0 n_type) n_type, []).
Definition type_pairs (n_type : nat) : list (list nat) := fst (set_type_pairs n_type).
Definition tp_to_types (n_type : nat) : list (nat * nat) := snd (set_type_pairs n_type).
Definition tpair (n_type t1 t2 : nat) : nat := nth t2 (nth t1 (type_pairs n_type) []) 0.
(** [params_conditional[i][j]] as a function of the two types. *)
Definition tp_to_n (n_type : nat) (cond : nat -> nat -> list nat) : list (list nat) :=
  map (fun ij => cond (fst ij) (snd ij)) (tp_to_types n_type).

(** [set_map_n_to_tplist] (L58-72): loop over type pairs and their radial functions. *)
Definition tpn_loop (tpn : list (list nat)) : list (nat * nat) :=
  concat (map (fun tl => map (pair (fst tl)) (snd tl)) (combine (seq 0 (length tpn)) tpn)).
Definition n_to_tp (n_fn : nat) (tpn : list (list nat)) : list (list nat) :=
  group n_fn snd fst (tpn_loop tpn).
(** [tpn_to_n_id[tp][n]]: the position of the last occurrence of [n] (0 if absent). *)
Fixpoint last_pos (k : nat) (n : nat) (l : list nat) (acc : nat) : nat :=
  match l with
  | [] => acc
  | x :: t => last_pos (S k) n t (if x =? n then k else acc)
  end.
Definition n_id (tpn : list (list nat)) (tp n : nat) : nat := last_pos 0 n (nth tp tpn []) 0.

(** [set_ntp_global_attrs] (L75-88). *)
Definition ntp_global (tpn : list (list nat)) : list ntpAttr :=
  fold_left (fun acc tn => acc ++ [NTP (snd tn) (n_id tpn (fst tn) (snd tn)) (fst tn) (length acc) 0 0])
    (tpn_loop tpn) [].

(** [set_ntp_local_attrs] (L90-120): state = attribute list of every type, and the map
    (global id, type) -> local id. *)
Definition push {A} (t : nat) (x : A) (v : list (list A)) : list (list A) := upd t (fun l => l ++ [x]) v.
Definition ntp_local_step (types : list (nat * nat)) (st : list (list ntpAttr) * umap nat) (a : ntpAttr) :=
  let '(v, m) := st in
  let '(t1, t2) := nth (p_tp a) types (0, 0) in
  let l1 := length (nth t1 v []) in
  let l2 := length (nth t2 v []) in
  let v1 := push t1 (NTP (p_n a) (p_n_id a) (p_tp a) (p_gid a) l1 l2) v in
  let m1 := um_set [p_gid a; t1] l1 m in
  if t1 =? t2 then (v1, m1)
  else (push t2 (NTP (p_n a) (p_n_id a) (p_tp a) (p_gid a) l2 l1) v1, um_set [p_gid a; t2] l2 m1).
Definition ntp_local (n_type : nat) (attrs : list ntpAttr) : list (list ntpAttr) * umap nat :=
  fold_left (ntp_local_step (tp_to_types n_type)) attrs (repeat [] n_type, []).

(** [set_ntp_local_attrs_compact] (L122-133), for one type. *)
Definition ntp_compact (n_tp : nat) (l : list ntpAttr) : list (list ntpAttrC) :=
  group n_tp p_tp (fun a => NTPC (p_n_id a) (p_il a) (p_jl a)) l.

(** [set_lm_attrs] (L248-279); [ylm_key] is computed with C++ integer division. *)
Definition lm_attr (l : nat) (m : Z) : lmAttr :=
  let lz := Z.of_nat l in
  LM l m
    (Z.to_nat (if m <? 1 then (lz + 3) * lz / 2 + m else (lz + 3) * lz / 2 - m)%Z)
    (negb (m <? 1)%Z)
    (if (Z.rem m 2 =? 0)%Z then 1 else -1)%Z
    (if (l mod 2 =? 0)%nat then 1 else -1)%Z.
Definition lm_attrs (maxl : nat) : list lmAttr :=
  flat_map (fun l => map (fun k => lm_attr l (Z.of_nat k - Z.of_nat l)%Z) (seq 0 (2 * l + 1)))
    (seq 0 (maxl + 1)).

(** [set_nlmtp_global_attrs] (L136-168): loops n, lm, tp; state = (all attributes, the non-conjugate
    ones, the map (n, lm, tp) -> global id). *)
Definition nlmtp_loop (n_fn maxl : nat) (tpn : list (list nat)) : list (nat * nat * nat) :=
  flat_map (fun n => flat_map (fun lm => map (fun tp => (n, lm, tp)) (nth n (n_to_tp n_fn tpn) []))
    (seq 0 (length (lm_attrs maxl)))) (seq 0 n_fn).
Definition nlmtp_step (n_fn maxl : nat) (tpn : list (list nat))
    (st : list nlmtpAttr * list nlmtpAttr * umap nat) (k : nat * nat * nat) :=
  let '(all, nc, m) := st in
  let '(n, lm, tp) := k in
  let la := nth lm (lm_attrs maxl) (lm_attr 0 0) in
  let conj_subtract := (2 * lm_m la * Z.of_nat (length (nth n (n_to_tp n_fn tpn) [])))%Z in
  let g := length all in
  let a := NLM n (n_id tpn tp n) la tp g (length nc) (Z.of_nat g - conj_subtract) 0 0 0 0 in
  (all ++ [a], if lm_conj la then nc else nc ++ [a], um_set [n; lm; tp] g m).
Definition nlmtp_global (n_fn maxl : nat) (tpn : list (list nat)) :=
  fold_left (nlmtp_step n_fn maxl tpn) (nlmtp_loop n_fn maxl tpn) ([], [], []).
Definition nlmtp_attrs n_fn maxl tpn : list nlmtpAttr := fst (fst (nlmtp_global n_fn maxl tpn)).
Definition nlmtp_to_global n_fn maxl tpn : umap nat := snd (nlmtp_global n_fn maxl tpn).
(** [global_to_global_conj] (L164-167); entries are non-negative by C17. *)
Definition global_conj (attrs : list nlmtpAttr) (g : nat) : nat :=
  Z.to_nat (a_gcj (nth g attrs (NLM 0 0 (lm_attr 0 0) 0 0 0 0 0 0 0 0))).

(** [set_nlmtp_local_attrs] (L170-208): state = (attributes per type, non-conjugate ones per type,
    map (global id, type) -> local id). *)
Definition with_local (a : nlmtpAttr) (il inc jnc : nat) : nlmtpAttr :=
  NLM (a_n a) (a_n_id a) (a_lm a) (a_tp a) (a_gid a) (a_gnc a) (a_gcj a) il inc jnc 0.
Definition nlmtp_local_step (types : list (nat * nat))
    (st : list (list nlmtpAttr) * list (list nlmtpAttr) * umap nat) (a : nlmtpAttr) :=
  let '(v, c, m) := st in
  let '(t1, t2) := nth (a_tp a) types (0, 0) in
  let l1 := length (nth t1 v []) in
  let l2 := length (nth t2 v []) in
  let c1 := length (nth t1 c []) in
  let c2 := length (nth t2 c []) in
  let a1 := with_local a l1 c1 c2 in
  let v' := push t1 a1 v in
  let c' := if lm_conj (a_lm a) then c else push t1 a1 c in
  let m' := um_set [a_gid a; t1] l1 m in
  if t1 =? t2 then (v', c', m')
  else
    let a2 := with_local a l2 c2 c1 in
    (push t2 a2 v', if lm_conj (a_lm a) then c' else push t2 a2 c', um_set [a_gid a; t2] l2 m').
Definition nlmtp_local (n_type : nat) (attrs : list nlmtpAttr) :=
  fold_left (nlmtp_local_step (tp_to_types n_type)) attrs (repeat [] n_type, repeat [] n_type, []).

(** [set_nlmtp_local_conj_ids] (L232-245), for one list of attributes of type [t]. *)
Definition with_conj (m : umap nat) (t : nat) (a : nlmtpAttr) : nlmtpAttr :=
  NLM (a_n a) (a_n_id a) (a_lm a) (a_tp a) (a_gid a) (a_gnc a) (a_gcj a) (a_il a) (a_inc a) (a_jnc a)
      (um_get [Z.to_nat (a_gcj a); t] m).

(** [set_nlmtp_local_attrs_compact] (L210-230), for one type. *)
Definition nlmtp_compact (n_tp : nat) (l : list nlmtpAttr) : list (list nlmtpAttrC) :=
  group n_tp a_tp (fun a => NLMC (a_n_id a) (lm_key (a_lm a)) (lm_m (a_lm a)) (lm_sign (a_lm a)) (a_inc a) (a_jnc a)) l.

(** The constructor [Mapping::Mapping] (L11-32): what the rest of the code reads. *)
Record pair_maps := PMaps {
  pm_ntp : list ntpAttr;               (** maps.ntp_attrs *)
  pm_loc : list (list ntpAttr);        (** maps_type[t].ntp_attrs *)
  pm_tp : list (list (list ntpAttrC)); (** maps_type[t].ntp_attrs_tp[tp] *)
  pm_iloc : umap nat }.                (** maps.ntp_global_to_iloc *)
Definition mapping_pair (n_type : nat) (cond : nat -> nat -> list nat) : pair_maps :=
  let tpn := tp_to_n n_type cond in
  let g := ntp_global tpn in
  let '(v, m) := ntp_local n_type g in
  PMaps g v (map (ntp_compact (length (tp_to_types n_type))) v) m.

Record gtinv_maps := GMaps {
  gm_all : list nlmtpAttr;                 (** maps.nlmtp_attrs *)
  gm_global : umap nat;                    (** maps.nlmtp_to_global *)
  gm_loc : list (list nlmtpAttr);          (** maps_type[t].nlmtp_attrs *)
  gm_nc : list (list nlmtpAttr);           (** maps_type[t].nlmtp_attrs_noconj *)
  gm_tp : list (list (list nlmtpAttrC));   (** maps_type[t].nlmtp_attrs_noconj_tp[tp] *)
  gm_iloc : umap nat }.                    (** maps.nlmtp_global_to_iloc *)
Definition mapping_gtinv (n_type n_fn maxl : nat) (cond : nat -> nat -> list nat) : gtinv_maps :=
  let tpn := tp_to_n n_type cond in
  let g := nlmtp_attrs n_fn maxl tpn in
  let '(v, c, m) := nlmtp_local n_type g in
  let v' := map (fun tl => map (with_conj m (fst tl)) (snd tl)) (combine (seq 0 n_type) v) in
  let c' := map (fun tl => map (with_conj m (fst tl)) (snd tl)) (combine (seq 0 n_type) c) in
  GMaps g (nlmtp_to_global n_fn maxl tpn) v' c' (map (nlmtp_compact (length (tp_to_types n_type))) c') m.
