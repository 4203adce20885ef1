(** What the tables of group-theoretical invariants and the basis functions have to satisfy for the evaluators to agree.
    The tables read by class Readgtinv (files polymlp_gtinv_data_*.bin in src/pypolymlp/cxx/src/polymlp) have the
    properties of the indices exactly and that of the coefficients up to rounding (DESIGN.md says how this was looked at). *)
From Verif Require Import Base Num Complex Model.Mapping Model.ModelParams Model.Features Model.Neighbor Model.Compute Spec.ModelParams.

(** The index of (l, -m) when [i] is the index l*l + l + m of (l, m). *)
Definition conj_lm (l i : nat) : nat := 2 * (l * l + l) - i.
Definition conj_lms (lc lms : list nat) : list nat := map (fun li => conj_lm (fst li) (snd li)) (combine lc lms).

Record gtinv_table {F} {N : Num F} (fp : fparams F) : Prop := {
  gt_gtinv : fp_gtinv fp = true;
  gt_type : fp_model_type fp <= 4;
  gt_cond : cond_ok (length (fp_params fp)) (fp_cond fp);
  gt_l : l_comb_ok (fp_l_comb fp);
  (** every angular combination has products, with one index l*l + l + m for each of its l's *)
  gt_ne : forall il lc, nth_error (fp_l_comb fp) il = Some lc -> nth il (fp_lm_array fp) [] <> [];
  gt_lms : forall il lc lms, nth_error (fp_l_comb fp) il = Some lc -> In lms (nth il (fp_lm_array fp) []) ->
    Forall2 (fun l i => l <= fp_maxl fp /\ l * l <= i <= l * l + 2 * l) lc lms;
  (** the sum of the l's and the sum of the m's are even (l*l + l is even) *)
  gt_even_l : forall il lc, nth_error (fp_l_comb fp) il = Some lc -> Nat.Even (list_sum lc);
  gt_even_m : forall il lc lms, nth_error (fp_l_comb fp) il = Some lc -> In lms (nth il (fp_lm_array fp) []) ->
    Nat.Even (list_sum lms);
  gt_coeffs : forall il lc, nth_error (fp_l_comb fp) il = Some lc ->
    length (nth il (fp_lm_coeffs fp) []) = length (nth il (fp_lm_array fp) []);
  (** the coefficient table is unchanged when every m is replaced by -m *)
  gt_conj : forall il lc, nth_error (fp_l_comb fp) il = Some lc ->
    let tbl := combine (nth il (fp_lm_coeffs fp) []) (nth il (fp_lm_array fp) []) in
    Permutation tbl (map (fun cl => (fst cl, conj_lms lc (snd cl))) tbl) }.

(** Spherical harmonics for m <= 0 are stored under l (l + 3) / 2 - |m|: parity (-1)^l, and real for m = 0. *)
Definition ylm_index (l k : nat) : nat := l * (l + 3) / 2 - k.
Record basis_ok {F} {N : Num F} (B : basis F) (maxl : nat) : Prop := {
  bo_parity : forall l k d, k <= l <= maxl ->
    b_ylm B (ylm_index l k) (vneg d) = if Nat.even l then b_ylm B (ylm_index l k) d else nopp (b_ylm B (ylm_index l k) d);
  bo_parity_d : forall c l k d, k <= l <= maxl ->
    b_ylm_d B c (ylm_index l k) (vneg d) = if Nat.even l then nopp (b_ylm_d B c (ylm_index l k) d) else b_ylm_d B c (ylm_index l k) d;
  bo_real : forall l d, l <= maxl -> im (b_ylm B (ylm_index l 0) d) = n0;
  bo_real_d : forall c l d, l <= maxl -> im (b_ylm_d B c (ylm_index l 0) d) = n0 }.
