(** Prediction errors of a potential on data sets, and the files they are written to.

    /repo/src/pypolymlp/mlp_dev/core/eval_accuracy.py L24-302 (compute_error, compute_error_single, _compute_rmse, _compute_mae,
    _generate_output_key, _write_energies, _write_forces, _write_stresses);
    /repo/src/pypolymlp/core/utils.py L37-39 (rmse).

    Simplifications: [Properties.eval_multiple] is a function of the list of structures (Model/Properties.v models it); the array
    of forces of a structure is the list of its columns.  [np.mean] of an empty array (nan) is the quotient by zero of the number
    type, and so is a division by a norm that vanishes.  The printed digits are not modelled: a line of a file is the list of its numbers. *)
From Verif Require Import Base Num Model.Structure Model.DatasetDFT.
From Coq Require String Ascii.
Import String.StringSyntax.
Local Open Scope string_scope.
Local Open Scope list_scope.
Local Open Scope nat_scope.

(** [str.replace]: leftmost occurrences that do not overlap; [skip] characters belong to the last one. *)
Fixpoint replace_from (old new : string) (skip : nat) (s : string) : string :=
  match s with
  | String.EmptyString => String.EmptyString
  | String.String c t =>
      match skip with
      | S k => replace_from old new k t
      | 0 => if String.prefix old s then String.append new (replace_from old new (String.length old - 1) t)
             else String.String c (replace_from old new 0 t)
      end
  end.
Definition replace (old new s : string) : string := replace_from old new 0 s.

(** [_generate_output_key] (L211-221) *)
Definition output_key (name tag : string) : string :=
  let k := replace "../" "" (replace "*" "-" name) in
  let k := replace "/" "-" (replace "." "-" k) in
  let k := String.append tag (String.append "-" k) in
  replace "--" "-" (replace "---" "-" k).

(** [d[k] = v] of a Python dict, or a file opened for writing: an entry keeps its place. *)
Fixpoint dict_set {B} (k : string) (v : B) (d : list (string * B)) : list (string * B) :=
  match d with
  | [] => [(k, v)]
  | (k', v') :: t => if String.eqb k k' then (k, v) :: t else (k', v') :: dict_set k v t
  end.

Inductive stress_unit := EV | GPa | Other.

Section Accuracy.
  Context {F : Type} {N : Num F} {Od : NumOrd F}.
  Local Open Scope num_scope.
  Variables (S : Type) (s_natoms : S -> list nat) (s_volume : S -> F).
  Definition vec3 : Type := F * F * F.
  (** energy, force on each atom, stress (6) *)
  Definition value : Type := F * list vec3 * list F.
  Variable eval_multiple : list S -> res (list value).
  (** 160.21766208, and degrees(acos(.)) *)
  Variables (eV_to_GPa thousand : F) (deg_acos : F -> F).

  Definition v_energy (v : value) : F := fst (fst v).
  Definition v_force (v : value) : list vec3 := snd (fst v).
  Definition v_stress (v : value) : list F := snd v.
  Definition column (v : vec3) : list F := let '(x, y, z) := v in [x; y; z].
  (** Elementwise operation of numpy on one-dimensional arrays: equal lengths, or one of them is 1. *)
  Definition zipb (f : F -> F -> F) (a b : list F) : res (list F) :=
    if (length a =? length b)%nat then Ok (map (fun q => f (fst q) (snd q)) (combine a b))
    else match a, b with
         | [x], _ => Ok (map (f x) b)
         | _, [y] => Ok (map (fun x => f x y) a)
         | _, _ => Err ValueError
         end.
  Definition mean (l : list F) : F := nsum l / nnat (length l).
  (** core/utils.py L37-39 *)
  Definition rmse (t p : list F) : res F := do d <- zipb nsub t p; Ok (nsqrt (mean (map (fun x => x * x) d))).
  (** The common part of L185-190 and L201-206 *)
  Definition scaled (t : list F) (normalize : option (list F)) : res (list F) :=
    match normalize with None => Ok t | Some n => zipb ndiv t n end.
  (** [_compute_rmse] (L178-192) *)
  Definition compute_rmse (t p : list F) (normalize : option (list F)) : res (F * list F * list F) :=
    do t' <- scaled t normalize; do p' <- scaled p normalize; do r <- rmse t' p'; Ok (r, t', p').
  (** [_compute_mae] (L194-209) *)
  Definition compute_mae (t p : list F) (normalize : option (list F)) : res F :=
    do t' <- scaled t normalize; do p' <- scaled p normalize; do d <- zipb nsub t' p'; Ok (mean (map nabs d)).

  (** [reshape((-1, 3))] *)
  Fixpoint rows3 (l : list F) : res (list vec3) :=
    match l with
    | [] => Ok []
    | x :: y :: z :: t => do r <- rows3 t; Ok ((x, y, z) :: r)
    | _ => Err ValueError
    end.
  Definition dot3 (a b : vec3) : F := let '(x, y, z) := a in let '(x', y', z') := b in x * x' + y * y' + z * z'.
  Definition norm3 (a : vec3) : F := nsqrt (dot3 a a).
  Definition unit3 (a : vec3) : vec3 := let '(x, y, z) := a in let n := norm3 a in (x / n, y / n, z / n).
  (** L88-100: mean relative deviation of the norms, and the angle of the mean of the absolute cosines;
      [math.acos] raises ValueError above 1. *)
  Definition direction (t p : list F) : res (F * F) :=
    do t1 <- rows3 t; do p1 <- rows3 p;
    do ratio <- (do d <- zipb nsub (map norm3 p1) (map norm3 t1); zipb ndiv d (map norm3 t1));
    let cosine := map (fun q => dot3 (unit3 (fst q)) (unit3 (snd q))) (combine t1 p1) in
    let c := mean (map nabs cosine) in
    if nltb 1 c then Err ValueError else Ok (mean (map nabs ratio), deg_acos c).

  Record errors := mk_errors {
    rmse_energy : F; rmse_force : option F; rmse_stress : option F;
    mae_energy : F; mae_force : option F; mae_stress : option F;
    percent_norm : option F; angle : option F }.

  (** The files of a data set; [None] if it is not written. *)
  Record logs := mk_logs {
    log_e : option (list (list F * option string)); log_f : option (list (list F)); log_s : option (list (list F)) }.

  (** [np.array([t, p, t - p]).T] (L247, L262), and with the difference times 1000 (L232) *)
  Definition table (scale : F) (t p : list F) : list (list F) :=
    map (fun q => [fst q; snd q; scale * (fst q - snd q)]) (combine t p).

  (** A local variable of Python that may not have been assigned *)
  Definition local {B} (v : option B) : res B := match v with Some x => Ok x | None => Err UnboundLocalError end.

  Definition repeat6 (l : list F) : list F := flat_map (fun x => repeat x 6) l.
  (** L105-110; not assigned for another unit *)
  Definition normalizer (u : stress_unit) (n_total_atoms volumes : list F) : option (list F) :=
    match u with
    | EV => Some (repeat6 n_total_atoms)
    | GPa => Some (map (fun x => x / eV_to_GPa) (repeat6 volumes))
    | Other => None
    end.

  (** [compute_error_single] (L49-149) *)
  Definition compute_error_single (d : dft F S) (u : stress_unit) (le lf ls fd : bool) : res (errors * logs) :=
    let strs := structures d in
    do vals <- eval_multiple strs;
    let e := map v_energy vals in
    let f := flat_map (fun v => flat_map column (v_force v)) vals in
    let s := flat_map v_stress vals in
    let n_total_atoms := map (fun st => nnat (sum (s_natoms st))) strs in
    do (re, te, pe) <- compute_rmse (energies d) e (Some n_total_atoms);
    do me <- compute_mae (energies d) e (Some n_total_atoms);
    do (rf, mf, tpf, pn, an) <-
      (if negb (exist_force d) then Ok (None, None, None, None, None)
       else
         do (r, t, p) <- compute_rmse (forces d) f None;
         do m <- compute_mae (forces d) f None;
         if fd then do (a, b) <- direction (forces d) f; Ok (Some r, Some m, Some (t, p), Some a, Some b)
         else Ok (Some r, Some m, Some (t, p), None, None));
    let normalize := normalizer u n_total_atoms (map s_volume strs) in
    do (rs, ms, tps) <-
      (if negb (exist_stress d) then Ok (None, None, None)
       else
         do n <- local normalize;
         do (r, t, p) <- compute_rmse (stresses d) s (Some n);
         do m <- compute_mae (stresses d) s (Some n);
         Ok (Some r, Some m, Some (t, p)));
    do o_e <- (if le then Ok (Some (combine (table thousand te pe) (files d))) else Ok None);
    do o_f <- (if lf then do (t, p) <- local tpf; Ok (Some (table 1 t p)) else Ok None);
    do o_s <- (if ls then do (t, p) <- local tps; Ok (Some (table 1 t p)) else Ok None);
    Ok (mk_errors re rf rs me mf ms pn an, mk_logs o_e o_f o_s).

  (** [compute_error] (L24-47): the dict of errors and the files that are left, by data set name and by output key *)
  Definition compute_error (ds : list (string * dft F S)) (u : stress_unit) (le lf ls : bool) (tag : string)
    : res (list (string * errors) * list (string * logs)) :=
    foldM (fun acc q => do (x, l) <- compute_error_single (snd q) u le lf ls false;
                        Ok (dict_set (fst q) x (fst acc), dict_set (output_key (fst q) tag) l (snd acc)))
          ([], []) ds.
End Accuracy.
Arguments rmse_energy {F}. Arguments rmse_force {F}. Arguments rmse_stress {F}. Arguments mae_energy {F}. Arguments mae_force {F}.
Arguments mae_stress {F}. Arguments percent_norm {F}. Arguments angle {F}. Arguments mk_errors {F}. Arguments mk_logs {F}.
Arguments log_e {F}. Arguments log_f {F}. Arguments log_s {F}.
