(** From data sets to the normal equations.

    /repo/src/pypolymlp/mlp_dev/core/: features.py L22-93, L246-271; utils_weights.py L50-98;
    utils_scales.py L6-40; utils.py L10-21; utils_sequential.py L62-123; data_sequential.py
    L25-156; data_standard.py L16-77; utils_model_selection.py L37-117;
    ../standard/solvers.py L48-84.

    Simplifications: float64 is an arbitrary number type [F]; a row of X is a function of the
    feature number; the feature calculation of one structure (C++ Model::run) is an oracle
    ([fe]: energy row, [ff]: force rows, [fs]: stress rows) and so are the elementwise weight
    functions (their definitions are in Model/Weights.v); the batch size is an argument
    (get_auto_batch_size is not modelled); numpy broadcasting of a slice assignment with
    another length is ValueError; the linear solver is an oracle; [verbose] is left out. *)
From Verif Require Import Base Num Model.Structure Model.DatasetDFT Model.Dataset Model.Index Model.Batch.

Section Regress.
  Context {F : Type} {N : Num F} {O : NumOrd F} {St : Type}.
  Local Open Scope num_scope.
  Notation row := (vec F).
  Notation dset := (ds F St).

  Variable s_natoms : St -> list nat.
  Variable fe : St -> row.
  Variables ff fs : St -> list row.
  Variable r0 : row.                    (** content of uninitialised memory *)

  (** ** Features (features.py L22-44, L47-93, L246-271) *)
  Definition get_dft (x : dset) : res (dft F St) :=
    match ds_dft x with Some d => Ok d | None => Err TypeError end.

  Record features := mk_features {
    f_x : list row;
    f_first : list (nat * Z * Z);       (** (ebegin, fbegin, sbegin) per data set *)
    f_ne : nat; f_nf : nat; f_ns : nat }.

  Definition compute_features (datasets : list dset) : res features :=
    do dfts <- mapM get_dft datasets;
    let sts := flat_map structures dfts in
    let n_atoms_sum := map (fun st => sum (s_natoms st)) sts in
    let n_st := map (fun d => length (structures d)) dfts in
    let ix := set_index n_atoms_sum (combine n_st (map ds_force datasets)) in
    Ok (mk_features (assemble r0 fe ff fs sts ix)
                    (combine (combine (set_ebegin n_st) (xf_begin_dataset ix)) (xs_begin_dataset ix))
                    (n_data_e ix) (n_data_f ix) (n_data_s ix)).

  (** ** Weights (utils_weights.py L50-98) *)

  (** [l[b:e] = v]. *)
  Definition set_slice {A} (l : list A) (b e : nat) (v : list A) : res (list A) :=
    let e' := Nat.min e (length l) in
    if (length v =? e' - b)%nat then Ok (firstn b l ++ v ++ skipn (b + (e' - b)) l) else Err ValueError.
  Definition scale_row (c : F) (r : row) : row := fun j => r j * c.
  (** [x[b:e] *= w[:, np.newaxis]]. *)
  Definition mul_slice (x : list row) (b e : nat) (w : list F) : res (list row) :=
    set_slice x b e (map (fun p => scale_row (fst p) (snd p)) (combine w (slice b e x))).
  Definition times (u v : list F) : list F := map (fun p => fst p * snd p) (combine u v).

  Variable weight_e : F -> F -> nat -> F.   (** min_e, energy, number of atoms *)
  Variable weight_f : F -> F.
  Variable weight_s : F -> F.               (** without the constant factor *)

  Definition apply_weights (xyw : list row * list F * list F) (data : dset) (first : nat * Z * Z)
             (weight_stress min_e : F) : res (list row * list F * list F) :=
    do d <- get_dft data;
    let '(x, y, w) := xyw in
    let '(ebegin, fbegin, sbegin) := first in
    let eend := (ebegin + length (energies d))%nat in
    let we := map (fun p => weight_e min_e (fst p) (snd p) * ds_weight data)
                  (combine (energies d) (total_n_atoms d)) in
    do w <- set_slice w ebegin eend we;
    do y <- set_slice y ebegin eend (times we (energies d));
    do x <- mul_slice x ebegin eend we;
    let fb := Z.to_nat fbegin in let sb := Z.to_nat sbegin in
    let fend := (fb + length (forces d))%nat in
    let send := (sb + length (stresses d))%nat in
    do (x, y, w) <-
       (if ds_force data then
          let wf := map (fun v => weight_f v * ds_weight data) (forces d) in
          do w <- set_slice w fb fend wf;
          do y <- set_slice y fb fend (times wf (forces d));
          do x <- mul_slice x fb fend wf;
          Ok (x, y, w)
        else Ok (x, y, w));
    do (x, y, w) <-
       (if ds_stress data then
          if ds_force data then
            let ws := map (fun v => weight_s v * (weight_stress * ds_weight data)) (stresses d) in
            do w <- set_slice w sb send ws;
            do y <- set_slice y sb send (times ws (stresses d));
            do x <- mul_slice x sb send ws;
            Ok (x, y, w)
          else Err UnboundLocalError     (** send is not defined (L65-67, L90) *)
        else Ok (x, y, w));
    if ds_force data && negb (ds_stress data) then
      do x <- set_slice x sb send (map (fun _ _ => 0) (slice sb send x));
      do y <- set_slice y sb send (map (fun _ => 0) (slice sb send y));
      do w <- set_slice w sb send (map (fun _ => 0) (slice sb send w));
      Ok (x, y, w)
    else Ok (x, y, w).

  (** ** Minimum energy per atom (utils.py L10-21) *)
  Fixpoint np_min (m : F) (l : list F) : F :=
    match l with [] => m | a :: t => np_min (if nltb a m then a else m) t end.
  Variable big : F.                         (** 1e10 *)
  Fixpoint min_energy_loop (m : F) (dfts : list (dft F St)) : res F :=
    match dfts with
    | [] => Ok m
    | d :: t =>
        match map (fun p => fst p / nnat (snd p)) (combine (energies d) (total_n_atoms d)) with
        | [] => Err RuntimeError
        | a :: l => let m' := np_min a l in min_energy_loop (if nltb m' m then m' else m) t
        end
    end.
  Definition get_min_energy (datasets : list dset) : res F :=
    do dfts <- mapM get_dft datasets; min_energy_loop big dfts.

  (** ** Scales (utils_scales.py L6-40) *)
  Variable threshold : F.                   (** 1e-10 *)
  Definition zero_id (include_force : bool) (s : F) : bool :=
    nltb (nabs s) (if include_force then threshold else threshold * threshold).
  (** [round_scales]: the new scales; the ids are [zero_id] of the old ones. *)
  Definition round_scales (include_force : bool) (scales : row) : row :=
    fun j => if zero_id include_force (scales j) then 1 else scales j.
  (** Variance from the sums (L30-33). *)
  Definition scales_of_sums (xe_sum xe_sq_sum : row) (n_data : nat) : row :=
    fun j => let a := xe_sum j / nnat n_data in
             let v := xe_sq_sum j / nnat n_data - a * a in
             nsqrt (if nltb v 0 then 1 else v).

  (** ** Sums over rows *)
  Definition xtx_of (x : list row) : mat F := fun i j => nsumf (fun r => r i * r j) x.
  Definition xty_of (x : list row) (y : list F) : row :=
    fun i => nsumf (fun p => fst p i * snd p) (combine x y).
  Definition col_sum (x : list row) : row := fun i => nsumf (fun r => r i) x.
  Definition col_sq_sum (x : list row) : row := fun i => nsumf (fun r => r i * r i) x.

  (** [sum_array] (utils_sequential.py L62-67). *)
  Definition sum_array (a : option row) (b : row) : option row :=
    match a with None => Some b | Some a => Some (fun i => a i + b i) end.

  (** Column blocks of X^T X (L81-82, L115-116): [max(100, n // n_batch)]. *)
  Definition feature_blocks (n_features n_batch : nat) : res (list (Z * Z)) :=
    batches (Z.of_nat n_features) (Z.of_nat (Nat.max 100 (n_features / n_batch))).
  Definition in_block (b : Z * Z) (i : nat) : bool := (fst b <=? Z.of_nat i)%Z && (Z.of_nat i <? snd b)%Z.

  (** [sum_large_xtx] (L70-91): only blocks on or above the diagonal. *)
  Definition add_block (x : list row) (bi bj : Z * Z) (m : mat F) : mat F :=
    fun i j => if in_block bi i && in_block bj j then m i j + xtx_of x i j else m i j.
  Definition enum {A} (l : list A) : list (nat * A) := combine (seq 0 (length l)) l.
  Definition sum_large_xtx (n_features n_batch : nat) (xtx : option (mat F)) (x : list row) : res (mat F) :=
    do bs <- feature_blocks n_features n_batch;
    let m := match xtx with Some m => m | None => fun _ _ => 0 end in
    Ok (fold_left (fun m ib => fold_left (fun m jb =>
           if (fst ib <=? fst jb)%nat then add_block x (snd ib) (snd jb) m else m) (enum bs) m) (enum bs) m).

  (** [sum_xtx] (L94-109). *)
  Definition sum_xtx (n_features n_threshold n_batch : nat) (xtx : option (mat F)) (x : list row)
    : res (option (mat F)) :=
    if (n_features <? n_threshold)%nat
    then Ok (match xtx with
             | None => Some (xtx_of x)
             | Some m => Some (fun i j => m i j + xtx_of x i j)
             end)
    else do m <- sum_large_xtx n_features n_batch xtx x; Ok (Some m).

  (** [symmetrize_xtx] (L112-123): blocks below the diagonal are copied from above. *)
  Definition copy_block (bi bj : Z * Z) (m : mat F) : mat F :=
    fun i j => if in_block bi i && in_block bj j then m j i else m i j.
  Definition symmetrize_xtx (n_features n_batch : nat) (m : mat F) : res (mat F) :=
    do bs <- feature_blocks n_features n_batch;
    Ok (fold_left (fun m ib => fold_left (fun m jb =>
           if (fst jb <? fst ib)%nat then copy_block (snd ib) (snd jb) m else m) (enum bs) m) (enum bs) m).

  (** ** Sequential products (data_sequential.py L97-156) *)
  Record data_xy := mk_xy {
    d_xtx : option (mat F); d_xty : option row;
    d_xe_sum : option row; d_xe_sq_sum : option row;
    d_y_sq_norm : F; d_total : nat }.
  Definition empty_xy : data_xy := mk_xy None None None None 0 0.

  Definition ysq (y : list F) : F := nsumf (fun a => a * a) y.

  Variables (n_features n_threshold n_batch : nat).

  Definition single_batch (weight_stress min_e : F) (scales : option row) (d : data_xy) (data : dset)
    : res data_xy :=
    do ft <- compute_features [data];
    do first <- get (f_first ft) 0;
    let x := f_x ft in
    let n_data := length x in
    let xe := firstn (f_ne ft) x in
    let d1 := match scales with
              | None => (sum_array (d_xe_sum d) (col_sum xe), sum_array (d_xe_sq_sum d) (col_sq_sum xe))
              | Some _ => (d_xe_sum d, d_xe_sq_sum d)
              end in
    do (x', y', _) <- apply_weights (x, repeat 0 n_data, repeat 1 n_data) data first weight_stress min_e;
    do xtx <- sum_xtx n_features n_threshold n_batch (d_xtx d) x';
    Ok (mk_xy xtx (sum_array (d_xty d) (xty_of x' y')) (fst d1) (snd d1)
              (d_y_sq_norm d + ysq y') (d_total d + n_data)).

  (** ** Loop over data sets and batches (L25-94) *)
  Variable argsort : list Z -> list nat.
  Variable part_name : string.

  Fixpoint batch_loop (weight_stress min_e : F) (scales : option row) (data : dset)
           (bs : list (Z * Z)) (d : data_xy) : res data_xy :=
    match bs with
    | [] => Ok d
    | (b, e) :: bs' =>
        do sliced <- slice_dft part_name data (Z.to_nat b) (Z.to_nat e);
        do d' <- single_batch weight_stress min_e scales d sliced;
        batch_loop weight_stress min_e scales data bs' d'
    end.

  Fixpoint dataset_loop (weight_stress min_e : F) (scales : option row) (batch_size : Z)
           (datasets : list dset) (d : data_xy) : res (data_xy * list dset) :=
    match datasets with
    | [] => Ok (d, [])
    | data :: t =>
        do sorted <- sort_dft argsort data;
        do dd <- get_dft sorted;
        do bs <- batches (Z.of_nat (length (structures dd))) batch_size;
        do d1 <- batch_loop weight_stress min_e scales sorted bs d;
        do (d2, t') <- dataset_loop weight_stress min_e scales batch_size t d1;
        Ok (d2, sorted :: t')
    end.

  Record normal := mk_normal {
    m_xtx : mat F; m_xty : row; m_ysq : F; m_total : nat; m_scales : row; m_min_e : F }.

  (** [None /= scales] and [None[ids]] are TypeError. *)
  Definition some_or {A} (x : option A) : res A := match x with Some a => Ok a | None => Err TypeError end.

  Definition calc_xtx_xty (datasets : list dset) (scales : option row) (min_energy : option F)
             (weight_stress : F) (batch_size : Z) : res normal :=
    do min_e <- match min_energy with Some m => Ok m | None => get_min_energy datasets end;
    do (d, sorted) <- dataset_loop weight_stress min_e scales batch_size datasets empty_xy;
    do xtx0 <- some_or (d_xtx d);
    do xtx1 <- (if (n_threshold <? n_features)%nat then symmetrize_xtx n_features n_batch xtx0 else Ok xtx0);
    do dfts <- mapM get_dft sorted;
    let n_data := sum (map (fun d => length (energies d)) dfts) in
    do raw <- match scales with
              | Some s => Ok s
              | None => do a <- some_or (d_xe_sum d); do b <- some_or (d_xe_sq_sum d);
                        Ok (scales_of_sums a b n_data)
              end;
    let inc := existsb (fun x => x) (map ds_force datasets) in
    let sc := round_scales inc raw in
    let z := fun j => zero_id inc (raw j) in
    do xty0 <- some_or (d_xty d);
    Ok (mk_normal (fun i j => (if z i || z j then 0 else xtx1 i j) / sc i / sc j)
                  (fun i => (if z i then 0 else xty0 i) / sc i)
                  (d_y_sq_norm d) (d_total d) sc min_e).

  (** ** One-shot matrix (data_standard.py L16-77) *)
  (** [np.std(x, axis=0)]. *)
  Definition np_std (x : list row) : row :=
    fun j => let n := nnat (length x) in
             let m := nsumf (fun r => r j) x / n in
             nsqrt (nsumf (fun r => (r j - m) * (r j - m)) x / n).

  Fixpoint weights_loop (weight_stress min_e : F) (datasets : list dset) (firsts : list (nat * Z * Z))
           (xyw : list row * list F * list F) : res (list row * list F * list F) :=
    match datasets, firsts with
    | data :: t, first :: ft =>
        do xyw' <- apply_weights xyw data first weight_stress min_e;
        weights_loop weight_stress min_e t ft xyw'
    | _, _ => Ok xyw
    end.

  Record standard := mk_standard { t_x : list row; t_y : list F; t_w : list F; t_scales : row; t_min_e : F;
                                   t_first : list (nat * Z * Z); t_n_structures : nat }.

  Definition calc_xy (datasets : list dset) (scales : option row) (min_energy : option F)
             (weight_stress : F) : res standard :=
    do ft <- compute_features datasets;
    let x := f_x ft in
    let inc := negb (f_nf ft =? 0)%nat in
    let raw := match scales with Some s => s | None => np_std (firstn (f_ne ft) x) end in
    let sc := round_scales inc raw in
    let z := fun j => zero_id inc (raw j) in
    let x1 := map (fun (r : row) j => (if z j then 0 else r j) / sc j) x in
    do min_e <- match min_energy with Some m => Ok m | None => get_min_energy datasets end;
    do (x2, y, w) <- weights_loop weight_stress min_e datasets (f_first ft)
                       (x1, repeat 0 (length x1), repeat 1 (length x1));
    Ok (mk_standard x2 y w sc min_e (f_first ft) (f_ne ft)).
End Regress.

(** ** Ridge solver (standard/solvers.py L48-84) *)
Section Ridge.
  Context {F : Type} {N : Num F}.
  Local Open Scope num_scope.
  Variable solve : mat F -> vec F -> vec F.      (** solve_linear_equation *)

  (** [xtx.flat[:: n_features + 1] += c]. *)
  Definition add_diag (c : F) (m : mat F) : mat F := fun i j => if (i =? j)%nat then m i j + c else m i j.

  Fixpoint ridge_loop (xty : vec F) (alphas : list F) (alpha_prev : F) (xtx : mat F) (coefs : list (vec F))
    : mat F * F * list (vec F) :=
    match alphas with
    | [] => (xtx, alpha_prev, coefs)
    | alpha :: t =>
        let xtx' := add_diag (alpha - alpha_prev) xtx in
        ridge_loop xty t alpha xtx' (coefs ++ [solve xtx' xty])
    end.

  (** The columns of [coefs_array], and X^T X as it is left in the caller's array.  After an
      empty loop [alpha] is unbound. *)
  Definition solver_ridge (xtx : mat F) (xty : vec F) (alphas : list F) : res (list (vec F) * mat F) :=
    match alphas with
    | [] => Err UnboundLocalError
    | _ => let '(m, alpha, cs) := ridge_loop xty alphas 0 xtx [] in
           Ok (cs, add_diag (- alpha) m)
    end.
End Ridge.

(** ** Model selection (utils_model_selection.py) *)
Section Select.
  Context {F : Type} {N : Num F} {O : NumOrd F}.
  Local Open Scope num_scope.

  (** [compute_mse] (L37-47). *)
  Definition compute_mse (p : nat) (xtx : mat F) (xty : vec F) (y_sq_norm : F) (size : nat) (c : vec F) : F :=
    let v1 := dot p c (matvec p xtx c) in
    let v2 := dot p (fun i => - (1 + 1) * c i) xty in
    (v1 + v2 + y_sq_norm) / nnat size.

  (** [rmse(y, p) = sqrt(mean((y - p)^2))] (core/utils.py) on the prediction [x @ c]
      (compute_rmse_standard, L23-34). *)
  Definition mse_standard (p : nat) (x : list (vec F)) (y : list F) (c : vec F) : F :=
    nsumf (fun q => (snd q - dot p (fst q) c) * (snd q - dot p (fst q) c)) (combine x y) / nnat (length y).

  (** [np.argmin]: the first position of the smallest entry. *)
  Fixpoint argmin_from (k best : nat) (m : F) (l : list F) : nat :=
    match l with
    | [] => best
    | a :: t => if nltb a m then argmin_from (S k) k a t else argmin_from (S k) best m t
    end.
  Definition argmin (l : list F) : res nat :=
    match l with [] => Err ValueError | a :: t => Ok (argmin_from 1 0 a t) end.

  Record mlp := mk_mlp {
    p_coeffs : vec F; p_scales : vec F; p_rmse_train : F; p_rmse_test : F; p_alpha : F;
    p_scaled : vec F }.

  (** [get_best_model] (L91-117) with [PolymlpDataMLP.__post_init__] (dataclass.py L36-43) for
      a model that is not hybrid. *)
  Definition get_best_model (alphas : list F) (coefs : list (vec F)) (scales : vec F)
             (rmse_train rmse_test : list F) : res mlp :=
    if negb (length alphas =? length coefs)%nat then Err RuntimeError
    else if negb (length alphas =? length rmse_train)%nat then Err RuntimeError
    else if negb (length alphas =? length rmse_test)%nat then Err RuntimeError
    else do idx <- argmin rmse_test;
         do c <- get coefs idx;
         do a <- get rmse_train idx;
         do b <- get rmse_test idx;
         do al <- get alphas idx;
         Ok (mk_mlp c scales a b al (fun i => c i / scales i)).
End Select.
