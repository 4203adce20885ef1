(** Fits of a potential and learning curves.

    /repo/src/pypolymlp/mlp_dev/standard/fit.py L12-179; standard/solvers.py L9-84;
    mlp_dev/core/utils_model_selection.py L13-117; mlp_dev/core/data_utils.py L46-62; mlp_dev/core/api_mlpdev.py L43-83, L103-140.

    Simplifications: as in Model/Regress.v; one potential (no hybrid models); LAPACK's posv is an
    oracle [posv] that returns None when the factorization cannot be completed; the errors written
    for a learning curve are an oracle [accuracy] (Model/Accuracy.v); the size of the memory is not
    modelled (check_memory_size_in_regression); [np.sqrt] of a negative number is whatever [nsqrt] is
    (it gives nan and does not raise, so the [except] of compute_rmse_seq is not reached). *)
From Verif Require Import Base Num Model.Structure Model.DatasetDFT Model.Dataset Model.Regress.

(** [range(start, stop, step)] for 0 <= start, 0 <= step *)
Definition py_range (start stop step : nat) : res (list nat) :=
  match step with
  | 0 => Err ValueError
  | S _ => Ok (map (fun k => start + k * step) (seq 0 ((stop - start + (step - 1)) / step)))
  end.
(** fit.py L149: the numbers of structures of a learning curve *)
Definition sample_sizes (n_train : nat) : res (list nat) := py_range (n_train / 10) (n_train + 1) (n_train / 10).

(** [range(b, b + n)] of integers *)
Definition zrange (b : Z) (n : nat) : list Z := map (fun k => (b + Z.of_nat k)%Z) (seq 0 n).
(** [l[i]] with an integer array: negative numbers count from the end *)
Definition np_get {A} (l : list A) (i : Z) : res A :=
  let k := if (i <? 0)%Z then (i + Z.of_nat (length l))%Z else i in
  if (k <? 0)%Z then Err IndexError else get l (Z.to_nat k).

Section Fit.
  Context {F : Type} {N : Num F} {NO : NumOrd F} {St : Type}.
  Local Open Scope num_scope.
  Notation row := (vec F).
  Notation dset := (ds F St).

  (** [PolymlpDataXY.slice] (data_utils.py L46-62) *)
  Definition slice_ids (first : nat * Z * Z) (n_samples : nat) (total_n_atoms : list nat) : list Z :=
    let '(_, fb, sb) := first in
    (zrange 0 n_samples ++ zrange sb (n_samples * 6) ++ zrange fb (sum (firstn n_samples total_n_atoms) * 3))%list.
  Definition slice_xy (d : standard (F:=F)) (n_samples : nat) (total_n_atoms : list nat) : res (list row * list F) :=
    do first <- get (t_first d) 0;
    let ids := slice_ids first n_samples total_n_atoms in
    do x <- mapM (np_get (t_x d)) ids; do y <- mapM (np_get (t_y d)) ids; Ok (x, y).

  Variable p : nat.                           (** number of features *)

  (** [solve_linear_equation] (solvers.py L9-45): 1e30 everywhere when posv fails *)
  Variable posv : mat F -> vec F -> option (vec F).
  Variable huge : F.
  Definition solve_linear_equation (m : mat F) (v : vec F) : vec F :=
    match posv m v with Some c => c | None => fun _ => huge end.
  Notation ridge := (solver_ridge solve_linear_equation).

  (** [_check_singular] (utils_model_selection.py L13-20) *)
  Variable error_threshold : F.               (** 1e6 *)
  Definition check_singular (rmse : list F) : res unit :=
    if forallb (fun r => nltb error_threshold r) rmse then Err RuntimeError else Ok tt.
  (** [compute_rmse_standard] (L23-34), [compute_rmse_seq] (L50-74) *)
  Definition compute_rmse_standard (coefs : list row) (x : list row) (y : list F) (check : bool) : res (list F) :=
    let r := map (fun c => nsqrt (mse_standard p x y c)) coefs in
    if check then (do _ <- check_singular r; Ok r) else Ok r.
  Definition compute_rmse_seq (coefs : list row) (d : normal (F:=F)) (check : bool) : res (list F) :=
    let r := map (fun c => nsqrt (compute_mse p (m_xtx d) (m_xty d) (m_ysq d) (m_total d) c)) coefs in
    if check then (do _ <- check_singular r; Ok r) else Ok r.
  (** [compute_rmse] (L77-90): the argument [check_singular] is not handed on *)
  Inductive data := Of_xy (x : list row) (y : list F) | Of_normal (d : normal (F:=F)).
  Definition compute_rmse (coefs : list row) (d : data) (check : bool) : res (list F) :=
    match d with
    | Of_xy x y => compute_rmse_standard coefs x y false
    | Of_normal d => compute_rmse_seq coefs d false
    end.

  (** [polymlp.calc_xtx_xty] and [polymlp.calc_xy] (api_mlpdev.py L43-83) with their settings *)
  Variable calc_xtx_xty : list dset -> option row -> option F -> res (normal (F:=F)).
  Variable calc_xy : list dset -> option row -> option F -> res (standard (F:=F)).

  (** [fit] (fit.py L12-62) *)
  Definition fit (alphas : list F) (train test : list dset) : res mlp :=
    do train_xy <- calc_xtx_xty train None None;
    do (coefs, xtx) <- ridge (m_xtx train_xy) (m_xty train_xy) alphas;
    (** the array [train_xy.xtx] is modified in place by the solver *)
    let train_xy' := mk_normal xtx (m_xty train_xy) (m_ysq train_xy) (m_total train_xy) (m_scales train_xy) (m_min_e train_xy) in
    do rmse_train <- compute_rmse coefs (Of_normal train_xy') true;
    do test_xy <- calc_xtx_xty test (Some (m_scales train_xy)) (Some (m_min_e train_xy));
    do rmse_test <- compute_rmse coefs (Of_normal test_xy) false;
    get_best_model alphas coefs (m_scales train_xy) rmse_train rmse_test.

  (** [fit_standard] (fit.py L65-112) *)
  Definition fit_standard (alphas : list F) (train test : list dset) : res mlp :=
    do train_xy <- calc_xy train None None;
    do (coefs, _) <- ridge (xtx_of (t_x train_xy)) (xty_of (t_x train_xy) (t_y train_xy)) alphas;
    do rmse_train <- compute_rmse coefs (Of_xy (t_x train_xy) (t_y train_xy)) true;
    do test_xy <- calc_xy test (Some (t_scales train_xy)) (Some (t_min_e train_xy));
    do rmse_test <- compute_rmse coefs (Of_xy (t_x test_xy) (t_y test_xy)) false;
    get_best_model alphas coefs (t_scales train_xy) rmse_train rmse_test.

  (** [fit_learning_curve] (fit.py L115-179) *)
  Context {E : Type}.
  Variable accuracy : mlp (F:=F) -> res (list (string * E)).
  Definition curve_point (alphas : list F) (train_xy test_xy : standard (F:=F)) (total_n_atoms : list nat) (n_samples : nat)
    : res (list (nat * E)) :=
    do (x, y) <- slice_xy train_xy n_samples total_n_atoms;
    do (coefs, _) <- ridge (xtx_of x) (xty_of x y) alphas;
    do rmse_train <- compute_rmse coefs (Of_xy x y) false;
    do rmse_test <- compute_rmse coefs (Of_xy (t_x test_xy) (t_y test_xy)) false;
    do best <- get_best_model alphas coefs (t_scales train_xy) rmse_train rmse_test;
    do error <- accuracy best;
    Ok (map (fun q => (n_samples, snd q)) error).
  Definition fit_learning_curve (alphas : list F) (train test : list dset) : res (list (nat * E)) :=
    match train with
    | [t0] =>
        do train_xy <- calc_xy train None None;
        do test_xy <- calc_xy test (Some (t_scales train_xy)) (Some (t_min_e train_xy));
        do sizes <- sample_sizes (t_n_structures train_xy);
        do d0 <- get_dft t0;
        do logs <- mapM (curve_point alphas train_xy test_xy (total_n_atoms d0)) sizes;
        Ok (concat logs)
    | _ => Err RuntimeError
    end.
End Fit.
