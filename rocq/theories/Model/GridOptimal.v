(** Selection of optimal models.

    /repo/src/pypolymlp/utils/grid_optimal.py L10-67 (find_optimal_mlps, _find_convex_mlps, _find_lower_convex) and
    L118-147 (_parse_errors_costs).

    Simplifications: [ConvexHull] returns lists of row numbers or fails; a directory's error and cost files are two
    optional records; the logarithmic scale is a function [scale] of the time; numbers are not converted to strings and
    back; files are not written. *)
From Verif Require Import Base Num.
From Coq Require String.

Section Grid.
  Context {F : Type} {O : NumOrd F}.
  Variable thirty : F.
  Record mlp := mk_mlp { g_time : F; g_time_mp : F; g_rmse_e : F; g_rmse_f : F; g_rest : String.string }.
  (** [d2[0] < d1[0] and d2[2] < d1[2] and d2[3] < d1[3]] (L60) *)
  Definition better (d2 d1 : mlp) : bool := nltb (g_time d2) (g_time d1) && nltb (g_rmse_e d2) (g_rmse_e d1) && nltb (g_rmse_f d2) (g_rmse_f d1).
  (** [_find_lower_convex] (L55-67) *)
  Definition find_lower_convex (data : list mlp) : list nat :=
    where_ (fun i1d1 => negb (existsb (fun i2d2 => negb (fst i1d1 =? fst i2d2) && better (snd i2d2) (snd i1d1)) (combine (seq 0 (length data)) data))) (combine (seq 0 (length data)) data).
  (** np.unique of row numbers *)
  Fixpoint ninsert (x : nat) (l : list nat) : list nat :=
    match l with [] => [x] | y :: t => if x <? y then x :: l else if x =? y then l else y :: ninsert x t end.
  Definition nunique (l : list nat) : list nat := fold_right ninsert [] l.
  (** [_find_convex_mlps] (L30-52). An empty index list becomes a float array, which cannot index. *)
  Definition find_convex_mlps (hull : list (F * F) -> res (list (list nat))) (scale : F -> F) (use_force use_log : bool) (d_array : list mlp) : res (list mlp) :=
    let d_target := map (fun d => (if use_log then scale (g_time d) else g_time d, if use_force then g_rmse_f d else g_rmse_e d)) d_array in
    do simplices <- hull d_target;
    let v_convex := nunique (concat simplices) in
    do data <- mapM (get d_array) v_convex;
    match find_lower_convex data with
    | [] => Err IndexError
    | v_l => do d_convex <- mapM (get data) v_l; Ok (filter (fun d => nltb (g_rmse_e d) thirty) d_convex)
    end.
  (** Stable sort by cost (L146) *)
  Fixpoint tinsert (x : mlp) (l : list mlp) : list mlp :=
    match l with [] => [x] | y :: t => if nltb (g_time y) (g_time x) then y :: tinsert x t else x :: l end.
  Definition tsort (l : list mlp) : list mlp := fold_right tinsert [] l.
  (** [_parse_errors_costs] (L118-147): error file (energy and force errors) and cost file (times, system) per directory. *)
  Record dirinfo := mk_dir { i_name : String.string; i_errors : option (F * F); i_costs : option (F * F * String.string) }.
  Definition parse_dir (s : list mlp * option String.string) (d : dirinfo) : list mlp * option String.string :=
    match i_errors d with
    | None => s
    | Some (e, f) =>
        match i_costs d with
        | None => s
        | Some (t1, tm, sys) => (fst s ++ [mk_mlp t1 tm e f (i_name d)], Some sys)
        end
    end.
  Definition parse_errors_costs (dirs : list dirinfo) : res (list mlp * String.string) :=
    let '(rows, sys) := fold_left parse_dir dirs ([], None) in
    match sys with None => Err UnboundLocalError | Some sys => Ok (tsort rows, sys) end.
  (** [find_optimal_mlps] (L10-27) *)
  Definition find_optimal_mlps hull scale use_force use_log dirs : res (list mlp * list mlp * String.string) :=
    do (d_array, system) <- parse_errors_costs dirs;
    do d_convex <- find_convex_mlps hull scale use_force use_log d_array;
    Ok (d_array, d_convex, system).
End Grid.
Arguments mlp F : clear implicits.
Arguments dirinfo F : clear implicits.
