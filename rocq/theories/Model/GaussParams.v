(** Tables of Gaussian parameters.

    /repo/src/pypolymlp/core/params_utils.py L72-94 (set_gaussian_params), L97-138 (set_active_gaussian_params).

    Simplifications: numbers are exact; [np.linspace] is start + i * step with its argument checks; a division by zero gives infinity, as numpy
    scalars do (the function is then active for every distance); values of the distance dict are arrays of numbers or not arrays ([None]). *)
From Verif Require Import Base Num Model.Structure Model.Properties Model.HybridTypes Model.GridOptimal.
From Coq Require String.

Section Gauss.
  Context {F : Type} {N : Num F} {O : NumOrd F}.
  Local Open Scope num_scope.
  (** [np.linspace(a, b, n)] *)
  Definition linspace (a b : F) (n : Z) : res (list F) :=
    if (n <? 0)%Z then Err ValueError else
    let m := Z.to_nat n in
    if (m =? 1)%nat then Ok [a] else Ok (map (fun i => a + nnat i * ((b - a) / nnat (m - 1))) (seq 0 m)).
  Definition nmax (a b : F) : F := if nltb a b then b else a.
  (** [set_gaussian_params] (L72-94) *)
  Definition gaussian_params (p1 p2 : F * F * Z) (n_gaussians : option Z) (cutoff : option F) : res (list (F * F)) :=
    match n_gaussians with
    | None =>
        do g1 <- linspace (fst (fst p1)) (snd (fst p1)) (snd p1); do g2 <- linspace (fst (fst p2)) (snd (fst p2)) (snd p2);
        Ok (list_prod g1 g2 ++ [(0, 0)])
    | Some n =>
        match cutoff with
        | None => Err RuntimeError
        | Some c =>
            let rmax := c - 1 in
            do l <- linspace 0 1 (n - 1)%Z; let g2 := map (fun x => x * rmax) l in
            do b <- get g2 1; do a <- get g2 0; let width := nmax 1 (b - a) in
            Ok (map (fun x => (width, x)) g2 ++ [(0, 0)])
        end
    end.

  Definition pair_eqb (a b : string * string) : bool := String.eqb (fst a) (fst b) && String.eqb (snd a) (snd b).
  Fixpoint dset {B K} (eqb : K -> K -> bool) (d : list (K * B)) (k : K) (v : B) : list (K * B) :=
    match d with [] => [(k, v)] | (k', v') :: t => if eqb k k' then (k', v) :: t else (k', v') :: dset eqb t k v end.
  Definition dget {B K} (eqb : K -> K -> bool) (d : list (K * B)) (k : K) : option B := match find (fun q => eqb k (fst q)) d with Some q => Some (snd q) | None => None end.
  (** The checks at L104-108 *)
  Definition check_distance (d : list (list string * option (list F))) : res (list ((string * string) * list F)) :=
    mapM (fun q => match fst q with [a; b] => match snd q with Some l => Ok ((a, b), l) | None => Err RuntimeError end | _ => Err RuntimeError end) d.
  (** L111-115: keys sorted by position in [elements] (stable) *)
  Definition sort_pair (els : list string) (k : string * string) : res (string * string) :=
    do i <- py_index els (fst k); do j <- py_index els (snd k); Ok (if (i <=? j)%nat then k else (snd k, fst k)).
  Fixpoint replace_keys (els : list string) (d : list ((string * string) * list F)) (acc : list ((string * string) * list F)) : res (list ((string * string) * list F)) :=
    match d with [] => Ok acc | (k, v) :: t => do k' <- sort_pair els k; replace_keys els t (dset pair_eqb acc k' v) end.
  (** [atomtypes[e]]: the last position of an element *)
  Definition atomtype (els : list string) (e : string) : nat := fold_left (fun acc q => if String.eqb e (snd q) then fst q else acc) (combine (seq 0 (length els)) els) 0%nat.
  (** [itertools.combinations_with_replacement(elements, 2)] *)
  Fixpoint combinations {A} (l : list A) : list (A * A) := match l with [] => [] | a :: t => map (fun b => (a, b)) (a :: t) ++ combinations t end.
  (** The test at L134 *)
  Definition active (dis : F) (p : F * F) : bool :=
    if negb (nltb (fst p) 0) && negb (nltb 0 (fst p)) then true else nltb dis (snd p + 1 / fst p) && nltb (snd p - 1 / fst p) dis.
  (** L131-136 *)
  Definition matches (params : list (F * F)) (ds : list F) : list nat :=
    nunique ((length params - 1)%nat :: concat (map (fun dis => where_ (active dis) (removelast params)) ds)).
  Definition key_eqb (a b : nat * nat) : bool := (fst a =? fst b)%nat && (snd a =? snd b)%nat.
  Definition table (params : list (F * F)) (els : list string) (d : list ((string * string) * list F)) : list ((nat * nat) * list nat) :=
    fold_left (fun acc k => dset key_eqb acc (atomtype els (fst k), atomtype els (snd k)) (match dget pair_eqb d k with None => seq 0 (length params) | Some ds => matches params ds end)) (combinations els) [].
  (** [set_active_gaussian_params] (L97-138) *)
  Definition active_params (params : list (F * F)) (els : list string) (distance : option (list (list string * option (list F)))) : res (list ((nat * nat) * list nat) * bool) :=
    match distance with
    | None => Ok (table params els [], false)
    | Some d => do d <- check_distance d; do d <- replace_keys els d []; Ok (table params els d, true)
    end.
End Gauss.
