(** Elastic constants: calculator/compute_elastic.py. *)
From Verif Require Import Base Num Model.Tensor.

Section Elastic.
  Context {F : Type} {N : Num F} {O : NumOrd F}.
  Local Open Scope num_scope.
  (** [self._prop.eval] and [eval_multiple] (stress part, eV/cell, order xx, yy, zz, xy, yz, zx) as a function of the axis
      matrix: the other fields of the structure are those of the unit cell (L168). That [eval_multiple] works structure by
      structure is C29. *)
  Variable stress_at : mat F -> list F.
  Variables (axis : mat F) (volume EVtoGPa : F).
  (** np.isclose(m, 0.0): |m| <= atol, with atol = 1e-8. *)
  Variable atol : F.

  (** np.linspace(-eps, eps, n): n equally spaced points. *)
  Definition linspace (eps : F) (n : nat) : list F :=
    match n with
    | 0%nat => []
    | 1%nat => [- eps]
    | _ => map (fun k => - eps + nnat k * ((eps - - eps) / nnat (n - 1))) (seq 0 n)
    end.
  (** L159-160 *)
  Definition magnitudes (n_samples : nat) (eps : F) : list F := filter (fun m => nltb atol (nabs m)) (linspace eps n_samples).
  (** m[i, j] += v *)
  Definition add_at (m : mat F) (i j : nat) (v : F) : mat F := fun a b => if (a =? i)%nat && (b =? j)%nat then m a b + v else m a b.
  (** L168-172; the volume field of the copy is not updated. *)
  Definition strained (i j : nat) (mag : F) : mat F := mmul (add_at (add_at eye i j mag) j i mag) axis.
  (** [__init__] L105-106 *)
  Definition eq_stress : list F := to_voigt (stress_at axis).
  (** [eval] (L110-122) for one structure. *)
  Definition eval_one (a : mat F) : list F := in_gpa EVtoGPa (map (fun '(x, y) => x - y) (combine (to_voigt (stress_at a)) eq_stress)) volume.
  (** np.linalg.lstsq with one column (L180): minimum-norm least squares; [is_zero] decides whether the column is zero. *)
  Variable is_zero : F -> bool.
  Definition lstsq1 (x y : list F) : F :=
    let xx := nsum (map (fun a => a * a) x) in if is_zero xx then 0 else nsum (map (fun '(a, b) => a * b) (combine x y)) / xx.
  (** m[i, j] = v *)
  Definition set_at (m : mat F) (i j : nat) (v : F) : mat F := fun a b => if (a =? i)%nat && (b =? j)%nat then v else m a b.
  (** Slope of component v2 under strain number v1 (L175-180). *)
  Definition slope (mags : list F) (v1 v2 : nat) : F :=
    let ij := nth v1 voidt (0, 0)%nat in
    let stresses := map (fun mag => eval_one (strained (fst ij) (snd ij) mag)) mags in
    lstsq1 (map (fun m => m * (1 + 1)) mags) (map (fun s => - nth v2 s 0) stresses).
  (** L162-182 *)
  Definition constants (mags : list F) : mat F :=
    fold_left (fun c v1 => fold_left (fun c v2 => set_at (set_at c v1 v2 (slope mags v1 v2)) v2 v1 (slope mags v1 v2)) (seq 0 6) c) (seq 0 6) (fun _ _ => 0).
  (** [_symmetrize] (L141-155); [proj] is the 81x81 projector. *)
  Definition tensor4 := nat -> nat -> nat -> nat -> F.
  Definition set4 (t : tensor4) (i j k l : nat) (v : F) : tensor4 :=
    fun a b c d => if (a =? i)%nat && (b =? j)%nat && (c =? k)%nat && (d =? l)%nat then v else t a b c d.
  Definition numbered {A} (l : list A) : list (nat * A) := combine (seq 0 (length l)) l.
  Definition el_full (c : mat F) : tensor4 :=
    fold_left (fun t '(v1, (i, j)) => fold_left (fun t '(v2, (k, l)) =>
      set4 (set4 (set4 (set4 t i j k l (c v1 v2)) i j l k (c v1 v2)) j i k l (c v1 v2)) j i l k (c v1 v2)) (numbered voidt) t) (numbered voidt) (fun _ _ _ _ => 0).
  Definition flat4 (t : tensor4) : vec F := fun p => t (p / 27)%nat (p / 9 mod 3)%nat (p / 3 mod 3)%nat (p mod 3)%nat.
  Definition symmetrize (proj : mat F) (c : mat F) : mat F :=
    let full := matvec 81 proj (flat4 (el_full c)) in
    fold_left (fun m '(v1, (i, j)) => fold_left (fun m '(v2, (k, l)) => set_at m v1 v2 (full (27 * i + 9 * j + 3 * k + l)%nat)) (numbered voidt) m) (numbered voidt) c.
  (** [run] (L157-185) *)
  Definition run (proj : mat F) (n_samples : nat) (eps : F) : mat F := symmetrize proj (constants (magnitudes n_samples eps)).
  (** utils/tensor_utils_O4.py [compute_spg_projector_O4] (L19-28); [rots] are the matrices r_c of L24, from symfc. *)
  Definition digits (p : nat) : nat * nat * nat * nat := (p / 27, p / 9 mod 3, p / 3 mod 3, p mod 3)%nat.
  Definition kron4 (r : mat F) : mat F := fun p q =>
    let '(a, b, c, d) := digits p in let '(i, j, k, l) := digits q in r a i * r b j * r c k * r d l.
  Definition spg_projector (rots : list (mat F)) : mat F := fun p q => nsum (map (fun r => kron4 r p q) rots) / nnat (length rots).
  (** [compute_perm_projector_O4] (L31-55): orbits of index quadruples; itertools.combinations_with_replacement(comb, 2). *)
  Definition comb : list (nat * nat) := [(0, 0); (0, 1); (0, 2); (1, 1); (1, 2); (2, 2)]%nat.
  Fixpoint pairs_repl {A} (l : list A) : list (A * A) := match l with [] => [] | a :: t => map (fun b => (a, b)) (a :: t) ++ pairs_repl t end.
  Definition flat_index (q : nat * nat * nat * nat) : nat := let '(a, b, c, d) := q in (a * 27 + b * 9 + c * 3 + d)%nat.
  Definition orbit (x : (nat * nat) * (nat * nat)) : list nat :=
    let '((a, b), (c, d)) := x in
    nodup Nat.eq_dec (map flat_index [(a, b, c, d); (a, b, d, c); (b, a, c, d); (b, a, d, c); (c, d, a, b); (c, d, b, a); (d, c, a, b); (d, c, b, a)]).
  Definition basis (x : (nat * nat) * (nat * nat)) : vec F := fun p => if mem p (orbit x) then 1 / nsqrt (nnat (length (orbit x))) else 0.
  Definition perm_projector : mat F := fun p q => nsum (map (fun x => basis x p * basis x q) (pairs_repl comb)).
  (** [compute_projector_O4] (L12-16) *)
  Definition projector (rots : list (mat F)) : mat F := fun p q => sumn 81 (fun k => perm_projector p k * spg_projector rots k q).
End Elastic.
