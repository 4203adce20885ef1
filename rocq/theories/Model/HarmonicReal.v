(** Sampling of displaced supercells from force constants.

    /repo/src/pypolymlp/calculator/sscha/harmonic_real.py L103-268 (run, _solve_eigen_equation, _hide_imaginary_modes, _get_distribution,
    _eliminate_outliers, _compute_harmonic_properties, _compute_average_properties) and the properties L312-355.

    Simplifications: [np.linalg.eigh], [np.tanh] and the random normal coordinates are parameters; products with a diagonal matrix are written
    as products of entries; making and evaluating a displaced structure are parameters; the order in which Python lists a set is a parameter.
    The mean of no number is nan, every comparison with it is false. *)
From Verif Require Import Base Num Model.FC2.

Section HarmonicReal.
  Context {F : Type} {N : Num F} {O : NumOrd F}.
  Local Open Scope num_scope.
  Definition disp := nat -> nat -> F.       (** axis, atom *)
  Variable n3 : nat.                        (** 3 N *)
  Variable masses : nat -> F.
  Variables (eigh : mat F -> vec F * mat F) (tanh : F -> F).
  Variables (const_sq const_planck const_amplitude kb : F).
  Variables (thr small low : F).            (** 0.1, atol of [np.isclose], 0.01 *)

  (** [_solve_eigen_equation] (L144-164) *)
  Definition masses_sqrt (k : nat) : F := ninv (nsqrt (masses (k / 3)%nat)).
  Definition dyn (fc : nat -> nat -> nat -> nat -> F) : mat F := fun r c => masses_sqrt r * fc_matrix fc r c * masses_sqrt c.
  Definition freq_of (sq : F) : F := if nltb sq n0 then - nsqrt (- sq) else nsqrt sq.
  Record mesh := mk_mesh { frequencies : vec F; eigenvectors : mat F }.
  Definition solve_eigen (fc : nat -> nat -> nat -> nat -> F) : mesh :=
    let '(sq, vecs) := eigh (dyn fc) in mk_mesh (fun k => freq_of (sq k * const_sq)) vecs.

  (** [_hide_imaginary_modes] (L166-170) *)
  Definition hide (f : F) : F := if nltb f thr then n0 else f.
  (** [np.isclose(x, 0.0)] *)
  Definition close0 (x : F) : bool := negb (nltb small (nabs x)).
  (** Occupancies and amplitudes (L174-189); beta is infinite for zero temperature. *)
  Definition occupancy (temp f : F) : F :=
    nhalf * ninv (if close0 temp then n1 else tanh (nhalf * (n1 / (kb * temp)) * const_planck * f)).
  Definition amplitude (temp f : F) : F :=
    let f := hide f in if close0 f then low else const_amplitude * occupancy temp f * (n1 / f).
  (** Displacements of a sample of normal coordinates (L196-201) *)
  Definition to_disp (vecs : mat F) (q : vec F) : disp := fun i a => masses_sqrt (3 * a + i)%nat * matvec n3 vecs q (3 * a + i)%nat.
  (** [d.T.reshape(-1)] *)
  Definition flat (d : disp) : vec F := fun k => d (k mod 3)%nat (k / 3)%nat.

  (** ** A run *)
  Context {St : Type}.
  Variable place : nat -> disp -> St.       (** sample number, displacements: [get_structures_from_displacements] *)
  Variable eval : St -> F * disp * list F.
  Variables (e0 : F) (f0 : disp) (s0 : list F).  (** of the supercell without displacements *)
  Variable order : list nat -> list nat.    (** [list] of a set *)
  Variable low_energy : F.                  (** -10 *)

  Definition mean (l : list F) : F := nsum l / nnat (length l).
  (** The kept samples of [_eliminate_outliers] (L204-211) *)
  Definition kept (energies : list F) : list nat :=
    let at_ := fun i => nth i energies n0 in
    let all := seq 0 (length energies) in
    let ids1 := filter (fun i => nltb low_energy (at_ i)) all in
    match ids1 with
    | [] => []
    | _ =>
        let e_ave := mean (map at_ ids1) in
        let tol := (n1 + n1) * nabs e_ave in
        let ids2 := filter (fun i => nltb (nabs (at_ i - e_ave)) tol) all in
        order (filter (fun i => existsb (Nat.eqb i) ids2) ids1)
    end.
  Record sampled := mk_sampled {
    disps : list disp; supercells : list St; forces : list disp; stresses : list (list F); full : list F;
    harm : list F; average_forces : disp; average_stress : nat -> F }.
  (** [self._x[ids]]: an empty index list is an array of floats. *)
  Definition take {B} (l : list B) (ids : list nat) : res (list B) := match ids with [] => Err IndexError | _ => mapM (get l) ids end.
  Definition meanf {B} (f : B -> F) (l : list B) : F := mean (map f l).
  (** [run] (L103-142), [eliminate_outliers] is not looked at. *)
  Definition run (eliminate_outliers : bool) (temp : F) (fc : nat -> nat -> nat -> nat -> F) (qs : list (vec F)) : res sampled :=
    let m := solve_eigen fc in
    let ds := map (to_disp (eigenvectors m)) qs in
    let sts := map (fun p => place (fst p) (snd p)) (combine (seq 0 (length ds)) ds) in
    let evs := map eval sts in
    let es := map (fun r => fst (fst r) - e0) evs in
    let ids := kept es in
    do ds <- take ds ids;
    do sts <- mapM (get sts) ids;
    do fs <- take (map (fun r => snd (fst r)) evs) ids;
    do ss <- take (map snd evs) ids;
    do es <- take es ids;
    let hs := map (fun d => eval_properties_fc2 n3 (fc_matrix fc) (flat d)) ds in
    Ok (mk_sampled ds sts fs ss es (map h_energy hs)
          (fun i a => meanf (fun f => f i a) fs - meanf (fun h => h_forces h i a) hs - f0 i a)
          (fun k => meanf (fun s => nth k s n0) ss - meanf (fun h => nth k (h_stress h) n0) hs - nth k s0 n0)).

  (** The properties in kJ/mol (L312-355) *)
  Definition full_potentials (unit : F) (s : sampled) : list F := map (fun e => e * unit) (full s).
  Definition harmonic_potentials (unit : F) (s : sampled) : list F := map (fun e => e * unit) (harm s).
  Definition anharmonic_potentials (unit : F) (s : sampled) : list F := map (fun p => (fst p - snd p) * unit) (combine (full s) (harm s)).
  Definition average_full (unit : F) (s : sampled) : F := mean (full s) * unit.
  Definition average_harmonic (unit : F) (s : sampled) : F := mean (harm s) * unit.
  Definition average_anharmonic (unit : F) (s : sampled) : F := mean (anharmonic_potentials unit s).
End HarmonicReal.
