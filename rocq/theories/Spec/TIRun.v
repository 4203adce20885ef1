(** What a thermodynamic integration should give: quadrature, statistical mechanics of a mixture of two energies,
    the runs and their logs, and the choice of a reference. *)
From Verif Require Import Base Num NumR Model.MD Model.TIRun Spec.MD.
From Coq Require Import Reals.
From Coquelicot Require Import Coquelicot.
Local Open Scope R_scope.

(** ** Quadrature with points x and weights w *)
Definition quad (x w : list R) (f : R -> R) : R := nsumf (F:=R) (fun q => snd q * f (fst q)) (combine x w).
Fixpoint polynomial (p : list R) (x : R) : R := match p with [] => 0 | c :: t => c + x * polynomial t x end.
(** Exact on [a,b] for polynomials of degree up to d *)
Definition exact_rule (d : nat) (x w : list R) (a b : R) : Prop :=
  length x = length w /\ forall p, (length p <= d + 1)%nat -> quad x w (polynomial p) = RInt (polynomial p) a b.

(** ** Canonical ensemble of a system with finitely many states, with the energy a mixture of two *)
Section Canonical.
  Context {X : Type}.
  Variables (states : list X) (e0 e1 : X -> R).
  Definition energy_at (a : R) (s : X) : R := a * e1 s + (1 - a) * e0 s.
  Definition boltzmann (b a : R) (s : X) : R := exp (- (b * energy_at a s)).
  Definition partition (b a : R) : R := nsumf (F:=R) (boltzmann b a) states.
  Definition canonical (b a : R) (A : X -> R) : R := nsumf (F:=R) (fun s => A s * boltzmann b a s) states / partition b a.
  Definition free_energy (b a : R) : R := - (1 / b) * ln (partition b a).
  Definition gibbs_entropy (k b a : R) : R :=
    - k * nsumf (F:=R) (fun s => let p := boltzmann b a s / partition b a in p * ln p) states.
End Canonical.

(** ** The log of a run *)
Section Logs.
  Variable simulate : kind -> list (run R) -> run R -> trajectory R.
  (** The perturbation is as C75 says. *)
  Definition log_of (kb : R) (k : kind) (past : list (run R)) (u : run R) (g : log R) : Prop :=
    let t := simulate k past u in let m := fun l => Some (mean (production (u_eq u) l)) in
    g_alpha g = u_alpha u /\ g_energy g = m (tr_energies t) /\ g_total g = m (tr_totals t) /\
    g_delta g = m (tr_10 t) /\ g_perturb1 g = m (tr_1a t) /\ g_disp g = (match k with WithFC2 | WithGeneral => m (tr_disps t) | Plain | WithRef => None end) /\
    g_perturb g = Some (free_difference (kb * u_temp u) (production (u_eq u) (tr_1a t))).
  (** Every run reproduces the canonical averages of a system up to d. *)
  Definition sampled {X} (states : list X) (e0 e1 : X -> R) (k : kind) (T b d : R) : Prop :=
    forall past a n_eq n, let t := simulate k past (mk_run (Some a) T n_eq n) in
      Rabs (mean (production n_eq (tr_10 t)) - canonical states e0 e1 b a (fun s => e1 s - e0 s)) <= d /\
      Rabs (mean (production n_eq (tr_energies t)) - canonical states e0 e1 b a (energy_at e0 e1 a)) <= d.
End Logs.

(** ** References *)
Definition usable (r : reference R) : Prop := f_converge r = true /\ f_imaginary r = false.
(** The first usable reference at temperature zero, or else the first usable one with the least temperature *)
Definition best_reference (l : list (reference R)) (r : reference R) : Prop :=
  exists l1 l2, l = l1 ++ r :: l2 /\ usable r /\
    ((Rabs (f_temp r) <= 1 / 10 ^ 8 /\ forall s, In s l1 -> usable s -> 1 / 10 ^ 8 < Rabs (f_temp s)) \/
     (forall s, In s l -> usable s -> 1 / 10 ^ 8 < Rabs (f_temp s)) /\ f_temp r < 10 ^ 10 /\
     (forall s, In s l1 -> usable s -> f_temp r < f_temp s) /\ (forall s, In s l2 -> usable s -> f_temp r <= f_temp s)).
