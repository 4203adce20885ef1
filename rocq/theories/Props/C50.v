(** C50: force features are minus the derivatives of the energy features with respect to the positions of the atoms. *)
From Verif Require Import Base Num NumR Complex Spec.Gtinv Spec.Deriv Model.Cxx Model.Mapping Model.ModelParams Model.Features
  Model.Neighbor Model.Compute Proofs.Deriv Proofs.PathDeriv Props.C22.
From Coq Require Import Reals Lra.
Local Open Scope R_scope.

(** Pair models. Atom [k] moves along axis [c]; [images i] are the (atom, translation) pairs of the neighbours of atom [i]. *)
Theorem C50_pair (tol : R) (B : basis R) (fp : fparams R) (types : nat -> nat) (n : nat) (pos : nat -> v3 R)
    (images : nat -> list (nat * v3 R)) (k c : nat) (force : bool) (g : nat) :
  fp_gtinv fp = false -> (fp_model_type fp <= 2)%nat -> (c < 3)%nat -> (forall i, (i < n)%nat -> (types i < fp_n_type fp)%nat) ->
  (** no two atoms coincide, no neighbour is exactly at the cutoff *)
  (forall i j t, (i < n)%nat -> In (j, t) (images i) ->
     let d := vadd (vsub (pos j) (pos i)) t in 0 < norm2 d /\ norm d <> fp_cutoff fp) ->
  (** the radial functions have the stated derivatives *)
  (forall p r, 0 < r < fp_cutoff fp -> has_deriv (b_fn B p) r (b_fn_d B p r)) ->
  has_deriv (fun s => xe_sum tol B fp types n (neighbours (moved pos k c s) images) force g) 0
    (- xf_sum tol B fp types n (neighbours pos images) (3 * k + c) g).
Proof.
  intros PM MT Hc HT HS HF. apply pair_force; try assumption. intros i [j t] Hi Hj. destruct (HS i j t Hi Hj) as [H1 H2]. split; [exact H1|].
  intros p. apply inner_away; [now apply norm_pos|exact H2|exact HF].
Qed.
Print Assumptions C50_pair.

(** Invariant models; [tol] is a threshold that drops nothing (radial functions are not below it). *)
Theorem C50_gtinv (tol : R) (B : basis R) (fp : fparams R) (types : nat -> nat) (n : nat) (pos : nat -> v3 R)
    (images : nat -> list (nat * v3 R)) (k c : nat) (g : nat) :
  gtinv_table fp -> basis_ok B (fp_maxl fp) -> (forall x, nltb tol (nabs x) = false -> x = 0) ->
  (c < 3)%nat -> (forall i, (i < n)%nat -> (types i < fp_n_type fp)%nat) ->
  (forall i j t, (i < n)%nat -> In (j, t) (images i) ->
     let d := vadd (vsub (pos j) (pos i)) t in 0 < norm2 d /\ norm d <> fp_cutoff fp) ->
  (forall p r, 0 < r < fp_cutoff fp -> tol <= b_fn B p r /\ has_deriv (b_fn B p) r (b_fn_d B p r)) ->
  (forall key d, 0 < norm2 d -> has_cderiv (fun u => b_ylm B key (along c u d)) 0 (b_ylm_d B c key d)) ->
  has_deriv (fun s => xe_sum tol B fp types n (neighbours (moved pos k c s) images) true g) 0
    (- xf_sum tol B fp types n (neighbours pos images) (3 * k + c) g).
Proof.
  intros GT BO TL Hc HT HS HF HY. apply gtinv_force; try assumption.
  - intros i [j t] Hi Hj. destruct (HS i j t Hi Hj) as [H1 H2]. split; [exact H1|].
    intros p. apply inner_away; [now apply norm_pos|exact H2|]. intros q r Hr. now apply HF.
  - intros p r Hr. now apply HF.
Qed.
Print Assumptions C50_gtinv.

(** Three atoms with distances 3, 3, 4 and a periodic image at distance 5 of the first one; radial functions (p (8 - r))^2,
    spherical harmonics 1, x - iy, z. *)
Module Example.
  Definition v (x y z : R) : v3 R := V3 x y z.
  Definition pos (i : nat) : v3 R := match i with 0%nat => v 0 0 0 | 1%nat => v 1 2 2 | _ => v 0 0 4 end.
  Definition images (i : nat) : list (nat * v3 R) :=
    match i with
    | 0%nat => [(1%nat, v 0 0 0); (2%nat, v 0 0 0); (0%nat, v 5 0 0); (0%nat, v (-5) 0 0)]
    | 1%nat => [(0%nat, v 0 0 0); (2%nat, v 0 0 0)]
    | _ => [(0%nat, v 0 0 0); (1%nat, v 0 0 0)]
    end.
  Definition ylm (k : nat) (d : v3 R) : Cx R := match k with 0%nat => (1, 0) | 1%nat => (vx d, - vy d) | _ => (vz d, 0) end.
  Definition ylm_d (c k : nat) (d : v3 R) : Cx R :=
    match c, k with 0%nat, 1%nat => (1, 0) | 1%nat, 1%nat => (0, -1) | 2%nat, S (S _) => (1, 0) | _, _ => (0, 0) end.
  Definition B : basis R :=
    Basis (fun p r => (hd 0 p * (8 - r)) * (hd 0 p * (8 - r))) (fun p r => - 2 * (hd 0 p * hd 0 p) * (8 - r)) ylm ylm_d.
  Definition fpP : fparams R := FP 1 false [[1; 0]] (fun _ _ => [0%nat]) 6 2 2 0 [] [] [].
  Lemma seps (i j : nat) t : (i < 3)%nat -> In (j, t) (images i) -> let d := vadd (vsub (pos j) (pos i)) t in 0 < norm2 d /\ norm d <> 6.
  Proof.
    intros Hi H d. assert (E : exists m, norm2 d = m * m /\ 0 < m < 6).
    { destruct i as [|[|[|]]]; [| | |lia]; cbn in H;
        repeat (destruct H as [H|H]; [injection H as <- <-; first [exists 3; split; [unfold d; cbn; ring|lra]|exists 4; split; [unfold d; cbn; ring|lra]|exists 5; split; [unfold d; cbn; ring|lra]]|]); destruct H. }
    destruct E as [m [E Hm]]. split; [rewrite E; apply Rmult_lt_0_compat; lra|]. unfold norm. rewrite E. cbn. rewrite sqrt_square by lra. lra.
  Qed.
  Lemma radial p r : 0 <= b_fn B p r /\ has_deriv (b_fn B p) r (b_fn_d B p r).
  Proof.
    cbn. split; [apply Rle_0_sqr|]. assert (H : has_deriv (fun r => hd 0 p * (8 - r)) r (hd 0 p * (0 - 1))) by (apply hd_scale, hd_sub; [apply hd_const|apply hd_id]).
    refine (hd_ext _ _ _ _ _ (fun x => eq_refl) _ (hd_mul _ _ _ _ _ H H)). ring.
  Qed.
  Lemma harmonics c key d : (c < 3)%nat -> has_cderiv (fun u => b_ylm B key (along c u d)) 0 (b_ylm_d B c key d).
  Proof.
    intros Hc. assert (A : forall x : R, has_deriv (fun u => x + u) 0 1).
    { intros x. refine (hd_ext _ _ _ _ _ (fun _ => eq_refl) _ (hd_add (fun _ => x) (fun u => u) _ _ _ (hd_const x 0) (hd_id 0))). lra. }
    assert (A' : forall x : R, has_deriv (fun u => - (x + u)) 0 (-1)).
    { intros x. refine (hd_ext _ _ _ _ _ (fun _ => eq_refl) _ (hd_opp _ _ _ (A x))). lra. }
    destruct c as [|[|[|]]]; [| | |lia]; (destruct key as [|[|key]]; split; cbn; first [apply A|apply A'|apply hd_const]).
  Qed.
  Lemma basis_ok' : basis_ok B 1.
  Proof.
    split; cbn [b_ylm b_ylm_d B].
    - intros l k d H. assert (E : (l = 0 /\ k = 0)%nat \/ (l = 1 /\ k = 0)%nat \/ (l = 1 /\ k = 1)%nat) by lia.
      destruct E as [[-> ->]|[[-> ->]|[-> ->]]]; cbn; apply cx_eq; cbn; lra.
    - intros c l k d H. assert (E : (l = 0 /\ k = 0)%nat \/ (l = 1 /\ k = 0)%nat \/ (l = 1 /\ k = 1)%nat) by lia.
      destruct E as [[-> ->]|[[-> ->]|[-> ->]]]; destruct c as [|[|[|]]]; cbn; apply cx_eq; cbn; lra.
    - intros l d H. assert (E : (l = 0 \/ l = 1)%nat) by lia. destruct E as [-> | ->]; reflexivity.
    - intros c l d H. assert (E : (l = 0 \/ l = 1)%nat) by lia. destruct E as [-> | ->]; destruct c as [|[|[|]]]; reflexivity.
  Qed.
  Lemma meets_gtinv :
    gtinv_table C22.Example.fp /\ basis_ok B (fp_maxl C22.Example.fp) /\ (forall x, nltb 0 (nabs x) = false -> x = 0) /\
    (forall i j t, (i < 3)%nat -> In (j, t) (images i) -> let d := vadd (vsub (pos j) (pos i)) t in 0 < norm2 d /\ norm d <> 6) /\
    (forall p r, 0 <= b_fn B p r /\ has_deriv (b_fn B p) r (b_fn_d B p r)) /\
    (forall c key d, (c < 3)%nat -> has_cderiv (fun u => b_ylm B key (along c u d)) 0 (b_ylm_d B c key d)).
  Proof. split; [apply C22.Example.meets|]. split; [exact basis_ok'|]. split; [apply C22.Example.meets|]. split; [exact seps|]. split; [exact radial|exact harmonics]. Qed.
  (** The pair model: moving atom 1 along z changes the first feature at a rate found by the theorem. *)
  Lemma value : has_deriv (fun s => xe_sum 0 B fpP (fun _ => 0%nat) 3 (neighbours (moved pos 1 2 s) images) true 1) 0
      (- xf_sum 0 B fpP (fun _ => 0%nat) 3 (neighbours pos images) 5 1).
  Proof.
    apply (C50_pair 0 B fpP (fun _ => 0%nat) 3 pos images 1 2 true 1); cbn; try lia; try reflexivity.
    - exact seps.
    - intros p r _. apply radial.
  Qed.
End Example.
