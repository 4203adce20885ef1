(** Neighbour lists of two descriptions of one crystal. *)
From Verif Require Import Base Num NumR Model.Cxx Model.Neighbor Spec.Neighbor Spec.Lattice Spec.Crystal Proofs.NeighborList Proofs.Mirrored Proofs.HalfFull Proofs.NeighborCell.
From Verif Require Props.C20.
From Coq Require Import Reals Lra.
Local Open Scope R_scope.

Lemma count_filter (phi : nat -> nat) j l : count_occ Nat.eq_dec (map phi l) j = length (filter (fun i => phi i =? j)%nat l).
Proof.
  induction l as [|a l IH]; [reflexivity|]. cbn [map count_occ filter]. destruct (Nat.eq_dec (phi a) j) as [E|E].
  - rewrite (proj2 (Nat.eqb_eq _ _) E). cbn [length]. now rewrite IH.
  - rewrite (proj2 (Nat.eqb_neq _ _) E). exact IH.
Qed.

Definition the_rows (tol : R) (A : cell R) (pos : list (v3 R)) (cutoff : R) : list (list (nat * v3 R)) :=
  let '(trans, p) := neighbor_cell A pos cutoff in half_rows tol trans p cutoff.
Lemma the_csr tol A pos cutoff : neighbor_half tol A pos cutoff = csr_of (the_rows tol A pos cutoff).
Proof. unfold neighbor_half, the_rows. destruct (neighbor_cell A pos cutoff). reflexivity. Qed.
Lemma the_len tol A pos cutoff : length (the_rows tol A pos cutoff) = length pos.
Proof. unfold the_rows, neighbor_cell. destruct (ref_any A); rewrite rows_len; [apply map_length|reflexivity]. Qed.
Lemma the_half tol A pos cutoff : half_list (the_rows tol A pos cutoff).
Proof. unfold the_rows, neighbor_cell. destruct (ref_any A); apply rows_half. Qed.

(** What the search asks for (C20, C21). *)
Definition searchable (tol : R) (A : cell R) (pos : list (v3 R)) (cutoff : R) : Prop :=
  volume A <> 0 /\
  (forall c, (c < 3)%nat -> cutoff * norm (recip (used A) c) <= IZR (reach (used A) cutoff c)) /\
  (ref_any A = false -> forall i j c, (i < length pos)%nat -> (j < length pos)%nat -> (c < 3)%nat -> -1 < frac A (vsub (nth j pos v0) (nth i pos v0)) c < 1) /\
  (forall t, In t (fst (neighbor_cell A pos cutoff)) -> tol * tol < norm2 t -> 3 * (tol * tol) <= norm2 t).

Section Rows.
  Variable tol : R.
  Hypothesis Ht : 0 < tol.
  Variable cutoff : R.
  Hypothesis Hc : 0 <= cutoff.
  Definition near (d : v3 R) : Prop := tol * tol < norm2 d < cutoff * cutoff.
  Notation full A pos i := (row (get_full_list (length pos) (neighbor_half tol A pos cutoff)) i).
  Lemma full_spec A pos i : searchable tol A pos cutoff -> (i < length pos)%nat ->
    NoDup (full A pos i) /\
    forall j d, In (j, d) (full A pos i) <-> (j < length pos)%nat /\ near d /\ at_place A pos j (vadd (nth i pos v0) d).
  Proof.
    intros (HV & HR & HP & HT) Hi. pose proof (C20.C20_half_full tol A pos cutoff Ht HT i Hi) as P.
    split; [apply (Permutation_NoDup (Permutation_sym P)); now apply row_nodup|]. intros j d.
    assert (Q : In (j, d) (full A pos i) <-> In (j, d) (row (neighbor_full tol A pos cutoff) i)) by (split; apply Permutation_in; [exact P|now symmetry]).
    assert (L : In (j, d) (full A pos i) -> (j < length pos)%nat).
    { intros H. rewrite the_csr in H. rewrite <- (the_len tol A pos cutoff) in H, Hi |- *.
      rewrite (full_row _ _ eq_refl (the_half tol A pos cutoff) i Hi) in H. exact (sel_lt _ _ eq_refl (the_half tol A pos cutoff) i (j, d) H). }
    split.
    - intros H. pose proof (L H) as Hj. split; [exact Hj|]. apply Q in H. apply (complete tol A pos cutoff i j d HV Hc HR HP Hi Hj) in H.
      destruct H as [t [Lt [E N]]]. split; [exact N|]. unfold at_place. replace (vsub _ _) with t; [exact Lt|]. rewrite E. destruct t. unfold vsub, vadd. cbn. f_equal; ring.
    - intros (Hj & N & H). apply Q. apply (complete tol A pos cutoff i j d HV Hc HR HP Hi Hj). exists (vsub (vadd (nth i pos v0) d) (nth j pos v0)). split; [exact H|].
      split; [|exact N]. destruct d. unfold vsub, vadd. cbn. f_equal; ring.
  Qed.
  Variables (A A' : cell R) (pos pos' : list (v3 R)) (types types' : nat -> nat) (v : v3 R) (phi : nat -> nat).
  Hypothesis SC : same_crystal A pos types A' pos' types' v phi.
  Hypothesis NV : no_overlap A' pos'.
  Hypothesis S : searchable tol A pos cutoff.
  Hypothesis S' : searchable tol A' pos' cutoff.
  Lemma full_same i : (i < length pos')%nat -> Permutation (map (fun jd => (phi (fst jd), snd jd)) (full A' pos' i)) (full A pos (phi i)).
  Proof.
    intros Hi. pose proof (sc_atoms _ _ _ _ _ _ _ _ SC i Hi) as Hp. destruct (full_spec A' pos' i S' Hi) as [ND' M']. destruct (full_spec A pos (phi i) S Hp) as [ND M].
    assert (O : at_place A pos (phi i) (vsub (nth i pos' v0) v)).
    { apply (sc_places _ _ _ _ _ _ _ _ SC _ _ Hp). exists i. split; [exact Hi|]. split; [reflexivity|]. unfold at_place.
      replace (vsub _ _) with (v0 : v3 R); [apply lattice_0|]. unfold vsub, vadd, v0. cbn. f_equal; ring. }
    assert (T : forall j d, at_place A pos j (vadd (nth (phi i) pos v0) d) <-> at_place A pos j (vsub (vadd (nth i pos' v0) d) v)).
    { intros j d. unfold at_place in *. split; intros H; [pose proof (lattice_add _ _ _ H O) as K|pose proof (lattice_sub _ _ _ H O) as K];
        match type of K with lattice _ ?x => match goal with |- lattice _ ?y => replace y with x; [exact K|] end end; unfold vsub, vadd; cbn; f_equal; ring. }
    assert (W : forall p : v3 R, vadd (vsub p v) v = p) by (intros []; unfold vsub, vadd; cbn; f_equal; ring).
    apply NoDup_Permutation; [|exact ND|].
    - clear M ND. assert (J : forall a b, In a (full A' pos' i) -> In b (full A' pos' i) -> (phi (fst a), snd a) = (phi (fst b), snd b) -> a = b).
      { intros [j d] [k e] Ha Hb E. cbn [fst snd] in E. injection E as Ej <-. apply M' in Ha, Hb. destruct Ha as (Lj & _ & Pj), Hb as (Lk & _ & Pk). f_equal. now apply (NV j k (vadd (nth i pos' v0) d)). }
      revert J ND'. generalize (full A' pos' i). induction l as [|a l IH]; intros J ND; [constructor|]. inversion ND as [|x y Hx Hy]; subst. cbn [map]. constructor.
      + intros H. apply in_map_iff in H. destruct H as [b [E Hb]]. apply Hx. rewrite <- (J b a); [exact Hb|now right|now left|exact E].
      + apply IH; [|exact Hy]. intros x y Hx' Hy'. apply J; now right.
    - intros [j d]. rewrite M, in_map_iff. split.
      + intros [[k e] [E H]]. cbn [fst snd] in E. injection E as <- ->. apply M' in H. destruct H as (Lk & N & P). pose proof (sc_atoms _ _ _ _ _ _ _ _ SC k Lk) as Lp.
        split; [exact Lp|]. split; [exact N|]. apply T. apply (sc_places _ _ _ _ _ _ _ _ SC _ _ Lp). exists k. rewrite W. auto.
      + intros (Lj & N & P). apply T in P. apply (sc_places _ _ _ _ _ _ _ _ SC _ _ Lj) in P. destruct P as (k & Lk & E & P). rewrite W in P. exists (k, d). cbn [fst snd]. rewrite E.
        split; [reflexivity|]. apply M'. auto.
  Qed.
End Rows.
