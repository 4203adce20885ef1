(** Gaussian elimination: an exact solver of linear equations over any field whose zeros can be told. *)
From Verif Require Import Base Num Spec.Polyfit.
From Coq Require Import Field.

Section Gauss.
  Context {F : Type} {N : Num F} {L : FieldLaws F}.
  Local Open Scope num_scope.
  Add Field Ffield : (field_laws (F:=F)).
  Variable zerob : F -> bool.
  Hypothesis zerob_true : forall x, zerob x = true <-> x = 0.

  Definition pivot (p : nat) (m : mat F) : option nat := find (fun i => negb (zerob (m i p))) (seq 0 (S p)).
  (** Row k is exchanged with the last row p. *)
  Definition other (p k i : nat) : nat := if (i =? k)%nat then p else i.
  Fixpoint gauss (p : nat) (m : mat F) (v : vec F) : option (vec F) :=
    match p with
    | O => Some v
    | S q =>
        match pivot q m with
        | None => None
        | Some k =>
            let a := m k q in
            let m' := fun i j => m (other q k i) j - m (other q k i) q / a * m k j in
            let v' := fun i => v (other q k i) - m (other q k i) q / a * v k in
            match gauss q m' v' with
            | None => None
            | Some c => let last := (v k - sumn q (fun j => m k j * c j)) / a in
                        Some (fun j => if (j <? q)%nat then c j else last)
            end
        end
    end.

  Lemma sumn_top q (f : nat -> F) (c : vec F) last :
    sumn (S q) (fun j => f j * (if (j <? q)%nat then c j else last)) = sumn q (fun j => f j * c j) + f q * last.
  Proof.
    rewrite sumn_S, Nat.ltb_irrefl. f_equal. apply sumn_ext. intros j H. apply Nat.ltb_lt in H. now rewrite H.
  Qed.
  Lemma sumn_lin q (f g c : vec F) t : sumn q (fun j => (f j - t * g j) * c j) = sumn q (fun j => f j * c j) - t * sumn q (fun j => g j * c j).
  Proof.
    unfold sumn. rewrite <- nsumf_scale_l, <- nsumf_sub. apply nsumf_ext'. intros. ring.
  Qed.

  (** A row of the reduced system and of the whole one *)
  Lemma row_back q (r g : vec F) (c : vec F) (a u w : F) : a = g q -> a <> 0 ->
    sumn q (fun j => (r j - r q / a * g j) * c j) = u - r q / a * w ->
    let last := (w - sumn q (fun j => g j * c j)) / a in
    sumn (S q) (fun j => r j * (if (j <? q)%nat then c j else last)) = u.
  Proof.
    intros -> Ha H last. rewrite sumn_top. rewrite sumn_lin in H. unfold last.
    replace (sumn q (fun j => r j * c j)) with (u - r q / g q * w + r q / g q * sumn q (fun j => g j * c j)) by (rewrite <- H; ring).
    field. exact Ha.
  Qed.
  Lemma row_pivot q (g : vec F) (c : vec F) (a w : F) : a = g q -> a <> 0 ->
    let last := (w - sumn q (fun j => g j * c j)) / a in
    sumn (S q) (fun j => g j * (if (j <? q)%nat then c j else last)) = w.
  Proof. intros -> Ha last. rewrite sumn_top. unfold last. field. exact Ha. Qed.

  Lemma others p k i : k <= p -> i <= p -> i <> k -> exists i', i' < p /\ other p k i' = i.
  Proof.
    intros. unfold other. destruct (Nat.eq_dec i p) as [->|].
    - exists k. rewrite Nat.eqb_refl. split; [lia|reflexivity].
    - exists i. apply Nat.eqb_neq in H1. rewrite H1. split; [lia|reflexivity].
  Qed.
  Lemma pivot_spec q m :
    match pivot q m with
    | Some k => k <= q /\ m k q <> 0
    | None => forall i, i <= q -> m i q = 0
    end.
  Proof.
    unfold pivot. destruct (find _ _) as [k|] eqn:E.
    - apply find_some in E. destruct E as [E1 E2]. apply in_seq in E1. split; [lia|].
      intros H. apply zerob_true in H. rewrite H in E2. discriminate.
    - intros i Hi. pose proof (find_none _ _ E i) as H. rewrite in_seq in H. specialize (H ltac:(lia)).
      cbn beta in H. apply zerob_true. now destruct (zerob (m i q)).
  Qed.

  Theorem gauss_exact : exact_solve (F:=F) gauss.
  Proof.
    intros p. induction p as [|q IH]; intros m v; cbn [gauss].
    - split; [intros [d [[i [Hi _]] _]]; lia|intros; lia].
    - pose proof (pivot_spec q m) as P. destruct (pivot q m) as [k|].
      + destruct P as [Hk Ha]. cbv zeta.
        set (m' := fun i j => m (other q k i) j - m (other q k i) q / m k q * m k j).
        set (v' := fun i => v (other q k i) - m (other q k i) q / m k q * v k).
        specialize (IH m' v'). destruct (gauss q m' v') as [c|].
        * destruct IH as [NS EQ]. split.
          -- intros [d [[i [Hi Hd]] Hz]].
             assert (Z : forall j, j < q -> d j = 0).
             { intros j Hj. destruct (zerob (d j)) eqn:E; [now apply zerob_true|]. exfalso. apply NS. exists d. split.
               - exists j. split; [exact Hj|]. intros H. apply zerob_true in H. congruence.
               - intros i' Hi'. unfold m'. rewrite (sumn_lin q (m (other q k i')) (m k) d).
                 assert (O : other q k i' < S q) by (unfold other; destruct (i' =? k)%nat; lia).
                 pose proof (Hz _ O) as H1. pose proof (Hz k ltac:(lia)) as H2. rewrite sumn_S in H1, H2.
                 replace (sumn q (fun j0 => m k j0 * d j0)) with (- (m k q * d q)).
                 2:{ transitivity (0 - m k q * d q); [ring|]. rewrite <- H2. ring. }
                 transitivity (0 - m (other q k i') q * d q + m (other q k i') q / m k q * (m k q * d q)); [rewrite <- H1; ring|].
                 field. exact Ha. }
             pose proof (Hz k ltac:(lia)) as H2. rewrite sumn_S in H2.
             assert (S0 : sumn q (fun j => m k j * d j) = 0).
             { rewrite (sumn_ext q _ (fun _ => 0)); [unfold sumn; apply nsumf_zero|]. intros j Hj. rewrite (Z j Hj). ring. }
             rewrite S0 in H2. assert (Dq : d q = 0).
             { transitivity ((0 + m k q * d q) / m k q); [field; exact Ha|]. rewrite H2. field. exact Ha. }
             apply Hd. destruct (Nat.eq_dec i q) as [->|]; [exact Dq|apply Z; lia].
          -- intros i Hi. destruct (Nat.eq_dec i k) as [->|Hne].
             ++ now apply row_pivot.
             ++ destruct (others q k i Hk ltac:(lia) Hne) as [i' [Hi' <-]].
                apply (row_back q (m (other q k i')) (m k) c); [reflexivity|exact Ha|]. exact (EQ i' Hi').
        * destruct IH as [d [[i [Hi Hd]] Hz]].
          exists (fun j => if (j <? q)%nat then d j else (0 - sumn q (fun j => m k j * d j)) / m k q). split.
          -- exists i. split; [lia|]. apply Nat.ltb_lt in Hi. now rewrite Hi.
          -- intros i0 Hi0. destruct (Nat.eq_dec i0 k) as [->|Hne].
             ++ now apply row_pivot.
             ++ destruct (others q k i0 Hk ltac:(lia) Hne) as [i' [Hi' <-]].
                apply (row_back q (m (other q k i')) (m k) d); [reflexivity|exact Ha|].
                etransitivity; [exact (Hz i' Hi')|]. ring.
      + exists (fun j => if (j =? q)%nat then 1 else 0). split.
        * exists q. split; [lia|]. rewrite Nat.eqb_refl. apply (F_1_neq_0 (field_laws (F:=F))).
        * intros i Hi. rewrite sumn_S, Nat.eqb_refl, (P i) by lia.
          rewrite (sumn_ext q _ (fun _ => 0)); [unfold sumn; rewrite nsumf_zero; ring|].
          intros j Hj. assert (E : (j =? q)%nat = false) by (apply Nat.eqb_neq; lia). rewrite E. ring.
  Qed.

  (** The inverse, column by column *)
  Definition unit_vec (k : nat) : vec F := fun i => if (i =? k)%nat then 1 else 0.
  Definition gauss_inv (p : nat) (m : mat F) : option (mat F) :=
    match gauss p m (unit_vec 0) with
    | None => None
    | Some _ => Some (fun j k => match gauss p m (unit_vec k) with Some c => c j | None => 0 end)
    end.
  Theorem gauss_inv_exact : exact_inv (F:=F) gauss_inv.
  Proof.
    intros p m. unfold gauss_inv. pose proof (gauss_exact p m (unit_vec 0)) as H. destruct (gauss p m (unit_vec 0)); [|exact H].
    destruct H as [H _]. split; [exact H|]. intros i k Hi Hk.
    pose proof (gauss_exact p m (unit_vec k)) as G. destruct (gauss p m (unit_vec k)) as [c|]; [|contradiction].
    exact (proj2 G i Hi).
  Qed.
End Gauss.
