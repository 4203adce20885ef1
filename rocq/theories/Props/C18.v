(** C18: the fast evaluator against features times coefficients. *)
From Verif Require Import Base Num Complex Spec.ModelParams Spec.Gtinv Spec.Neighbor Model.Cxx Model.Mapping Model.ModelParams Model.Features Model.Potential
  Model.Neighbor Model.Compute Model.Eval Proofs.Mirrored Proofs.EvalGtinv Proofs.EvalPair.
From Coq Require Import QArith Qcanon.
Local Open Scope nat_scope.

(** Number of columns of the feature matrix, and the dot product of one of its rows with the coefficients. *)
Definition n_columns {F} {N : Num F} (fp : fparams F) : nat := n_variables (n_linear fp) (modelp fp).
Definition times_coeffs {F} {N : Num F} (fp : fparams F) (row coeffs : nat -> F) : F :=
  nsumf (fun g => nmul (row g) (coeffs g)) (seq 0 (n_columns fp)).

(** Pair models (types 1 and 2): energy, forces and stress. *)
Theorem C18_pair {F} {N : Num F} {NO : NumOrd F} {FL : FieldLaws F} {C0 : Char0 F}
    (tol : F) (B : basis F) (fp : fparams F) (types : nat -> nat) rows neigh (coeffs : list F) :
  fp_gtinv fp = false -> fp_model_type fp <= 2 ->
  let n := length rows in
  half_list rows -> (forall i, i < n -> types i < fp_n_type fp) ->
  (forall i, i < n -> Permutation (neigh i) (mirrored rows i)) ->
  let A := polymlp_eval fp coeffs in
  let c g := nth g coeffs n0 in
  (forall force, energy tol B A types n (csr_of rows) = times_coeffs fp (xe_sum tol B fp types n neigh force) c) /\
  (forall a k, a < 3 -> forces tol B A types n (csr_of rows) a k = times_coeffs fp (xf_sum tol B fp types n neigh (3 * k + a)) c) /\
  (forall k, stress tol B A types n (csr_of rows) k = times_coeffs fp (xs_sum tol B fp types n neigh k) c).
Proof.
  intros PM MT n HR HT HN A c.
  assert (HN' : forall i, i < n -> Permutation (neigh i) (FR rows i)).
  { intros i Hi. rewrite (HN i Hi). symmetry. now apply mirrored_perm. }
  repeat split; intros.
  - now apply energy_pair.
  - now apply forces_pair.
  - now apply stress_pair.
Qed.
Print Assumptions C18_pair.

(** Models with invariants (types 1 to 4): energy, forces and diagonal of the stress. [tol] is the threshold under
    which the value of a product of order parameters is dropped; here dropping it changes nothing. The tables of the
    invariants and the spherical harmonics have the symmetries of Spec/Gtinv.v. *)
Theorem C18_gtinv {F} {N : Num F} {NO : NumOrd F} {FL : FieldLaws F} {C0 : Char0 F}
    (tol : F) (B : basis F) (fp : fparams F) (types : nat -> nat) rows neigh (coeffs : list F) :
  gtinv_table fp -> basis_ok B (fp_maxl fp) -> (forall x, nltb tol (nabs x) = false -> x = n0) ->
  let n := length rows in
  half_list rows -> (forall i, i < n -> types i < fp_n_type fp) ->
  (forall i, i < n -> Permutation (neigh i) (mirrored rows i)) ->
  let A := polymlp_eval fp coeffs in
  let c g := nth g coeffs n0 in
  energy tol B A types n (csr_of rows) = times_coeffs fp (xe_sum tol B fp types n neigh true) c /\
  (forall a k, a < 3 -> forces tol B A types n (csr_of rows) a k = times_coeffs fp (xf_sum tol B fp types n neigh (3 * k + a)) c) /\
  (forall k, k < 3 -> stress tol B A types n (csr_of rows) k = times_coeffs fp (xs_sum tol B fp types n neigh k) c).
Proof.
  intros GT BO TL n HR HT HN A c.
  assert (HN' : forall i, i < n -> Permutation (neigh i) (FR rows i)).
  { intros i Hi. rewrite (HN i Hi). symmetry. now apply mirrored_perm. }
  repeat split; intros.
  - now apply energy_gtinv.
  - now apply forces_gtinv.
  - now apply stress_gtinv.
Qed.
Print Assumptions C18_gtinv.

(** Two types, three atoms with distances 3, 3, 4; radial functions p (8 - r)^2; polynomial features of order 2. *)
Module Example.
  Definition q (z : Z) : Qc := Q2Qc (inject_Z z).
  Definition v (x y z : Z) : v3 Qc := V3 (q x) (q y) (q z).
  Definition types (i : nat) : nat := if i =? 1 then 1 else 0.
  Definition rows : list (list (nat * v3 Qc)) :=
    [ []; [(0, v (-1) (-2) (-2))]; [(0, v 0 0 (-4)); (1, v 1 2 (-2))] ].
  Definition neigh (i : nat) : list (nat * v3 Qc) :=
    match i with
    | 0 => [(2, v 0 0 4); (1, v 1 2 2)]
    | 1 => [(0, v (-1) (-2) (-2)); (2, v (-1) (-2) 2)]
    | _ => [(0, v 0 0 (-4)); (1, v 1 2 (-2))]
    end.
  (** real and imaginary part of 1, x - iy, z *)
  Definition ylm (k : nat) (d : v3 Qc) : Cx Qc :=
    match k with 0 => (q 1, q 0) | 1 => (vx d, - vy d)%Qc | _ => (vz d, q 0) end.
  Definition ylm_d (c k : nat) (d : v3 Qc) : Cx Qc :=
    match c, k with 0, 1 => (q 1, q 0) | 1, 1 => (q 0, q (-1)) | 2, 2 => (q 1, q 0) | _, _ => (q 0, q 0) end.
  Definition B : basis Qc :=
    Basis (fun p r => hd (q 0) p * (q 8 - r) * (q 8 - r))%Qc (fun p r => q (-2) * hd (q 0) p * (q 8 - r))%Qc ylm ylm_d.
  Definition cond (i j : nat) : list nat := if (i =? 0) && (j =? 0) then [0] else [0; 1].
  Definition fpP : fparams Qc := FP 2 false [[q 1]; [q 3]] cond (q 6) 2 2 0 [] [] [].
  Definition fpG : fparams Qc :=
    FP 2 true [[q 1]; [q 3]] cond (q 6) 2 2 1 [[0]; [1; 1]] [[[0]]; [[1; 3]; [2; 2]; [3; 1]]]
       [[q 1]; [q 2; q 5; q 2]].
  Definition coeffs : list Qc := map (fun k => q (Z.of_nat k + 1)) (seq 0 86).

  Lemma half_ok : half_list rows.
  Proof.
    intros i j d Hi Hj. destruct i as [|[|[|]]]; cbn in *; [tauto| | |lia]; repeat (destruct Hj as [E|Hj]; [injection E as <- _; lia|]); tauto.
  Qed.
  Lemma types_ok i : i < 3 -> types i < 2.
  Proof. intros _. unfold types. destruct (i =? 1); lia. Qed.
  Lemma v_ext (a b : v3 Qc) : this (vx a) = this (vx b) -> this (vy a) = this (vy b) -> this (vz a) = this (vz b) -> a = b.
  Proof. destruct a, b. cbn. intros. f_equal; apply Qc_is_canon; rewrite ?H, ?H0, ?H1; reflexivity. Qed.
  Lemma neigh_ok i : i < 3 -> Permutation (neigh i) (mirrored rows i).
  Proof.
    intros Hi. assert (E : mirrored rows i = match i with 0 => rev (neigh i) | _ => neigh i end).
    { destruct i as [|[|[|]]]; [| | |lia]; unfold mirrored; cbn -[vneg v q]; repeat (f_equal; try (apply v_ext; vm_compute; reflexivity)). }
    rewrite E. destruct i; [apply Permutation_rev|reflexivity].
  Qed.
  Lemma table_ok : gtinv_table fpG.
  Proof.
    split; cbn [fp_gtinv fp_model_type fp_params fp_cond fp_l_comb fp_lm_array fp_lm_coeffs fp_maxl fpG].
    - reflexivity.
    - lia.
    - intros i j. unfold cond. destruct (_ && _); split; repeat constructor; cbn; intuition lia.
    - intros lc H. cbn in H. destruct H as [<-|[<-|[]]]; (split; [discriminate|split; [repeat constructor|cbn; lia]]).
    - intros il lc H. destruct il as [|[|[|]]]; cbn in *; discriminate.
    - intros il lc lms H H'. destruct il as [|[|[|]]]; cbn in *; try discriminate; injection H as <-.
      + destruct H' as [<-|[]]. repeat constructor.
      + destruct H' as [<-|[<-|[<-|[]]]]; repeat constructor; cbn; lia.
    - intros il lc H. destruct il as [|[|[|]]]; cbn in *; try discriminate; injection H as <-; [exists 0|exists 1]; reflexivity.
    - intros il lc lms H H'. destruct il as [|[|[|]]]; cbn in *; try discriminate; injection H as <-.
      + destruct H' as [<-|[]]. exists 0. reflexivity.
      + destruct H' as [<-|[<-|[<-|[]]]]; exists 2; reflexivity.
    - intros il lc H. destruct il as [|[|[|]]]; cbn in *; try discriminate; reflexivity.
    - intros il lc H. destruct il as [|[|[|]]]; cbn in *; try discriminate; injection H as <-; cbn.
      + reflexivity.
      + apply (Permutation_rev [(q 2, [1; 3]); (q 5, [2; 2]); (q 2, [3; 1])]).
  Qed.
  Lemma basis_ok' : basis_ok B 1.
  Proof.
    split; cbn [b_ylm b_ylm_d B].
    - intros l k d H. assert (E : (l = 0 /\ k = 0) \/ (l = 1 /\ k = 0) \/ (l = 1 /\ k = 1)) by lia.
      destruct E as [[-> ->]|[[-> ->]|[-> ->]]]; try reflexivity; (apply cx_eq; try reflexivity; apply Qc_is_canon; reflexivity).
    - intros c l k d H. assert (E : (l = 0 /\ k = 0) \/ (l = 1 /\ k = 0) \/ (l = 1 /\ k = 1)) by lia.
      destruct E as [[-> ->]|[[-> ->]|[-> ->]]]; destruct c as [|[|[|]]]; try reflexivity; (apply cx_eq; try reflexivity; apply Qc_is_canon; reflexivity).
    - intros l d H. assert (E : l = 0 \/ l = 1) by lia. destruct E as [-> | ->]; reflexivity.
    - intros c l d H. assert (E : l = 0 \/ l = 1) by lia. destruct E as [-> | ->]; destruct c as [|[|[|]]]; reflexivity.
  Qed.
  Lemma tol_ok (x : Qc) : nltb (q 0) (nabs x) = false -> x = q 0.
  Proof.
    cbn. destruct (Qle_bool 0 x) eqn:E; intros H; apply negb_false_iff, Qle_bool_iff in H; apply Qc_is_canon.
    - apply Qle_bool_iff in E. apply Qle_antisym; assumption.
    - exfalso. assert (C : Qle_bool 0 x = true); [|congruence]. apply Qle_bool_iff. cbn [Qcopp this Q2Qc] in H. rewrite Qred_correct in H.
      apply Qopp_le_compat in H. rewrite Qopp_involutive in H. exact H.
  Qed.
  Lemma meets_pair :
    fp_gtinv fpP = false /\ fp_model_type fpP <= 2 /\ half_list rows /\ (forall i, i < length rows -> types i < fp_n_type fpP) /\
    (forall i, i < length rows -> Permutation (neigh i) (mirrored rows i)).
  Proof. repeat split; [cbn; lia|exact half_ok|exact types_ok|exact neigh_ok]. Qed.
  Lemma meets_gtinv :
    gtinv_table fpG /\ basis_ok B (fp_maxl fpG) /\ (forall x : Qc, nltb (q 0) (nabs x) = false -> x = n0) /\ half_list rows /\
    (forall i, i < length rows -> types i < fp_n_type fpG) /\ (forall i, i < length rows -> Permutation (neigh i) (mirrored rows i)).
  Proof. split; [exact table_ok|]. split; [exact basis_ok'|]. split; [exact tol_ok|]. split; [exact half_ok|]. split; [exact types_ok|exact neigh_ok]. Qed.
  Lemma values_pair :
    n_columns fpP = 18 /\
    this (energy (q 0) B (polymlp_eval fpP coeffs) types 3 (csr_of rows)) = 545154%Q /\
    this (forces (q 0) B (polymlp_eval fpP coeffs) types 3 (csr_of rows) 0 1) = (422320 # 3)%Q.
  Proof. vm_compute. auto. Qed.
  Lemma values_gtinv :
    n_columns fpG = 86 /\
    this (energy (q 0) B (polymlp_eval fpG coeffs) types 3 (csr_of rows)) = 15080342861230%Q /\
    this (forces (q 0) B (polymlp_eval fpG coeffs) types 3 (csr_of rows) 0 1) = (-11385689730880 # 3)%Q.
  Proof. vm_compute. auto. Qed.
End Example.
