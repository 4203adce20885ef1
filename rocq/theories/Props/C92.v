(** C92: random structures keep the shape of the conventional cell of the space group and displacements of the given basis; reduced cells and
    refined cells describe the same atoms. *)
From Verif Require Import Base Num NumR Model.Neighbor Spec.Lattice Proofs.HalfFull Proofs.NeighborCell Proofs.Positions Model.Structure Model.StructureUtils.
From Coq Require Import String Reals Lra ZArith Lia List Permutation.
From Verif Require Import Spec.SymStructures Model.SymStructures Props.C32.
Import ListNotations.
Local Open Scope R_scope.

Definition group (n : Z) : Prop := (1 <= n <= 230)%Z.
(** ** Basis sets *)
Definition orthonormal (bs : list (list R)) : Prop := forall i j, (i < length bs)%nat -> (j < length bs)%nat -> dotl (nth i bs []) (nth j bs []) = if Nat.eqb i j then 1 else 0.
Definition spans (bs : list (list R)) (A : cell R) : Prop := exists cs, length cs = length bs /\ flat_axis A = lincomb cs bs.

Lemma basis_cases n : group n ->
  ((1 <= n <= 2)%Z /\ construct_basis n = map unit9 (seq 0 9)) \/ ((3 <= n <= 15)%Z /\ construct_basis n = [unit9 0; unit9 4; unit9 8; unit9 2]) \/
  ((16 <= n <= 74)%Z /\ construct_basis n = [unit9 0; unit9 4; unit9 8]) \/ ((75 <= n <= 142)%Z /\ construct_basis n = [normalize_vector [1; 0; 0; 0; 1; 0; 0; 0; 0]; unit9 8]) \/
  ((143 <= n <= 194)%Z /\ construct_basis n = hex_basis) \/ ((195 <= n <= 230)%Z /\ construct_basis n = [normalize_vector [1; 0; 0; 0; 1; 0; 0; 0; 1]]).
Proof.
  unfold group, construct_basis. intros H.
  destruct (Z.leb_spec 195 n); [right; right; right; right; right; split; [lia|reflexivity]|].
  destruct (Z.leb_spec 168 n), (Z.leb_spec n 194); cbn [andb]; try lia; [right; right; right; right; left; split; [lia|reflexivity]|].
  destruct (Z.leb_spec 143 n), (Z.leb_spec n 167); cbn [andb]; try lia; [right; right; right; right; left; split; [lia|reflexivity]|].
  destruct (Z.leb_spec 75 n), (Z.leb_spec n 142); cbn [andb]; try lia; [right; right; right; left; split; [lia|reflexivity]|].
  destruct (Z.leb_spec 16 n), (Z.leb_spec n 74); cbn [andb]; try lia; [right; right; left; split; [lia|reflexivity]|].
  destruct (Z.leb_spec 3 n), (Z.leb_spec n 15); cbn [andb]; try lia; [right; left; split; [lia|reflexivity]|].
  left. split; [lia|reflexivity].
Qed.
Lemma s3 : sqrt 3 * sqrt 3 = 3.
Proof. apply sqrt_sqrt. lra. Qed.
Definition n3 := normalize_vector [1; 0; 0; 0; 1; 0; 0; 0; 1].
Lemma n3_is : n3 = [/ sqrt 3; 0; 0; 0; / sqrt 3; 0; 0; 0; / sqrt 3].
Proof. assert (0 < sqrt 3) by (apply sqrt_lt_R0; lra). unfold n3, normalize_vector. replace (dotl _ _) with 3 by (unfold dotl, sumR; cbn; ring). cbn. repeat (apply f_equal2; [field; lra|]). reflexivity. Qed.
Definition n2 := normalize_vector [1; 0; 0; 0; 1; 0; 0; 0; 0].
Lemma n2_is : n2 = [/ sqrt 2; 0; 0; 0; / sqrt 2; 0; 0; 0; 0].
Proof. assert (0 < sqrt 2) by (apply sqrt_lt_R0; lra). unfold n2, normalize_vector. replace (dotl _ _) with 2 by (unfold dotl, sumR; cbn; ring). cbn. repeat (apply f_equal2; [field; lra|]). reflexivity. Qed.
Definition nh := normalize_vector [1; - / 2; 0; 0; sqrt 3 / 2; 0; 0; 0; 0].
Lemma nh_is : nh = [/ sqrt 2; - / 2 * / sqrt 2; 0; 0; sqrt 3 / 2 * / sqrt 2; 0; 0; 0; 0].
Proof.
  assert (0 < sqrt 2) by (apply sqrt_lt_R0; lra). unfold nh, normalize_vector. replace (dotl _ _) with 2 by (unfold dotl, sumR; cbn; pose proof s3; lra). cbn. repeat (apply f_equal2; [field; lra|]). reflexivity.
Qed.
Lemma root x : 0 < x -> / sqrt x * / sqrt x = / x.
Proof. intros H. rewrite <- Rinv_mult. now rewrite sqrt_sqrt by lra. Qed.
Ltac unit_eval := unfold unit9, dotl, lincomb, sumR; cbn [seq map combine fst snd Nat.eqb nth fold_right].

Theorem C92_orthonormal n : group n -> orthonormal (construct_basis n).
Proof.
  intros G. pose proof (root 3 ltac:(lra)) as R3. pose proof (root 2 ltac:(lra)) as R2. pose proof s3 as S3.
  destruct (basis_cases n G) as [[_ ->]|[[_ ->]|[[_ ->]|[[_ ->]|[[_ ->]|[_ ->]]]]]]; unfold orthonormal, hex_basis; fold n2 n3 nh; rewrite ?n2_is, ?n3_is, ?nh_is; intros i j Hi Hj; cbn [length seq map] in Hi, Hj.
  - do 9 (destruct i as [|i]; [do 9 (destruct j as [|j]; [unit_eval; lra|]); lia|]). lia.
  - do 4 (destruct i as [|i]; [do 4 (destruct j as [|j]; [unit_eval; lra|]); lia|]). lia.
  - do 3 (destruct i as [|i]; [do 3 (destruct j as [|j]; [unit_eval; lra|]); lia|]). lia.
  - do 2 (destruct i as [|i]; [do 2 (destruct j as [|j]; [unit_eval; lra|]); lia|]). lia.
  - set (q := / sqrt 2) in *. assert (Q : q * q + - / 2 * q * (- / 2 * q) + sqrt 3 / 2 * q * (sqrt 3 / 2 * q) = 1) by (transitivity ((1 + / 4 + sqrt 3 * sqrt 3 / 4) * (q * q)); [field|rewrite S3, R2; field]).
    do 2 (destruct i as [|i]; [do 2 (destruct j as [|j]; [unit_eval; lra|]); lia|]). lia.
  - destruct i; [|lia]. destruct j; [|lia]. unit_eval. lra.
Qed.

Lemma cell_ext (A B : cell R) : flat_axis A = flat_axis B -> A = B.
Proof. destruct A as [[a b c] [d e f] [g h k]], B as [[a' b' c'] [d' e' f'] [g' h' k']]. unfold flat_axis. cbn. intros [= -> -> -> -> -> -> -> -> ->]. reflexivity. Qed.
Lemma flat_of v : length v = 9%nat -> flat_axis (axis_of v) = v.
Proof. do 9 (destruct v as [|? v]; [discriminate|]). destruct v; [reflexivity|discriminate]. Qed.
Lemma lincomb_length cs bs : length (lincomb cs bs) = 9%nat.
Proof. unfold lincomb. now rewrite map_length, seq_length. Qed.
Lemma of_flat A : axis_of (flat_axis A) = A.
Proof. now destruct A as [[a b c] [d e f] [g h k]]. Qed.

(** The basis spans the conventional cells of the crystal system, with one column for each free parameter. *)
Theorem C92_span n A : group n -> (spans (construct_basis n) A <-> conventional n A) /\ freedoms n (length (construct_basis n)).
Proof.
  intros G. assert (P3 : 0 < sqrt 3) by (apply sqrt_lt_R0; lra). assert (P2 : 0 < sqrt 2) by (apply sqrt_lt_R0; lra). destruct A as [[a b c] [d e f] [g h k]].
  destruct (basis_cases n G) as [[X ->]|[[X ->]|[[X ->]|[[X ->]|[[X ->]|[X ->]]]]]]; (split; [|repeat split; intros; try lia; reflexivity]); unfold spans, hex_basis; fold n2 n3 nh; rewrite ?n2_is, ?n3_is, ?nh_is.
  - split; [intros _; now constructor|]. intros _. exists (flat_axis (Cell (V3 a b c) (V3 d e f) (V3 g h k))). split; [reflexivity|]. unfold flat_axis. unit_eval. cbn [vx vy vz ax0 ax1 ax2]. repeat (apply f_equal2; [ring|]). reflexivity.
  - split.
    + intros [cs [L E]]. do 4 (destruct cs as [|? cs]; [discriminate|]). destruct cs; [|discriminate]. apply conv_monoclinic; [exact X|]. unfold flat_axis in E. revert E. unit_eval. cbn [vx vy vz ax0 ax1 ax2]. intros [= -> -> -> -> -> -> -> -> ->]. exists r, r0, r2, r1. apply cell_ext. unfold flat_axis. cbn [vx vy vz ax0 ax1 ax2]. repeat (apply f_equal2; [ring|]). reflexivity.
    + intros C. inversion C as [|? [p [q [x [z E]]]]| | | |]; try lia. injection E as -> -> -> -> -> -> -> -> ->. exists [p; q; z; x]. split; [reflexivity|]. unfold flat_axis. unit_eval. cbn [vx vy vz ax0 ax1 ax2]. repeat (apply f_equal2; [ring|]). reflexivity.
  - split.
    + intros [cs [L E]]. do 3 (destruct cs as [|? cs]; [discriminate|]). destruct cs; [|discriminate]. apply conv_orthorhombic; [exact X|]. unfold flat_axis in E. revert E. unit_eval. cbn [vx vy vz ax0 ax1 ax2]. intros [= -> -> -> -> -> -> -> -> ->]. exists r, r0, r1. apply cell_ext. unfold flat_axis. cbn [vx vy vz ax0 ax1 ax2]. repeat (apply f_equal2; [ring|]). reflexivity.
    + intros C. inversion C as [| |? [p [q [z E]]]| | |]; try lia. injection E as -> -> -> -> -> -> -> -> ->. exists [p; q; z]. split; [reflexivity|]. unfold flat_axis. unit_eval. cbn [vx vy vz ax0 ax1 ax2]. repeat (apply f_equal2; [ring|]). reflexivity.
  - split.
    + intros [cs [L E]]. do 2 (destruct cs as [|? cs]; [discriminate|]). destruct cs; [|discriminate]. apply conv_tetragonal; [exact X|]. unfold flat_axis in E. revert E. unit_eval. cbn [vx vy vz ax0 ax1 ax2]. intros [= -> -> -> -> -> -> -> -> ->]. exists (r / sqrt 2), r0. apply cell_ext. unfold flat_axis. cbn [vx vy vz ax0 ax1 ax2]. repeat (apply f_equal2; [field; lra|]). reflexivity.
    + intros C. inversion C as [| | |? [p [z E]]| |]; try lia. injection E as -> -> -> -> -> -> -> -> ->. exists [p * sqrt 2; z]. split; [reflexivity|]. unfold flat_axis. unit_eval. cbn [vx vy vz ax0 ax1 ax2]. repeat (apply f_equal2; [field; lra|]). reflexivity.
  - split.
    + intros [cs [L E]]. do 2 (destruct cs as [|? cs]; [discriminate|]). destruct cs; [|discriminate]. apply conv_hexagonal; [exact X|]. unfold flat_axis in E. revert E. unit_eval. cbn [vx vy vz ax0 ax1 ax2]. intros [= -> -> -> -> -> -> -> -> ->]. exists (r / sqrt 2), r0. apply cell_ext. unfold flat_axis. cbn [vx vy vz ax0 ax1 ax2]. repeat (apply f_equal2; [field; lra|]). reflexivity.
    + intros C. inversion C as [| | | |? [p [z E]]|]; try lia. injection E as -> -> -> -> -> -> -> -> ->. exists [p * sqrt 2; z]. split; [reflexivity|]. unfold flat_axis. unit_eval. cbn [vx vy vz ax0 ax1 ax2]. repeat (apply f_equal2; [field; lra|]). reflexivity.
  - split.
    + intros [cs [L E]]. do 1 (destruct cs as [|? cs]; [discriminate|]). destruct cs; [|discriminate]. apply conv_cubic; [exact X|]. unfold flat_axis in E. revert E. unit_eval. cbn [vx vy vz ax0 ax1 ax2]. intros [= -> -> -> -> -> -> -> -> ->]. exists (r / sqrt 3). apply cell_ext. unfold flat_axis. cbn [vx vy vz ax0 ax1 ax2]. repeat (apply f_equal2; [field; lra|]). reflexivity.
    + intros C. inversion C as [| | | | |? [p E]]; try lia. injection E as -> -> -> -> -> -> -> -> ->. exists [p * sqrt 3]. split; [reflexivity|]. unfold flat_axis. unit_eval. cbn [vx vy vz ax0 ax1 ax2]. repeat (apply f_equal2; [field; lra|]). reflexivity.
Qed.

(** ** Random axes *)
Lemma sumR_app a b : sumR (a ++ b) = sumR a + sumR b.
Proof. induction a as [|x a IH]; unfold sumR in *; cbn; [ring|]. rewrite IH. ring. Qed.
Lemma lincomb_cons c cs b bs : lincomb (c :: cs) (b :: bs) = map (fun j => c * nth j b 0 + nth j (lincomb cs bs) 0) (seq 0 9).
Proof. reflexivity. Qed.
Ltac nine v := do 9 (destruct v as [|? v]; [discriminate|]); destruct v; [|discriminate].
Lemma dot_lin v cs bs : length v = 9%nat -> Forall (fun b => length b = 9%nat) bs -> dotl v (lincomb cs bs) = sumR (map (fun p => fst p * dotl v (snd p)) (combine cs bs)).
Proof.
  intros V B. revert cs. induction B as [|b bs Hb B IH]; intros cs.
  - destruct cs; cbn [combine map]; nine v; unfold dotl, lincomb, sumR; cbn; ring.
  - destruct cs as [|c cs]; [cbn [combine map]; nine v; unfold dotl, lincomb, sumR; cbn; ring|]. rewrite lincomb_cons. cbn [combine map]. change (sumR (?x :: ?l)) with (x + sumR l). rewrite <- IH. cbn [fst snd]. pose proof (lincomb_length cs bs) as L. set (w := lincomb cs bs) in *. clearbody w. nine v. nine b. nine w. unfold dotl, sumR. cbn. ring.
Qed.
Lemma dot_comm a b : dotl a b = dotl b a.
Proof. unfold dotl. f_equal. revert b. induction a as [|x a IH]; intros [|y b]; cbn; try reflexivity. now rewrite IH, Rmult_comm. Qed.
Lemma pick_sum v i k : forall cs bs, length cs = length bs -> (i < k + length bs)%nat -> (k <= i)%nat -> (forall j, (j < length bs)%nat -> dotl v (nth j bs []) = if Nat.eqb i (k + j) then 1 else 0) ->
  sumR (map (fun p => fst p * dotl v (snd p)) (combine cs bs)) = nth (i - k) cs 0.
Proof.
  intros cs bs. revert k cs. induction bs as [|b bs IH]; intros k [|c cs] L I K H; try discriminate; [cbn in I; lia|]. cbn [combine map fst snd]. change (sumR (?x :: ?l)) with (x + sumR l). pose proof (H 0%nat ltac:(cbn; lia)) as H0. cbn [nth] in H0. rewrite Nat.add_0_r in H0. rewrite H0. destruct (Nat.eqb_spec i k) as [->|N].
  - rewrite Nat.sub_diag. cbn [nth]. assert (Z : sumR (map (fun p => fst p * dotl v (snd p)) (combine cs bs)) = 0); [|lra].
    assert (HZ : forall j, (j < length bs)%nat -> dotl v (nth j bs []) = 0) by (intros j Hj; change (nth j bs []) with (nth (S j) (b :: bs) []); rewrite (H (S j)) by (cbn; lia); destruct (Nat.eqb_spec k (k + S j)); [lia|reflexivity]). cbn in L. injection L as L. clear - HZ L. revert cs L. induction bs as [|b bs IH]; intros [|c cs] L; try discriminate; [reflexivity|]. cbn [combine map fst snd]. change (sumR (?x :: ?l)) with (x + sumR l). rewrite (IH (fun j Hj => HZ (S j) ltac:(cbn; lia))) by (cbn in L; lia). pose proof (HZ 0%nat ltac:(cbn; lia)) as Z0. cbn [nth] in Z0. rewrite Z0. ring.
  - replace (i - k)%nat with (S (i - S k)) by lia. cbn [nth]. rewrite <- (IH (S k) cs); [ring|cbn in L; lia|cbn in I; lia|lia|]. intros j Hj. change (nth j bs []) with (nth (S j) (b :: bs) []). rewrite (H (S j)) by (cbn; lia). now replace (k + S j)%nat with (S k + j)%nat by lia.
Qed.
Lemma project bs cs : orthonormal bs -> Forall (fun b => length b = 9%nat) bs -> length cs = length bs -> map (fun b => dotl b (lincomb cs bs)) bs = cs.
Proof.
  intros O B L. apply (nth_ext _ _ 0 0); [now rewrite map_length|]. intros i Hi. rewrite map_length in Hi. rewrite (nth_indep _ 0 (dotl [] (lincomb cs bs))) by now rewrite map_length. rewrite (map_nth (fun b => dotl b (lincomb cs bs))). rewrite dot_lin; [|rewrite Forall_forall in B; apply B, nth_In, Hi|exact B]. rewrite (pick_sum _ i 0 cs bs L); [now rewrite Nat.sub_0_r|lia|lia|]. intros j Hj. now apply O.
Qed.
Lemma lincomb_add bs : forall ds cs, length ds = length bs -> length cs = length bs -> lincomb (map (fun p => fst p + snd p) (combine ds cs)) bs = map (fun p => fst p + snd p) (combine (lincomb ds bs) (lincomb cs bs)).
Proof.
  induction bs as [|b bs IH]; intros [|d ds] [|c cs] L1 L2; try discriminate; [unfold lincomb; cbn; repeat (apply f_equal2; [ring|]); reflexivity|]. cbn [combine map fst snd]. rewrite !lincomb_cons, IH by (cbn in *; lia). pose proof (lincomb_length ds bs) as D1. pose proof (lincomb_length cs bs) as D2. set (u := lincomb ds bs) in *. set (w := lincomb cs bs) in *. clearbody u w. nine u. nine w. cbn. repeat (apply f_equal2; [ring|]). reflexivity.
Qed.
Lemma basis_nine n : group n -> Forall (fun b => length b = 9%nat) (construct_basis n).
Proof. intros G. destruct (basis_cases n G) as [[_ ->]|[[_ ->]|[[_ ->]|[[_ ->]|[[_ ->]|[_ ->]]]]]]; repeat constructor. Qed.

Definition dist2 (A B : cell R) : R := norm2 (vsub (ax0 A) (ax0 B)) + norm2 (vsub (ax1 A) (ax1 B)) + norm2 (vsub (ax2 A) (ax2 B)).
Definition uniform (r : nat -> nat -> R) : Prop := forall i s, 0 <= r i s <= 1.
Lemma random_bound r m n s : uniform r -> 0 <= m -> Forall (fun x => Rabs x <= m) (random r m n s).
Proof.
  intros U M. unfold random. apply Forall_forall. intros x Hx. apply in_map_iff in Hx. destruct Hx as [i [<- _]]. pose proof (U i s) as B. apply Rabs_le. assert (- / 2 * 2 * m <= (r i s - / 2) * 2 * m <= / 2 * 2 * m); [|lra]. split; (apply Rmult_le_compat_r; [exact M|]; lra).
Qed.
Lemma squares m l : 0 <= m -> Forall (fun x => Rabs x <= m) l -> sumR (map (fun x => x * x) l) <= INR (length l) * (m * m).
Proof.
  intros M. induction 1 as [|x l H _ IH]; [cbn; lra|]. cbn [map length]. change (sumR (?x :: ?l)) with (x + sumR l). rewrite S_INR. assert (x * x <= m * m); [|lra]. rewrite <- (Rabs_pos_eq (x * x)) by nra. rewrite Rabs_mult. apply Rmult_le_compat; try apply Rabs_pos; assumption.
Qed.
Lemma square_norm bs ds : orthonormal bs -> Forall (fun b => length b = 9%nat) bs -> length ds = length bs -> dotl (lincomb ds bs) (lincomb ds bs) = sumR (map (fun x => x * x) ds).
Proof.
  intros O B L. rewrite dot_lin by (try apply lincomb_length; exact B). f_equal. pose proof (project bs ds O B L) as P. set (v := lincomb ds bs) in *. clearbody v. clear - P L. revert ds P L. induction bs as [|b bs IH]; intros [|d ds] P L; try discriminate; [reflexivity|]. cbn [map] in P. injection P as P0 P. cbn [combine map fst snd]. rewrite (dot_comm v b), P0. f_equal. apply IH; [exact P|cbn in L; lia].
Qed.
Lemma dist_flat A B u : flat_axis A = map (fun p => fst p + snd p) (combine u (flat_axis B)) -> length u = 9%nat -> dist2 A B = dotl u u.
Proof.
  intros E L. nine u. destruct A as [[a b c] [d e f] [g h k]], B as [[a' b' c'] [d' e' f'] [g' h' k']]. unfold flat_axis in E. cbn in E. injection E as -> -> -> -> -> -> -> -> ->. unfold dist2, norm2, vdot, vsub, dotl, sumR. cbn. ring.
Qed.

Section Generated.
  Variable standard : cryst -> cryst * Z.
  Variable cartesian : cryst -> option (list (list (v3 R))).
  Variable inv : cell R -> cell R.
  Variable tol : R.
  Hypothesis Htol : 0 < tol < 1.
  Notation init := (init standard cartesian).
  Notation run := (run inv tol).

  (** The cell has the shape of the conventional cell of the space group, at a distance of at most the square root of the number of free parameters times [max_deform]. *)
  Theorem C92_deformed st fp g n md mx ra rd s : init st false fp = Ok g -> group (snd (standard st)) -> uniform ra -> 0 <= md -> In s (g_structures (run g n md mx ra rd)) ->
    conventional (snd (standard st)) (axis s) /\
    (conventional (snd (standard st)) (axis (fst (standard st))) -> dist2 (axis s) (axis (fst (standard st))) <= INR (length (construct_basis (snd (standard st)))) * (md * md)).
  Proof.
    intros I G U M H. set (num := snd (standard st)) in *. set (c := fst (standard st)) in *. set (b := construct_basis num) in *.
    assert (E : g_axis g = Some (b, map (fun x => dotl x (flat_axis (axis c))) b) /\ g_cell g = c /\ g_structures g = []).
    { unfold SymStructures.init in I. cbn [andb] in I. destruct fp; [injection I as <-; repeat split|]. destruct (cartesian _); injection I as <-; repeat split. }
    destruct E as [EA [EC ES]]. unfold SymStructures.run in H. cbn [g_structures] in H. rewrite ES in H. cbn [app] in H. apply in_map_iff in H. destruct H as [k [<- _]]. cbn [axis]. unfold sample_axis. rewrite EA. set (ds := random ra md (length b) k). set (c0 := map (fun x => dotl x (flat_axis (axis c))) b).
    assert (LD : length ds = length b) by (unfold ds, random; now rewrite map_length, seq_length). assert (LC : length c0 = length b) by (unfold c0; now rewrite map_length). set (w := lincomb _ b). assert (LW : length w = 9%nat) by apply lincomb_length.
    split.
    - apply (C92_span num _ G). fold b. eexists. split; [|rewrite flat_of by exact LW; reflexivity]. rewrite map_length, combine_length. lia.
    - intros C. apply (C92_span num _ G) in C. fold b in C. destruct C as [cs [L E]]. pose proof (C92_orthonormal num G) as O. fold b in O. pose proof (basis_nine num G) as B. fold b in B.
      assert (X : c0 = cs) by (unfold c0; rewrite E; now apply project). rewrite (dist_flat _ _ (lincomb ds b)); [|rewrite flat_of by exact LW; unfold w; rewrite lincomb_add by assumption; now rewrite X, <- E|apply lincomb_length].
      rewrite square_norm by assumption. rewrite <- LD. apply squares; [exact M|]. now apply random_bound.
  Qed.

  (** Atoms are those of the cell, moved by a combination of the basis of displacements with coefficients up to [max_distance], up to lattice vectors. *)
  Theorem C92_displaced st fa fp g n md mx ra rd s : init st fa fp = Ok g -> uniform rd -> 0 <= mx -> In s (g_structures (run g n md mx ra rd)) ->
    (forall v, mv (axis s) (mv (inv (axis s)) v) = v) ->
    exists cs, Forall (fun x => Rabs x <= mx) cs /\ length (positions s) = length (positions (g_cell g)) /\
      (forall i, (i < length (positions s))%nat -> lattice (axis s) (vsub (mv (axis s) (nth i (positions s) v0))
         (vadd (mv (axis s) (nth i (positions (g_cell g)) v0)) (match g_cart g with Some (Some b) => disp_of cs b i | _ => v0 end))) /\
         all_coords (fun x => - tol < x <= 1 - tol) (nth i (positions s) v0)).
  Proof using Htol.
    intros I U M H HI. assert (ES : g_structures g = []).
    { unfold SymStructures.init in I. destruct (fa && fp); [discriminate|]. destruct fp; [now injection I as <-|]. destruct (cartesian _); [now injection I as <-|]. destruct fa; [discriminate|]. now injection I as <-. }
    unfold SymStructures.run in H. cbn [g_structures] in H. rewrite ES in H. cbn [app] in H. apply in_map_iff in H. destruct H as [k [<- _]]. cbn [axis positions] in *. set (A := sample_axis g ra md k) in *. set (ps := positions (g_cell g)).
    exists (match g_cart g with Some (Some b) => random rd mx (length b) k | _ => [] end). split; [destruct (g_cart g) as [[b|]|]; try constructor; now apply random_bound|].
    set (f := fun ip : nat * v3 R => vadd (snd ip) (mv (inv A) (sample_disp g rd mx k (fst ip)))). assert (L : length (map f (combine (seq 0 (length ps)) ps)) = length ps) by (rewrite map_length, combine_length, seq_length; lia).
    assert (LR : length (refine_positions tol (map f (combine (seq 0 (length ps)) ps))) = length ps) by (unfold refine_positions; now rewrite map_length). split; [exact LR|]. intros i Hi. rewrite LR in Hi.
    pose proof (C32_refined tol (map f (combine (seq 0 (length ps)) ps)) Htol) as F. assert (N : nth i (map f (combine (seq 0 (length ps)) ps)) v0 = f (i, nth i ps v0)).
    { rewrite (nth_indep _ v0 (f (0%nat, v0))) by (rewrite L; exact Hi). rewrite map_nth. f_equal. rewrite combine_nth by now rewrite seq_length. now rewrite seq_nth by exact Hi. }
    assert (F2 : differ_by_integers (f (i, nth i ps v0)) (nth i (refine_positions tol (map f (combine (seq 0 (length ps)) ps))) v0) /\ all_coords (fun x => - tol < x <= 1 - tol) (nth i (refine_positions tol (map f (combine (seq 0 (length ps)) ps))) v0)).
    { rewrite <- N. clear - F Hi L. set (a := map f _) in *. set (b := refine_positions tol a) in *. clearbody a b. rewrite <- L in Hi. clear L. revert i Hi. induction F as [|x y a b H F IH]; intros [|i] Hi; cbn in *; try lia; [exact H|apply IH; lia]. }
    destruct F2 as [[a [b [c D]]] CO]. split; [|exact CO]. set (q := nth i (refine_positions tol _) v0) in *. assert (Q : q = vsub (f (i, nth i ps v0)) (V3 (IZR a) (IZR b) (IZR c))) by (rewrite <- D; destruct (f (i, nth i ps v0)), q; unfold vsub; cbn; f_equal; ring).
    exists (- a)%Z, (- b)%Z, (- c)%Z. rewrite Q, mv_sub. unfold f. cbn [fst snd]. rewrite mv_add, HI. unfold sample_disp. set (dd := match g_cart g with Some (Some b) => disp_of (random rd mx (length b) k) b i | _ => v0 end). replace (match g_cart g with Some (Some b) => disp_of (match g_cart g with Some (Some b0) => random rd mx (length b0) k | _ => [] end) b i | _ => v0 end) with dd by (unfold dd; now destruct (g_cart g) as [[?|]|]).
    rewrite (mv_comb A (V3 (IZR a) (IZR b) (IZR c))). cbn [vx vy vz]. rewrite !opp_IZR. set (m := mv A (nth i ps v0)). clearbody m dd A. destruct A as [[? ? ?] [? ? ?] [? ? ?]], m, dd. unfold comb, vsub, vadd, vscale. cbn. f_equal; ring.
  Qed.

  (** Every run adds [n_samples] structures to those of earlier runs; atoms are those of the cell. *)
  Theorem C92_runs g n md mx ra rd : exists new, g_structures (run g n md mx ra rd) = g_structures g ++ new /\ length new = n /\
    Forall (fun s => n_atoms s = n_atoms (g_cell g) /\ elements s = elements (g_cell g) /\ types s = types (g_cell g) /\ (g_axis g = None -> axis s = axis (g_cell g))) new.
  Proof using.
    unfold SymStructures.run. cbn [g_structures]. eexists. split; [reflexivity|]. split; [now rewrite map_length, seq_length|]. apply Forall_forall. intros s Hs. apply in_map_iff in Hs. destruct Hs as [k [<- _]]. cbn. repeat split. unfold sample_axis. now intros ->.
  Qed.

  (** What is refused *)
  Theorem C92_stops st : init st true true = Err RuntimeError /\ (cartesian st = None -> init st true false = Err RuntimeError) /\
    (forall fa fp g, init st fa fp = Ok g -> ((fa = true \/ fp = true) <-> basis_sets g = Err AttributeError)).
  Proof using.
    split; [reflexivity|]. split; [intros E; unfold SymStructures.init; cbn; now rewrite E|]. intros fa fp g H. unfold SymStructures.init in H. destruct fa, fp; cbn [andb] in H; try discriminate.
    - destruct (cartesian st); [|discriminate]. injection H as <-. cbn. clear. split; auto.
    - injection H as <-. cbn. clear. split; auto.
    - destruct (cartesian _); injection H as <-; cbn; (split; [intros [|]; discriminate|discriminate]).
  Qed.
End Generated.

(** ** Reduced cells *)
Lemma mv_mm A B v : mv (mm A B) v = mv A (mv B v).
Proof. destruct A as [[? ? ?] [? ? ?] [? ? ?]], B as [[? ? ?] [? ? ?] [? ? ?]], v. unfold mv, mm, mv, to_cartesian, vadd, vscale. cbn. f_equal; ring. Qed.
Theorem C92_reduced inv close tol A B st r : 0 < tol < 1 -> (forall v, mv A (mv (inv A) v) = v) -> (forall v, mv (tmat inv A B) (mv (inv (tmat inv A B)) v) = v) ->
  reduce_structure inv close tol A B st = Ok r ->
  axis r = B /\ elements r = elements st /\ types r = types st /\ n_atoms r = n_atoms st /\
  Forall2 (fun p p' => lattice B (vsub (mv A p) (mv B p')) /\ all_coords (fun x => - tol < x <= 1 - tol) p') (positions st) (positions r).
Proof.
  intros Ht IA IT. unfold reduce_structure. destruct (close _ _); [|discriminate]. intros [= <-]. cbn. repeat split. unfold transform. pose proof (C32_refined tol (map (mv (inv (tmat inv A B))) (positions st)) Ht) as F. set (q := refine_positions tol _) in *. clearbody q. revert F. generalize (positions st). intros ps. revert q. induction ps as [|p ps IH]; intros q F; inversion F as [|? y ? l' [[a [b [c D]]] CO] F']; subst; constructor; [|now apply IH]. split; [|exact CO].
  exists a, b, c. set (x := mv (inv (tmat inv A B)) p) in *. assert (E : mv A p = mv B x) by (transitivity (mv A (mv (tmat inv A B) x)); [unfold x; now rewrite IT|]; unfold tmat; rewrite mv_mm; apply IA). rewrite E, <- mv_sub, D, mv_comb. reflexivity.
Qed.
Theorem C92_metric B x : vdot (mv B x) (mv B x) = vdot x (mv (metric B) x).
Proof. destruct B as [[? ? ?] [? ? ?] [? ? ?]], x. unfold metric, mv, to_cartesian, vdot, vadd, vscale. cbn. ring. Qed.
Theorem C92_reduced_stops inv close tol A B st : close (axis st) A = false -> reduce_structure inv close tol A B st = Err RuntimeError.
Proof. unfold reduce_structure. now intros ->. Qed.

(** ** Refined cells *)
Section Refine.
  Context {P : Type}.
  Implicit Types ps : list (P * Z).
  Lemma filter_none ps t : (forall p, In p ps -> snd p <> t) -> filter (fun p => (snd p =? t)%Z) ps = [].
  Proof. induction ps as [|p ps IH]; intros H; [reflexivity|]. cbn. destruct (Z.eqb_spec (snd p) t); [exfalso; apply (H p); [now left|assumption]|]. apply IH. intros q Hq. apply H. now right. Qed.
  Lemma grouped_cons n p ps : (0 <= snd p < Z.of_nat n)%Z -> Permutation (p :: grouped n ps) (grouped n (p :: ps)).
  Proof.
    intros [H1 H2]. unfold grouped. assert (K : exists k, snd p = Z.of_nat k /\ (k < n)%nat) by (exists (Z.to_nat (snd p)); lia). destruct K as [k [K1 K2]].
    set (f := fun t => filter (fun q => (snd q =? Z.of_nat t)%Z) ps). set (h := fun t => filter (fun q => (snd q =? Z.of_nat t)%Z) (p :: ps)).
    assert (HK : h k = p :: f k) by (unfold h, f; cbn [filter]; now rewrite K1, Z.eqb_refl). assert (HN : forall t, t <> k -> h t = f t) by (intros t N; unfold h, f; cbn [filter]; destruct (Z.eqb_spec (snd p) (Z.of_nat t)); [lia|reflexivity]). clearbody f h.
    assert (X : forall l, (NoDup l -> In k l -> Permutation (p :: flat_map f l) (flat_map h l)) /\ (~ In k l -> flat_map h l = flat_map f l)).
    { induction l as [|t l [IH1 IH2]]; [split; [intros _ []|reflexivity]|]. cbn [flat_map]. split.
      - intros N I. inversion N as [|? ? NI N']; subst. destruct (Nat.eq_dec t k) as [->|E].
        + now rewrite IH2, HK by exact NI.
        + destruct I as [->|I]; [easy|]. rewrite (HN t E), <- (IH1 N' I). apply Permutation_middle.
      - intros NI. rewrite HN, IH2; [reflexivity|intros I; apply NI; now right|intros ->; apply NI; now left]. }
    apply X; [apply seq_NoDup|apply in_seq; lia].
  Qed.
  Lemma filter_grouped n ps t : (t < n)%nat -> filter (fun p => (snd p =? Z.of_nat t)%Z) (grouped n ps) = filter (fun p => (snd p =? Z.of_nat t)%Z) ps.
  Proof.
    intros H. unfold grouped. assert (X : forall l, NoDup l -> filter (fun p => (snd p =? Z.of_nat t)%Z) (flat_map (fun t => filter (fun p : P * Z => (snd p =? Z.of_nat t)%Z) ps) l) = if in_dec Nat.eq_dec t l then filter (fun p => (snd p =? Z.of_nat t)%Z) ps else []).
    { assert (S1 : forall a, filter (fun p : P * Z => (snd p =? Z.of_nat t)%Z) (filter (fun p => (snd p =? Z.of_nat a)%Z) ps) = if Nat.eq_dec a t then filter (fun p => (snd p =? Z.of_nat t)%Z) ps else []).
      { intros a. induction ps as [|p ps' IH]; [now destruct (Nat.eq_dec a t)|]. cbn [filter]. destruct (Z.eqb_spec (snd p) (Z.of_nat a)) as [E|E], (Z.eqb_spec (snd p) (Z.of_nat t)) as [E'|E']; cbn [filter]; rewrite ?IH; destruct (Nat.eq_dec a t) as [->|N]; try (exfalso; lia); try reflexivity; destruct (Z.eqb_spec (snd p) (Z.of_nat t)); try contradiction; try lia; reflexivity. }
      induction l as [|a l IH]; intros N; [reflexivity|]. inversion N as [|? ? NI N']; subst. cbn [flat_map]. rewrite filter_app, S1, IH by exact N'. destruct (Nat.eq_dec a t) as [->|E]; cbn [in_dec].
      - destruct (in_dec Nat.eq_dec t l); [contradiction|]. destruct (in_dec Nat.eq_dec t (t :: l)) as [_|X]; [apply app_nil_r|exfalso; apply X; now left].
      - destruct (in_dec Nat.eq_dec t l) as [I|I], (in_dec Nat.eq_dec t (a :: l)) as [I'|I']; try reflexivity; exfalso; [apply I'; now right|destruct I'; contradiction]. }
    rewrite X by apply seq_NoDup. destruct (in_dec Nat.eq_dec t (seq 0 n)) as [_|I]; [reflexivity|]. exfalso. apply I, in_seq. lia.
  Qed.
  (** All atoms of the refined cell, those of a type together and in their order, when types are below the number of entries of n_atoms *)
  Theorem C92_refined st_types st_elements n ps g na el : refine_cell st_types st_elements n ps = Ok (g, na, el) ->
    (forall p, In p ps -> (0 <= snd p < Z.of_nat n)%Z) ->
    Permutation ps g /\ (forall t, (t < n)%nat -> filter (fun p => (snd p =? Z.of_nat t)%Z) g = filter (fun p => (snd p =? Z.of_nat t)%Z) ps /\ nth t na 0%nat = length (filter (fun p => (snd p =? Z.of_nat t)%Z) ps)) /\ length na = n /\ Forall2 (fun p e => In (snd p, e) (combine st_types st_elements)) g el.
  Proof.
    unfold refine_cell. destruct (mapM _ _) as [e|] eqn:E; [|discriminate]. cbn [bind]. intros [= <- <- <-] H. split; [|split; [|split]].
    - clear - H. induction ps as [|p ps IH]; [unfold grouped; induction (seq 0 n); [constructor|assumption]|]. rewrite <- grouped_cons by (apply H; now left). constructor. apply IH. intros q Hq. apply H. now right.
    - intros t Ht. split; [now apply filter_grouped|]. rewrite (nth_indep _ 0%nat (length (filter (fun p => (snd p =? Z.of_nat 0)%Z) (grouped n ps)))) by now rewrite map_length, seq_length. rewrite (map_nth (fun t => length (filter (fun p : P * Z => (snd p =? Z.of_nat t)%Z) (grouped n ps)))), seq_nth by exact Ht. cbn [plus]. now rewrite filter_grouped.
    - now rewrite map_length, seq_length.
    - clear - E. revert e E. generalize (grouped n ps). intros l. induction l as [|p l IH]; intros e E; cbn [mapM] in E; [injection E as <-; constructor|]. destruct (lookup _ _) as [x|] eqn:EL; [|discriminate]. cbn [bind] in E. destruct (mapM _ l) as [e'|] eqn:E'; [|discriminate]. injection E as <-. constructor; [|now apply IH].
      unfold lookup in EL. destruct (find _ _) as [[t y]|] eqn:EF; [|discriminate]. injection EL as <-. apply find_some in EF. cbn [fst snd] in EF. destruct EF as [I Q]. apply Z.eqb_eq in Q. subst t. unfold map_elements in I. now apply in_rev in I.
  Qed.
End Refine.

(** Not so for other types: an atom of type 2 of a structure with two kinds of atoms is lost. *)
Theorem C92_refined_refuted : exists st_types st_elements ps, refine_cell (P:=nat) st_types st_elements 2 ps = Ok ([(0%nat, 0%Z)], [1; 0]%nat, ["Al"%string]) /\ length ps = 2%nat /\ length st_types = 2%nat /\ length (np_unique st_types) = 2%nat.
Proof. exists [0; 2]%Z, ["Al"; "Ti"]%string, [(0%nat, 0%Z); (1%nat, 2%Z)]. repeat split. Qed.

(** ** Examples *)
(** A hexagonal cell of two atoms; one displacement, along c and opposite for the two atoms *)
Definition hcp : cryst := mk_structure (Cell (V3 3 0 0) (V3 (- 3 / 2) (sqrt 3 / 2 * 3) 0) (V3 0 0 5)) [V3 (1 / 4) 0 0; V3 0 0 (1 / 2)] [2%nat] ["Ti"; "Ti"]%string [0; 0]%Z None None.
Definition up_down (_ : cryst) : option (list (list (v3 R))) := Some [[V3 0 0 (/ sqrt 2); V3 0 0 (- / sqrt 2)]].
Example ex_hcp : conventional 194 (axis hcp) /\ group 194 /\ length (construct_basis 194) = 2%nat.
Proof. split; [|split; [unfold group; lia|reflexivity]]. apply conv_hexagonal; [lia|]. exists 3, 5. reflexivity. Qed.
Example ex_init : exists g, init (fun st => (st, 194%Z)) up_down hcp false false = Ok g /\ length (g_structures (run (fun A => A) (1 / 100) (run (fun A => A) (1 / 100) g 3 (1 / 10) (1 / 10) (fun _ _ => / 2) (fun _ _ => / 2)) 4 (1 / 10) (1 / 10) (fun _ _ => / 2) (fun _ _ => / 2))) = 7%nat.
Proof. eexists. split; [reflexivity|]. unfold run. cbn [g_structures]. now rewrite !app_length, !map_length, !seq_length. Qed.
Example ex_uniform : uniform (fun _ _ => / 2).
Proof. intros i s. lra. Qed.
(** A cell sheared by one period and its reduced cell *)
Definition sheared : cell R := Cell (V3 1 0 0) (V3 1 1 0) (V3 0 0 1).
Definition straight : cell R := Cell (V3 1 0 0) (V3 0 1 0) (V3 0 0 1).
Definition unshear (M : cell R) : cell R := Cell (V3 1 0 0) (V3 (- vx (ax1 M)) 1 0) (V3 0 0 1).
Lemma v3_eq (x y z x' y' z' : R) : x = x' -> y = y' -> z = z' -> V3 x y z = V3 x' y' z'.
Proof. now intros -> -> ->. Qed.
Lemma mv_is a b c d e f g h k x y z : mv (Cell (V3 a b c) (V3 d e f) (V3 g h k)) (V3 x y z) = V3 (a * x + d * y + g * z) (b * x + e * y + h * z) (c * x + f * y + k * z).
Proof. unfold mv, to_cartesian, vadd, vscale. cbn [vx vy vz ax0 ax1 ax2 nadd nmul nopp R_num]. apply v3_eq; ring. Qed.
Lemma unshear_is a b c d e f g h k : unshear (Cell (V3 a b c) (V3 d e f) (V3 g h k)) = Cell (V3 1 0 0) (V3 (- d) 1 0) (V3 0 0 1).
Proof. reflexivity. Qed.
Lemma cell_eq (a b c a' b' c' : v3 R) : a = a' -> b = b' -> c = c' -> Cell a b c = Cell a' b' c'.
Proof. now intros -> -> ->. Qed.
Lemma tmat_is : tmat unshear sheared straight = Cell (V3 1 0 0) (V3 (- (1)) 1 0) (V3 0 0 1).
Proof. unfold tmat, mm, sheared, straight. rewrite unshear_is. cbn [ax0 ax1 ax2]. rewrite !mv_is. apply cell_eq; apply v3_eq; ring. Qed.
Example ex_reduced : (forall v, mv sheared (mv (unshear sheared) v) = v) /\ (forall v, mv (tmat unshear sheared straight) (mv (unshear (tmat unshear sheared straight)) v) = v) /\
  transform unshear (1 / 100) sheared straight [V3 (1 / 2) (3 / 4) 0] = [V3 (1 / 4) (3 / 4) 0].
Proof.
  split; [|split].
  - intros [x y z]. unfold sheared. rewrite unshear_is, !mv_is. apply v3_eq; ring.
  - intros [x y z]. rewrite tmat_is, unshear_is, !mv_is. apply v3_eq; ring.
  - unfold transform. rewrite tmat_is, unshear_is. unfold refine_positions. cbn [map]. rewrite mv_is. unfold vmap. cbn [vx vy vz]. apply f_equal2; [|reflexivity].
    apply v3_eq; apply refine1_canon; try lra; [exists 1%Z|exists 0%Z|exists 0%Z]; lra.
Qed.
Example ex_refined : refine_cell (P:=nat) [0; 1]%Z ["Al"; "Ti"]%string 2 [(5%nat, 1%Z); (6%nat, 0%Z); (7%nat, 1%Z)] = Ok ([(6%nat, 0%Z); (5%nat, 1%Z); (7%nat, 1%Z)], [1; 2]%nat, ["Al"; "Ti"; "Ti"]%string).
Proof. reflexivity. Qed.

Print Assumptions C92_orthonormal.
Print Assumptions C92_span.
Print Assumptions C92_deformed.
Print Assumptions C92_displaced.
Print Assumptions C92_runs.
Print Assumptions C92_stops.
Print Assumptions C92_reduced.
Print Assumptions C92_metric.
Print Assumptions C92_reduced_stops.
Print Assumptions C92_refined.
Print Assumptions C92_refined_refuted.
