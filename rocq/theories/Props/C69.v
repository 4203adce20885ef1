(** C69: sampled supercells have the statistics of the harmonic oscillators, and the averages are those of the kept samples. *)
From Verif Require Import Base Num NumR Model.FC2 Model.HarmonicReal Spec.HarmonicReal Proofs.HarmonicReal.
From Coq Require Import Field Permutation Reals Lra.

Section C69.
  Context {F : Type} {N : Num F} {NO : NumOrd F} {L : FieldLaws F} {C : Char0 F} {St : Type}.
  Local Open Scope num_scope.
  Add Field Ffield : (field_laws (F := F)).
  Variables (n3 : nat) (masses : nat -> F) (eigh : mat F -> vec F * mat F) (const_sq : F) (place : nat -> disp (F := F) -> St) (eval : St -> F * disp (F := F) * list F) (e0 : F) (f0 : disp (F := F)) (s0 : list F).
  Variables (order : list nat -> list nat) (low : F).
  Hypothesis order_perm : forall l, Permutation (order l) l.
  Notation run := (run n3 masses eigh const_sq place eval e0 f0 s0 order low).
  Notation result_of := (result_of n3 masses eigh place eval e0 f0 s0).
  Notation e_at := (e_at n3 masses eigh place eval e0).
  Notation u_at := (u_at n3 masses eigh).

  (** A run keeps the samples whose energy is above the limit and near the mean, whatever the flag; all lists and averages are those of the
      kept samples, in one order.  Keeping none is an error. *)
  Theorem C69_run eliminate temp fc qs :
    (exists ids, run eliminate temp fc qs = Ok (result_of fc qs ids) /\ ids <> [] /\ NoDup ids /\ forall i, In i ids <-> keeps low (map (e_at fc qs) (seq 0 (length qs))) i) \/
    (run eliminate temp fc qs = Err IndexError /\ forall i, ~ keeps low (map (e_at fc qs) (seq 0 (length qs))) i).
  Proof.
    rewrite run_eq by exact order_perm. destruct (kept_spec order order_perm low (map (e_at fc qs) (seq 0 (length qs)))) as [KN KI]. destruct (kept order low (map (e_at fc qs) (seq 0 (length qs)))) as [|i0 ids] eqn:E.
    - right. split; [reflexivity|]. intros i H. apply KI in H. exact H.
    - left. exists (i0 :: ids). split; [reflexivity|]. split; [discriminate|]. split; assumption.
  Qed.
  (** The mean anharmonic potential is the difference of the means. *)
  Theorem C69_averages eliminate temp fc qs s unit : run eliminate temp fc qs = Ok s -> average_anharmonic unit s = average_full unit s - average_harmonic unit s.
  Proof.
    intros H. destruct (C69_run eliminate temp fc qs) as [(ids & HR & HN & _)|[HR _]]; [|congruence]. rewrite HR in H. injection H as <-.
    unfold average_anharmonic, anharmonic_potentials, average_full, average_harmonic, HarmonicReal.result_of. cbn [full harm].
    now apply mean_combine.
  Qed.
  (** If the potential is quadratic with the force constants, the averages of the forces vanish and the anharmonic part is that of the static forces. *)
  Theorem C69_quadratic eliminate temp fc qs s unit : quadratic n3 fc nhalf e0 f0 (fun d => fst (fst (eval (place 0%nat d)))) (fun d => snd (fst (eval (place 0%nat d)))) ->
    (forall i d, eval (place i d) = eval (place 0%nat d)) -> run eliminate temp fc qs = Ok s ->
    (forall i a, (i < 3)%nat -> (3 * a + i < n3)%nat -> average_forces s i a = n0) /\
    anharmonic_potentials unit s = map (fun d => - sumn n3 (fun r => f0 (r mod 3)%nat (r / 3)%nat * d (r mod 3)%nat (r / 3)%nat) * unit) (disps s).
  Proof.
    intros HQ HP H. destruct (C69_run eliminate temp fc qs) as [(ids & HR & HN & _)|[HR _]]; [|congruence]. rewrite HR in H. injection H as <-. unfold HarmonicReal.result_of. cbn [average_forces disps]. split.
    - intros i a Hi Ha. unfold meanf. rewrite !map_map.
      rewrite (map_ext _ (fun k => h_forces (h_at n3 masses eigh fc qs k) i a - (n0 - f0 i a))).
      + rewrite (mean_sub (fun k => h_forces (h_at n3 masses eigh fc qs k) i a) (fun _ => n0 - f0 i a)) by exact HN. rewrite (mean_const (n0 - f0 i a)) by exact HN. ring.
      + intros k. unfold f_at, st_at. rewrite HP. destruct (HQ (HarmonicReal.u_at n3 masses eigh fc qs k)) as [_ HF]. rewrite HF by assumption. unfold h_at. cbn [eval_properties_fc2 h_forces]. unfold matvec, dot.
        rewrite (sumn_ext n3 (fun i0 => fc_matrix fc (3 * a + i)%nat i0 * - flat (u_at fc qs k) i0) (fun c => - (n1) * (fc a (c / 3)%nat i (c mod 3)%nat * u_at fc qs k (c mod 3)%nat (c / 3)%nat))).
        * rewrite sumn_scale. ring.
        * intros c _. unfold fc_matrix, flat. replace ((3 * a + i) / 3)%nat with a by (apply (Nat.div_unique _ 3 a i); lia). replace ((3 * a + i) mod 3)%nat with i by (apply (Nat.mod_unique _ 3 a i); lia). ring.
    - unfold anharmonic_potentials. cbn [full harm]. rewrite map_map. clear HR HN. induction ids as [|k ids IH]; [reflexivity|]. cbn [map combine fst snd]. f_equal; [|exact IH].
      f_equal. unfold HarmonicReal.e_at, st_at. rewrite HP. destruct (HQ (HarmonicReal.u_at n3 masses eigh fc qs k)) as [HE _]. rewrite HE. unfold h_at. rewrite energy_form. unfold fc_matrix, flat. ring.
  Qed.
  (** Covariance of the displacements of random normal coordinates *)
  Theorem C69_covariance Ex a v r c : average_over Ex -> uncorrelated n3 Ex a ->
    Ex (fun q => to_disp n3 masses v q (r mod 3) (r / 3)%nat * to_disp n3 masses v q (c mod 3) (c / 3)%nat) =
    sumn n3 (fun k => v r k * a k * v c k) * (ninv (nsqrt (masses (r / 3)%nat)) * ninv (nsqrt (masses (c / 3)%nat))).
  Proof. intros H1 H2. pose proof (covariance n3 masses Ex a v r c H1 H2) as E. unfold flat in E. rewrite E. unfold masses_sqrt. ring. Qed.
  (** The harmonic energy of a sample is that of independent oscillators. *)
  Theorem C69_energy fc w v q : eigen n3 (dyn masses fc) w v ->
    h_energy (eval_properties_fc2 n3 (fc_matrix fc) (flat (to_disp n3 masses v q))) = nhalf * sumn n3 (fun k => w k * (q k * q k)).
  Proof. exact (energy_normal n3 masses fc w v q). Qed.
End C69.
Print Assumptions C69_run.
Print Assumptions C69_averages.
Print Assumptions C69_quadratic.
Print Assumptions C69_covariance.
Print Assumptions C69_energy.

Local Open Scope R_scope.
Section Real.
  Variables (cs cp ca kb thr small low : R).
  Hypothesis pos : 0 < cs /\ 0 < cp /\ 0 < ca /\ 0 < kb.
  Hypothesis thresholds : 0 <= small < thr.
  Notation amplitude := (amplitude tanh cp ca kb thr small low).
  Notation occupancy := (occupancy tanh cp kb small).
  (** The sign of a frequency tells a stable mode from an unstable one; its square is the eigenvalue in other units. *)
  Theorem C69_frequency w : (0 <= w -> 0 <= freq_of (w * cs) /\ freq_of (w * cs) * freq_of (w * cs) = w * cs) /\ (w < 0 -> freq_of (w * cs) < 0 /\ freq_of (w * cs) * freq_of (w * cs) = - (w * cs)).
  Proof.
    unfold freq_of. cbn [nltb nsqrt n0 nopp R_num R_ord]. destruct pos as (P1 & _). split; intros H.
    - assert (0 <= w * cs) by (apply Rmult_le_pos; lra). replace (Rltb (w * cs) 0) with false by (symmetry; apply Rltb_false; lra). split; [apply sqrt_pos|now apply sqrt_sqrt].
    - assert (w * cs < 0) by (apply Ropp_lt_cancel; rewrite Ropp_0; replace (- (w * cs)) with ((- w) * cs) by ring; apply Rmult_lt_0_compat; lra). replace (Rltb (w * cs) 0) with true by (symmetry; apply Rltb_true; lra).
      pose proof (sqrt_lt_R0 (- (w * cs)) ltac:(lra)). split; [lra|]. replace (- sqrt (- (w * cs)) * - sqrt (- (w * cs))) with (sqrt (- (w * cs)) * sqrt (- (w * cs))) by ring. apply sqrt_sqrt. lra.
  Qed.
  Lemma tanh_exp x : tanh x = 1 - 2 / (exp (2 * x) + 1).
  Proof.
    unfold tanh, sinh, cosh. replace (2 * x) with (x + x) by ring. rewrite exp_plus. pose proof (exp_pos x). rewrite exp_Ropp. field. split; nra.
  Qed.
  Lemma tanh_mono x y : x <= y -> tanh x <= tanh y.
  Proof.
    intros H. rewrite !tanh_exp. pose proof (exp_pos (2 * x)). pose proof (exp_pos (2 * y)).
    assert (exp (2 * x) <= exp (2 * y)) by (destruct (Rle_lt_or_eq_dec _ _ H) as [H'| ->]; [left; apply exp_increasing; lra|lra]).
    assert (/ (exp (2 * y) + 1) <= / (exp (2 * x) + 1)) by (apply Rinv_le_contravar; lra). unfold Rdiv. lra.
  Qed.
  Lemma tanh_lt_1 x : tanh x < 1.
  Proof. rewrite tanh_exp. pose proof (exp_pos (2 * x)). assert (0 < / (exp (2 * x) + 1)) by (apply Rinv_0_lt_compat; lra). unfold Rdiv. lra. Qed.
  Lemma tanh_pos x : 0 < x -> 0 < tanh x.
  Proof. intros H. rewrite tanh_exp. assert (1 < exp (2 * x)) by (rewrite <- exp_0; apply exp_increasing; lra). assert (/ (exp (2 * x) + 1) < / 2) by (apply Rinv_lt_contravar; lra). unfold Rdiv. lra. Qed.
  Lemma tanh_le x : 0 <= x -> tanh x <= x.
  Proof.
    intros H. assert (G : 0 <= x * cosh x - sinh x).
    { destruct (Rle_lt_or_eq_dec _ _ H) as [H'| <-]; [|rewrite sinh_0; lra].
      destruct (MVT_cor2 (fun x => x * cosh x - sinh x) (fun x => (1 * cosh x + x * sinh x) - cosh x) 0 x H') as (c & Hc & Hc1).
      - intros c _. apply derivable_pt_lim_minus; [|apply derivable_pt_lim_sinh]. apply (derivable_pt_lim_mult (fun x => x) cosh); [apply derivable_pt_lim_id|apply derivable_pt_lim_cosh].
      - rewrite sinh_0 in Hc. assert (0 <= sinh c) by (rewrite <- sinh_0; left; apply sinh_lt; lra). assert (0 <= c * sinh c * x) by (apply Rmult_le_pos; [apply Rmult_le_pos|]; lra). lra. }
    assert (0 < cosh x) by (unfold cosh; pose proof (exp_pos x); pose proof (exp_pos (- x)); lra). unfold tanh. apply (Rmult_le_reg_r (cosh x)); [assumption|]. unfold Rdiv. rewrite Rmult_assoc, Rinv_l by lra. lra.
  Qed.
  Definition warm (t : R) : Prop := small < t.
  Lemma close0_false x : small < x -> close0 small x = false.
  Proof. intros H. unfold close0. cbn [nltb nabs R_ord]. replace (Rltb small (Rabs x)) with true; [reflexivity|]. symmetry. apply Rltb_true. rewrite Rabs_pos_eq; lra. Qed.
  Lemma close0_true x : Rabs x <= small -> close0 small x = true.
  Proof. intros H. unfold close0. cbn [nltb nabs R_ord]. replace (Rltb small (Rabs x)) with false; [reflexivity|]. symmetry. now apply Rltb_false. Qed.
  (** Amplitude of a mode at or above the threshold *)
  Lemma amplitude_eq t f : thr <= f -> amplitude t f = ca * occupancy t f / f.
  Proof.
    intros H. unfold HarmonicReal.amplitude, hide. cbn [nltb R_ord n0 R_num]. replace (Rltb f thr) with false by (symmetry; apply Rltb_false; lra). rewrite close0_false by lra. cbn [nmul ndiv n1 R_num]. unfold Rdiv. ring.
  Qed.
  Lemma amplitude_low t f : f < thr -> amplitude t f = low.
  Proof.
    intros H. unfold HarmonicReal.amplitude, hide. cbn [nltb R_ord n0 R_num]. replace (Rltb f thr) with true by (symmetry; apply Rltb_true; lra). rewrite close0_true by (rewrite Rabs_R0; lra). reflexivity.
  Qed.
  (** Reduced frequency h f / 2 k T *)
  Definition reduced (t f : R) : R := cp * f / (2 * kb * t).
  Lemma occupancy_warm t f : small < t -> occupancy t f = / 2 * / tanh (reduced t f).
  Proof.
    intros H. unfold HarmonicReal.occupancy. rewrite close0_false by assumption. unfold nhalf, reduced. cbn [nmul nadd ndiv ninv n1 R_num]. unfold Rdiv. rewrite Rmult_1_l. replace (1 + 1) with 2 by ring. do 3 f_equal. rewrite Rmult_1_l. destruct pos as (_ & P2 & _ & P4). field. lra.
  Qed.
  Lemma occupancy_cold t f : Rabs t <= small -> occupancy t f = / 2.
  Proof. intros H. unfold HarmonicReal.occupancy. rewrite close0_true by assumption. unfold nhalf. cbn [nmul nadd ndiv ninv n1 R_num]. field. Qed.
  (** The occupancy is at least the zero-point one and at least the classical one, k T / h f. *)
  Theorem C69_occupancy t f : small < t -> 0 < f -> / 2 < occupancy t f /\ kb * t / (cp * f) <= occupancy t f.
  Proof.
    intros Ht Hf. rewrite occupancy_warm by assumption. destruct pos as (_ & P2 & _ & P4). assert (X : 0 < reduced t f) by (unfold reduced; apply Rdiv_lt_0_compat; [nra|]; apply Rmult_lt_0_compat; nra).
    pose proof (tanh_pos _ X). pose proof (tanh_lt_1 (reduced t f)). pose proof (tanh_le (reduced t f) ltac:(lra)). split.
    - assert (/ 1 < / tanh (reduced t f)) by (apply Rinv_lt_contravar; lra). lra.
    - assert (E : kb * t / (cp * f) = / 2 * / reduced t f) by (unfold reduced; field; repeat split; nra). rewrite E. assert (/ reduced t f <= / tanh (reduced t f)) by (apply Rinv_le_contravar; lra). lra.
  Qed.
  (** Amplitudes grow with the temperature. *)
  Theorem C69_monotone t t' f : Rabs t <= small \/ small < t -> small < t' -> t <= t' -> thr <= f -> amplitude t f <= amplitude t' f.
  Proof.
    intros Ht Ht' H Hf. rewrite !amplitude_eq by assumption. destruct pos as (_ & P2 & P3 & P4). unfold Rdiv. apply Rmult_le_compat_r; [left; apply Rinv_0_lt_compat; lra|]. apply Rmult_le_compat_l; [lra|]. destruct Ht as [Ht|Ht].
    - rewrite (occupancy_cold t) by assumption. left. apply C69_occupancy; lra.
    - rewrite !occupancy_warm by assumption. apply Rmult_le_compat_l; [lra|]. assert (X : 0 < reduced t' f) by (unfold reduced; apply Rdiv_lt_0_compat; [nra|]; apply Rmult_lt_0_compat; nra). apply Rinv_le_contravar; [now apply tanh_pos|]. apply tanh_mono.
      unfold reduced, Rdiv. apply Rmult_le_compat_l; [nra|]. apply Rinv_le_contravar; [apply Rmult_lt_0_compat; nra|]. apply Rmult_le_compat_l; nra.
  Qed.
  (** The mean harmonic energy: half the energy of each oscillator; a mode below the threshold counts with a fixed amplitude. *)
  Theorem C69_mean_energy n3 (masses : nat -> R) fc w v t Ex : average_over Ex -> eigen n3 (dyn masses fc) w v ->
    uncorrelated n3 Ex (fun k => amplitude t (freq_of (w k * cs))) ->
    Ex (fun q => h_energy (eval_properties_fc2 n3 (fc_matrix fc) (flat (to_disp n3 masses v q)))) =
    / 2 * sumn n3 (fun k => if Rltb (freq_of (w k * cs)) thr then low * w k else ca / cs * freq_of (w k * cs) * occupancy t (freq_of (w k * cs))).
  Proof.
    intros HA HE HU. rewrite (energy_average n3 masses Ex _ fc w v HA HU HE). replace (@nhalf R R_num) with (/ 2) by (unfold nhalf; cbn [nadd ndiv n1 R_num]; field). cbn [nmul R_num]. f_equal. apply sumn_ext. intros k _. cbn [nmul R_num]. destruct (Rltb (freq_of (w k * cs)) thr) eqn:E.
    - apply Rltb_true in E. rewrite amplitude_low by assumption. ring.
    - apply Rltb_false in E. rewrite amplitude_eq by assumption. assert (W : 0 <= w k). { destruct (Rlt_le_dec (w k) 0) as [W|W]; [|exact W]. destruct (C69_frequency (w k)) as [_ G]. destruct (G W). lra. }
      destruct (C69_frequency (w k)) as [G _]. destruct (G W) as [_ G2]. set (f := freq_of (w k * cs)) in *. clearbody f. destruct pos as (P1 & _). assert (EW : w k = f * f / cs) by (rewrite G2; field; lra). rewrite EW. field. lra.
  Qed.
End Real.
Print Assumptions C69_frequency.
Print Assumptions C69_occupancy.
Print Assumptions C69_monotone.
Print Assumptions C69_mean_energy.

(** If all energies are positive, samples are kept. *)
Lemma below_mean (l : list R) : l <> [] -> exists i, (i < length l)%nat /\ nth i l 0 <= mean l.
Proof.
  intros H. destruct (Exists_dec (fun e => e <= mean l) l (fun e => Rle_dec e (mean l))) as [E|E].
  - apply Exists_nth in E. destruct E as (i & d & Hi & E). exists i. split; [exact Hi|]. now rewrite (nth_indep _ 0 d).
  - exfalso. assert (G : forall m, Forall (fun e => m < e) l -> nnat (length l) * m < nsum l).
    { clear -H. intros m HF. destruct l as [|a l]; [contradiction|]. inversion HF as [|? ? H1 H2]; subst. clear H HF. revert a H1. induction H2 as [|b l H2 H3 IH]; intros a H1.
      - cbn. lra.
      - specialize (IH b H2). cbn [length nnat nsum fold_right map] in *. cbn [nadd n1 n0 R_num] in *. unfold nsum in *. cbn [fold_right] in *. cbn [nadd n1 n0 R_num] in *. lra. }
    specialize (G (mean l)). assert (HF : Forall (fun e => mean l < e) l). { apply Forall_Exists_neg in E. eapply Forall_impl; [|exact E]. cbn. intros e He. lra. }
    specialize (G HF). unfold mean in G. cbn [ndiv R_num] in G. assert (P : 0 < nnat (length l)) by (rewrite nnat_INR; apply lt_0_INR; destruct l; [contradiction|cbn; lia]). replace (nnat (length l) * (nsum l / nnat (length l))) with (nsum l) in G by (field; lra). lra.
Qed.
Theorem C69_positive {St : Type} n3 masses eigh const_sq (place : nat -> disp -> St) eval e0 f0 s0 order low eliminate temp fc qs :
  (forall l, Permutation (order l) l) -> low <= 0 -> qs <> [] -> (forall i, (i < length qs)%nat -> 0 < e_at n3 masses eigh place eval e0 fc qs i) ->
  exists s, run n3 masses eigh const_sq place eval e0 f0 s0 order low eliminate temp fc qs = Ok s.
Proof.
  intros HO HL HQ HE. destruct (C69_run n3 masses eigh const_sq place eval e0 f0 s0 order low HO eliminate temp fc qs) as [(ids & H & _)|[_ HK]]; [eauto|]. exfalso.
  set (es := map (e_at n3 masses eigh place eval e0 fc qs) (seq 0 (length qs))) in *. assert (HP : forall e, In e es -> 0 < e). { intros e He. apply in_map_iff in He. destruct He as (i & <- & Hi). apply in_seq in Hi. apply HE. lia. }
  assert (HT : trusted low es = es). { unfold trusted. clearbody es. clear -HP HL. induction es as [|e es IH]; [reflexivity|]. cbn [filter]. assert (0 < e) by (apply HP; now left). replace (nltb low e) with true by (symmetry; apply Rltb_true; lra). f_equal. apply IH. intros; apply HP; now right. }
  assert (HN : es <> []) by (unfold es; destruct qs; [contradiction|discriminate]). destruct (below_mean es HN) as (i & Hi & Hm). assert (0 < nth i es 0) by (apply HP; now apply nth_In).
  apply (HK i). unfold keeps. rewrite HT. split; [exact Hi|]. split; [apply Rltb_true; cbn [n0 R_num]; lra|]. apply Rltb_true. cbn [nabs nsub nadd nmul n0 n1 R_num R_ord]. rewrite (Rabs_pos_eq (mean es)) by lra. rewrite Rabs_left1 by lra. lra.
Qed.
Print Assumptions C69_positive.

(** The constants of the code: amplitude / squared frequency is Planck's constant in eV per THz, to twelve digits. *)
Theorem C69_constants : Rabs (1.010758017933576 / 244.40020137144617 - 6.62607015e-34 * 1e12 / 1.602176634e-19) < 1e-14.
Proof.
  apply Rabs_def1; lra.
Qed.
Print Assumptions C69_constants.

(** The hypotheses on averages and modes can be met, for every number of modes and all variances. *)
Lemma nnat_pos n : (0 < n)%nat -> 0 < nnat (F := R) n.
Proof. intros H. rewrite nnat_INR. now apply lt_0_INR. Qed.
Example C69_average_met n (a : nat -> R) : (0 < n)%nat -> (forall k, 0 <= a k) -> exists Ex, average_over Ex /\ uncorrelated n Ex a.
Proof.
  intros Hn Ha. exists (fun f => sumn n (fun k => f (fun i => delta k i * sqrt (nnat n * a k)) / nnat n)). pose proof (nnat_pos n Hn) as P. split.
  - split.
    + intros f g H. apply sumn_ext. intros k _. now rewrite H.
    + intros f g. rewrite <- sumn_add. apply sumn_ext. intros k _. cbn [nadd R_num]. field. lra.
    + intros c f. rewrite <- sumn_scale. apply sumn_ext. intros k _. cbn [nmul R_num]. field. lra.
  - intros k l Hk Hl. rewrite (sumn_ext n _ (fun j => nmul (delta k j) (if (k =? l)%nat then a k else 0))).
    + rewrite (sumn_delta n k (fun _ => if (k =? l)%nat then a k else 0)) by assumption. reflexivity.
    + intros j Hj. unfold delta. cbn [nmul n0 n1 R_num]. rewrite (Nat.eqb_sym j k). destruct (Nat.eqb_spec k j) as [<-|H]; [|field; lra]. destruct (Nat.eqb_spec k l) as [E|H]; [|field; lra].
      replace (1 * sqrt (nnat n * a k) * (1 * sqrt (nnat n * a k))) with (sqrt (nnat n * a k) * sqrt (nnat n * a k)) by ring. rewrite sqrt_sqrt by (apply Rmult_le_pos; [lra|apply Ha]). field. lra.
Qed.
Example C69_eigen_met : eigen 3 (dyn (fun _ => 1) (fun a b i j => if (i =? j)%nat then INR i else 0)) (fun k => INR k) delta.
Proof.
  split.
  - intros k l Hk Hl. rewrite (sumn_ext 3 _ (fun r => nmul (delta k r) (delta r l))); [now apply (sumn_delta 3 k (fun r => delta r l))|]. intros r _. unfold delta. now rewrite (Nat.eqb_sym r k).
  - intros r k Hr Hk. rewrite (sumn_ext 3 _ (fun c => nmul (delta k c) (dyn (fun _ => 1) (fun a b i j => if (i =? j)%nat then INR i else 0) r c))).
    + rewrite (sumn_delta 3 k (fun c => dyn (fun _ => 1) (fun a b i j => if (i =? j)%nat then INR i else 0) r c)) by assumption. unfold dyn, masses_sqrt, fc_matrix, delta. cbn [nmul nsqrt ninv n0 n1 R_num R_ord]. rewrite sqrt_1, Rinv_1. rewrite !Nat.mod_small by assumption. destruct (Nat.eqb_spec r k) as [->|H]; ring.
    + intros c _. unfold delta. rewrite (Nat.eqb_sym k c). cbn [nmul R_num]. destruct (c =? k)%nat; cbn [n0 n1 R_num]; ring.
Qed.

(** A run with one atom, the energy of a sample is its first coordinate. *)
From Coq Require Import QArith Qcanon.
Local Open Scope nat_scope.
Definition qz (n : Z) : Qc := Q2Qc (inject_Z n).
Definition one_run (eliminate : bool) (es : list Z) :=
  match run 3 (fun _ => qz 4) (fun _ => (fun _ => qz 1, delta)) (qz 1) (fun i d => (i, d 0 0)) (fun st => (Qcmult (qz 2) (snd st), fun _ _ => qz 0, [])) (qz 0) (fun _ _ => qz 0) [] (fun l => l) (qz (-10)) eliminate (qz 0)
    (fun _ _ i j => if i =? j then qz 8 else qz 0) (map (fun e k => if k =? 0 then qz e else qz 0) es) with
  | Ok s => Ok (map fst (supercells s), map this (full s), map this (harm s), this (average_forces s 0 0))
  | Err e => Err e
  end.
Example C69_kept : one_run true [4; 5; 30; 6; -11; 1]%Z = Ok ([0; 1; 3; 5], [4; 5; 6; 1]%Q, [16; 25; 36; 1]%Q, (16)%Q).
Proof. vm_compute. reflexivity. Qed.
(** The flag is not looked at, and a run may keep nothing. *)
Example C69_flag_refuted : one_run false [4; 5; 30; 6; -11; 1]%Z = one_run true [4; 5; 30; 6; -11; 1]%Z /\ one_run false [-9; -9; 20]%Z = Err IndexError.
Proof. split; vm_compute; reflexivity. Qed.
(** Every force constant table has a quadratic potential. *)
Example C69_quadratic_met (fc : nat -> nat -> nat -> nat -> Qc) e0 f0 : exists eval : disp (F := Qc) -> Qc * disp (F := Qc) * list Qc,
  quadratic 6 fc nhalf e0 f0 (fun d => fst (fst (eval d))) (fun d => snd (fst (eval d))).
Proof. eexists (fun d => (_, fun i a => _, [])). intros d. split; [reflexivity|]. intros. reflexivity. Qed.
