(** C76: what a thermodynamic integration runs, reports and saves, and which reference is found. *)
From Verif Require Import Base Num NumR Model.MD Model.TI Model.TIRun Spec.MD Spec.TI Spec.TIRun Proofs.MD Proofs.TI Proofs.Readers Proofs.TIRun.
From Coq Require Import Reals Lra.
From Coq Require String.
From Coquelicot Require Import Coquelicot.
Import String.StringSyntax.
Local Open Scope string_scope.
Local Open Scope list_scope.
Local Open Scope R_scope.

(** ** Quadrature *)
(** A rule that is exact for polynomials of degree d on [-1,1] is so on [a,b] after the points are moved and the result is
    scaled. *)
Theorem C76_quadrature p_roots n d x w a b : p_roots n = Ok (x, w) -> exact_rule d x w (-1) 1 ->
  exists x', get_p_roots p_roots n a b = Ok (x', w) /\ length x' = length w /\
    forall p, (length p <= d + 1)%nat -> calc_integral w (map (polynomial p) x') a b = Ok (RInt (polynomial p) a b).
Proof.
  intros HP [L HE]. unfold get_p_roots. rewrite HP. cbn [bind]. rewrite half_R. cbn [nmul nadd nsub R_num].
  eexists. split; [reflexivity|]. split; [rewrite map_length; exact L|]. intros p Hp.
  rewrite calc_integral_quad by (rewrite map_length; exact L). apply (f_equal (@Ok R)). apply quad_moved; [apply poly_integrable|].
  rewrite (quad_ext _ _ _ (polynomial (affine (/ 2 * (b - a)) (/ 2 * (a + b)) p))) by (intros t; now rewrite affine_poly).
  rewrite HE by (rewrite affine_length; exact Hp). apply RInt_ext. intros t _. apply affine_poly.
Qed.
Print Assumptions C76_quadrature.

(** ** Statistical mechanics: why these averages are integrated *)
(** The free energy difference is the integral of the average energy difference over the mixing parameter (for every
    finite system); perturbation from a to c gives the difference too, with b = 1/kT; and F = <E> - TS. *)
Theorem C76_thermodynamics {X} (states : list X) e0 e1 k T a c : states <> [] -> k <> 0 -> T <> 0 ->
  let b := 1 / (k * T) in
  let F := free_energy states e0 e1 b in
  is_RInt (fun a => canonical states e0 e1 b a (fun s => e1 s - e0 s)) a c (F c - F a) /\
  - (1 / b) * ln (canonical states e0 e1 b a (fun s => exp (- (b * (energy_at e0 e1 c s - energy_at e0 e1 a s))))) = F c - F a /\
  F a = canonical states e0 e1 b a (energy_at e0 e1 a) - T * gibbs_entropy states e0 e1 k b a.
Proof.
  intros HN Hk HT b F. assert (Hb : b <> 0).
  { unfold b. apply Rmult_integral_contrapositive_currified; [lra|]. apply Rinv_neq_0_compat. now apply Rmult_integral_contrapositive_currified. }
  split; [now apply F_integral|]. split; [now apply perturb_identity|]. now apply F_energy_entropy.
Qed.
Print Assumptions C76_thermodynamics.

Section C76.
  Variable simulate : kind -> list (run R) -> run R -> trajectory R.
  Variables (kb evj av : R) (n_atom : nat) (volume : R).
  Variable p_roots : nat -> res (list R * list R).
  Variable round5 : R -> R.
  Notation run_ti := (run_ti p_roots simulate exp ln kb evj av n_atom).
  Notation logged := (log_of simulate kb).
  Notation known th := (th = ("Langevin" : String.string) \/ th = ("Nose-Hoover" : String.string)).
  Notation set_up m k := ((exists x, m_calc m = Some (k, x)) /\ m_supercell m = true).

  (** *** The runs, their order and lengths, and what is reported *)
  Theorem C76_run th T n_eq n_steps n max_alpha m k x w : known th -> set_up m k -> has_reference k = true ->
    p_roots n = Ok (x, w) -> length x = length w ->
    let alphas := map (fun t => max_alpha / 2 * (t + 1)) x in
    let single := fun a => mk_run (Some a) T n_eq n_steps in
    let triple := fun a => mk_run (Some a) T n_eq (3 * n_steps) in
    exists m' r first mid final ds, run_ti th T n_eq n_steps n max_alpha m = Ok (m', r) /\
      m_past m' = m_past m ++ map single alphas ++ triple 0 :: triple max_alpha :: nil /\
      m_calc m' = Some (k, Some max_alpha) /\ same_setup m m' /\ (exists v, m_integrator m' = Some (T, v)) /\
      i_logs r = first :: mid ++ final :: nil /\ length mid = length x /\
      (forall i a, nth_error alphas i = Some a -> exists g, nth_error mid i = Some g /\
         logged k (m_past m ++ map single (firstn i alphas)) (single a) g) /\
      logged k (m_past m ++ map single alphas) (triple 0) first /\
      logged k (m_past m ++ map single alphas ++ triple 0 :: nil) (triple max_alpha) final /\
      map (fun g => g_delta g) mid = map Some ds /\
      i_free r = max_alpha / 2 * nsumf (F:=R) (fun q => fst q * snd q) (combine w ds) /\
      (exists e0 e1, g_energy first = Some e0 /\ g_energy final = Some e1 /\
         (~ vanishing T -> i_energy r = e1 - e0 /\ i_free r = i_energy r - T * i_entropy r) /\
         (vanishing T -> i_energy r = 0 /\ i_entropy r = 0)) /\
      i_perturb r = g_perturb final /\ i_perturb1 r = g_perturb1 final.
  Proof.
    clear round5 volume. intros HK [[y HC] HS] HR HP L alphas single triple. unfold TIRun.run_ti, get_p_roots. rewrite HP. cbn [bind].
    replace (map (fun x0 => nadd (nmul (nmul half (nsub max_alpha n0)) x0) (nmul half (nadd n0 max_alpha))) x) with alphas.
    2: { unfold alphas. apply map_ext. intros t. rewrite half_R. cbn. field. }
    destruct (run_all_ok simulate kb evj av n_atom th T n_eq n_steps k HK HR alphas y m HC HS) as (m1 & mid & y1 & -> & C1 & S1 & P1 & Len & K).
    cbn [bind]. rewrite Nat.mul_1_r in *.
    destruct (deltas_ok mid) as (ds & -> & Eds).
    { intros g Hg. apply In_nth_error in Hg. destruct Hg as [i Hi].
      assert (Hlt : (i < length alphas)%nat) by (rewrite <- Len; apply nth_error_Some; congruence).
      destruct (nth_error alphas i) as [a|] eqn:Ea; [|apply nth_error_None in Ea; lia].
      destruct (K i a Ea) as (g' & G1 & _ & _ & _ & G2 & _). assert (g' = g) as -> by congruence. eexists. exact G2. }
    cbn [bind].
    assert (Lds : length w = length ds).
    { apply (f_equal (length (A:=option R))) in Eds. rewrite !map_length in Eds. rewrite <- Eds, Len. unfold alphas. now rewrite map_length. }
    cbn [n0 R_num]. rewrite calc_integral_sum by exact Lds. cbn [bind].
    destruct S1 as (U1 & U2 & U3 & U4). rewrite HS in U2.
    destruct (run_at_ok simulate kb evj av n_atom th T n_eq n_steps k y1 3 0 m1 HK HR C1 U2) as (m2 & first & -> & L2 & C2 & (V1 & V2 & V3 & V4) & P2 & _).
    cbn [bind]. rewrite U2 in V2.
    destruct (run_at_ok simulate kb evj av n_atom th T n_eq n_steps k (Some 0) 3 max_alpha m2 HK HR C2 V2) as (m3 & final & -> & L3 & C3 & (W1 & W2 & W3 & W4) & P3 & I3).
    cbn [bind].
    rewrite (Nat.mul_comm n_steps 3) in L2, P2, L3, P3.
    pose proof L2 as (_ & Ge & _). pose proof L3 as (_ & Ge' & _). rewrite Ge, Ge'. cbn [TIRun.number bind].
    match type of Ge with _ = Some ?a => set (e0 := a) in * end. match type of Ge' with _ = Some ?a => set (e1 := a) in * end.
    assert (CO : forall T', exists en s, (if is_zero (F:=R) T' then Ok (0, 0) else Ok (nsub e1 e0, ndiv (nsub (nsub e1 e0) (/ 2 * (max_alpha - 0) * nsumf (F:=R) (fun q => fst q * snd q) (combine w ds))) T')) = Ok (en, s) /\
       (~ vanishing T' -> en = e1 - e0 /\ / 2 * (max_alpha - 0) * nsumf (F:=R) (fun q => fst q * snd q) (combine w ds) = en - T' * s) /\ (vanishing T' -> en = 0 /\ s = 0)).
    { intros T'. destruct (is_zero (F:=R) T') eqn:Ez.
      - apply is_zero_true in Ez. exists 0, 0. split; [reflexivity|]. split; [tauto|auto].
      - apply is_zero_false in Ez. do 2 eexists. split; [reflexivity|]. split; [|tauto]. intros _. split; [reflexivity|].
        cbn [nsub ndiv R_num]. assert (T' <> 0) by (intros ->; apply Ez; unfold vanishing; rewrite Rabs_R0; lra). field. assumption. }
    destruct (CO T) as (en & s & -> & Q1 & Q2). cbn [bind].
    exists m3. eexists. exists first, mid, final, ds. split; [reflexivity|].
    cbn [i_logs i_free i_energy i_entropy i_perturb i_perturb1].
    split. { rewrite P3, P2, P1, <- !app_assoc. reflexivity. }
    split; [exact C3|]. split; [unfold same_setup; repeat split; congruence|]. split; [exact I3|]. split; [reflexivity|].
    split; [rewrite Len; unfold alphas; now rewrite map_length|]. split; [exact K|].
    split; [rewrite P1 in L2; exact L2|]. split; [rewrite P2, P1, <- !app_assoc in L3; exact L3|]. split; [exact Eds|].
    split; [field|]. split; [|split; reflexivity]. exists e0, e1. split; [exact Ge|]. split; [exact Ge'|]. split; assumption.
  Qed.

  (** *** The free energy and entropy difference of a canonical system
      If every run reproduces canonical averages up to d and the rule integrates the average energy difference up to e,
      then so are, up to sums of these, the free energy, energy and entropy of the final state relative to the reference. *)
  Theorem C76_free_energy {X} (states : list X) e0 e1 th T n_eq n_steps n max_alpha m k x w d e : states <> [] -> known th -> set_up m k -> has_reference k = true ->
    p_roots n = Ok (x, w) -> length x = length w -> (forall y, In y w -> 0 <= y) -> nsumf (F:=R) (fun y => y) w = 2 -> 0 <= max_alpha ->
    kb <> 0 -> ~ vanishing T ->
    let b := 1 / (kb * T) in
    let f := fun a => canonical states e0 e1 b a (fun s => e1 s - e0 s) in
    sampled simulate states e0 e1 k T b d ->
    Rabs (max_alpha / 2 * quad (map (fun t => max_alpha / 2 * (t + 1)) x) w f - RInt f 0 max_alpha) <= e ->
    exists m' r, run_ti th T n_eq n_steps n max_alpha m = Ok (m', r) /\
      let dF := free_energy states e0 e1 b max_alpha - free_energy states e0 e1 b 0 in
      let dE := canonical states e0 e1 b max_alpha (energy_at e0 e1 max_alpha) - canonical states e0 e1 b 0 (energy_at e0 e1 0) in
      let dS := gibbs_entropy states e0 e1 kb b max_alpha - gibbs_entropy states e0 e1 kb b 0 in
      Rabs (i_free r - dF) <= e + max_alpha * d /\ Rabs (i_energy r - dE) <= 2 * d /\
      Rabs (T * i_entropy r - T * dS) <= e + (max_alpha + 2) * d.
  Proof.
    clear round5 volume. intros HN HK HSU HR HP L Hw Sw Hm Hk HT b f HSam HQ.
    destruct (C76_run th T n_eq n_steps n max_alpha m k x w HK HSU HR HP L) as (m' & r & first & mid & final & ds & -> & _ & _ & _ & _ & _ & Lm & HM & HF0 & HF1 & Eds & EF & (c0 & c1 & G0 & G1 & EN & _) & _).
    exists m', r. split; [reflexivity|]. destruct (EN HT) as [EE ES]. clear EN.
    assert (T0 : T <> 0) by (intros ->; apply HT; unfold vanishing; rewrite Rabs_R0; lra).
    assert (Hb : b <> 0). { unfold b. apply Rmult_integral_contrapositive_currified; [lra|]. apply Rinv_neq_0_compat. now apply Rmult_integral_contrapositive_currified. }
    set (alphas := map (fun t => max_alpha / 2 * (t + 1)) x) in *.
    assert (La : length alphas = length w) by (unfold alphas; rewrite map_length; exact L).
    assert (HD : forall i a y, nth_error alphas i = Some a -> nth_error ds i = Some y -> Rabs (y - f a) <= d).
    { intros i a y Ha Hy. destruct (HM i a Ha) as (g & Hg & _ & _ & _ & Gd & _).
      assert (E : nth_error (map (fun g => g_delta g) mid) i = Some (g_delta g)) by (now apply map_nth_error).
      rewrite Eds, (map_nth_error Some _ _ Hy), Gd in E. injection E as ->. apply (HSam _ a n_eq n_steps). }
    assert (Lds : length alphas = length ds).
    { apply (f_equal (length (A:=option R))) in Eds. rewrite !map_length, Lm in Eds. unfold alphas. rewrite map_length. exact Eds. }
    assert (BD : Rabs (nsumf (F:=R) (fun q => fst q * snd q) (combine w ds) - quad alphas w f) <= d * nsumf (F:=R) (fun y => y) w).
    { clear - HD La Lds Hw. unfold quad. revert ds w La Lds HD Hw. induction alphas as [|a t IH]; intros [|y ds] [|v w] La Lds HD Hw; try discriminate.
      - cbn [combine]. rewrite !nsumf_nil. cbn [n0 R_num]. rewrite Rminus_0_r, Rabs_R0. lra.
      - cbn [combine]. rewrite !nsumf_cons. cbn [fst snd nadd R_num].
        assert (A1 : Rabs (y - f a) <= d) by (apply (HD 0%nat); reflexivity).
        assert (A2 := IH ds w ltac:(now injection La) ltac:(now injection Lds) (fun i => HD (S i)) (fun z Hz => Hw z (or_intror Hz))).
        set (s1 := nsumf (F:=R) _ (combine w ds)) in *. set (s2 := nsumf (F:=R) _ (combine t w)) in *. set (s3 := nsumf (F:=R) _ w) in *.
        assert (V : 0 <= v) by (apply Hw; now left).
        replace (v * y + s1 - (v * f a + s2)) with (v * (y - f a) + (s1 - s2)) by ring.
        eapply Rle_trans; [apply Rabs_triang|]. rewrite Rabs_mult, (Rabs_right v) by lra.
        assert (v * Rabs (y - f a) <= v * d) by (apply Rmult_le_compat_l; assumption). lra. }
    rewrite Sw in BD.
    assert (RI : RInt f 0 max_alpha = free_energy states e0 e1 b max_alpha - free_energy states e0 e1 b 0) by (apply (is_RInt_unique (V:=R_CompleteNormedModule)), F_integral; assumption).
    assert (B1 : Rabs (i_free r - (free_energy states e0 e1 b max_alpha - free_energy states e0 e1 b 0)) <= e + max_alpha * d).
    { rewrite EF, <- RI. set (s1 := nsumf (F:=R) _ (combine w ds)) in *. set (s2 := quad alphas w f) in *.
      replace (max_alpha / 2 * s1 - RInt f 0 max_alpha) with (max_alpha / 2 * (s1 - s2) + (max_alpha / 2 * s2 - RInt f 0 max_alpha)) by ring.
      eapply Rle_trans; [apply Rabs_triang|]. rewrite Rabs_mult, (Rabs_right (max_alpha / 2)) by lra.
      assert (max_alpha / 2 * Rabs (s1 - s2) <= max_alpha / 2 * (d * 2)) by (apply Rmult_le_compat_l; [lra|exact BD]). lra. }
    assert (B2 : Rabs (i_energy r - (canonical states e0 e1 b max_alpha (energy_at e0 e1 max_alpha) - canonical states e0 e1 b 0 (energy_at e0 e1 0))) <= 2 * d).
    { rewrite EE. destruct HF0 as (_ & GE0 & _). destruct HF1 as (_ & GE1 & _). rewrite G0 in GE0. rewrite G1 in GE1.
      assert (X0 : forall a b : R, Some a = Some b -> a = b) by congruence. apply X0 in GE0. apply X0 in GE1. rewrite GE0, GE1. cbn [u_eq]. pose proof (proj2 (HSam (m_past m ++ map (fun a => mk_run (Some a) T n_eq n_steps) alphas) 0 n_eq (3 * n_steps)%nat)) as Q0.
      pose proof (proj2 (HSam (m_past m ++ map (fun a => mk_run (Some a) T n_eq n_steps) alphas ++ (mk_run (Some 0) T n_eq (3 * n_steps)) :: nil) max_alpha n_eq (3 * n_steps)%nat)) as Q1.
      cbn zeta in Q0, Q1. match type of Q1 with Rabs (?p - ?q) <= _ => match type of Q0 with Rabs (?r - ?s) <= _ => replace (p - r - (q - s)) with ((p - q) + - (r - s)) by ring end end.
      eapply Rle_trans; [apply Rabs_triang|]. rewrite Rabs_Ropp. replace (2 * d) with (d + d) by ring. apply Rplus_le_compat; [exact Q1|exact Q0]. }
    cbn zeta. split; [exact B1|]. split; [exact B2|].
    pose proof (F_energy_entropy states e0 e1 HN kb b max_alpha T Hk T0 eq_refl) as F1. pose proof (F_energy_entropy states e0 e1 HN kb b 0 T Hk T0 eq_refl) as F0.
    rewrite F1, F0 in B1.
    set (E1 := canonical states e0 e1 b max_alpha (energy_at e0 e1 max_alpha)) in *. set (E0 := canonical states e0 e1 b 0 (energy_at e0 e1 0)) in *.
    set (S1 := gibbs_entropy states e0 e1 kb b max_alpha) in *. set (S0 := gibbs_entropy states e0 e1 kb b 0) in *.
    replace (T * i_entropy r - T * (S1 - S0)) with ((i_energy r - (E1 - E0)) + - (i_free r - (E1 - T * S1 - (E0 - T * S0)))) by (rewrite ES; ring).
    eapply Rle_trans; [apply Rabs_triang|]. rewrite Rabs_Ropp. lra.
  Qed.

  (** *** Saving: the file of a run with a harmonic reference is complete (C74 says what is read from it) *)
  Definition records (g : log R) (s : sample) : Prop :=
    g_alpha g = Some (s_alpha s) /\ g_delta g = Some (s_delta s) /\ g_energy g = Some (s_energy s) /\
    exists u, g_disp g = Some u /\ s_disp s = round5 u.
  Theorem C76_saved th T n_eq n_steps n max_alpha m x w : known th -> set_up m WithFC2 -> m_fc2file m = true -> n_atom <> 0%nat ->
    p_roots n = Ok (x, w) -> length x = length w ->
    exists m' r f samples, run_ti th T n_eq n_steps n max_alpha m = Ok (m', r) /\
      save_ti n_atom volume round5 m' r = Ok f /\ complete f n_atom T volume (i_energy r) samples /\
      Forall2 records (i_logs r) samples /\ (~ vanishing T -> i_energy r = last_energy samples - first_energy samples).
  Proof.
    intros HK HSU HF HN HP L.
    destruct (C76_run th T n_eq n_steps n max_alpha m WithFC2 x w HK HSU eq_refl HP L) as (m' & r & first & mid & final & ds & -> & _ & HC & (_ & _ & _ & S4) & [v HI] & EL & Lm & HM & HF0 & HF1 & _ & _ & (c0 & c1 & G0 & G1 & EN & _) & _).
    rewrite HF in S4.
    assert (ALL : forall g, In g (i_logs r) -> exists s, records g s).
    { assert (one : forall past u a g, u_alpha u = Some a -> logged WithFC2 past u g -> exists s, records g s).
      { intros past u a g Ha (A1 & A2 & A3 & A4 & A5 & A6 & A7). cbn [has_fc2] in A6. rewrite Ha in A1.
        eexists (mk_sample _ _ _ _). unfold records. cbn [s_alpha s_delta s_energy s_disp]. split; [exact A1|]. split; [exact A4|]. split; [exact A2|]. eexists. split; [exact A6|reflexivity]. }
      rewrite EL. intros g [<-|H]; [refine (one _ _ _ _ _ HF0); reflexivity|]. apply in_app_iff in H. destruct H as [H|[<-|[]]]; [|refine (one _ _ _ _ _ HF1); reflexivity].
      apply In_nth_error in H. destruct H as [i Hi].
      assert (Hlt : (i < length (map (fun t : R => (max_alpha / 2 * (t + 1))%R) x))%nat) by (rewrite map_length, <- Lm; apply nth_error_Some; congruence).
      destruct (nth_error (map (fun t => max_alpha / 2 * (t + 1)) x) i) as [a|] eqn:Ea; [|apply nth_error_None in Ea; lia].
      destruct (HM i a Ea) as (g' & Hg & Lg). assert (g' = g) as -> by congruence. refine (one _ _ _ _ _ Lg); reflexivity. }
    assert (SM : exists samples, Forall2 records (i_logs r) samples /\ mapM (save_entry round5) (i_logs r) = Ok (map written samples)).
    { clear - ALL. induction (i_logs r) as [|g t IH]; [exists []; split; [constructor|reflexivity]|].
      destruct (ALL g (or_introl eq_refl)) as [s Hs]. destruct IH as (ss & A & B); [intros; apply ALL; now right|].
      exists (s :: ss). split; [now constructor|]. cbn [mapM]. unfold save_entry at 1. destruct Hs as (H1 & H2 & H3 & u & H4 & H5).
      rewrite H4. cbn [TIRun.number bind]. rewrite B. cbn [bind map]. unfold written at 2. now rewrite <- H1, <- H2, <- H3, H5. }
    destruct SM as (samples & FS & ES). exists m', r. eexists. exists samples. split; [reflexivity|].
    destruct HF1 as (_ & GE1 & _ & _ & GP1 & _ & GP). destruct HF0 as (_ & GE0 & _).
    split.
    { unfold save_ti. rewrite HI, S4, HC. cbn [negb]. rewrite EL at 1.
      assert (LI : last_item (first :: mid ++ final :: nil) = Ok final).
      { unfold last_item. replace (length (first :: mid ++ final :: nil) - 1)%nat with (length (first :: mid)) by (cbn [length]; rewrite app_length; cbn; lia).
        unfold get. change (first :: mid ++ final :: nil) with ((first :: mid) ++ final :: nil). rewrite nth_error_app2, Nat.sub_diag by lia. reflexivity. }
      rewrite LI. cbn [bind]. rewrite GP, GP1. cbn [TIRun.number bind]. rewrite ES. cbn [bind]. reflexivity. }
    split.
    { constructor; cbn [y_natom y_temp y_volume y_props y_sampling]; auto.
      - intros ->. inversion FS. rewrite EL in *. discriminate.
      - exists None, (Some (i_energy r)). split; [reflexivity|]. split; [right; split; reflexivity|left; reflexivity]. }
    split; [exact FS|]. intros HT. destruct (EN HT) as [-> _].
    rewrite EL in FS. inversion FS as [|g1 s1 l1 ss R1 FS']; subst. apply Forall2_app_inv_l in FS'. destruct FS' as (ms & fs & FM & FF & ->).
    inversion FF as [|g2 s2 l2 ss2 R2 FN]; subst. inversion FN; subst.
    unfold last_energy, first_energy. destruct R1 as (_ & _ & R1 & _). destruct R2 as (_ & _ & R2 & _).
    assert (EL2 : last (map s_energy (s1 :: ms ++ s2 :: nil)) 0 = s_energy s2).
    { change (s1 :: ms ++ s2 :: nil) with ((s1 :: ms) ++ s2 :: nil). rewrite map_app. cbn [map]. apply last_last. }
    rewrite EL2. congruence.
  Qed.
  (** With other reference states a run can be made but not saved. *)
  Theorem C76_not_saved m r k a T v : m_calc m = Some (k, a) -> m_integrator m = Some (T, v) ->
    (m_fc2file m = false -> save_ti n_atom volume round5 m r = Err TypeError) /\
    (m_fc2file m = true -> k = WithGeneral -> save_ti n_atom volume round5 m r = Err AttributeError) /\
    (m_fc2file m = true -> k = WithRef -> i_logs r <> [] -> (forall g, In g (i_logs r) -> g_disp g = None) -> save_ti n_atom volume round5 m r = Err TypeError).
  Proof.
    intros HC HI. unfold save_ti. rewrite HI, HC. split; [intros ->; reflexivity|]. split; [intros -> ->; reflexivity|].
    intros -> -> HN HD. cbn [negb]. unfold last_item, get. destruct (nth_error (i_logs r) (length (i_logs r) - 1)) as [g|] eqn:E.
    - cbn [bind]. destruct (g_perturb g); [|reflexivity]. cbn [TIRun.number bind]. destruct (g_perturb1 g); [|reflexivity]. cbn [TIRun.number bind].
      destruct (i_logs r) as [|g0 t]; [congruence|]. cbn [mapM]. unfold save_entry at 1. rewrite (HD g0 (or_introl eq_refl)). reflexivity.
    - apply nth_error_None in E. destruct (i_logs r); [congruence|]. cbn in E. lia.
  Qed.

  (** *** Refusals, and what is not refused *)
  Theorem C76_check (m : md R) : (check_md m = Ok tt <-> m_calc m <> None /\ m_unitcell m = true /\ m_use_reference m = true) /\
    (check_md m <> Ok tt -> check_md m = Err RuntimeError).
  Proof.
    unfold check_md. destruct (m_calc m), (m_unitcell m), (m_use_reference m); cbn; (split; [split; [try discriminate; intuition congruence|intuition congruence]|congruence]).
  Qed.
  (** Without a calculator no run is made; without as many values as weights there is no integral. *)
  Theorem C76_no_calculator th T n_eq n_steps m : known th -> m_calc m = None -> run_md_nvt simulate exp ln kb evj av n_atom th T n_eq n_steps m = Err RuntimeError.
  Proof. intros HK HC. unfold run_md_nvt. rewrite (known_true th HK), HC. now destruct (m_supercell m). Qed.
  Theorem C76_weights w y (a b : R) : length w <> length y -> calc_integral w y a b = Err ValueError.
  Proof. intros H. unfold calc_integral. apply Nat.eqb_neq in H. now rewrite H. Qed.
  (** Without a supercell no run is made. *)
  Theorem C76_no_supercell th T n_eq n_steps n max_alpha m k a x t w : known th -> m_calc m = Some (k, a) -> m_supercell m = false ->
    p_roots n = Ok (x :: t, w) -> run_ti th T n_eq n_steps n max_alpha m = Err RuntimeError.
  Proof.
    intros HK HC HS HP. unfold TIRun.run_ti, get_p_roots. rewrite HP. cbn [bind map run_all]. unfold run_at, set_alpha. rewrite HC. cbn [bind].
    unfold run_md_nvt. rewrite (known_true th HK). cbn [with_calc m_supercell]. rewrite HS. reflexivity.
  Qed.
  (** A calculator set without reference after one with is not noticed by the check; the integration fails when the
      averages are combined - after all its runs. *)
  Theorem C76_sticky_reference th T n_eq n_steps n max_alpha m x t w : known th -> m_supercell m = true -> m_unitcell m = true -> m_use_reference m = true ->
    p_roots n = Ok (x :: t, w) ->
    check_md (set_plain m) = Ok tt /\ run_ti th T n_eq n_steps n max_alpha (set_plain m) = Err TypeError.
  Proof.
    intros HK HS HU HR HP. split; [unfold check_md, set_plain; cbn; now rewrite HU, HR|].
    unfold TIRun.run_ti, get_p_roots. rewrite HP. cbn [bind map]. set (a0 := nadd _ _). set (al := map _ t). clearbody a0 al.
    assert (A : forall l m, (exists a, m_calc m = Some (Plain, a)) -> m_supercell m = true ->
       exists m' gs, run_all simulate exp ln kb evj av n_atom th T n_eq n_steps m l = Ok (m', gs) /\ length gs = length l /\ forall g, In g gs -> g_delta g = None).
    { induction l as [|b l IH]; intros m0 [a HC] HS0; [exists m0, []; repeat split; intros g []|].
      cbn [run_all]. unfold run_at, set_alpha. rewrite HC. cbn [bind]. unfold run_md_nvt. rewrite (known_true th HK). cbn [with_calc m_supercell m_calc]. rewrite HS0. cbn [negb bind].
      set (m1 := mk_md _ _ _ _ _ _ _).
      destruct (IH m1) as (m' & gs & -> & Len & K); [exists (Some b); reflexivity|reflexivity|]. cbn [bind].
      do 2 eexists. split; [reflexivity|]. split; [cbn; now rewrite Len|]. intros g [<-|Hg]; [reflexivity|now apply K]. }
    destruct (A (a0 :: al) (set_plain m)) as (m' & gs & -> & Len & K); [exists None; reflexivity|exact HS|]. cbn [bind].
    destruct gs as [|g gs]; [discriminate|]. cbn [mapM]. rewrite (K g (or_introl eq_refl)). reflexivity.
  Qed.
  (** An unknown thermostat is not refused: nothing is run, and the averages of the last run are integrated as if they were
      those at every mixing parameter; without a last run the combination fails. *)
  Theorem C76_unknown_thermostat th T n_eq n_steps n max_alpha m k a x t w : ~ known th -> m_calc m = Some (k, a) ->
    p_roots n = Ok (x :: t, w) -> length (x :: t) = length w ->
    (m_integrator m = None -> run_ti th T n_eq n_steps n max_alpha m = Err TypeError) /\
    (forall T0 v d e, m_integrator m = Some (T0, v) -> v_delta_10 v = Some d -> v_energy v = Some e ->
       exists m' r, run_ti th T n_eq n_steps n max_alpha m = Ok (m', r) /\ m_past m' = m_past m /\
         i_free r = max_alpha / 2 * (d * nsumf (F:=R) (fun y => y) w) /\ i_energy r = 0 /\ (forall g, In g (i_logs r) -> g_delta g = Some d)).
  Proof.
    intros HK HC HP HL.
    assert (KF : (String.eqb th "Nose-Hoover" || String.eqb th "Langevin")%bool = false).
    { apply Bool.orb_false_iff. split; apply String.eqb_neq; tauto. }
    assert (R1 : forall c m a0 b, m_calc m = Some (k, a0) -> run_at simulate exp ln kb evj av n_atom th T n_eq n_steps c m b = Ok (with_calc m (Some (k, Some b)), get_log (with_calc m (Some (k, Some b))))).
    { intros c m0 a0 b H. unfold run_at, set_alpha. rewrite H. cbn [bind]. unfold run_md_nvt. rewrite KF. reflexivity. }
    assert (A : forall l m, (exists a, m_calc m = Some (k, a)) ->
       exists m' gs a', run_all simulate exp ln kb evj av n_atom th T n_eq n_steps m l = Ok (m', gs) /\ length gs = length l /\ m_calc m' = Some (k, a') /\
         m_integrator m' = m_integrator m /\ m_past m' = m_past m /\
         forall g, In g gs -> g_delta g = match m_integrator m with Some (_, v) => v_delta_10 v | None => None end).
    { induction l as [|b l IH]; intros m0 [a0 H0]; [exists m0, [], a0; repeat split; auto; intros g []|].
      cbn [run_all]. rewrite (R1 1%nat m0 a0 b H0). cbn [bind].
      destruct (IH (with_calc m0 (Some (k, Some b)))) as (m' & gs & a' & -> & Len & C & I & P & K); [exists (Some b); reflexivity|]. cbn [bind].
      do 3 eexists. split; [reflexivity|]. split; [cbn; now rewrite Len|]. split; [exact C|]. split; [exact I|]. split; [exact P|].
      intros g [<-|Hg]; [reflexivity|now apply K]. }
    unfold TIRun.run_ti, get_p_roots. rewrite HP. cbn [bind]. set (al := map _ (x :: t)).
    assert (Lal : length al = length w) by (unfold al; rewrite map_length; exact HL). assert (HNal : al <> []) by (unfold al; discriminate). clearbody al.
    destruct (A al m (ex_intro _ a HC)) as (m1 & gs & a1 & -> & Len & C1 & I1 & P1 & K). cbn [bind].
    split.
    - intros HI. rewrite HI in K. destruct gs as [|g gs]; [destruct al; [congruence|discriminate]|]. cbn [mapM]. rewrite (K g (or_introl eq_refl)). reflexivity.
    - intros T0 v d e HI Hd He. rewrite HI in K, I1. rewrite Hd in K.
      destruct (deltas_ok gs) as (ds & -> & Eds); [intros g Hg; exists d; now apply K|]. cbn [bind].
      assert (Lds : length w = length ds).
      { apply (f_equal (length (A:=option R))) in Eds. rewrite !map_length in Eds. congruence. }
      assert (Dd : forall y, In y ds -> y = d).
      { intros y Hy. apply (in_map Some) in Hy. rewrite <- Eds in Hy. apply in_map_iff in Hy. destruct Hy as (g & Eg & Hg). rewrite (K g Hg) in Eg. congruence. }
      cbn [n0 R_num]. rewrite calc_integral_sum by exact Lds. cbn [bind].
      rewrite (R1 3%nat m1 a1 0 C1). cbn [bind]. rewrite (R1 3%nat (with_calc m1 (Some (k, Some 0))) (Some 0) max_alpha eq_refl). cbn [bind].
      assert (SUM : nsumf (F:=R) (fun q => fst q * snd q) (combine w ds) = d * nsumf (F:=R) (fun y => y) w).
      { clear - Lds Dd. revert ds Lds Dd. induction w as [|v w IH]; intros [|y ds] Lds Dd; try discriminate; [rewrite !nsumf_nil; cbn; ring|].
        cbn [combine]. rewrite !nsumf_cons. cbn [fst snd nadd R_num]. rewrite (IH ds) by (try (now injection Lds); intros; apply Dd; now right).
        rewrite (Dd y (or_introl eq_refl)). ring. }
      assert (GL : forall b c, g_energy (get_log (with_calc (with_calc m1 b) c)) = Some e /\ g_delta (get_log (with_calc (with_calc m1 b) c)) = Some d /\ g_energy (get_log (with_calc m1 b)) = Some e /\ g_delta (get_log (with_calc m1 b)) = Some d).
      { intros b c. unfold get_log, with_calc. cbn. rewrite I1. cbn. auto. }
      destruct (GL (Some (k, Some 0)) (Some (k, Some max_alpha))) as (E1 & D1 & E2 & D2). rewrite E1, E2. cbn [TIRun.number bind].
      assert (EN : exists en s, (if is_zero (F:=R) T then Ok (0, 0) else Ok (nsub e e, ndiv (nsub (nsub e e) (/ 2 * (max_alpha - 0) * nsumf (F:=R) (fun q => fst q * snd q) (combine w ds))) T)) = Ok (en, s) /\ en = 0).
      { destruct (is_zero (F:=R) T); do 2 eexists; (split; [reflexivity|]); cbn; ring. }
      destruct EN as (en & s & -> & EN). cbn [bind]. do 2 eexists. split; [reflexivity|]. cbn [i_free i_energy i_logs m_past with_calc].
      split; [exact P1|]. split; [rewrite SUM; field|]. split; [exact EN|]. intros g [<-|Hg]; [exact D2|]. apply in_app_iff in Hg. destruct Hg as [Hg|[<-|[]]]; [now apply K|exact D1].
  Qed.
  (** A mixing parameter outside [0,1] is accepted. *)
  Theorem C76_alpha_refuted : ~ forall m (a : R), (a < 0 \/ 1 < a) -> m_calc m <> None -> exists e, set_alpha a m = Err e.
  Proof.
    intros H. destruct (H (mk_md (Some (WithFC2, Some 0)) true true true true None []) 2) as [e E]; [right; lra|discriminate|]. discriminate.
  Qed.
End C76.
Print Assumptions C76_run.
Print Assumptions C76_free_energy.
Print Assumptions C76_saved.
Print Assumptions C76_not_saved.
Print Assumptions C76_check.
Print Assumptions C76_no_supercell.
Print Assumptions C76_sticky_reference.
Print Assumptions C76_unknown_thermostat.
Print Assumptions C76_alpha_refuted.

(** ** References: a path is returned exactly if there is a best reference and the target temperature is not below its
    temperature; otherwise RuntimeError. *)
Theorem C76_reference (l : list (reference R)) target :
  (forall r, best_reference l r -> find_reference l target =
     (if Rlt_dec (target + 1 / 10 ^ 8) (if Rle_dec (Rabs (f_temp r)) (1 / 10 ^ 8) then 0 else f_temp r) then Err RuntimeError else Ok (f_path r))) /\
  ((forall r, ~ best_reference l r) -> find_reference l target = Err RuntimeError) /\
  (forall r, In r l -> usable r -> f_temp r < 10 ^ 10 -> exists s, best_reference l s).
Proof.
  assert (V : forall x, vanishing x <-> Rabs x <= 1 / 10 ^ 8) by reflexivity.
  assert (NV : forall x, ~ vanishing x <-> 1 / 10 ^ 8 < Rabs x) by (intros x; unfold vanishing; lra).
  assert (LT : forall t y, nltb (nadd t (dec (F:=R) 1 8)) y = (if Rlt_dec (t + 1 / 10 ^ 8) y then true else false)).
  { intros t y. cbn [nltb R_ord nadd R_num]. rewrite dec_R. replace (INR 1) with 1 by reflexivity. destruct (Rlt_dec _ _) as [H|H]; [apply Rltb_true, H|apply Rltb_false; lra]. }
  assert (UN : forall l1 l2 l1' l2' (r r' : reference R), l1 ++ r :: l2 = l1' ++ r' :: l2' -> (exists p, l1' = l1 ++ r :: p) \/ (exists p, l1 = l1' ++ r' :: p) \/ l1 = l1' /\ r = r').
  { clear. induction l1 as [|a l1 IH]; intros l2 [|a' l1'] l2' r r' E; cbn in E; injection E as E1 E2; subst.
    - right. right. auto.
    - left. exists l1'. reflexivity.
    - right. left. exists l1. reflexivity.
    - destruct (IH _ _ _ _ _ E2) as [[p ->]|[[p ->]|[-> ->]]]; [left; now exists p|right; left; now exists p|right; right; auto]. }
  assert (P10 : pow10 (F:=R) 10 = 10 ^ 10) by apply pow10_R.
  unfold find_reference. rewrite P10.
  destruct (scan_spec l None (10 ^ 10)) as [(r & l1 & l2 & E & Ur & Vr & H1 & ->)|[HZ [(r & l1 & l2 & E & Ur & Lr & H1 & H2 & ->)|[HM ->]]]].
  - assert (BR : best_reference l r).
    { exists l1, l2. split; [exact E|]. split; [exact Ur|]. left. split; [apply V, Vr|]. intros s Hs Us. now apply NV, H1. }
    split; [|split; [intros H; now destruct (H r)|intros; now exists r]].
    intros s (m1 & m2 & E' & Us & HB). cbn [n0 R_num]. rewrite LT.
    assert (s = r).
    { rewrite E' in E. destruct (UN _ _ _ _ _ _ E) as [[p Ep]|[[p Ep]|[_ Ers]]]; [| |exact Ers].
      - destruct HB as [[Vs _]|[A _]]; exfalso.
        + apply (H1 s); [rewrite Ep; apply in_elt|exact Us|]. now apply V.
        + assert (X := A r ltac:(rewrite E', E; apply in_elt) Ur). apply NV in X. contradiction.
      - destruct HB as [[Vs A]|[A _]]; exfalso.
        + assert (X := A r ltac:(rewrite Ep; apply in_elt) Ur). apply NV in X. contradiction.
        + assert (X := A r ltac:(rewrite E', E; apply in_elt) Ur). apply NV in X. contradiction. }
    subst s. apply V in Vr. destruct (Rle_dec (Rabs (f_temp r)) (1 / 10 ^ 8)); [|contradiction]. destruct (Rlt_dec _ _); reflexivity.
  - assert (BR : best_reference l r).
    { exists l1, l2. split; [exact E|]. split; [exact Ur|]. right. split; [intros s Hs Us; now apply NV, HZ|]. repeat split; auto. }
    split; [|split; [intros H; now destruct (H r)|intros; now exists r]].
    intros s (m1 & m2 & E' & Us & HB). rewrite LT.
    assert (s = r).
    { rewrite E' in E. destruct HB as [[Vs _]|(_ & _ & A1 & A2)].
      { exfalso. apply (HZ s); [rewrite E'; apply in_elt|exact Us|now apply V]. }
      destruct (UN _ _ _ _ _ _ E) as [[p Ep]|[[p Ep]|[_ Ers]]]; [| |exact Ers]; exfalso.
      - assert (X : f_temp r < f_temp s) by (apply H1; [rewrite Ep; apply in_elt|exact Us]).
        assert (Y : f_temp s <= f_temp r). { apply A2; [|exact Ur]. subst l1. rewrite <- app_assoc in E. apply app_inv_head in E. injection E as ->. apply in_elt. } lra.
      - assert (X : f_temp s < f_temp r) by (apply A1; [rewrite Ep; apply in_elt|exact Ur]).
        assert (Y : f_temp r <= f_temp s). { apply H2; [|exact Us]. subst m1. rewrite <- app_assoc in E. apply app_inv_head in E. injection E as <-. apply in_elt. } lra. }
    subst s. assert (NVr : ~ vanishing (f_temp r)) by (apply HZ; [rewrite E; apply in_elt|exact Ur]). apply NV in NVr.
    destruct (Rle_dec (Rabs (f_temp r)) (1 / 10 ^ 8)); [lra|]. destruct (Rlt_dec _ _); reflexivity.
  - assert (NB : forall r, ~ best_reference l r).
    { intros r (m1 & m2 & E & Ur & [[Vr _]|(_ & A & _)]).
      - apply (HZ r); [rewrite E; apply in_elt|exact Ur|now apply V].
      - assert (X := HM r ltac:(rewrite E; apply in_elt) Ur). lra. }
    split; [intros r H; now destruct (NB r)|]. split; [reflexivity|]. intros r Hr Ur Lr. specialize (HM r Hr Ur). lra.
Qed.
Print Assumptions C76_reference.

(** The rule with two points *)
Definition root3 : R := sqrt (1 / 3).
Lemma cubic_integral c0 c1 c2 c3 : RInt (polynomial (c0 :: c1 :: c2 :: c3 :: nil)) (-1) 1 = 2 * c0 + 2 / 3 * c2.
Proof.
  apply (is_RInt_unique (V:=R_CompleteNormedModule)).
  replace (2 * c0 + 2 / 3 * c2) with (minus ((fun x => c0 * x + c1 * x ^ 2 / 2 + c2 * x ^ 3 / 3 + c3 * x ^ 4 / 4) 1) ((fun x => c0 * x + c1 * x ^ 2 / 2 + c2 * x ^ 3 / 3 + c3 * x ^ 4 / 4) (-1)))
    by (unfold minus, plus, opp; cbn; field).
  apply (is_RInt_derive (V:=R_CompleteNormedModule) (fun x => c0 * x + c1 * x ^ 2 / 2 + c2 * x ^ 3 / 3 + c3 * x ^ 4 / 4)); intros x _.
  - cbn [polynomial]. auto_derive; [exact I|]. field.
  - apply (ex_derive_continuous (V:=R_NormedModule)), poly_derive.
Qed.
Example C76_rule : exact_rule 3 (- root3 :: root3 :: nil) (1 :: 1 :: nil) (-1) 1.
Proof.
  split; [reflexivity|]. intros p Hp.
  assert (S : root3 * root3 = 1 / 3) by (apply sqrt_sqrt; lra).
  assert (P : exists c0 c1 c2 c3, forall x, polynomial p x = polynomial (c0 :: c1 :: c2 :: c3 :: nil) x).
  { destruct p as [|a [|b [|c [|d [|e p]]]]]; [exists 0, 0, 0, 0|exists a, 0, 0, 0|exists a, b, 0, 0|exists a, b, c, 0|exists a, b, c, d|cbn in Hp; lia]; intros x; cbn; ring. }
  destruct P as (c0 & c1 & c2 & c3 & P). rewrite (quad_ext _ _ _ _ P).
  rewrite (RInt_ext _ (polynomial (c0 :: c1 :: c2 :: c3 :: nil))) by (intros x _; apply P). etransitivity; [|symmetry; apply cubic_integral].
  unfold quad. cbn [combine]. rewrite !nsumf_cons, nsumf_nil. cbn [fst snd polynomial nadd n0 R_num].
  replace (1 * (c0 + - root3 * (c1 + - root3 * (c2 + - root3 * (c3 + - root3 * 0)))) + (1 * (c0 + root3 * (c1 + root3 * (c2 + root3 * (c3 + root3 * 0)))) + 0))
    with (2 * c0 + 2 * c2 * (root3 * root3)) by ring. rewrite S. field.
Qed.
(** A system of two states with levels 0 and 1, raised by 2 in the final state, sampled without error; one point. *)
Definition lower (s : bool) : R := if s then 1 else 0.
Definition upper (s : bool) : R := lower s + 2.
Definition two_states : list bool := true :: false :: nil.
Definition sampler (kb : R) (_ : kind) (_ : list (run R)) (u : run R) : trajectory R :=
  let a := match u_alpha u with Some a => a | None => 0 end in
  let const := fun v : R => repeat v (u_eq u + 1) in
  mk_traj (const (canonical two_states lower upper (1 / (kb * u_temp u)) a (energy_at lower upper a))) (const 0) (const 0) (const 2) (const 0).
Definition middle (_ : nat) : res (list R * list R) := Ok (0 :: nil, 2 :: nil).
Lemma shifted_average b a : canonical two_states lower upper b a (fun s => upper s - lower s) = 2.
Proof.
  unfold canonical. rewrite (nsumf_ext' (F:=R) _ (fun s => 2 * boltzmann lower upper b a s)) by (intros s; unfold upper; ring).
  rewrite nsumf_mult. fold (partition two_states lower upper b a). field. pose proof (Z_pos two_states lower upper ltac:(discriminate) b a). lra.
Qed.
Lemma sampler_exact kb k T : sampled (sampler kb) two_states lower upper k T (1 / (kb * T)) 0.
Proof.
  assert (M : forall n v, mean (production n (repeat v (n + 1))) = v).
  { intros n v. unfold production. assert (E : skipn n (repeat v (n + 1)) = v :: nil) by (induction n as [|n IH]; [reflexivity|exact IH]).
    rewrite E. unfold mean. rewrite nsumf_cons, nsumf_nil. cbn. field. }
  intros past a n_eq n. cbn zeta. unfold sampler. cbn [tr_10 tr_energies u_alpha u_eq u_temp]. rewrite !M, shifted_average.
  replace (2 - 2) with 0 by ring. rewrite Rminus_diag_eq by reflexivity. rewrite Rabs_R0. lra.
Qed.
Example C76_example : let m := mk_md (Some (WithFC2, None)) true true true true None (nil : list (run R)) in
  exists m' r, TIRun.run_ti middle (sampler (1 / 1000)) exp ln (1 / 1000) 1 1 4 "Langevin" 300 10 100 1 1 m = Ok (m', r) /\
    i_free r = 2 /\ i_energy r = 2 + 300 * i_entropy r /\ length (i_logs r) = 3%nat /\ length (m_past m') = 3%nat /\
    i_free r = free_energy two_states lower upper (1 / (1 / 1000 * 300)) 1 - free_energy two_states lower upper (1 / (1 / 1000 * 300)) 0.
Proof.
  cbn zeta. set (m := mk_md _ _ _ _ _ _ _).
  assert (HT : ~ vanishing 300) by (unfold vanishing; rewrite Rabs_right; lra).
  assert (SU : (exists x, m_calc m = Some (WithFC2, x)) /\ m_supercell m = true) by (split; [exists None|]; reflexivity).
  destruct (C76_free_energy (sampler (1 / 1000)) (1 / 1000) 1 1 4 middle two_states lower upper "Langevin" 300 10 100 1 1 m WithFC2 (0 :: nil) (2 :: nil) 0 0) as (m' & r & E & B1 & _ & _);
    try assumption; try reflexivity; try lra; try discriminate; try (left; reflexivity).
  { intros y [<-|[]]; lra. }
  { rewrite nsumf_cons, nsumf_nil. cbn. ring. }
  { apply sampler_exact. }
  { rewrite (RInt_ext _ (fun _ => 2)) by (intros; apply shifted_average). rewrite RInt_const.
    unfold quad. cbn [map combine]. rewrite nsumf_cons, nsumf_nil. cbn [fst snd nadd n0 R_num]. rewrite shifted_average.
    unfold scal. cbn. unfold mult. cbn. rewrite Rminus_diag_eq by field. rewrite Rabs_R0. lra. }
  exists m', r.
  destruct (C76_run (sampler (1 / 1000)) (1 / 1000) 1 1 4 middle "Langevin" 300 10 100 1 1 m WithFC2 (0 :: nil) (2 :: nil) (or_introl eq_refl) SU eq_refl eq_refl eq_refl)
    as (m2 & r2 & first & mid & final & ds & E2 & HPa & _ & _ & _ & EL & Lm & HM & _ & _ & Eds & EF & (c0 & c1 & _ & _ & EN & _) & _).
  assert (X : (m2, r2) = (m', r)) by congruence. injection X as -> ->. split; [exact E|].
  destruct (HM 0%nat _ eq_refl) as (g & Hg & _ & _ & _ & Gd & _).
  destruct mid as [|g0 [|g1 mid]]; try discriminate. injection Hg as ->. cbn [map] in Eds.
  assert (D2 : g_delta g = Some 2).
  { rewrite Gd. f_equal. unfold sampler. cbn [u_eq tr_10]. unfold mean, production. cbn [Nat.add repeat skipn]. rewrite nsumf_cons, nsumf_nil. cbn. field. }
  rewrite D2 in Eds. destruct ds as [|d [|d' ds]]; try discriminate. injection Eds as <-.
  assert (F2 : i_free r = 2) by (rewrite EF; cbn [combine]; rewrite nsumf_cons, nsumf_nil; cbn; field).
  split; [exact F2|]. destruct (EN HT) as [_ EN']. split; [lra|]. split; [rewrite EL; reflexivity|]. split; [rewrite HPa; reflexivity|].
  assert (Z : Rabs (i_free r - (free_energy two_states lower upper (1 / (1 / 1000 * 300)) 1 - free_energy two_states lower upper (1 / (1 / 1000 * 300)) 0)) <= 0) by (eapply Rle_trans; [exact B1|lra]).
  match type of Z with Rabs ?y <= 0 => assert (y = 0) end; [|lra]. apply Rabs_eq_0. pose proof (Rabs_pos (i_free r - (free_energy two_states lower upper (1 / (1 / 1000 * 300)) 1 - free_energy two_states lower upper (1 / (1 / 1000 * 300)) 0))). lra.
Qed.
(** Of three references the one at 200 K is taken: the one at 100 K has imaginary frequencies. *)
Example C76_reference_example : let l := mk_reference "t100" true true 100 :: mk_reference "t200" true false 200 :: mk_reference "t300" true false 300 :: nil in
  find_reference l 250 = Ok ("t200" : String.string) /\ find_reference l 150 = Err RuntimeError.
Proof.
  cbn zeta. set (l := _ :: _).
  assert (B : best_reference l (mk_reference "t200" true false 200)).
  { exists (mk_reference "t100" true true 100 :: nil), (mk_reference "t300" true false 300 :: nil). split; [reflexivity|]. split; [split; reflexivity|]. right.
    assert (NU : ~ usable (mk_reference "t100" true true 100)) by (intros [_ X]; discriminate).
    split; [|split; [cbn; lra|split]].
    - intros s [<-|[<-|[<-|[]]]] U; [contradiction| |]; cbn; rewrite Rabs_right; lra.
    - intros s [<-|[]] U. contradiction.
    - intros s [<-|[]] U. cbn. lra. }
  split; (rewrite (proj1 (C76_reference l _) _ B); cbn [f_temp f_path]; rewrite Rabs_right by lra; destruct (Rle_dec _ _); [lra|]; destruct (Rlt_dec _ _); [|try reflexivity; lra]); try lra; reflexivity.
Qed.
