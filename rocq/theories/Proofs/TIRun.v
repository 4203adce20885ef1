From Verif Require Import Base Num NumR Model.MD Model.TI Model.TIRun Spec.MD Spec.TI Spec.TIRun Proofs.MD Proofs.TI Proofs.Readers.
From Coq Require Import Reals Lra.
From Coq Require String.
Import String.StringSyntax.
From Coquelicot Require Import Coquelicot.
Local Open Scope R_scope.

(** ** Quadrature *)
Lemma half_R : half (F:=R) = / 2.
Proof. unfold half. rewrite nnat_INR. cbn. lra. Qed.
Lemma poly_derive p x : ex_derive (polynomial p) x.
Proof. induction p as [|c p IH]; cbn; [auto_derive; exact I|]. auto_derive. exact IH. Qed.
Lemma poly_integrable p a b : ex_RInt (polynomial p) a b.
Proof. apply (ex_RInt_continuous (V:=R_CompleteNormedModule)). intros z _. apply (ex_derive_continuous (V:=R_NormedModule)), poly_derive. Qed.
Fixpoint padd (p q : list R) : list R := match p, q with [], _ => q | _, [] => p | a :: p, b :: q => (a + b) :: padd p q end.
Lemma padd_poly p : forall q x, polynomial (padd p q) x = polynomial p x + polynomial q x.
Proof. induction p as [|a p IH]; intros [|b q] x; cbn; try ring. rewrite IH. ring. Qed.
Lemma padd_length p : forall q, length (padd p q) = Nat.max (length p) (length q).
Proof. induction p as [|a p IH]; intros [|b q]; cbn; try reflexivity. now rewrite IH. Qed.
Lemma pscale_poly c p x : polynomial (map (Rmult c) p) x = c * polynomial p x.
Proof. induction p as [|a p IH]; cbn; [ring|]. rewrite IH. ring. Qed.
(** Polynomials of an affine function *)
Fixpoint affine (u v : R) (p : list R) : list R :=
  match p with [] => [] | c :: p => let q := affine u v p in padd (c :: map (Rmult u) q) (map (Rmult v) q) end.
Lemma affine_poly u v p x : polynomial (affine u v p) x = polynomial p (u * x + v).
Proof. induction p as [|c p IH]; cbn [affine]; [reflexivity|]. rewrite padd_poly. cbn [polynomial]. rewrite !pscale_poly, IH. ring. Qed.
Lemma affine_length u v p : length (affine u v p) = length p.
Proof. induction p as [|c p IH]; cbn [affine]; [reflexivity|]. rewrite padd_length. cbn [length]. rewrite !map_length, IH. lia. Qed.
Lemma quad_map (g : R -> R) x w f : quad (map g x) w f = quad x w (fun t => f (g t)).
Proof.
  unfold quad. revert w. induction x as [|a x IH]; intros [|b w]; try reflexivity. cbn [map combine]. rewrite !nsumf_cons. cbn [fst snd]. now rewrite IH.
Qed.
Lemma quad_ext x w f g : (forall t, f t = g t) -> quad x w f = quad x w g.
Proof. intros H. unfold quad. apply nsumf_ext. intros q. now rewrite H. Qed.
(** Points and weights moved to [a,b] *)
Lemma quad_moved x w a b f : ex_RInt f a b ->
  quad x w (fun t => f (/ 2 * (b - a) * t + / 2 * (a + b))) = RInt (fun t => f (/ 2 * (b - a) * t + / 2 * (a + b))) (-1) 1 ->
  / 2 * (b - a) * quad (map (fun t => / 2 * (b - a) * t + / 2 * (a + b)) x) w f = RInt f a b.
Proof.
  intros HI HQ. rewrite quad_map, HQ. set (u := / 2 * (b - a)). set (v := / 2 * (a + b)).
  assert (Ea : u * (-1) + v = a) by (unfold u, v; field). assert (Eb : u * 1 + v = b) by (unfold u, v; field).
  assert (HI' : ex_RInt f (u * (-1) + v) (u * 1 + v)) by (now rewrite Ea, Eb).
  pose proof (RInt_comp_lin f u v (-1) 1 HI') as C. rewrite Ea, Eb in C. rewrite <- C.
  destruct (Req_dec u 0) as [Z|NZ].
  - rewrite Z, Rmult_0_l. rewrite (RInt_ext _ (fun _ => 0)); [|intros t _; unfold scal; cbn; unfold mult; cbn; ring].
    rewrite RInt_const. unfold scal. cbn. unfold mult. cbn. ring.
  - symmetry. apply (RInt_scal (V:=R_CompleteNormedModule) (fun t => f (u * t + v)) (-1) 1 u).
    pose proof (ex_RInt_comp_lin f u v (-1) 1 HI') as X. apply (ex_RInt_scal _ _ _ (/ u)) in X.
    eapply ex_RInt_ext; [|exact X]. intros t _. unfold scal. cbn. unfold mult. cbn. field. exact NZ.
Qed.
Lemma calc_integral_quad w x f a b : length x = length w ->
  calc_integral w (map f x) a b = Ok (/ 2 * (b - a) * quad x w f).
Proof.
  intros L. unfold calc_integral. rewrite map_length, L, Nat.eqb_refl. f_equal. rewrite half_R. cbn [nmul nsub R_num].
  unfold quad. rewrite <- nsumf_mult. revert w L. induction x as [|a' x IH]; intros [|b' w] L; try discriminate; [reflexivity|].
  cbn [map combine]. rewrite nsumf_cons. injection L as L. specialize (IH w L).
  change (nsum (?c :: ?l)) with (nadd c (nsum l)). cbn [fst snd nadd R_num].
  match goal with |- ?c + ?r = _ => replace r with (nsumf (F:=R) (fun x0 : R * R => / 2 * (b - a) * (snd x0 * f (fst x0))) (combine x w)) by (symmetry; exact IH) end. ring.
Qed.
(** From values rather than a function *)
Lemma calc_integral_sum w y a b : length w = length y ->
  calc_integral w y a b = Ok (/ 2 * (b - a) * nsumf (F:=R) (fun q => fst q * snd q) (combine w y)).
Proof.
  intros L. unfold calc_integral. rewrite L, Nat.eqb_refl. f_equal. rewrite half_R. cbn [nmul nsub R_num].
  rewrite <- nsumf_mult. unfold nsumf. f_equal. apply map_ext. intros. ring.
Qed.

(** ** Statistical mechanics *)
Section Canonical.
  Context {X : Type}.
  Variables (states : list X) (e0 e1 : X -> R).
  Hypothesis some : states <> [].
  Notation E := (energy_at e0 e1).
  Notation Z := (partition states e0 e1).
  Notation av := (canonical states e0 e1).
  Notation Fr := (free_energy states e0 e1).
  Lemma nsumf_derive (f : X -> R -> R) (g : X -> R) (l : list X) a : (forall s, is_derive (f s) a (g s)) ->
    is_derive (fun x => nsumf (F:=R) (fun s => f s x) l) a (nsumf (F:=R) g l).
  Proof.
    intros H. induction l as [|s l IH].
    - apply is_derive_ext with (f := fun _ : R => 0); [reflexivity|]. rewrite nsumf_nil. cbn [n0 R_num]. auto_derive; [exact I|reflexivity].
    - rewrite nsumf_cons. apply is_derive_ext with (f := fun x => f s x + nsumf (F:=R) (fun s => f s x) l).
      + intros t. rewrite nsumf_cons. reflexivity.
      + exact (is_derive_plus (f s) _ a _ _ (H s) IH).
  Qed.
  Lemma Z_pos b a : 0 < Z b a.
  Proof.
    unfold partition. destruct states as [|s l]; [congruence|]. rewrite nsumf_cons. cbn [nadd R_num].
    assert (0 <= nsumf (F:=R) (boltzmann e0 e1 b a) l) by (apply nsumf_nonneg; intros; apply Rlt_le, exp_pos).
    pose proof (exp_pos (- (b * E a s))). unfold boltzmann at 1. lra.
  Qed.
  Lemma boltzmann_derive b a s : is_derive (fun x => boltzmann e0 e1 b x s) a (- b * ((e1 s - e0 s) * boltzmann e0 e1 b a s)).
  Proof. unfold boltzmann, energy_at. auto_derive; [exact I|]. unfold Rminus. ring. Qed.
  Lemma Z_derive b a : is_derive (Z b) a (- b * nsumf (F:=R) (fun s => (e1 s - e0 s) * boltzmann e0 e1 b a s) states).
  Proof. rewrite <- nsumf_mult. unfold partition. apply (nsumf_derive (fun s x => boltzmann e0 e1 b x s)). intros s. apply boltzmann_derive. Qed.
  Lemma F_derive b a : b <> 0 -> is_derive (Fr b) a (av b a (fun s => e1 s - e0 s)).
  Proof.
    intros Hb. unfold free_energy, canonical.
    pose proof (Z_derive b a) as D. pose proof (Z_pos b a) as P.
    set (g := nsumf (F:=R) _ states) in *.
    assert (L : is_derive (fun x => ln (Z b x)) a (scal (- b * g) (/ Z b a))).
    { apply (is_derive_comp ln (Z b)); [apply is_derive_Reals, derivable_pt_lim_ln, P|exact D]. }
    replace (g / Z b a) with (- (1 / b) * scal (- b * g) (/ Z b a)); [apply is_derive_scal, L|].
    unfold scal. cbn. unfold mult. cbn. field. split; lra.
  Qed.
  Lemma av_continuous b A a : continuous (fun x => av b x A) a.
  Proof.
    unfold canonical. apply (continuous_mult (U:=R_UniformSpace) (K:=R_AbsRing) (fun x => nsumf (F:=R) (fun s => A s * boltzmann e0 e1 b x s) states) (fun x => / Z b x)).
    - apply (ex_derive_continuous (V:=R_NormedModule)). eexists.
      apply (nsumf_derive (fun s x => A s * boltzmann e0 e1 b x s) (fun s => A s * (- b * ((e1 s - e0 s) * boltzmann e0 e1 b a s)))).
      intros s. apply is_derive_scal, boltzmann_derive.
    - apply (continuous_comp (Z b) Rinv).
      + apply (ex_derive_continuous (V:=R_NormedModule)). eexists. apply Z_derive.
      + apply continuity_pt_filterlim, continuity_pt_inv; [apply continuity_pt_id|]. pose proof (Z_pos b a). lra.
  Qed.
  (** The free energy difference is the integral of the averages of the energy difference. *)
  Lemma F_integral b c d : b <> 0 -> is_RInt (fun a => av b a (fun s => e1 s - e0 s)) c d (Fr b d - Fr b c).
  Proof.
    intros Hb. apply (is_RInt_derive (V:=R_CompleteNormedModule) (Fr b)); intros x _; [now apply F_derive|apply av_continuous].
  Qed.
  Lemma canonical_scale b a c A : av b a (fun s => c * A s) = c * av b a A.
  Proof.
    unfold canonical. rewrite (nsumf_ext' (F:=R) _ (fun s => c * (A s * boltzmann e0 e1 b a s)) _); [rewrite nsumf_mult; unfold Rdiv; ring|].
    intros s. ring.
  Qed.
  (** Perturbation *)
  Lemma perturb_identity b a c : b <> 0 ->
    - (1 / b) * ln (av b a (fun s => exp (- (b * (E c s - E a s))))) = Fr b c - Fr b a.
  Proof.
    intros Hb. unfold canonical.
    rewrite (nsumf_ext' (F:=R) _ (boltzmann e0 e1 b c) _).
    - fold (Z b c). unfold Rdiv at 2. rewrite ln_mult, ln_Rinv by (try apply Rinv_0_lt_compat; apply Z_pos). unfold free_energy. ring.
    - intros s. unfold boltzmann. rewrite <- exp_plus. f_equal. ring.
  Qed.
  (** F = <E> - T S *)
  Lemma F_energy_entropy k b a T : k <> 0 -> T <> 0 -> b = 1 / (k * T) -> Fr b a = av b a (E a) - T * gibbs_entropy states e0 e1 k b a.
  Proof.
    intros Hk HT ->. set (b := 1 / (k * T)). assert (Hb : b <> 0). { unfold b. apply Rmult_integral_contrapositive_currified; [lra|]. apply Rinv_neq_0_compat. now apply Rmult_integral_contrapositive_currified. }
    pose proof (Z_pos b a) as P. unfold gibbs_entropy. cbn zeta.
    rewrite (nsumf_ext' (F:=R) (fun s => boltzmann e0 e1 b a s / Z b a * ln (boltzmann e0 e1 b a s / Z b a))
               (fun s => (- b / Z b a) * (E a s * boltzmann e0 e1 b a s) + (- ln (Z b a) / Z b a) * boltzmann e0 e1 b a s) states).
    - rewrite nsumf_plus, !nsumf_mult. fold (Z b a). unfold canonical, free_energy.
      assert (K : T * k * b = 1) by (unfold b; field; split; assumption).
      set (S := nsumf (F:=R) (fun s => E a s * boltzmann e0 e1 b a s) states).
      replace (S / Z b a - T * (- k * (- b / Z b a * S + - ln (Z b a) / Z b a * Z b a)))
        with (S / Z b a - (T * k * b) * (S / Z b a) - T * k * ln (Z b a)) by (field; lra).
      rewrite K. replace (1 / b) with (T * k) by (unfold b; field; split; assumption). ring.
    - intros s. assert (B : 0 < boltzmann e0 e1 b a s) by apply exp_pos.
      unfold Rdiv at 2. rewrite ln_mult, ln_Rinv by (try apply Rinv_0_lt_compat; assumption).
      assert (EL : ln (boltzmann e0 e1 b a s) = - (b * E a s)) by (unfold boltzmann; apply ln_exp). rewrite EL. field. lra.
  Qed.
End Canonical.

(** ** References *)
Definition usableb (r : reference R) : bool := (f_converge r && negb (f_imaginary r))%bool.
Lemma usableb_true r : usableb r = true <-> usable r.
Proof. unfold usableb, usable. rewrite Bool.andb_true_iff, Bool.negb_true_iff. reflexivity. Qed.
Lemma scan_step r t best tmin : scan_references (r :: t) best tmin =
  if usableb r then if is_zero (f_temp r) then (Some (f_path r), 0) else
    if Rltb (f_temp r) tmin then scan_references t (Some (f_path r)) (f_temp r) else scan_references t best tmin
  else scan_references t best tmin.
Proof. cbn [scan_references]. unfold usableb. destruct (f_converge r), (f_imaginary r); reflexivity. Qed.
(** What a scan finds *)
Lemma scan_spec l : forall best tmin,
  (exists r l1 l2, l = l1 ++ r :: l2 /\ usable r /\ vanishing (f_temp r) /\ (forall s, In s l1 -> usable s -> ~ vanishing (f_temp s)) /\
     scan_references l best tmin = (Some (f_path r), 0)) \/
  (forall s, In s l -> usable s -> ~ vanishing (f_temp s)) /\
  ((exists r l1 l2, l = l1 ++ r :: l2 /\ usable r /\ f_temp r < tmin /\ (forall s, In s l1 -> usable s -> f_temp r < f_temp s) /\
      (forall s, In s l2 -> usable s -> f_temp r <= f_temp s) /\ scan_references l best tmin = (Some (f_path r), f_temp r)) \/
   (forall s, In s l -> usable s -> tmin <= f_temp s) /\ scan_references l best tmin = (best, tmin)).
Proof.
  induction l as [|r t IH]; intros best tmin; [right; split; [intros s []|right; split; [intros s []|reflexivity]]|].
  rewrite scan_step. destruct (usableb r) eqn:U.
  - apply usableb_true in U. destruct (is_zero (f_temp r)) eqn:Ez.
    { left. exists r, [], t. apply is_zero_true in Ez. repeat split; auto; try apply U. all: intros s []. }
    apply is_zero_false in Ez.
    destruct (Rltb (f_temp r) tmin) eqn:El.
    + apply Rltb_true in El. destruct (IH (Some (f_path r)) (f_temp r)) as [(q & l1 & l2 & -> & H1 & H2 & H3 & H4)|[HZ H]].
      * left. exists q, (r :: l1), l2. split; [reflexivity|split; [exact H1|split; [exact H2|split; [|exact H4]]]]. intros s [<-|Hs] Us; [exact Ez|now apply H3].
      * right. split; [intros s [<-|Hs]; auto|]. left. destruct H as [(q & l1 & l2 & -> & H1 & H2 & H3 & H4 & H5)|[H1 H2]].
        -- exists q, (r :: l1), l2. split; [reflexivity|split; [exact H1|split; [lra|split; [|split; [exact H4|exact H5]]]]]. intros s [<-|Hs] Us; [exact H2|now apply H3].
        -- exists r, [], t. split; [reflexivity|split; [exact U|split; [exact El|split; [intros s []|split; [exact H1|exact H2]]]]].
    + apply Rltb_false in El. destruct (IH best tmin) as [(q & l1 & l2 & -> & H1 & H2 & H3 & H4)|[HZ H]].
      * left. exists q, (r :: l1), l2. split; [reflexivity|split; [exact H1|split; [exact H2|split; [|exact H4]]]]. intros s [<-|Hs] Us; [exact Ez|now apply H3].
      * right. split; [intros s [<-|Hs]; auto|]. destruct H as [(q & l1 & l2 & -> & H1 & H2 & H3 & H4 & H5)|[H1 H2]].
        -- left. exists q, (r :: l1), l2. split; [reflexivity|split; [exact H1|split; [exact H2|split; [|split; [exact H4|exact H5]]]]]. intros s [<-|Hs] Us; [lra|now apply H3].
        -- right. split; [|exact H2]. intros s [<-|Hs] Us; [lra|now apply H1].
  - assert (NU : ~ usable r) by (intros X; apply usableb_true in X; congruence).
    destruct (IH best tmin) as [(q & l1 & l2 & -> & H1 & H2 & H3 & H4)|[HZ H]].
    + left. exists q, (r :: l1), l2. split; [reflexivity|split; [exact H1|split; [exact H2|split; [|exact H4]]]]. intros s [<-|Hs] Us; [contradiction|now apply H3].
    + right. split; [intros s [<-|Hs] Us; [contradiction|now apply HZ]|]. destruct H as [(q & l1 & l2 & -> & H1 & H2 & H3 & H4 & H5)|[H1 H2]].
      * left. exists q, (r :: l1), l2. split; [reflexivity|split; [exact H1|split; [exact H2|split; [|split; [exact H4|exact H5]]]]]. intros s [<-|Hs] Us; [contradiction|now apply H3].
      * right. split; [|exact H2]. intros s [<-|Hs] Us; [contradiction|now apply H1].
Qed.

(** ** Runs *)
Local Open Scope string_scope.
Local Open Scope list_scope.
Local Open Scope R_scope.
Section Runs.
  Variable simulate : kind -> list (run R) -> run R -> trajectory R.
  Variables (kb evj av : R) (n_atom : nat) (volume : R).
  Variable p_roots : nat -> res (list R * list R).
  Variables (th : String.string) (T : R) (n_eq n_steps : nat).
  Notation run_one := (run_at simulate exp ln kb evj av n_atom th T n_eq n_steps).
  Notation run_many := (run_all simulate exp ln kb evj av n_atom th T n_eq n_steps).
  Notation logged := (log_of simulate kb).
  Definition known : Prop := th = ("Langevin" : String.string) \/ th = ("Nose-Hoover" : String.string).
  Lemma known_true : known -> (String.eqb th "Nose-Hoover" || String.eqb th "Langevin")%bool = true.
  Proof. intros [-> | ->]; reflexivity. Qed.
  Definition same_setup (m m' : md R) : Prop :=
    m_unitcell m' = m_unitcell m /\ m_supercell m' = m_supercell m /\ m_use_reference m' = m_use_reference m /\ m_fc2file m' = m_fc2file m.
  Lemma run_at_ok k x c a m : known -> has_reference k = true -> m_calc m = Some (k, x) -> m_supercell m = true ->
    exists m' g, run_one c m a = Ok (m', g) /\ logged k (m_past m) (mk_run (Some a) T n_eq (n_steps * c)) g /\
      m_calc m' = Some (k, Some a) /\ same_setup m m' /\ m_past m' = m_past m ++ (cons (mk_run (Some a) T n_eq (n_steps * c)) nil) /\
      exists v, m_integrator m' = Some (T, v).
  Proof.
    intros HK HR HC HS. unfold run_at, set_alpha. rewrite HC. cbn [bind]. unfold run_md_nvt. rewrite (known_true HK).
    cbn [m_supercell with_calc m_calc m_past]. rewrite HS. cbn [negb bind]. eexists. eexists. split; [reflexivity|]. split.
    - unfold log_of, get_log, md_alpha. cbn [m_calc m_integrator g_alpha g_energy g_total g_delta g_perturb1 g_disp g_perturb u_alpha u_eq u_temp].
      unfold calc_averages. cbn [v_energy v_total v_delta_10 v_delta_1a v_disp v_perturb option_map fst snd]. rewrite HR. cbn [option_map]. rewrite !average_mean, perturb_free.
      repeat split; try reflexivity. destruct k; cbn [has_fc2 option_map]; try reflexivity; now rewrite average_mean.
    - split; [reflexivity|]. split; [unfold same_setup; cbn; repeat split; congruence|]. split; [reflexivity|]. eexists. reflexivity.
  Qed.
  Notation single a := (mk_run (Some a) T n_eq (n_steps * 1)).
  Lemma run_all_ok k : known -> has_reference k = true -> forall alphas x m, m_calc m = Some (k, x) -> m_supercell m = true ->
    exists m' gs y, run_many m alphas = Ok (m', gs) /\ m_calc m' = Some (k, y) /\ same_setup m m' /\
      m_past m' = m_past m ++ map (fun a => single a) alphas /\ length gs = length alphas /\
      forall i a, nth_error alphas i = Some a -> exists g, nth_error gs i = Some g /\
        logged k (m_past m ++ map (fun a => single a) (firstn i alphas)) (single a) g.
  Proof.
    intros HK HR. induction alphas as [|a t IH]; intros x m HC HS.
    - exists m, [], x. cbn. rewrite app_nil_r. repeat split; auto. intros [|i] b H; discriminate.
    - cbn [run_all]. destruct (run_at_ok k x 1 a m HK HR HC HS) as (m1 & g & -> & L & C1 & (S1 & S2 & S3 & S4) & P1 & _). cbn [bind].
      rewrite HS in S2. destruct (IH (Some a) m1 C1 S2) as (m2 & gs & y & -> & C2 & (R1 & R2 & R3 & R4) & P2 & Len & K). cbn [bind].
      exists m2, (g :: gs), y. split; [reflexivity|]. split; [exact C2|]. split; [unfold same_setup; repeat split; congruence|].
      split; [rewrite P2, P1, <- app_assoc; reflexivity|]. split; [cbn; now rewrite Len|].
      intros [|i] b H; cbn in H.
      + injection H as <-. exists g. split; [reflexivity|]. cbn [firstn map]. rewrite app_nil_r. exact L.
      + destruct (K i b H) as (g' & G1 & G2). exists g'. split; [exact G1|]. rewrite P1, <- app_assoc in G2. exact G2.
  Qed.
  Lemma deltas_ok (gs : list (log R)) : (forall g, In g gs -> exists d, g_delta g = Some d) ->
    exists ds, mapM (fun g => TIRun.number (g_delta g)) gs = Ok ds /\ map (fun g => g_delta g) gs = map Some ds.
  Proof.
    induction gs as [|g t IH]; intros H; [exists []; split; reflexivity|].
    destruct (H g (or_introl eq_refl)) as [d Hd]. destruct IH as (ds & E1 & E2); [intros; apply H; now right|].
    exists (d :: ds). cbn [mapM map]. rewrite Hd. cbn [TIRun.number bind]. rewrite E1. cbn [bind]. now rewrite E2.
  Qed.
End Runs.
