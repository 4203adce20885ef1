(** C29: evaluation of many structures and by several potentials. *)
From Verif Require Import Base Num Model.Structure Model.Properties Proofs.Structure Proofs.StructureSpin2 Proofs.Properties.
From Coq Require String.
Import String.StringSyntax.
Local Open Scope string_scope.
Local Open Scope list_scope.
Local Open Scope nat_scope.

Lemma mapM_ext {X Y} (f g : X -> res Y) l : (forall x, In x l -> f x = g x) -> mapM f l = mapM g l.
Proof. intros H. induction l as [|x l IH]; [reflexivity|]. cbn [mapM]. rewrite (H x (or_introl eq_refl)), IH by (intros; apply H; now right). reflexivity. Qed.

Section C29.
  Context {F : Type} {N : Num F} {L : RingLaws F}.
  Variables (P A V : Type) (det : A -> V) (argsort : list Z -> list nat) (cart : A -> list P -> list P).
  Notation structure := (structure P A V).
  Notation single := (single F P A).
  Notation eval := (eval P A V det argsort cart).
  Notation eval_multiple := (eval_multiple P A V det argsort cart).
  Notation hybrid_eval := (hybrid_eval P A V det argsort cart).
  Notation hybrid_eval_multiple := (hybrid_eval_multiple P A V det argsort cart).
  (** One position and one type for every named atom; one force per atom and six stresses. *)
  Definition sound (st : structure) : Prop := length (positions st) = length (elements st) /\ length (types st) = length (elements st).
  Definition returns (p : single) : Prop := forall ax pos ty, length (snd (fst (s_pot P A p ax pos ty))) = length ty /\ length (snd (s_pot P A p ax pos ty)) = 6.
  Definition partial_model (p : single) : Prop := s_type_full P A p = Some false.

  (** One call for a list = one call for each structure. *)
  Theorem C29_multiple p sts : Forall sound sts -> returns p -> NoDup (s_elements P A p) \/ ~ partial_model p -> eval_multiple p sts = mapM (eval p) sts.
  Proof.
    intros HW HS HD. unfold Properties.eval_multiple. destruct (full P A p) eqn:EF.
    - rewrite (mapM_ext _ (fun st => do st' <- replace_types argsort st (s_elements P A p); Ok (obj_eval P A V cart p st')) sts).
      + unfold update_types. clear. assert (G : (do sts' <- mapM (fun st => replace_types argsort st (s_elements P A p)) sts; Ok (map (obj_eval P A V cart p) sts')) = mapM (fun st => do st' <- replace_types argsort st (s_elements P A p); Ok (obj_eval P A V cart p st')) sts).
        { induction sts as [|st sts IH]; [reflexivity|]. cbn [mapM]. destruct (replace_types argsort st _); [|reflexivity]. cbn [bind]. rewrite <- IH. destruct (mapM _ sts); reflexivity. }
        rewrite <- G. destruct (mapM _ sts) as [l|] eqn:E; [|reflexivity]. cbn [bind]. destruct l; [|reflexivity]. apply mapM_length in E. destruct sts; [reflexivity|discriminate].
      + intros st _. unfold Properties.eval. rewrite EF. reflexivity.
    - assert (HF : s_type_full P A p = Some false) by (unfold full in EF; destruct (s_type_full P A p) as [[]|]; congruence).
      assert (HD2 : all_distinct (s_elements P A p) = true) by (apply all_distinct_nodup; destruct HD as [HD|HD]; [exact HD|destruct (HD HF)]).
      rewrite find_active_all by assumption. cbn zeta. cbn [bind].
      assert (G := reinsert_ok P A V det cart p sts (s_elements P A p) 0 _ _ HW HS eq_refl eq_refl). cbn zeta in G.
      assert (HM : mapM (eval p) sts = mapM (fun st => if existsb (is_in (s_elements P A p)) (elements st) then let v := obj_eval P A V cart p (active_of P A V det (s_elements P A p) st) in do f <- put_all (length (types st)) (where_ (is_in (s_elements P A p)) (elements st)) (snd (fst v)); Ok (fst (fst v), f, snd v) else Ok (zero_value (length (types st)))) sts).
      { apply mapM_ext. intros st Hst. apply eval_partial_ok; auto. rewrite Forall_forall in HW. now apply HW. }
      rewrite HM. etransitivity; [|exact G]. clear G HM. destruct (map (active_of _ _ _ _ _) _) as [|a l] eqn:EA; [|reflexivity].
      clear - EA. assert (EX : forall st, In st sts -> existsb (is_in (s_elements P A p)) (elements st) = false).
      { intros st Hst. destruct (existsb _ _) eqn:E; [|reflexivity]. assert (HI : In st (filter (fun st => existsb (is_in (s_elements P A p)) (elements st)) sts)) by (apply filter_In; auto). destruct (filter _ sts); [destruct HI|discriminate]. }
      clear EA. cbn [skipn]. set (at_ := map _ (filter _ sts)). set (vs := map (obj_eval P A V cart p) _). clearbody at_ vs. generalize 0. induction sts as [|st sts IH]; intros i; [reflexivity|]. cbn [map reinsert]. rewrite (EX st (or_introl eq_refl)). rewrite <- (IH (fun s H => EX s (or_intror H)) i). reflexivity.
  Qed.

  (** A model of some of the elements: the potential sees the atoms of those elements, numbered by the model's element list; every other atom gets
      a zero force. *)
  Theorem C29_inactive p st : sound st -> returns p -> partial_model p -> NoDup (s_elements P A p) ->
    let mine := fun e => existsb (String.eqb e) (s_elements P A p) in
    let pos := map snd (filter (fun q => mine (fst q)) (combine (elements st) (positions st))) in
    exists e f s, eval p st = Ok (e, f, s) /\ length f = length (elements st) /\
      (forall i el, nth_error (elements st) i = Some el -> ~ In el (s_elements P A p) -> nth_error f i = Some v0) /\
      ((forall el, In el (elements st) -> ~ In el (s_elements P A p)) -> e = n0 /\ s = repeat n0 6) /\
      ((exists el, In el (elements st) /\ In el (s_elements P A p)) -> exists ty f', s_pot P A p (axis st) (cart (axis st) pos) ty = (e, f', s) /\
        length f' = length (filter mine (elements st)) /\
        Forall2 (fun t el => exists k, t = Z.of_nat k /\ nth_error (s_elements P A p) k = Some el) ty (filter mine (elements st)) /\
        (forall i el, nth_error (elements st) i = Some el -> In el (s_elements P A p) -> nth_error f i = nth_error f' (length (filter mine (firstn i (elements st)))))).
  Proof.
    intros HW HS HF HD mine pos. rewrite eval_partial_ok; auto; [|now apply all_distinct_nodup]. destruct HW as [H1 H2]. destruct (existsb _ _) eqn:EX.
    - set (els := s_elements P A p) in *. set (ac := active_of P A V det els st). destruct (obj_eval P A V cart p ac) as [[e f'] s] eqn:EO. cbn [fst snd]. cbn zeta.
      assert (LF : length f' = length (filter mine (elements st))).
      { unfold obj_eval in EO. destruct (HS (axis ac) (cart (axis ac) (positions ac)) (types ac)) as [HL _]. rewrite EO in HL. cbn [fst snd] in HL. rewrite HL. unfold ac, active_of. cbn [types]. rewrite map_length. reflexivity. }
      rewrite H2, put_all_spread by exact LF. cbn [bind]. do 3 eexists. split; [reflexivity|]. split; [apply spread_length|]. split; [|split].
      + intros i el Hi Hn. eapply spread_out; [exact Hi|]. destruct (is_in els el) eqn:E; [|reflexivity]. apply is_in_In in E. contradiction.
      + intros HN. exfalso. apply existsb_exists in EX. destruct EX as [el [He Hi]]. apply is_in_In in Hi. exact (HN el He Hi).
      + intros _. exists (types ac), f'. split; [exact EO|]. split; [exact LF|]. split.
        * unfold ac, active_of. cbn [types]. fold mine. assert (G : Forall (fun el => In el els) (filter mine (elements st))). { apply Forall_forall. intros el He. apply filter_In in He. apply (is_in_In els). tauto. }
          clear LF. unfold is_in. fold mine. induction G as [|el l He G IH]; cbn [map]; [constructor|]. constructor; [|exact IH]. exists (position el els). split; [reflexivity|]. now apply position_nth.
        * intros i el Hi Hin. eapply spread_in; [exact LF|exact Hi|]. now apply is_in_In.
    - do 3 eexists. split; [reflexivity|]. rewrite repeat_length. split; [exact H2|]. split; [|split].
      + intros i el Hi _. assert (HL : i < length (elements st)) by (apply nth_error_Some; congruence). rewrite H2. clear - HL. revert i HL. generalize (length (elements st)). intros n. induction n as [|n IH]; intros i HL; [lia|]. destruct i as [|i]; [reflexivity|]. cbn. apply IH. lia.
      + intros _. split; reflexivity.
      + intros [el [He Hi]]. exfalso. assert (HT : existsb (is_in (s_elements P A p)) (elements st) = true); [|congruence]. apply existsb_exists. exists el. split; [exact He|]. now apply is_in_In.
  Qed.

  (** A hybrid potential: energies, forces and stresses are sums over the sub-potentials. *)
  Theorem C29_hybrid p ps st vals n : mapM (fun p => eval p st) (p :: ps) = Ok vals -> Forall (fun v => length (snd (fst v)) = n /\ length (snd v) = 6) vals ->
    exists e f s, hybrid_eval (p :: ps) st = Ok (e, f, s) /\ e = nsum (map (fun v => fst (fst v)) vals) /\ length f = n /\ length s = 6 /\
      (forall i, nth i f v0 = fold_right vadd v0 (map (fun v => nth i (snd (fst v)) v0) vals)) /\ (forall i, nth i s n0 = nsum (map (fun v => nth i (snd v) n0) vals)).
  Proof.
    intros HM HS. cbn [mapM] in HM. unfold Properties.hybrid_eval. destruct (eval p st) as [v|]; [|discriminate]. cbn [bind] in *. destruct (mapM _ ps) as [vs|] eqn:EM; [|discriminate]. cbn [bind] in HM. assert (EV : v :: vs = vals) by congruence. subst vals. clear HM.
    inversion HS as [|? ? Hv HV]; subst.
    assert (G : forall ps vs v, mapM (fun p => eval p st) ps = Ok vs -> foldM (fun v p => do w <- eval p st; add_value v w) v ps = foldM add_value v vs).
    { clear. induction ps as [|p ps IH]; intros vs v H; cbn [mapM] in H; [injection H as <-; reflexivity|]. destruct (eval p st) as [w|] eqn:E; [|discriminate]. cbn [bind] in H. destruct (mapM _ ps) as [ws|]; [|discriminate]. cbn [bind] in H. injection H as <-. cbn [foldM]. rewrite E. cbn [bind]. destruct (add_value v w); [|reflexivity]. cbn [bind]. now apply IH. }
    rewrite (G _ _ _ EM). destruct (fold_add_ok n vs v Hv HV) as [[[e f] s] [E1 [[E2 E3] [E4 [E5 E6]]]]]. exists e, f, s. split; [exact E1|]. split; [exact E4|]. split; [exact E2|]. split; [exact E3|]. split; [exact E5|exact E6].
  Qed.
  Theorem C29_hybrid_multiple p ps sts : Forall sound sts -> Forall (fun p => returns p /\ (NoDup (s_elements P A p) \/ ~ partial_model p)) (p :: ps) ->
    (forall q st, In q (p :: ps) -> In st sts -> exists v, eval q st = Ok v /\ length (snd (fst v)) = length (elements st) /\ length (snd v) = 6) ->
    hybrid_eval_multiple (p :: ps) sts = mapM (hybrid_eval (p :: ps)) sts.
  Proof.
    intros HW HP HE. unfold Properties.hybrid_eval_multiple, Properties.hybrid_eval.
    set (g := fun q st => match eval q st with Ok v => v | Err _ => zero_value 0 end).
    assert (Hg : forall q st, In q (p :: ps) -> In st sts -> eval q st = Ok (g q st) /\ shaped (length (elements st)) (g q st)).
    { intros q st Hq Hs. destruct (HE q st Hq Hs) as [v [E [H1 H2]]]. unfold g. rewrite E. split; [reflexivity|]. split; assumption. }
    assert (HM : forall q, In q (p :: ps) -> eval_multiple q sts = Ok (map (g q) sts)).
    { intros q Hq. rewrite Forall_forall in HP. destruct (HP q Hq) as [H1 H2]. rewrite C29_multiple by assumption. apply mapM_Ok. intros st Hs. now apply Hg. }
    rewrite (HM p (or_introl eq_refl)). cbn [bind]. rewrite (mapM_ext _ (fun st => foldM (fun v q => do w <- eval q st; add_value v w) (g p st) ps) sts); [|intros st Hs; rewrite (proj1 (Hg p st (or_introl eq_refl) Hs)); reflexivity].
    assert (Hg2 : forall q st, In q ps -> In st sts -> eval q st = Ok (g q st) /\ shaped (length (elements st)) (g q st)) by (intros; apply Hg; [now right|assumption]).
    assert (HM2 : forall q, In q ps -> eval_multiple q sts = Ok (map (g q) sts)) by (intros; apply HM; now right).
    assert (Hp : forall st, In st sts -> shaped (length (elements st)) (g p st)) by (intros; apply Hg; [now left|assumption]).
    revert Hp. generalize (g p). clear Hg HM HP HE HW. revert Hg2 HM2. generalize g. clear g p. intros g. induction ps as [|q t IH]; intros Hg HM h Hh; cbn [foldM].
    - symmetry. apply mapM_Ok. reflexivity.
    - rewrite (HM q (or_introl eq_refl)). cbn [bind].
      set (h' := fun st => match add_value (h st) (g q st) with Ok u => u | Err _ => h st end).
      assert (Hh' : forall st, In st sts -> add_value (h st) (g q st) = Ok (h' st) /\ shaped (length (elements st)) (h' st)).
      { intros st Hs. destruct (add_value_ok (length (elements st)) (h st) (g q st) (Hh st Hs) (proj2 (Hg q st (or_introl eq_refl) Hs))) as [u [E1 [E2 _]]]. unfold h'. rewrite E1. auto. }
      assert (EA : add_values (map h sts) (map (g q) sts) = Ok (map h' sts)).
      { unfold add_values. rewrite !map_length, Nat.eqb_refl. clear - Hh'. induction sts as [|st sts IH]; [reflexivity|]. cbn [map combine mapM fst snd]. rewrite (proj1 (Hh' st (or_introl eq_refl))). cbn [bind]. rewrite IH by (intros; apply Hh'; now right). reflexivity. }
      rewrite EA. cbn [bind]. rewrite (IH (fun q' st Hq Hs => Hg q' st (or_intror Hq) Hs) (fun q' Hq => HM q' (or_intror Hq)) h' (fun st Hs => proj2 (Hh' st Hs))).
      apply mapM_ext. intros st Hs. rewrite (proj1 (Hg q st (or_introl eq_refl) Hs)). cbn [bind]. rewrite (proj1 (Hh' st Hs)). reflexivity.
  Qed.
  (** Without sub-potentials, or for a model of some elements in which one is listed twice, nothing is evaluated. *)
  Theorem C29_errors p sts : (hybrid_eval_multiple [] sts = Err IndexError) /\ (partial_model p -> ~ NoDup (s_elements P A p) -> eval_multiple p sts = Err RuntimeError /\ forall st, eval p st = Err RuntimeError).
  Proof.
    split; [reflexivity|]. intros HF HD. assert (ED : all_distinct (s_elements P A p) = false) by (destruct (all_distinct _) eqn:E; [apply all_distinct_NoDup in E; contradiction|reflexivity]).
    unfold Properties.eval_multiple, Properties.eval, full, find_active_atoms. rewrite HF, ED. split; [|intros st]; reflexivity.
  Qed.
End C29.
Print Assumptions C29_multiple.
Print Assumptions C29_inactive.
Print Assumptions C29_hybrid.
Print Assumptions C29_hybrid_multiple.
Print Assumptions C29_errors.

(** Two sub-potentials of Z-valued energies: the first only knows oxygen. *)
Definition pot_o : single Z nat unit := mk_single _ _ ["O"] (Some false) (fun _ pos ty => (Z.of_nat (length ty), map (fun i => (Z.of_nat (nth i pos 0), 1%Z, 1%Z)) (seq 0 (length ty)), repeat 2%Z 6)).
Definition pot_all : single Z nat unit := mk_single _ _ ["Mg"; "O"] (Some true) (fun _ pos ty => (10%Z, map (fun t => (t, 5%Z, 0%Z)) ty, repeat 1%Z 6)).
Definition st_mixed : structure nat unit unit := mk_structure tt [7; 8; 9] [1; 2] ["Mg"; "O"; "O"] [0; 1; 1]%Z tt None.
Definition st_mg : structure nat unit unit := mk_structure tt [7] [1; 0] ["Mg"] [0]%Z tt None.
Notation ev := (eval nat unit unit (fun _ => tt) (fun l => seq 0 (length l)) (fun _ l => l)).
Notation evm := (eval_multiple nat unit unit (fun _ => tt) (fun l => seq 0 (length l)) (fun _ l => l)).
Notation hev := (hybrid_eval_multiple nat unit unit (fun _ => tt) (fun l => seq 0 (length l)) (fun _ l => l)).
Example C29_sound : Forall (sound nat unit unit) [st_mg; st_mixed; st_mg] /\ returns nat unit pot_o /\ partial_model nat unit pot_o /\ NoDup (s_elements nat unit pot_o) /\ ~ partial_model nat unit pot_all.
Proof.
  split; [repeat constructor|]. split; [intros ax pos ty; split; [cbn; rewrite map_length, seq_length; reflexivity|reflexivity]|]. split; [reflexivity|].
  split; [repeat constructor; intros []|discriminate].
Qed.
Example C29_example : evm pot_o [st_mg; st_mixed; st_mg] = Ok [(0%Z, [(0, 0, 0)%Z], repeat 0%Z 6); (2%Z, [(0, 0, 0)%Z; (8, 1, 1)%Z; (9, 1, 1)%Z], repeat 2%Z 6); (0%Z, [(0, 0, 0)%Z], repeat 0%Z 6)].
Proof. vm_compute. reflexivity. Qed.
Example C29_hybrid_example : hev [pot_o; pot_all] [st_mixed] = Ok [(12%Z, [(0, 5, 0)%Z; (9, 6, 1)%Z; (10, 6, 1)%Z], repeat 3%Z 6)].
Proof. vm_compute. reflexivity. Qed.
