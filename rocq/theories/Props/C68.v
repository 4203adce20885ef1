(** C68: the data sets made of output files hold, sample by sample, what the files say. *)
From Verif Require Import Base Num Model.Structure Model.DatasetDFT Model.Readers Spec.Dataset Spec.Readers Proofs.Structure Proofs.Readers Props.C02.
From Coq Require Import Field.
From Coq Require String.
Import String.StringSyntax.
Local Open Scope string_scope.
Local Open Scope list_scope.
Local Open Scope nat_scope.

Section C68.
  Context {F : Type} {N : Num F} {NO : NumOrd F} {L : FieldLaws F} {P A : Type}.
  Notation structure := (structure P A F).
  Notation vasprun := (vasprun (F := F) (P := P) (A := A)).
  Notation sample := (sample (F := F) (P := P) (A := A)).
  Notation sscha_yaml := (sscha_yaml (F := F) (P := P) (A := A)).
  Notation electron_yaml := (electron_yaml (F := F) (P := P) (A := A)).

  (** The four lists are those of the samples of the files, in the order of the files and of the calculations. *)
  Theorem C68_vasp (parse : string -> res vasprun) (tol kbar : F) files l : parse_vaspruns parse tol kbar files = Ok l <->
    exists rss, Forall2 (fun file rs => exists x, parse file = Ok x /\ file_samples tol kbar x file rs) files rss /\ l = lists_of (concat rss).
  Proof.
    unfold parse_vaspruns. rewrite (foldM_samples _ (fun file rs => exists x, parse file = Ok x /\ file_samples tol kbar x file rs)).
    - split; intros (rss & H & ->); exists rss; (split; [exact H|]); [symmetry|]; symmetry; apply append_none.
    - intros s file s'. rewrite read_vasprun_Ok. split; [intros (x & rs & H1 & H2 & H3)|intros (rs & (x & H1 & H2) & H3)]; eauto 6.
  Qed.
  (** A file gives one list of samples only. *)
  Theorem C68_determined (tol kbar : F) (x : vasprun) name rs rs' : file_samples tol kbar x name rs -> file_samples tol kbar x name rs' -> rs = rs'.
  Proof.
    intros H H'. assert (E : forall r, file_samples tol kbar x name r -> parse_vaspruns (fun _ => Ok x) tol kbar [name] = Ok (lists_of r)).
    { intros r Hr. apply C68_vasp. exists [r]. split; [|cbn [concat]; now rewrite app_nil_r]. constructor; [|constructor]. eauto. }
    apply E in H. apply E in H'. rewrite H in H'. injection H' as H1 H2 H3 H4. revert rs' H1 H2 H3 H4. clear. induction rs as [|[a b c d] rs IH]; intros [|[a' b' c' d'] rs']; try discriminate; [reflexivity|].
    cbn [map s_structure s_energy s_force s_stress]. intros H1 H2 H3 H4. injection H1 as -> H1. injection H2 as -> H2. injection H3 as -> H3. injection H4 as -> H4. f_equal. now apply IH.
  Qed.
  (** The data set has the records built of the samples. *)
  Theorem C68_dataset permute (rs : list sample) recs els :
    Forall2 (fun r => built volume Structure.name n_atoms permute (s_structure r) (s_energy r) (s_force r) (s_stress r)) rs recs ->
    Forall (fun r => length (r_force r) = 3 * r_natom r) recs ->
    lists_dataset permute (lists_of rs) els = Ok (layout els true true recs).
  Proof.
    intros H HF. unfold lists_dataset. apply C02_construction; [|exact HF]. clear HF. induction H; cbn; constructor; assumption.
  Qed.
  (** A file that cannot be read ends the whole reading, although the reader has a branch that skips it. *)
  Theorem C68_unreadable (parse : string -> res vasprun) (tol kbar : F) files file e : In file files -> parse file = Err e -> forall l, parse_vaspruns parse tol kbar files <> Ok l.
  Proof.
    intros HI HE l H. apply C68_vasp in H. destruct H as (rss & H & _). clear -HI HE H. induction H as [|f rs fs rss (x & H1 & _) H2 IH]; [destruct HI|]. destruct HI as [->|HI]; [congruence|now apply IH].
  Qed.
  (** A document with one calculation, whose cell is the final one: its record, if the last two electronic steps agree. *)
  Theorem C68_single (tol kbar : F) (x : vasprun) name c rs : x_ibrion x <> Some 0%Z -> x_calcs x = [c] -> x_final x = c_cell c -> ~ not_converged tol x ->
    (file_samples tol kbar x name rs <-> exists r, rs = [r] /\ calc_sample kbar x name c r).
  Proof.
    intros NM EC EF NC. assert (FH : forall X (f : calc -> option X) v, first_having f [c] v <-> f c = Some v).
    { intros X f v. split; [intros ([|c' l1] & c1 & l2 & H & _ & H2); [injection H as <- _; exact H2|destruct l1; discriminate]|intros H; exists [], c, []; auto]. }
    split.
    - intros [rs' H|r H1 H2 (c' & cs & cell & t & H & HF & HS & HE & HA & HB & HT)|H1 H2]; [congruence| |contradiction]. rewrite EC in *. injection H as <- <-. apply FH in HA. apply FH in HB. exists r. split; [reflexivity|]. exists cell, t. rewrite <- EF. auto 10.
    - intros (r & -> & cell & t & H1 & H2 & H3 & H4 & H5 & H6). apply static; [assumption|assumption|]. exists c, [], cell, t. rewrite EC, EF. rewrite !FH. auto 10.
  Qed.

  (** SSCHA results: the used files, in order *)
  Theorem C68_sscha (yaml : string -> res sscha_yaml) (kjmol : F) sym files l : parse_sscha_yamls yaml kjmol sym files = Ok l <->
    exists rss, Forall2 (fun file rs => exists y, yaml file = Ok y /\ (~ used y /\ rs = [] \/ used y /\ exists r, rs = [r] /\ sscha_sample kjmol sym y file r)) files rss /\ l = lists_of (concat rss).
  Proof.
    unfold parse_sscha_yamls. rewrite (foldM_samples _ _ (fun s file s' => read_sscha_Ok yaml kjmol sym s file s')).
    split; intros (rss & H & ->); exists rss; (split; [exact H|]); [symmetry|]; symmetry; apply append_none.
  Qed.
  (** The free energy per atom is the same of the symmetrized and of the supercell form; so is the stress, if the symmetrized one is. *)
  Local Open Scope num_scope.
  Add Field Ffield : (field_laws (F := F)).
  Theorem C68_sscha_intensive (kjmol : F) (y : sscha_yaml) name r1 r2 n : kjmol <> n0 -> y_sym_forces y <> None -> y_n_unitcells y = Some n ->
    (forall st st', y_unitcell y = Some st -> y_supercell y = Some st' -> length (elements st') = n * length (elements st))%nat ->
    sscha_sample kjmol true y name r1 -> sscha_sample kjmol false y name r2 ->
    s_energy r1 * nnat (length (elements (s_structure r2))) = s_energy r2 * nnat (length (elements (s_structure r1))) /\
    (y_sym_stress y = y_stress y -> forall i j, s_stress r1 i j * nnat (length (elements (s_structure r2))) = s_stress r2 i j * nnat (length (elements (s_structure r1)))).
  Proof.
    intros HK HS HN HL [(_ & st & U1 & (_ & U2) & U3 & U4 & U5)|[[H|H] _]] H2; [|discriminate|contradiction].
    destruct H2 as [[H _]|[_ (st' & m & t & V1 & (_ & V2) & V3 & V4 & V5 & V6 & V7)]]; [discriminate|]. rewrite HN in V3. injection V3 as <-.
    rewrite U2, V2, U3, V4, V7. cbn [elements]. rewrite (HL _ _ U1 V1). rewrite nnat_mul. split; [field; exact HK|]. intros E i j. rewrite E, V6 in U5. injection U5 as <-. ring.
  Qed.
  Local Close Scope num_scope.

  (** Electronic properties: one structure per file; a property only of the files with a row of the temperature *)
  Definition property_of (rtol atol temperature : F) (y : electron_yaml) (ps : list F) : Prop :=
    ps = [] /\ Forall (fun r => isclose rtol atol (fst r) temperature = false) (e_rows y) \/ exists p, ps = [p] /\ row_at rtol atol temperature (e_rows y) (Some p).
  Theorem C68_electron (rtol atol temperature : F) (ys : list electron_yaml) sts ps : extract_electron rtol atol temperature ys = Ok (sts, ps) <->
    Forall2 (fun y st => exists st0, e_cell y = Some st0 /\ renamed (e_name y) st0 st) ys sts /\ exists pss, Forall2 (property_of rtol atol temperature) ys pss /\ ps = concat pss.
  Proof.
    unfold extract_electron. assert (G : forall s1 s2, foldM (read_electron rtol atol temperature) (s1, s2) ys = Ok (s1 ++ sts, s2 ++ ps) <->
      Forall2 (fun y st => exists st0, e_cell y = Some st0 /\ renamed (e_name y) st0 st) ys sts /\ exists pss, Forall2 (property_of rtol atol temperature) ys pss /\ ps = concat pss); [|apply (G [] [])].
    revert sts ps. induction ys as [|y ys' IH]; intros sts ps s1 s2; cbn [foldM].
    - split.
      + intros H. injection H as H1 H2. assert (sts = []) as -> by (apply (app_inv_head s1); now rewrite app_nil_r). assert (ps = []) as -> by (apply (app_inv_head s2); now rewrite app_nil_r). split; [constructor|]. exists []. split; [constructor|reflexivity].
      + intros (H & pss & H1 & ->). inversion H. inversion H1. cbn [concat]. now rewrite !app_nil_r.
    - rewrite bind_Ok. unfold read_electron at 1. cbn [fst snd]. split.
      + intros (x & H1 & H2). apply bind_Ok in H1. destruct H1 as (st & E1 & H1). apply bind_Ok in H1. destruct H1 as (p & E2 & H1). injection H1 as <-. apply load_cell_Ok in E1. apply pick_Ok in E2.
        assert (M : forall a b, foldM (read_electron rtol atol temperature) a ys' = Ok b -> exists s p, b = (fst a ++ s, snd a ++ p)).
        { clear. induction ys' as [|y ys' IH]; intros a b; cbn [foldM]; [intros H; injection H as <-; exists [], []; rewrite !app_nil_r; now destruct a|]. intros H. apply bind_Ok in H. destruct H as (x & H1 & H2). unfold read_electron in H1. apply bind_Ok in H1. destruct H1 as (st & _ & H1). apply bind_Ok in H1. destruct H1 as (p & _ & H1). injection H1 as <-. apply IH in H2. destruct H2 as (s & p' & ->). cbn [fst snd]. rewrite <- !app_assoc. eauto. }
        destruct (M _ _ H2) as (s & p' & EM). cbn [fst snd] in EM. rewrite <- !app_assoc in EM. injection EM as EM1 EM2. apply app_inv_head in EM1. apply app_inv_head in EM2. subst sts ps. change (st :: s) with ([st] ++ s) in H2. rewrite !app_assoc in H2. apply IH in H2. destruct H2 as (R1 & pss & R2 & ->).
        split; [now constructor|]. exists (p :: pss). split; [now constructor|reflexivity].
      + intros (R1 & pss & R2 & ->). inversion R1 as [|? st ? sts' Q1 Q2]. inversion R2 as [|? p ? pss' Q3 Q4]. subst. exists (s1 ++ [st], s2 ++ p). split.
        * rewrite (proj2 (load_cell_Ok _ _ _) Q1). cbn [bind]. rewrite (proj2 (pick_Ok rtol atol _ _ _) Q3). reflexivity.
        * cbn [concat]. change (st :: sts') with ([st] ++ sts'). rewrite !app_assoc. apply IH. split; [exact Q2|]. eauto.
  Qed.
  (** A data set is made only if every file has a row of the temperature, and then every structure has the property of its own file; otherwise the
      constructor of the data set raises. *)
  Lemma concat_length (T : F) rtol atol ys pss : Forall2 (property_of rtol atol T) ys pss -> length (concat pss) <= length ys /\
    (length (concat pss) = length ys <-> Forall2 (fun y p => row_at rtol atol T (e_rows y) (Some p)) ys (concat pss)).
  Proof.
    induction 1 as [|y p ys pss H H2 (I1 & I2)]; [split; [cbn; lia|split; [constructor|reflexivity]]|]. destruct H as [[-> H]|(q & -> & H)]; cbn [concat app length].
    - split; [lia|]. split; [lia|]. intros K. apply Forall2_length in K. cbn in K. lia.
    - split; [lia|]. split; [intros K; constructor; [exact H|apply I2; lia]|]. intros K. apply Forall2_length in K. cbn in K. lia.
  Qed.
  Theorem C68_electron_dataset rtol atol temperature permute (ys : list electron_yaml) els sts ps : extract_electron rtol atol temperature ys = Ok (sts, ps) ->
    (Forall (fun y => exists p, row_at rtol atol temperature (e_rows y) p) ys -> Forall2 (fun y p => row_at rtol atol temperature (e_rows y) (Some p)) ys ps /\ length ps = length sts) /\
    (~ Forall (fun y => exists p, row_at rtol atol temperature (e_rows y) p) ys -> electron_dataset rtol atol permute temperature ys els = Err AssertionError).
  Proof.
    intros HE. destruct (proj1 (C68_electron rtol atol temperature ys sts ps) HE) as (R1 & pss & R2 & ->). pose proof (Forall2_length _ _ _ R1) as LS. destruct (concat_length _ _ _ _ _ R2) as [LE IFF]. split.
    - intros HA. assert (K : length (concat pss) = length ys); [|split; [now apply IFF|congruence]]. clear -R2 HA. induction R2 as [|y p ys pss H R2 IH]; [reflexivity|]. inversion HA as [|? ? (q & r1 & t & r2 & H1 & H2 & H3) HA']. subst. destruct H as [[-> H]|(q' & -> & H)]; cbn [concat app length]; [|f_equal; now apply IH].
      rewrite H1, Forall_app in H. destruct H as [_ H]. inversion H. cbn in *. congruence.
    - intros HA. unfold electron_dataset. rewrite HE. cbn [bind]. unfold set_properties. replace (length sts =? length (concat pss)) with false; [reflexivity|]. symmetry. apply Nat.eqb_neq. intros K. apply HA. rewrite <- LS in K. symmetry in K. apply IFF in K. clear -K.
      induction K; constructor; eauto.
  Qed.
End C68.
Print Assumptions C68_vasp.
Print Assumptions C68_determined.
Print Assumptions C68_dataset.
Print Assumptions C68_unreadable.
Print Assumptions C68_single.
Print Assumptions C68_sscha.
Print Assumptions C68_sscha_intensive.
Print Assumptions C68_electron.
Print Assumptions C68_electron_dataset.

(** Examples: rational numbers; positions and cells are numbers. *)
From Coq Require Import QArith Qcanon.
Local Open Scope nat_scope.
Definition qz (n : Z) : Qc := Q2Qc (inject_Z n).
Definition zst (name : option string) (ax : nat) (pos : list nat) : structure nat nat Qc := mk_structure ax pos [1; 1] ["Zr"; "O"] [0; 1]%Z (qz 10) name.
Definition xcalc (e : Z) (ax : nat) (pos : list nat) : calc (F := Qc) (P := nat) (A := nat) :=
  mk_calc (Some (qz e)) (Some [[qz e; qz 0; qz 0]; [qz (- e); qz 0; qz 0]]) (Some (fun i j => qz e)) (Some (ax, pos, qz 10)) [Some (qz (e + 1)); Some (qz e); Some (qz e)].
Definition xdoc (ibrion : Z) (cs : list (calc (F := Qc) (P := nat) (A := nat))) (final : nat * list nat) : vasprun (F := Qc) (P := nat) (A := nat) :=
  mk_vasprun (Some ibrion) cs (Some (fst final, snd final, qz 10)) [1; 1] ["r"; "O"] [1; 2]%Z.
Definition xbad : vasprun (F := Qc) (P := nat) (A := nat) :=
  mk_vasprun None [mk_calc None None None None [Some (qz 7); Some (qz 5)]] None [] [] [].
Definition xfiles (f : string) : res (vasprun (F := Qc) (P := nat) (A := nat)) :=
  if String.eqb f "md" then Ok (xdoc 0 [xcalc 1 3 [0; 1]; xcalc 2 3 [0; 2]] (3, [0; 2]))
  else if String.eqb f "single" then Ok (xdoc 2 [xcalc 5 4 [0; 1]] (4, [0; 1]))
  else if String.eqb f "relax" then Ok (xdoc 2 [xcalc 8 4 [0; 1]; xcalc 6 5 [0; 3]] (5, [0; 3]))
  else if String.eqb f "unconverged" then Ok xbad else Err RuntimeError.
Definition ql (l : lists (F := Qc) (P := nat) (A := nat)) := (map (fun st => (Structure.name st, axis st, positions st, elements st, types st)) (l_structures l), map Qreduction.Qred (map this (l_energies l)), map (map (map this)) (l_forces l), map (fun t => this (t 0 1)) (l_stresses l)).
Example C68_read : option_map ql (match parse_vaspruns xfiles (Q2Qc (1 # 1000)) (qz 2) ["md"; "unconverged"; "single"] with Ok l => Some l | Err _ => None end) =
  Some ([(Some "md", 3, [0; 1], ["Zr"; "O"], [0; 1]%Z); (Some "md", 3, [0; 2], ["Zr"; "O"], [0; 1]%Z); (Some "single", 4, [0; 1], ["Zr"; "O"], [0; 1]%Z)],
    [1; 2; 5]%Q, [[[1; 0; 0]; [-1; 0; 0]]; [[2; 0; 0]; [-2; 0; 0]]; [[5; 0; 0]; [-5; 0; 0]]]%Q, [5; 10; 25]%Q).
Proof. vm_compute. reflexivity. Qed.
Example C68_unreadable_met : xfiles "other" = Err RuntimeError /\ In "other" ["single"; "other"] /\ parse_vaspruns xfiles (Q2Qc (1 # 1000)) (qz 2) ["single"; "other"] = Err RuntimeError.
Proof. split; [reflexivity|]. split; [right; left; reflexivity|]. vm_compute. reflexivity. Qed.
(** A relaxation: the final structure with the energy, the forces and the stress of the first step, which no calculation of the file has *)
Theorem C68_relaxation_refuted : exists x : vasprun (F := Qc) (P := nat) (A := nat), exists r, file_samples (Q2Qc (1 # 1000)) (qz 2) x "relax" [r] /\
  Forall (fun c => c_cell c <> None /\ c_energy c <> None) (x_calcs x) /\ ~ Exists (fun c => calc_sample (qz 2) x "relax" c r) (x_calcs x).
Proof.
  set (x := xdoc 2 [xcalc 8 4 [0; 1]; xcalc 6 5 [0; 3]] (5, [0; 3])).
  exists x, (mk_sample (zst (Some "relax") 5 [0; 3]) (qz 8) [[qz 8; qz 0; qz 0]; [qz (-8); qz 0; qz 0]] (fun i j => ndiv (nmul (qz 8) (qz 10)) (qz 2))). split; [|split].
  - apply static.
    + discriminate.
    + intros H. apply is_convergent_false in H. revert H. vm_compute. discriminate.
    + exists (xcalc 8 4 [0; 1]), [xcalc 6 5 [0; 3]], (5, [0; 3], qz 10), (fun i j => qz 8). split; [reflexivity|]. split; [reflexivity|]. split.
      * do 5 (split; [reflexivity|]). split; [constructor; [left; split; reflexivity|constructor; [right; split; [discriminate|reflexivity]|constructor]]|]. split; [repeat constructor|]. repeat split.
      * split; [reflexivity|]. split; [exists [], (xcalc 8 4 [0; 1]), [xcalc 6 5 [0; 3]]; repeat split; constructor|]. split; [exists [], (xcalc 8 4 [0; 1]), [xcalc 6 5 [0; 3]]; repeat split; constructor|]. reflexivity.
  - repeat constructor; discriminate.
  - intros H. inversion H as [? ? (cell & t & E & S & _)|? ? H1]; subst.
    + injection E as <-. destruct S as (S & _). discriminate S.
    + inversion H1 as [? ? (cell & t & E & S & E2 & _)|? ? H2]; subst; [discriminate E2|inversion H2].
Qed.
Print Assumptions C68_relaxation_refuted.
(** The hypotheses of [C68_single] and [C68_dataset] can be met. *)
Example C68_single_met : let x := xdoc 2 [xcalc 5 4 [0; 1]] (4, [0; 1]) in x_ibrion x <> Some 0%Z /\ x_calcs x = [xcalc 5 4 [0; 1]] /\ x_final x = c_cell (xcalc 5 4 [0; 1]) /\ ~ not_converged (Q2Qc (1 # 1000)) x.
Proof. split; [discriminate|]. split; [reflexivity|]. split; [reflexivity|]. intros H. apply is_convergent_false in H. revert H. vm_compute. discriminate. Qed.
Example C68_dataset_met : exists recs,
  Forall2 (fun r => built volume Structure.name n_atoms (fun st f => Ok (st, f)) (s_structure r) (s_energy r) (s_force r) (s_stress r))
    [mk_sample (zst (Some "a") 4 [0; 1]) (qz 5) [[qz 5; qz 0; qz 0]; [qz (-5); qz 0; qz 0]] (fun i j => qz 5)] recs /\ Forall (fun r => length (r_force r) = 3 * r_natom r) recs /\ recs <> [].
Proof. eexists. split; [constructor; [|constructor]; eexists; eexists; split; reflexivity|]. split; [repeat constructor|discriminate]. Qed.

(** SSCHA: a result with symmetrized forces, one without, one not converged *)
Definition ysc (conv sym : bool) : sscha_yaml (F := Qc) (P := nat) (A := nat) :=
  mk_sscha conv (qz 12) (Some (zst None 3 [0; 1])) (Some (mk_structure 6 [0; 1; 2; 3] [2; 2] ["Zr"; "Zr"; "O"; "O"] [0; 0; 1; 1]%Z (qz 20) None)) (Some 2)
    (Some (repeat [qz 1; qz 0; qz 0] 4)) (Some (fun i j => qz 7)) (if sym then Some (repeat [qz 0; qz 0; qz 0] 2) else None) (if sym then Some (fun i j => qz 7) else None).
Definition yfiles (f : string) : res (sscha_yaml (F := Qc) (P := nat) (A := nat)) :=
  if String.eqb f "sym" then Ok (ysc true true) else if String.eqb f "super" then Ok (ysc true false) else Ok (ysc false true).
Example C68_sscha_read : option_map ql (match parse_sscha_yamls yfiles (qz 2) true ["sym"; "no"; "super"] with Ok l => Some l | Err _ => None end) =
  Some ([(Some "sym", 3, [0; 1], ["Zr"; "O"], [0; 1]%Z); (Some "super", 6, [0; 1; 2; 3], ["Zr"; "Zr"; "O"; "O"], [0; 0; 1; 1]%Z)],
    [6; 12]%Q, [[[0; 0; 0]; [0; 0; 0]]; [[1; 0; 0]; [1; 0; 0]; [1; 0; 0]; [1; 0; 0]]]%Q, [7; 14]%Q).
Proof. vm_compute. reflexivity. Qed.
Example C68_intensive_met : y_sym_forces (ysc true true) <> None /\ y_n_unitcells (ysc true true) = Some 2 /\ y_sym_stress (ysc true true) = y_stress (ysc true true) /\
  (exists r1 r2, sscha_sample (qz 2) true (ysc true true) "a" r1 /\ sscha_sample (qz 2) false (ysc true true) "a" r2) /\
  (forall st st', y_unitcell (ysc true true) = Some st -> y_supercell (ysc true true) = Some st' -> length (elements st') = 2 * length (elements st)).
Proof.
  split; [discriminate|]. split; [reflexivity|]. split; [reflexivity|]. split; [|intros st st' H H'; injection H as <-; injection H' as <-; reflexivity].
  eexists (mk_sample _ _ _ _), (mk_sample _ _ _ _). split; [left; split; [reflexivity|]|right; split; [left; reflexivity|]].
  - eexists. cbn [s_structure s_energy s_force s_stress]. split; [reflexivity|]. split; [split; [repeat split|reflexivity]|]. split; [reflexivity|]. split; reflexivity.
  - eexists. exists 2. eexists. cbn [s_structure s_energy s_force s_stress]. split; [reflexivity|]. split; [split; [repeat split|reflexivity]|]. split; [reflexivity|]. split; [reflexivity|]. split; [reflexivity|]. split; reflexivity.
Qed.

(** Electronic properties: the first close row; a file without a row of the temperature shifts the properties of the others. *)
Definition yel (name : string) (rows : list (Qc * option Qc)) : electron_yaml (F := Qc) (P := nat) (A := nat) := mk_electron (Some (zst None 3 [0; 1])) name rows.
Definition rt := Q2Qc (1 # 100000). Definition at_ := Q2Qc (1 # 100000000).
Definition el_a := yel "a" [(qz 200, Some (qz 1)); (qz 300, Some (qz 2)); (Q2Qc (300001 # 1000), Some (qz 3))].
Definition el_b := yel "b" [(qz 200, Some (qz 4))].
Definition el_c := yel "c" [(qz 300, Some (qz 6))].
Example C68_electron_read : option_map (fun r => (map Structure.name (fst r), map this (snd r))) (match extract_electron rt at_ (qz 300) [el_a; el_c] with Ok l => Some l | Err _ => None end) =
  Some ([Some "a"; Some "c"], [2; 6]%Q).
Proof. vm_compute. reflexivity. Qed.
(** The second property of the lists is not of the second structure. *)
Example C68_electron_refuted : option_map (fun r => (map Structure.name (fst r), map this (snd r))) (match extract_electron rt at_ (qz 300) [el_a; el_b; el_c] with Ok l => Some l | Err _ => None end) =
  Some ([Some "a"; Some "b"; Some "c"], [2; 6]%Q) /\ electron_dataset rt at_ (fun st f => Ok (st, f)) (qz 300) [el_a; el_b; el_c] ["Zr"; "O"] = Err AssertionError.
Proof. split; vm_compute; reflexivity. Qed.
