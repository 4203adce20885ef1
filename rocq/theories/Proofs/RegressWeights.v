From Verif Require Import Base Num Model.Structure Model.DatasetDFT Model.Dataset Model.Index Model.Batch Model.Regress
  Spec.Dataset Spec.Regress Proofs.Index Proofs.DatasetDFT.
From Coq Require Import Ring.

Lemma set_slice_mid {A} (a m b v : list A) bi ei :
  bi = length a -> ei = length a + length m -> length v = length m ->
  set_slice (a ++ m ++ b) bi ei v = Ok (a ++ v ++ b).
Proof.
  intros -> -> L. unfold set_slice. rewrite !app_length.
  replace (Nat.min (length a + length m) (length a + (length m + length b)) - length a) with (length m) by lia.
  rewrite L, Nat.eqb_refl. rewrite firstn_app, Nat.sub_diag, firstn_all. cbn [firstn]. rewrite app_nil_r.
  rewrite skipn_app. rewrite (skipn_all2 a) by lia. cbn [app].
  replace (length a + length m - length a) with (length m) by lia.
  rewrite skipn_app, skipn_all2 by lia. now rewrite Nat.sub_diag.
Qed.
Lemma slice_mid {A} (a m b : list A) bi ei :
  bi = length a -> ei = length a + length m -> slice bi ei (a ++ m ++ b) = m.
Proof.
  intros -> ->. unfold slice. rewrite firstn_app.
  replace (length a + length m - length a) with (length m) by lia.
  rewrite firstn_all2 by lia. rewrite skipn_app, skipn_all2, Nat.sub_diag by lia. cbn.
  now rewrite firstn_app, Nat.sub_diag, firstn_all, app_nil_r.
Qed.

Section W.
  Context {F : Type} {N : Num F} {L : RingLaws F}.
  Local Open Scope num_scope.
  Add Ring Fr : (ring_laws (F:=F)).
  Notation row := (vec F).

  (** [x], [y], [w] after weighting the observations [T]. *)
  Definition weighted (x : list row) (y w : list F) (T : list (point F)) : Prop :=
    Forall2 (fun (r : row) t => forall j, r j = pt_weight t * pt_row t j) x T /\
    y = map (fun t => pt_weight t * pt_value t) T /\ w = map pt_weight T.

  Lemma weighted_nil : weighted [] [] [] [].
  Proof. repeat split; constructor. Qed.
  Lemma weighted_app x y w T x' y' w' T' : weighted x y w T -> weighted x' y' w' T' ->
    weighted (x ++ x') (y ++ y') (w ++ w') (T ++ T').
  Proof.
    intros [H1 [-> ->]] [H2 [-> ->]]. split; [apply Forall2_app; assumption|].
    rewrite !map_app. split; reflexivity.
  Qed.
  Lemma weighted_length x y w T : weighted x y w T ->
    length x = length T /\ length y = length T /\ length w = length T.
  Proof.
    intros [H [-> ->]]. rewrite !map_length. split; [eapply Forall2_length, H|]. split; reflexivity.
  Qed.

  (** Weighting with computed weights. *)
  Lemma weighted_mul (rows : list row) (vals ws : list F) :
    length vals = length rows -> length ws = length rows ->
    weighted (map (fun p => scale_row (fst p) (snd p)) (combine ws rows)) (times ws vals) ws
             (map (fun p => mk_point (fst (fst p)) (snd (fst p)) (snd p)) (combine (combine rows vals) ws)).
  Proof.
    revert vals ws. induction rows as [|r rows IH]; intros [|v vals] [|w ws] L1 L2; try discriminate.
    - apply weighted_nil.
    - cbn in L1, L2. destruct (IH vals ws ltac:(lia) ltac:(lia)) as [H1 [H2 H3]].
      unfold times in *. cbn [combine map fst snd]. split; [constructor|split].
      + intros j. unfold scale_row. cbn. ring.
      + exact H1.
      + cbn [map]. now rewrite <- H2.
      + cbn [map]. now rewrite <- H3.
  Qed.
  (** Zeroed rows. *)
  Lemma weighted_zero (rows : list row) (vals : list F) (xs : list row) (ys ws : list F) :
    length vals = length rows -> length xs = length rows -> length ys = length rows -> length ws = length rows ->
    weighted (map (fun _ _ => 0) xs) (map (fun _ => 0) ys) (map (fun _ => 0) ws)
             (map (fun p => mk_point (fst p) (snd p) 0) (combine rows vals)).
  Proof.
    revert vals xs ys ws. induction rows as [|r rows IH]; intros [|v vals] [|x xs] [|y ys] [|w ws] L1 L2 L3 L4; try discriminate.
    - apply weighted_nil.
    - cbn in L1, L2, L3, L4. destruct (IH vals xs ys ws ltac:(lia) ltac:(lia) ltac:(lia) ltac:(lia)) as [H1 [H2 H3]].
      cbn [combine map fst snd]. split; [constructor|split].
      + intros j. cbn. ring.
      + exact H1.
      + cbn [map]. rewrite <- H2. f_equal. cbn. ring.
      + cbn [map]. now rewrite <- H3.
  Qed.

  Lemma xtx_weighted x y w T : weighted x y w T -> forall i j, xtx_of x i j = XTX T i j.
  Proof.
    intros [H _] i j. unfold xtx_of, XTX. induction H as [|r t x T Hr _ IH]; [reflexivity|].
    rewrite !nsumf_cons, IH, !Hr. reflexivity.
  Qed.
  Lemma xty_weighted x y w T : weighted x y w T -> forall i, xty_of x y i = XTY T i.
  Proof.
    intros [H [-> _]] i. unfold xty_of, XTY. induction H as [|r t x T Hr _ IH]; [reflexivity|].
    cbn [map combine]. rewrite !nsumf_cons, IH. cbn [fst snd]. rewrite Hr. reflexivity.
  Qed.
  Lemma ysq_weighted x y w T : weighted x y w T -> ysq y = YTY T.
  Proof. intros [_ [-> _]]. unfold ysq, YTY. now rewrite nsumf_map. Qed.

  Lemma XTX_perm T T' : Permutation T T' -> forall i j, XTX T i j = XTX T' i j.
  Proof. intros H i j. now apply nsumf_perm. Qed.
  Lemma XTY_perm T T' : Permutation T T' -> forall i, XTY T i = XTY T' i.
  Proof. intros H i. now apply nsumf_perm. Qed.
  Lemma YTY_perm T T' : Permutation T T' -> YTY T = YTY T'.
  Proof. intros H. now apply nsumf_perm. Qed.
  Lemma XTX_app T T' i j : XTX (T ++ T') i j = XTX T i j + XTX T' i j.
  Proof. apply nsumf_app. Qed.
  Lemma XTY_app T T' i : XTY (T ++ T') i = XTY T i + XTY T' i.
  Proof. apply nsumf_app. Qed.
  Lemma YTY_app T T' : YTY (T ++ T') = YTY T + YTY T'.
  Proof. apply nsumf_app. Qed.
End W.

Lemma combine_app {A B} (a1 a2 : list A) (b1 b2 : list B) : length a1 = length b1 ->
  combine (a1 ++ a2) (b1 ++ b2) = combine a1 b1 ++ combine a2 b2.
Proof.
  revert b1. induction a1 as [|x a1 IH]; intros [|y b1] H; try discriminate; [reflexivity|].
  cbn. now rewrite IH by (now injection H).
Qed.
Lemma combine_map_r {A B C} (g : B -> C) (a : list A) (b : list B) :
  combine a (map g b) = map (fun p => (fst p, g (snd p))) (combine a b).
Proof. revert b; induction a as [|x a IH]; intros [|y b]; cbn; try reflexivity. now rewrite IH. Qed.
Lemma combine_flat_map {A B C} (f : A -> list B) (g : A -> list C) l :
  (forall x, In x l -> length (f x) = length (g x)) ->
  combine (flat_map f l) (flat_map g l) = flat_map (fun x => combine (f x) (g x)) l.
Proof.
  induction l as [|x l IH]; intros H; [reflexivity|]. cbn [flat_map].
  rewrite combine_app by (apply H; now left). now rewrite IH by (intros; apply H; now right).
Qed.
Lemma map_flat_map {A B C} (g : B -> C) (f : A -> list B) l :
  map g (flat_map f l) = flat_map (fun x => map g (f x)) l.
Proof. induction l as [|x l IH]; [reflexivity|]. cbn. now rewrite map_app, IH. Qed.
Lemma flat_map_app_perm {A B} (f g : A -> list B) l :
  Permutation (flat_map (fun x => f x ++ g x) l) (flat_map f l ++ flat_map g l).
Proof.
  induction l as [|x l IH]; [constructor|]. cbn [flat_map]. rewrite IH, <- !app_assoc.
  apply Permutation_app_head. rewrite !app_assoc. apply Permutation_app_tail. apply Permutation_app_comm.
Qed.
Lemma flat_map_ext_in {A B} (f g : A -> list B) l : (forall x, In x l -> f x = g x) -> flat_map f l = flat_map g l.
Proof.
  induction l as [|x l IH]; intros H; [reflexivity|]. cbn. rewrite H by now left. f_equal. apply IH. intros; apply H; now right.
Qed.
Lemma flat_map_perm {A B} (f g : A -> list B) l : (forall x, In x l -> Permutation (f x) (g x)) ->
  Permutation (flat_map f l) (flat_map g l).
Proof.
  induction l as [|x l IH]; intros H; [constructor|]. cbn. apply Permutation_app; [apply H; now left|].
  apply IH. intros; apply H; now right.
Qed.

Section Apply.
  Context {F : Type} {N : Num F} {L : RingLaws F} {St : Type}.
  Local Open Scope num_scope.
  Notation row := (vec F).
  Notation dset := (ds F St).
  Notation rec := (rec F St).
  Variable s_natoms : St -> list nat.
  Variables (fe : St -> row) (ff fs : St -> list row).
  Variables (weight_e : F -> F -> nat -> F) (weight_f weight_s : F -> F) (weight_stress min_e : F).
  Notation shaped := (shaped ff fs s_natoms).
  Notation apply_weights := (apply_weights weight_e weight_f weight_s).

  (** Rows of one data set. *)
  Definition rowsE (p : dset * list rec) : list row := map (fun r => fe (r_structure r)) (snd p).
  Definition rowsS (p : dset * list rec) : list row :=
    if ds_force (fst p) then flat_map (fun r => fs (r_structure r)) (snd p) else [].
  Definition rowsF (p : dset * list rec) : list row :=
    if ds_force (fst p) then flat_map (fun r => ff (r_structure r)) (snd p) else [].
  Definition ptsE (p : dset * list rec) : list (point F) :=
    flat_map (energy_points fe weight_e min_e (ds_weight (fst p))) (snd p).
  Definition ptsS (p : dset * list rec) : list (point F) :=
    if ds_force (fst p)
    then flat_map (stress_points fs weight_s weight_stress (ds_weight (fst p)) (ds_stress (fst p))) (snd p) else [].
  Definition ptsF (p : dset * list rec) : list (point F) :=
    if ds_force (fst p) then flat_map (force_points ff weight_f (ds_weight (fst p))) (snd p) else [].

  Lemma ptsE_weighted p : 
    let es := map r_energy (snd p) in
    let we := map (fun q => weight_e min_e (fst q) (snd q) * ds_weight (fst p)) (combine es (map r_natom (snd p))) in
    weighted (map (fun q => scale_row (fst q) (snd q)) (combine we (rowsE p))) (times we es) we (ptsE p).
  Proof.
    intros es we.
    replace (ptsE p) with (map (fun q => mk_point (fst (fst q)) (snd (fst q)) (snd q)) (combine (combine (rowsE p) es) we)).
    - apply weighted_mul; unfold we, es, rowsE; rewrite ?map_length, ?combine_length, ?map_length; lia.
    - unfold we, es, rowsE, ptsE, energy_points. induction (snd p) as [|r rs IH]; [reflexivity|].
      cbn [map combine flat_map app fst snd]. f_equal. exact IH.
  Qed.

  Lemma combine_map_pt (rows : list row) vals (g : F -> F) : length vals = length rows ->
    map (fun q => mk_point (fst (fst q)) (snd (fst q)) (snd q)) (combine (combine rows vals) (map g vals))
    = map (fun q => mk_point (fst q) (snd q) (g (snd q))) (combine rows vals).
  Proof.
    revert vals; induction rows as [|r rows IH]; intros [|v vals] H; try discriminate; [reflexivity|].
    cbn. f_equal. apply IH. now injection H.
  Qed.

  Lemma ptsF_weighted p : Forall shaped (snd p) -> ds_force (fst p) = true ->
    let fo := flat_map r_force (snd p) in
    let wf := map (fun v => weight_f v * ds_weight (fst p)) fo in
    weighted (map (fun q => scale_row (fst q) (snd q)) (combine wf (rowsF p))) (times wf fo) wf (ptsF p).
  Proof.
    intros H Hf fo wf.
    assert (LF : length fo = length (rowsF p)).
    { unfold fo, rowsF. rewrite Hf. induction H as [|r rs [[_ [H1 _]] [_ [H2 _]]] _ IH]; [reflexivity|].
      cbn [flat_map]. rewrite !app_length, IH, H1, H2. reflexivity. }
    replace (ptsF p) with (map (fun q => mk_point (fst (fst q)) (snd (fst q)) (snd q)) (combine (combine (rowsF p) fo) wf)).
    - apply weighted_mul; [exact LF|]. unfold wf. rewrite map_length. exact LF.
    - unfold wf. rewrite combine_map_pt by exact LF. unfold fo, rowsF, ptsF. rewrite Hf.
      rewrite combine_flat_map.
      + rewrite map_flat_map. reflexivity.
      + intros r Hr. rewrite Forall_forall in H. destruct (H r Hr) as [[_ [H1 _]] [_ [H2 _]]]. congruence.
  Qed.

  Lemma rowsS_length p : Forall shaped (snd p) -> ds_force (fst p) = true ->
    length (rowsS p) = length (flat_map r_stress (snd p)).
  Proof.
    intros H Hf. unfold rowsS. rewrite Hf. induction H as [|r rs [[_ [_ H1]] [_ [_ H2]]] _ IH]; [reflexivity|].
    cbn [flat_map]. rewrite !app_length, IH, H1, H2. reflexivity.
  Qed.
  Lemma rowsF_length p : Forall shaped (snd p) -> ds_force (fst p) = true ->
    length (rowsF p) = length (flat_map r_force (snd p)).
  Proof.
    intros H Hf. unfold rowsF. rewrite Hf. induction H as [|r rs [[_ [H1 _]] [_ [H2 _]]] _ IH]; [reflexivity|].
    cbn [flat_map]. rewrite !app_length, IH, H1, H2. reflexivity.
  Qed.

  Lemma ptsS_weighted p : Forall shaped (snd p) -> ds_force (fst p) = true -> ds_stress (fst p) = true ->
    let ss := flat_map r_stress (snd p) in
    let ws := map (fun v => weight_s v * (weight_stress * ds_weight (fst p))) ss in
    weighted (map (fun q => scale_row (fst q) (snd q)) (combine ws (rowsS p))) (times ws ss) ws (ptsS p).
  Proof.
    intros H Hf Hs ss ws.
    assert (LF : length ss = length (rowsS p)) by (symmetry; now apply rowsS_length).
    replace (ptsS p) with (map (fun q => mk_point (fst (fst q)) (snd (fst q)) (snd q)) (combine (combine (rowsS p) ss) ws)).
    - apply weighted_mul; [exact LF|]. unfold ws. rewrite map_length. exact LF.
    - unfold ws. rewrite combine_map_pt by exact LF. unfold ss, rowsS, ptsS. rewrite Hf.
      rewrite combine_flat_map.
      + rewrite map_flat_map. unfold stress_points. rewrite Hs. reflexivity.
      + intros r Hr. rewrite Forall_forall in H. destruct (H r Hr) as [[_ [_ H1]] [_ [_ H2]]]. congruence.
  Qed.
  Lemma ptsS_zero p (xs : list row) (ys ws : list F) : Forall shaped (snd p) -> ds_force (fst p) = true -> ds_stress (fst p) = false ->
    length xs = length (rowsS p) -> length ys = length (rowsS p) -> length ws = length (rowsS p) ->
    weighted (map (fun _ _ => 0) xs) (map (fun _ => 0) ys) (map (fun _ => 0) ws) (ptsS p).
  Proof.
    intros H Hf Hs L1 L2 L3.
    replace (ptsS p) with (map (fun q => mk_point (fst q) (snd q) 0) (combine (rowsS p) (flat_map r_stress (snd p)))).
    - apply weighted_zero; try assumption. symmetry. now apply rowsS_length.
    - unfold rowsS, ptsS. rewrite Hf. rewrite combine_flat_map.
      + rewrite map_flat_map. unfold stress_points. rewrite Hs. reflexivity.
      + intros r Hr. rewrite Forall_forall in H. destruct (H r Hr) as [[_ [_ H1]] [_ [_ H2]]]. congruence.
  Qed.

  (** One data set inside a larger matrix. *)
  Lemma apply_weights_spec p (e1 e2 s1 s2 f1 f2 : list row) ye1 ye ye2 ys1 ys ys2 yf1 yf yf2 we1 we we2 ws1 ws ws2 wf1 wf wf2 eb fb sb :
    holds (fst p) (snd p) -> Forall shaped (snd p) -> (ds_stress (fst p) = true -> ds_force (fst p) = true) ->
    length ye1 = length e1 -> length ye = length (rowsE p) -> length ye2 = length e2 ->
    length ys1 = length s1 -> length ys = length (rowsS p) -> length ys2 = length s2 ->
    length yf1 = length f1 -> length yf = length (rowsF p) -> length yf2 = length f2 ->
    length we1 = length e1 -> length we = length (rowsE p) -> length we2 = length e2 ->
    length ws1 = length s1 -> length ws = length (rowsS p) -> length ws2 = length s2 ->
    length wf1 = length f1 -> length wf = length (rowsF p) -> length wf2 = length f2 ->
    eb = length e1 ->
    (ds_force (fst p) = true -> sb = Z.of_nat (length e1 + length (rowsE p) + length e2 + length s1)%nat /\
       fb = Z.of_nat (length e1 + length (rowsE p) + length e2 + (length s1 + length (rowsS p) + length s2) + length f1)%nat) ->
    exists xE yE wE xS yS wS xF yF wF,
      apply_weights ((e1 ++ rowsE p ++ e2) ++ (s1 ++ rowsS p ++ s2) ++ (f1 ++ rowsF p ++ f2),
                     (ye1 ++ ye ++ ye2) ++ (ys1 ++ ys ++ ys2) ++ (yf1 ++ yf ++ yf2),
                     (we1 ++ we ++ we2) ++ (ws1 ++ ws ++ ws2) ++ (wf1 ++ wf ++ wf2))
                    (fst p) (eb, fb, sb) weight_stress min_e
      = Ok ((e1 ++ xE ++ e2) ++ (s1 ++ xS ++ s2) ++ (f1 ++ xF ++ f2),
            (ye1 ++ yE ++ ye2) ++ (ys1 ++ yS ++ ys2) ++ (yf1 ++ yF ++ yf2),
            (we1 ++ wE ++ we2) ++ (ws1 ++ wS ++ ws2) ++ (wf1 ++ wF ++ wf2)) /\
      weighted xE yE wE (ptsE p) /\ weighted xS yS wS (ptsS p) /\ weighted xF yF wF (ptsF p).
  Proof.
    intros [els [ef [es Hd]]] Hsh Hsf A1 A2 A3 A4 A5 A6 A7 A8 A9 B1 B2 B3 B4 B5 B6 B7 B8 B9 -> Hb.
    unfold apply_weights, Regress.apply_weights, get_dft. rewrite Hd. cbn [bind].
    cbn [layout energies total_n_atoms forces stresses].
    pose proof (ptsE_weighted p) as PE. cbn zeta in PE.
    set (wgt := map (fun q => weight_e min_e (fst q) (snd q) * ds_weight (fst p)) (combine (map r_energy (snd p)) (map r_natom (snd p)))) in *.
    assert (Lw : length wgt = length (rowsE p)).
    { unfold wgt, rowsE. rewrite !map_length, combine_length, !map_length. lia. }
    assert (LE : length (map r_energy (snd p)) = length (rowsE p)) by (unfold rowsE; now rewrite !map_length).
    assert (Lt : length (times wgt (map r_energy (snd p))) = length (rowsE p)).
    { unfold times. rewrite map_length, combine_length. lia. }
    rewrite LE.
    rewrite <- (app_assoc we1), <- (app_assoc we).
    rewrite (set_slice_mid we1 we) by (rewrite ?B1, ?B2, ?Lw; reflexivity). cbn [bind].
    rewrite <- (app_assoc ye1), <- (app_assoc ye).
    rewrite (set_slice_mid ye1 ye) by (rewrite ?A1, ?A2, ?Lt; reflexivity). cbn [bind].
    rewrite <- (app_assoc e1), <- (app_assoc (rowsE p)).
    unfold mul_slice at 1. rewrite (slice_mid e1 (rowsE p)) by reflexivity.
    set (xE := map (fun q => scale_row (fst q) (snd q)) (combine wgt (rowsE p))) in *.
    assert (LxE : length xE = length (rowsE p)) by (unfold xE; rewrite map_length, combine_length; lia).
    rewrite (set_slice_mid e1 (rowsE p)) by (rewrite ?LxE; reflexivity). cbn [bind].
    exists xE, (times wgt (map r_energy (snd p))), wgt.
    destruct (ds_force (fst p)) eqn:Hf.
    2:{ destruct (ds_stress (fst p)) eqn:Hs; [specialize (Hsf eq_refl); discriminate|].
        cbn [bind andb negb].
        assert (ES : rowsS p = []) by (unfold rowsS; now rewrite Hf).
        assert (EF : rowsF p = []) by (unfold rowsF; now rewrite Hf).
        assert (PS : ptsS p = []) by (unfold ptsS; now rewrite Hf).
        assert (PF : ptsF p = []) by (unfold ptsF; now rewrite Hf).
        rewrite ES, EF in *. destruct ys; [|discriminate]. destruct yf; [|discriminate].
        destruct ws; [|discriminate]. destruct wf; [|discriminate].
        exists [], [], [], [], [], []. rewrite PS, PF. split; [|split; [exact PE|split; apply weighted_nil]].
        rewrite <- !app_assoc. reflexivity. }
    destruct (Hb eq_refl) as [Hsb Hfb]. rewrite Hsb, Hfb, !Nat2Z.id.
    pose proof (ptsF_weighted p Hsh Hf) as PF. cbn zeta in PF.
    pose proof (rowsF_length p Hsh Hf) as LF. pose proof (rowsS_length p Hsh Hf) as LS.
    set (wgf := map (fun v => weight_f v * ds_weight (fst p)) (flat_map r_force (snd p))) in *.
    assert (Lwf : length wgf = length (rowsF p)) by (unfold wgf; now rewrite map_length).
    assert (Ltf : length (times wgf (flat_map r_force (snd p))) = length (rowsF p)).
    { unfold times. rewrite map_length, combine_length. lia. }
    set (xF := map (fun q => scale_row (fst q) (snd q)) (combine wgf (rowsF p))) in *.
    assert (LxF : length xF = length (rowsF p)) by (unfold xF; rewrite map_length, combine_length; lia).
    rewrite <- LF, <- LS.
    (* forces *)
    replace (we1 ++ wgt ++ we2 ++ (ws1 ++ ws ++ ws2) ++ wf1 ++ wf ++ wf2)
      with ((we1 ++ wgt ++ we2 ++ ws1 ++ ws ++ ws2 ++ wf1) ++ wf ++ wf2) by (rewrite <- !app_assoc; reflexivity).
    rewrite set_slice_mid by (rewrite ?app_length, ?app_length; lia). cbn [bind].
    replace (ye1 ++ times wgt (map r_energy (snd p)) ++ ye2 ++ (ys1 ++ ys ++ ys2) ++ yf1 ++ yf ++ yf2)
      with ((ye1 ++ times wgt (map r_energy (snd p)) ++ ye2 ++ ys1 ++ ys ++ ys2 ++ yf1) ++ yf ++ yf2) by (rewrite <- !app_assoc; reflexivity).
    rewrite set_slice_mid by (rewrite ?app_length, ?app_length; lia). cbn [bind].
    replace (e1 ++ xE ++ e2 ++ (s1 ++ rowsS p ++ s2) ++ f1 ++ rowsF p ++ f2)
      with ((e1 ++ xE ++ e2 ++ s1 ++ rowsS p ++ s2 ++ f1) ++ rowsF p ++ f2) by (rewrite <- !app_assoc; reflexivity).
    unfold mul_slice at 1.
    rewrite (slice_mid (e1 ++ xE ++ e2 ++ s1 ++ rowsS p ++ s2 ++ f1) (rowsF p)) by (rewrite ?app_length, ?app_length; lia).
    fold xF.
    rewrite set_slice_mid by (rewrite ?app_length, ?app_length; lia). cbn [bind].
    (* stresses *)
    replace ((we1 ++ wgt ++ we2 ++ ws1 ++ ws ++ ws2 ++ wf1) ++ wgf ++ wf2)
      with ((we1 ++ wgt ++ we2 ++ ws1) ++ ws ++ (ws2 ++ wf1 ++ wgf ++ wf2)) by (rewrite <- !app_assoc; reflexivity).
    replace ((ye1 ++ times wgt (map r_energy (snd p)) ++ ye2 ++ ys1 ++ ys ++ ys2 ++ yf1) ++ times wgf (flat_map r_force (snd p)) ++ yf2)
      with ((ye1 ++ times wgt (map r_energy (snd p)) ++ ye2 ++ ys1) ++ ys ++ (ys2 ++ yf1 ++ times wgf (flat_map r_force (snd p)) ++ yf2))
      by (rewrite <- !app_assoc; reflexivity).
    replace ((e1 ++ xE ++ e2 ++ s1 ++ rowsS p ++ s2 ++ f1) ++ xF ++ f2)
      with ((e1 ++ xE ++ e2 ++ s1) ++ rowsS p ++ (s2 ++ f1 ++ xF ++ f2)) by (rewrite <- !app_assoc; reflexivity).
    destruct (ds_stress (fst p)) eqn:Hs.
    - pose proof (ptsS_weighted p Hsh Hf Hs) as PS. cbn zeta in PS.
      set (wgs := map (fun v => weight_s v * (weight_stress * ds_weight (fst p))) (flat_map r_stress (snd p))) in *.
      assert (Lws : length wgs = length (rowsS p)) by (unfold wgs; now rewrite map_length).
      assert (Lts : length (times wgs (flat_map r_stress (snd p))) = length (rowsS p)).
      { unfold times. rewrite map_length, combine_length. lia. }
      set (xS := map (fun q => scale_row (fst q) (snd q)) (combine wgs (rowsS p))) in *.
      assert (LxS : length xS = length (rowsS p)) by (unfold xS; rewrite map_length, combine_length; lia).
      rewrite set_slice_mid by (rewrite ?app_length, ?app_length; lia). cbn [bind].
      rewrite set_slice_mid by (rewrite ?app_length, ?app_length; lia). cbn [bind].
      unfold mul_slice at 1.
      rewrite (slice_mid (e1 ++ xE ++ e2 ++ s1) (rowsS p)) by (rewrite ?app_length, ?app_length; lia).
      fold xS.
      rewrite set_slice_mid by (rewrite ?app_length, ?app_length; lia). cbn [bind andb negb].
      exists xS, (times wgs (flat_map r_stress (snd p))), wgs, xF, (times wgf (flat_map r_force (snd p))), wgf.
      split; [|split; [exact PE|split; [exact PS|exact PF]]].
      rewrite <- !app_assoc. reflexivity.
    - cbn [bind andb negb].
      rewrite (slice_mid (e1 ++ xE ++ e2 ++ s1) (rowsS p)) by (rewrite ?app_length, ?app_length; lia).
      rewrite (slice_mid (ye1 ++ times wgt (map r_energy (snd p)) ++ ye2 ++ ys1) ys) by (rewrite ?app_length, ?app_length; lia).
      rewrite (slice_mid (we1 ++ wgt ++ we2 ++ ws1) ws) by (rewrite ?app_length, ?app_length; lia).
      rewrite set_slice_mid by (rewrite ?map_length, ?app_length, ?app_length; lia). cbn [bind].
      rewrite set_slice_mid by (rewrite ?map_length, ?app_length, ?app_length; lia). cbn [bind].
      rewrite set_slice_mid by (rewrite ?map_length, ?app_length, ?app_length; lia). cbn [bind].
      exists (map (fun _ _ => 0) (rowsS p)), (map (fun _ => 0) ys), (map (fun _ => 0) ws), xF, (times wgf (flat_map r_force (snd p))), wgf.
      split; [|split; [exact PE|split; [|exact PF]]].
      + rewrite <- !app_assoc. reflexivity.
      + apply ptsS_zero; auto.
  Qed.

  (** The whole loop of [calc_xy]. *)
  Fixpoint firsts_from (e s f : nat) (ps : list (dset * list rec)) : list (nat * Z * Z) :=
    match ps with
    | [] => []
    | p :: t =>
        (if ds_force (fst p) then (e, Z.of_nat f, Z.of_nat s) else (e, (-1)%Z, (-1)%Z))
        :: firsts_from (e + length (rowsE p)) (s + length (rowsS p)) (f + length (rowsF p)) t
    end.

  Definition ds_ok (p : dset * list rec) : Prop :=
    holds (fst p) (snd p) /\ Forall shaped (snd p) /\ (ds_stress (fst p) = true -> ds_force (fst p) = true).

  Lemma weights_loop_spec ps : forall e1 s1 f1 ye1 ys1 yf1 we1 ws1 wf1 TE TS TF yE yS yF wE wS wF,
    Forall ds_ok ps ->
    weighted e1 ye1 we1 TE -> weighted s1 ys1 ws1 TS -> weighted f1 yf1 wf1 TF ->
    length yE = length (flat_map rowsE ps) -> length yS = length (flat_map rowsS ps) -> length yF = length (flat_map rowsF ps) ->
    length wE = length (flat_map rowsE ps) -> length wS = length (flat_map rowsS ps) -> length wF = length (flat_map rowsF ps) ->
    let nE := (length e1 + length (flat_map rowsE ps))%nat in
    let nS := (length s1 + length (flat_map rowsS ps))%nat in
    exists x y w,
      weights_loop weight_e weight_f weight_s weight_stress min_e (map fst ps)
        (firsts_from (length e1) (nE + length s1) (nE + nS + length f1) ps)
        ((e1 ++ flat_map rowsE ps) ++ (s1 ++ flat_map rowsS ps) ++ (f1 ++ flat_map rowsF ps),
         (ye1 ++ yE) ++ (ys1 ++ yS) ++ (yf1 ++ yF), (we1 ++ wE) ++ (ws1 ++ wS) ++ (wf1 ++ wF))
      = Ok (x, y, w) /\
      weighted x y w ((TE ++ flat_map ptsE ps) ++ (TS ++ flat_map ptsS ps) ++ (TF ++ flat_map ptsF ps)).
  Proof.
    induction ps as [|p ps IH]; intros e1 s1 f1 ye1 ys1 yf1 we1 ws1 wf1 TE TS TF yE yS yF wE wS wF Hok HE HS HF
      LE LS LF MS1 MS2 MS3 nE nS.
    - cbn [flat_map length] in *. destruct yE; [|discriminate]. destruct yS; [|discriminate]. destruct yF; [|discriminate].
      destruct wE; [|discriminate]. destruct wS; [|discriminate]. destruct wF; [|discriminate].
      rewrite !app_nil_r. eexists _, _, _. split; [reflexivity|].
      apply weighted_app; [exact HE|]. apply weighted_app; assumption.
    - inversion Hok as [|? ? [Hp1 [Hp2 Hp3]] Hps]; subst.
      cbn [flat_map] in *. rewrite app_length in LE, LS, LF, MS1, MS2, MS3.
      pose proof (weighted_length _ _ _ _ HE) as [W1 [W2 W3]].
      pose proof (weighted_length _ _ _ _ HS) as [W4 [W5 W6]].
      pose proof (weighted_length _ _ _ _ HF) as [W7 [W8 W9]].
      set (a := firstn (length (rowsE p)) yE). set (a' := skipn (length (rowsE p)) yE).
      set (b := firstn (length (rowsS p)) yS). set (b' := skipn (length (rowsS p)) yS).
      set (c := firstn (length (rowsF p)) yF). set (c' := skipn (length (rowsF p)) yF).
      set (d := firstn (length (rowsE p)) wE). set (d' := skipn (length (rowsE p)) wE).
      set (g := firstn (length (rowsS p)) wS). set (g' := skipn (length (rowsS p)) wS).
      set (h := firstn (length (rowsF p)) wF). set (h' := skipn (length (rowsF p)) wF).
      assert (Ea : yE = a ++ a') by (symmetry; apply firstn_skipn).
      assert (Eb : yS = b ++ b') by (symmetry; apply firstn_skipn).
      assert (Ec : yF = c ++ c') by (symmetry; apply firstn_skipn).
      assert (Ed : wE = d ++ d') by (symmetry; apply firstn_skipn).
      assert (Eg : wS = g ++ g') by (symmetry; apply firstn_skipn).
      assert (Eh : wF = h ++ h') by (symmetry; apply firstn_skipn).
      assert (La : length a = length (rowsE p)) by (unfold a; rewrite firstn_length; lia).
      assert (Lb : length b = length (rowsS p)) by (unfold b; rewrite firstn_length; lia).
      assert (Lc : length c = length (rowsF p)) by (unfold c; rewrite firstn_length; lia).
      assert (Ld : length d = length (rowsE p)) by (unfold d; rewrite firstn_length; lia).
      assert (Lg : length g = length (rowsS p)) by (unfold g; rewrite firstn_length; lia).
      assert (Lh : length h = length (rowsF p)) by (unfold h; rewrite firstn_length; lia).
      assert (La' : length a' = length (flat_map rowsE ps)) by (unfold a'; rewrite skipn_length; lia).
      assert (Lb' : length b' = length (flat_map rowsS ps)) by (unfold b'; rewrite skipn_length; lia).
      assert (Lc' : length c' = length (flat_map rowsF ps)) by (unfold c'; rewrite skipn_length; lia).
      assert (Ld' : length d' = length (flat_map rowsE ps)) by (unfold d'; rewrite skipn_length; lia).
      assert (Lg' : length g' = length (flat_map rowsS ps)) by (unfold g'; rewrite skipn_length; lia).
      assert (Lh' : length h' = length (flat_map rowsF ps)) by (unfold h'; rewrite skipn_length; lia).
      rewrite Ea, Eb, Ec, Ed, Eg, Eh. clear LE LS LF MS1 MS2 MS3.
      clearbody a a' b b' c c' d d' g g' h h'. clear Ea Eb Ec Ed Eg Eh yE yS yF wE wS wF.
      cbn [map firsts_from weights_loop].
      set (fi := if ds_force (fst p) then _ else _).
      edestruct (apply_weights_spec p e1 (flat_map rowsE ps) s1 (flat_map rowsS ps) f1 (flat_map rowsF ps)
                  ye1 a a' ys1 b b' yf1 c c' we1 d d' ws1 g g' wf1 h h'
                  (length e1) (snd (fst fi)) (snd fi))
        as [xE [yE [wE [xS [yS [wS [xF [yF [wF [EQ [QE [QS QF]]]]]]]]]]]];
        [exact Hp1|exact Hp2|exact Hp3|lia|lia|lia|lia|lia|lia|lia|lia|lia|lia|lia|lia|lia|lia|lia|lia|lia|lia|reflexivity| |].
      { intros Hf. unfold fi. rewrite Hf. cbn [fst snd]. unfold nE, nS. rewrite !app_length. split; f_equal; lia. }
      assert (EF : fi = (length e1, snd (fst fi), snd fi)) by (unfold fi; destruct (ds_force (fst p)); reflexivity).
      rewrite EF. rewrite EQ. cbn [bind]. clear EQ EF fi.
      pose proof (weighted_length _ _ _ _ QE) as [V1 [V2 V3]].
      pose proof (weighted_length _ _ _ _ QS) as [V4 [V5 V6]].
      pose proof (weighted_length _ _ _ _ QF) as [V7 [V8 V9]].
      assert (LxE : length xE = length (rowsE p)).
      { rewrite V1. unfold ptsE, rowsE. rewrite map_length. clear. induction (snd p); cbn; congruence. }
      assert (LxS : length xS = length (rowsS p)).
      { rewrite V4. unfold ptsS, rowsS. destruct (ds_force (fst p)); [|reflexivity]. clear -Hp2.
        induction Hp2 as [|r rs [[_ [_ H1]] [_ [_ H2]]] _ IH]; [reflexivity|]. cbn [flat_map].
        rewrite !app_length, IH. unfold stress_points at 1. rewrite map_length, combine_length, H1, H2. lia. }
      assert (LxF : length xF = length (rowsF p)).
      { rewrite V7. unfold ptsF, rowsF. destruct (ds_force (fst p)); [|reflexivity]. clear -Hp2.
        induction Hp2 as [|r rs [[_ [H1 _]] [_ [H2 _]]] _ IH]; [reflexivity|]. cbn [flat_map].
        rewrite !app_length, IH. unfold force_points at 1. rewrite map_length, combine_length, H1, H2. lia. }
      destruct (IH (e1 ++ xE) (s1 ++ xS) (f1 ++ xF) (ye1 ++ yE) (ys1 ++ yS) (yf1 ++ yF) (we1 ++ wE) (ws1 ++ wS) (wf1 ++ wF)
                   (TE ++ ptsE p) (TS ++ ptsS p) (TF ++ ptsF p) a' b' c' d' g' h' Hps
                   ltac:(apply weighted_app; assumption) ltac:(apply weighted_app; assumption) ltac:(apply weighted_app; assumption)
                   La' Lb' Lc' Ld' Lg' Lh') as [x [y [w [EQ QQ]]]].
      exists x, y, w. split.
      + rewrite <- EQ. f_equal.
        * rewrite !app_length, LxE, LxS, LxF. unfold nE, nS. rewrite !app_length. f_equal; lia.
        * rewrite <- !app_assoc. reflexivity.
      + repeat rewrite <- app_assoc in QQ. repeat rewrite <- app_assoc. exact QQ.
  Qed.

  (** Observations, data set by data set. *)
  Lemma pts_perm ps :
    Permutation (flat_map ptsE ps ++ flat_map ptsS ps ++ flat_map ptsF ps)
                (points fe ff fs weight_e weight_f weight_s weight_stress min_e ps).
  Proof.
    unfold points. transitivity (flat_map (fun p => ptsE p ++ (ptsS p ++ ptsF p)) ps).
    - symmetry. rewrite (flat_map_app_perm ptsE (fun p => ptsS p ++ ptsF p)). apply Permutation_app_head, flat_map_app_perm.
    - apply flat_map_perm. intros p _. unfold ptsE, ptsS, ptsF, record_points. destruct (ds_force (fst p)).
      + symmetry. rewrite flat_map_app_perm. apply Permutation_app_head, flat_map_app_perm.
      + rewrite !app_nil_r. apply Permutation_refl'. apply flat_map_ext. intros r. now rewrite app_nil_r.
  Qed.
End Apply.
