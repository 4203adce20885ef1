(** C73: thermodynamic data are put on the grid of volumes and temperatures that all data sets share, and grids are added point by point. *)
From Verif Require Import Base Num Model.Structure Model.ThermoGrid Spec.ThermoGrid Proofs.ThermoGrid.
From Coq Require Import QArith Qabs Lqa Lia Qcanon Field.
Local Open Scope nat_scope.

Section C73.
  Context {F : Type} {N : Num F} {A P : Type}.
  Notation datum := (@datum F A P).
  Notation gpoint := (@gpoint F A P).
  Notation grid := (@grid F A P).
  Variable d : nat.

  (** A datum with a free energy *)
  Definition usable (x : datum) : Prop := v_free (d_vals x) <> None.
  Definition shown (x : datum) : gpoint := mk_gp (Some (d_volume x, d_temp x)) (d_vals x).
  (** The point of a volume and a temperature: temperatures of the grid are integers. *)
  Definition at_point (v t : Z) (x : datum) : Prop := rounds d (d_volume x) v /\ rounds d (d_temp x) (t * 10 ^ Z.of_nat d).
  Definition on_grid (vs ts : list Z) (D : list datum) (g : grid) : Prop :=
    g_volumes g = vs /\ g_temps g = ts /\
    (forall i j v t, nth_error vs i = Some v -> nth_error ts j = Some t ->
      (exists x, last_with (at_point v t) D x /\ cell g i j = Some (shown x)) \/
      ((forall x, In x D -> ~ at_point v t x) /\ cell g i j = Some empty_point)) /\
    (forall i j, length vs <= i \/ length ts <= j -> cell g i j = None).

  Lemma rounds0 q t : rounds 0 q t <-> rint q = t.
  Proof.
    assert (E : forall v : Z, (Qabs (q * inject_Z (10 ^ Z.of_nat 0) - inject_Z v) == Qabs (q - inject_Z v))%Q) by (intros v; apply Qabs_wd; cbn; ring).
    pose proof (rint_spec q) as R. unfold rounds. cbv zeta. setoid_rewrite E. split; [|intros <-; exact R].
    intros H. destruct (Z.lt_trichotomy (rint q) t) as [L|[L|L]]; [|exact L|].
    - exfalso. exact (nearest_unique _ _ _ R H L).
    - exfalso. exact (nearest_unique _ _ _ H R L).
  Qed.
  Lemma usable_true x : usable x <-> has_free x = true.
  Proof. unfold usable, has_free. destruct (v_free (d_vals x)); split; congruence. Qed.
  Lemma cnt_at_least f k n (D : list datum) : at_least n (fun x => usable x /\ f x = k) D <-> n <= cnt f k D.
  Proof.
    unfold cnt. rewrite <- at_least_filter. apply at_least_ext. intros x. rewrite usable_true, andb_true_iff, Z.eqb_eq. reflexivity.
  Qed.
  Lemma here_point vs ts i j v t (x : datum) : nth_error vs i = Some v -> nth_error ts j = Some t -> here d vs ts i j x <-> at_point v t x.
  Proof.
    intros Hv Ht. unfold here, at_point. rewrite rounds_key, rounds_key, Hv, Ht. unfold volk. split.
    - intros [E1 [t' [E2 E3]]]. injection E1 as <-. injection E2 as <-. now split.
    - intros [<- E]. split; [reflexivity|]. exists t. now split.
  Qed.
  Lemma cell_out vs ts (D : list datum) i j : length vs <= i \/ length ts <= j -> cell (grid_data d vs ts D) i j = None.
  Proof.
    intros H. rewrite cell_entry. destruct (entry (g_cells (grid_data d vs ts D)) i j) as [r|] eqn:E; [|reflexivity]. exfalso.
    destruct (cells_shape d vs ts D) as [S1 S2]. unfold entry in E. destruct (nth_error (g_cells (grid_data d vs ts D)) i) as [row|] eqn:R; [|discriminate].
    assert (i < length (g_cells (grid_data d vs ts D))) by (apply nth_error_Some; congruence).
    assert (j < length row) by (apply nth_error_Some; congruence). rewrite (S2 row) in H1 by now apply nth_error_In in R. lia.
  Qed.
  Lemma grid_data_on vs ts (D : list datum) : increasing vs -> increasing ts -> on_grid vs ts D (grid_data d vs ts D).
  Proof.
    intros Iv It. split; [reflexivity|]. split; [reflexivity|]. split; [|intros i j; apply cell_out]. intros i j v t Hv Ht.
    assert (Li : i < length vs) by (apply nth_error_Some; congruence). assert (Lj : j < length ts) by (apply nth_error_Some; congruence).
    destruct (grid_cell d vs ts (increasing_NoDup _ Iv) (increasing_NoDup _ It) D i j Li Lj) as [[x [[k [H1 [H2 H3]]] H4]]|[H1 H2]].
    - left. exists x. split; [|exact H4]. exists k. split; [exact H1|]. split; [now apply (here_point vs ts i j)|]. intros k' x' L E C. apply (H3 k' x' L E). now apply (here_point vs ts i j v t).
    - right. split; [|exact H2]. intros x Hx C. apply (H1 x Hx). now apply (here_point vs ts i j v t).
  Qed.

  (** ** Loading *)
  Definition sets (l : list (option (list datum))) : list (list datum) := flat_map (fun o => match o with Some x => [x] | None => [] end) l.
  Definition on_grid_opt vs ts (o : option (list datum)) (g : option grid) : Prop :=
    match o, g with Some D, Some g => on_grid vs ts D g | None, None => True | _, _ => False end.
  Theorem C73_grids n_require sscha electron ti ti_ext ele_ph :
    exists vs ts g1 g2 g3 g4 g5, load_grids d n_require sscha electron ti ti_ext ele_ph = Ok (g1, g2, g3, g4, g5) /\
      increasing vs /\ increasing ts /\
      (forall v, In v vs <-> forall D, In D (sets [Some sscha; electron; ti; ele_ph]) -> at_least (Nat.max 1 n_require) (fun x => usable x /\ rounds d (d_volume x) v) D) /\
      (forall t, In t ts <-> forall D, In D (sets [Some sscha; electron; ti; ele_ph]) -> at_least 1 (fun x => usable x /\ rounds 0 (d_temp x) t) D) /\
      on_grid vs ts sscha g1 /\ on_grid_opt vs ts electron g2 /\ on_grid_opt vs ts ti g3 /\ on_grid_opt vs ts ti_ext g4 /\ on_grid_opt vs ts ele_ph g5.
  Proof.
    destruct (common_grid_ok d n_require [Some sscha; electron; ti; ele_ph]) as [vs [ts [E [Iv [It [Hv Ht]]]]]]; [discriminate|].
    unfold load_grids. rewrite E. cbn [bind]. exists vs, ts. do 5 eexists. split; [reflexivity|]. split; [exact Iv|]. split; [exact It|].
    assert (GO : forall o, on_grid_opt vs ts o (match o with Some data => Some (grid_data d vs ts data) | None => None end)) by (intros [D|]; [now apply grid_data_on|exact I]).
    split; [|split; [|split; [now apply grid_data_on|repeat split; apply GO]]].
    - intros v. rewrite Hv. unfold sets, given. split; intros H D HD; specialize (H D HD).
      + rewrite (at_least_ext _ _ (fun x => usable x /\ volk d x = v)); [apply cnt_at_least; lia|]. intros x. unfold volk. now rewrite rounds_key.
      + rewrite (at_least_ext _ _ (fun x => usable x /\ volk d x = v)) in H; [apply cnt_at_least in H; lia|]. intros x. unfold volk. now rewrite rounds_key.
    - intros t. rewrite Ht. unfold sets, given. split; intros H D HD; specialize (H D HD).
      + rewrite (at_least_ext _ _ (fun x => usable x /\ tempk x = t)); [apply cnt_at_least; lia|]. intros x. unfold tempk. now rewrite rounds0.
      + rewrite (at_least_ext _ _ (fun x => usable x /\ tempk x = t)) in H; [apply cnt_at_least in H; lia|]. intros x. unfold tempk. now rewrite rounds0.
  Qed.
  (** Data whose temperature does not round to an integer are never on the grid. *)
  Theorem C73_fractional vs ts (D : list datum) g : on_grid vs ts D g -> (forall x, In x D -> forall t, ~ rounds d (d_temp x) (t * 10 ^ Z.of_nat d)) ->
    forall i j p, cell g i j = Some p -> p = empty_point.
  Proof.
    intros [_ [_ [H1 H2]]] HD i j p E.
    destruct (nth_error vs i) as [v|] eqn:Ev; [|apply nth_error_None in Ev; rewrite H2 in E by (now left); discriminate].
    destruct (nth_error ts j) as [t|] eqn:Et; [|apply nth_error_None in Et; rewrite H2 in E by (now right); discriminate].
    destruct (H1 i j v t Ev Et) as [[x [[k [K1 [[_ K2] _]]] _]]|[_ C]]; [|congruence].
    exfalso. exact (HD x (nth_error_In _ _ K1) t K2).
  Qed.

  (** ** Sums *)
  Definition value_at (a : attr) (g : grid) (i j : nat) : option F := match cell g i j with Some p => get_attr a (gp_vals p) | None => None end.
  Definition place_at (g : grid) (i j : nat) : option (Q * Q) := match cell g i j with Some p => gp_at p | None => None end.
  Variable close : Z -> Z -> bool.
  Hypothesis close_refl : forall x, close x x = true.

  Lemma allclose_refl l : allclose close l l = Ok true.
  Proof. unfold allclose. rewrite Nat.eqb_refl. f_equal. apply forallb_forall. intros [x y] H. cbn. assert (E : x = y); [|rewrite E; apply close_refl]. clear -H. induction l as [|a l IH]; cbn in H; [destruct H|]. destruct H as [[= <- <-]|H]; [reflexivity|now apply IH]. Qed.
  Section Sum.
    Variables (vs ts : list Z).
    Hypothesis Iv : increasing vs.
    Hypothesis It : increasing ts.
    Notation G D := (grid_data d vs ts D).
    Lemma fold_none (l : list (option F)) : fold_left add_single l None = None.
    Proof. induction l as [|x l IH]; [reflexivity|exact IH]. Qed.
    Lemma fold_sum (l : list (option F)) x : fold_left add_single l (Some x) = sum_from x l.
    Proof. revert x; induction l as [|[y|] l IH]; intros x; [reflexivity|apply IH|]. cbn. apply fold_none. Qed.
    Lemma fold_sum_all o (l : list (option F)) : fold_left add_single l o = sum_all (o :: l).
    Proof. destruct o; [apply fold_sum|apply fold_none]. Qed.
    Lemma in_range (D : list datum) (cells : list (list nat)) i j : shaped vs ts cells -> cell (G D) i j <> None -> exists r, entry cells i j = Some r.
    Proof.
      intros [S1 S2] H. assert (L : i < length vs /\ j < length ts).
      { destruct (Nat.lt_ge_cases i (length vs)) as [L1|L1]; [|exfalso; apply H, cell_out; now left]. destruct (Nat.lt_ge_cases j (length ts)) as [L2|L2]; [now split|exfalso; apply H, cell_out; now right]. }
      unfold entry. destruct (nth_error cells i) as [row|] eqn:R; [|apply nth_error_None in R; lia]. destruct (nth_error row j) as [r|] eqn:R2; [eauto|].
      apply nth_error_None in R2. rewrite (S2 row) in R2 by now apply nth_error_In in R. lia.
    Qed.
    Lemma sum_fold (Ds : list (list datum)) (g : grid) : shaped vs ts (g_cells g) -> (forall a, safe a g) ->
      exists S, foldM (fun acc g => foldM add_item acc (items g)) g (map (fun D => G D) Ds) = Ok S /\ g_volumes S = g_volumes g /\ g_temps S = g_temps g /\ g_cells S = g_cells g /\
        (forall i j, place_at S i j = place_at g i j) /\ forall a i j, i < length vs -> j < length ts -> value_at a S i j = fold_left add_single (map (fun D => value_at a (G D) i j) Ds) (value_at a g i j).
    Proof.
      revert g; induction Ds as [|D Ds IH]; intros g Sh Sf; cbn [map foldM]; [exists g; repeat split; reflexivity|].
      destruct (add_items (items (G D)) g (items_NoDup _)) as [g' [H1 [H2 [H3 [H4 [H5 [H6 H7]]]]]]].
      { intros [[i j] p] Hq. apply items_In in Hq. cbn [fst snd]. apply (in_range D); [exact Sh|]. congruence. }
      rewrite H1. cbn [bind]. destruct (IH g') as [S [I1 [I2 [I3 [I4 [I5 I6]]]]]].
      { now rewrite H4. }
      { intros a i j i' j' r E E' NE. rewrite H4 in E, E'. apply H6. exact (Sf a _ _ _ _ _ E E' NE). }
      exists S. split; [exact I1|]. split; [congruence|]. split; [congruence|]. split; [congruence|]. split.
      - intros i j. rewrite I5. unfold place_at. rewrite !cell_entry, H4. destruct (entry (g_cells g) i j) as [r|]; [apply H5|reflexivity].
      - intros a i j Li Lj. rewrite (I6 a i j Li Lj). cbn [fold_left]. f_equal.
        destruct (grid_cell d vs ts (increasing_NoDup _ Iv) (increasing_NoDup _ It) D i j Li Lj) as [[x [_ C]]|[_ C]];
          (destruct (in_range D (g_cells g) i j Sh ltac:(congruence)) as [r E]; unfold value_at; rewrite (cell_entry g), (cell_entry g'), H4, E, C;
           apply (H7 a (Sf a) i j r E); apply items_In; exact C).
    Qed.
    Theorem C73_sum (D0 : list datum) (Ds : list (list datum)) : exists S, sum_grids close (map (fun D => G D) (D0 :: Ds)) = Ok S /\ g_volumes S = vs /\ g_temps S = ts /\
      forall i j, i < length vs -> j < length ts -> place_at S i j = place_at (G D0) i j /\
        forall a, value_at a S i j = sum_all (map (fun D => value_at a (G D) i j) (D0 :: Ds)).
    Proof.
      assert (Sf : forall a, safe a (G D0)).
      { intros a i j i' j' r E E' NE. rewrite (shared_blank d vs ts (increasing_NoDup _ Iv) (increasing_NoDup _ It) D0 i j i' j' r E E' NE). now destruct a. }
      destruct (sum_fold Ds (G D0) (cells_shape d vs ts D0) Sf) as [S [H1 [H2 [H3 [_ [H4 H5]]]]]].
      assert (C : foldM (check_grid close (G D0)) tt (map (fun D => G D) Ds) = Ok tt).
      { clear -close_refl. induction Ds as [|D Ds IH]; [reflexivity|]. cbn [map foldM]. unfold check_grid at 1. cbn [g_volumes g_temps grid_data]. rewrite !allclose_refl. exact IH. }
      exists S. split; [|split; [exact H2|split; [exact H3|]]].
      - destruct Ds as [|D1 Ds']; [exact H1|]. unfold sum_grids. cbn [map] in C |- *. rewrite C. exact H1.
      - intros i j Li Lj. split; [apply H4|]. intros a. rewrite (H5 a i j Li Lj). cbn [map]. apply fold_sum_all.
    Qed.
    (** What is fitted at a temperature: the volumes where all contributions are there, with their sum. *)
    Lemma column_cells (g : grid) j : shaped vs ts (g_cells g) -> j < length ts -> column g j = flat_map (fun i => match cell g i j with Some p => [p] | None => [] end) (seq 0 (length vs)).
    Proof.
      intros [S1 S2] Lj. unfold column, cell. rewrite <- S1. clear S1.
      assert (K : forall l pre, g_cells g = pre ++ l -> flat_map (fun row => match nth_error row j with Some r => [g_store g r] | None => [] end) l =
        flat_map (fun i => match match nth_error (g_cells g) i with Some row => match nth_error row j with Some r => Some (g_store g r) | None => None end | None => None end with Some p => [p] | None => [] end) (seq (length pre) (length l))).
      { induction l as [|row l IH]; intros pre E; [reflexivity|]. cbn [flat_map length seq]. rewrite (IH (pre ++ [row])) by (now rewrite <- app_assoc). rewrite app_length, Nat.add_1_r. f_equal.
        rewrite E, nth_error_app2, Nat.sub_diag by lia. cbn. now destruct (nth_error row j). }
      apply (K (g_cells g) []). reflexivity.
    Qed.
    Theorem C73_fit_data (D0 : list datum) (Ds : list (list datum)) S a j t : sum_grids close (map (fun D => G D) (D0 :: Ds)) = Ok S -> nth_error ts j = Some t ->
      exists vols vals, nth_error (volumes_properties a S) j = Some (t, vols, vals) /\ length vols = length vals /\
        combine vols vals = flat_map (fun i => match sum_all (map (fun D => value_at a (G D) i j) (D0 :: Ds)) with
                                               | Some x => [(option_map fst (place_at (G D0) i j), x)] | None => [] end) (seq 0 (length vs)).
    Proof.
      intros E Ht. assert (Lj : j < length ts) by (apply nth_error_Some; congruence).
      destruct (C73_sum D0 Ds) as [S' [E' [HV [HT H]]]]. assert (S' = S) by congruence. subst S'.
      assert (Sh : shaped vs ts (g_cells S)).
      { assert (Sf : forall a, safe a (G D0)).
        { intros a' i j' i' j'' r X X' NE. rewrite (shared_blank d vs ts (increasing_NoDup _ Iv) (increasing_NoDup _ It) D0 i j' i' j'' r X X' NE). now destruct a'. }
        destruct (sum_fold Ds (G D0) (cells_shape d vs ts D0) Sf) as [S' [H1 [_ [_ [H2 _]]]]]. assert (S' = S).
        { destruct Ds as [|D1 Ds']; [cbn in E, H1; congruence|]. unfold sum_grids in E. cbn [map] in E. destruct (foldM (check_grid _ _) _ _); [|discriminate]. cbn [bind] in E. cbn [map] in H1. congruence. }
        subst S'. rewrite H2. apply cells_shape. }
      unfold volumes_properties. rewrite nth_error_map. rewrite HT.
      assert (EN : nth_error (enumerate ts) j = Some (j, t)).
      { unfold enumerate. clear -Ht. assert (K : forall b, nth_error (combine (seq b (length ts)) ts) j = Some (b + j, t)); [|apply (K 0)].
        revert j Ht. induction ts as [|y l IH]; intros [|j] Ht b; cbn in *; try discriminate; [injection Ht as ->; f_equal; f_equal; lia|]. rewrite IH by exact Ht. f_equal. f_equal. lia. }
      rewrite EN. cbn [option_map fst snd]. do 2 eexists. split; [reflexivity|]. rewrite (column_cells S j Sh Lj).
      assert (H' : forall i, In i (seq 0 (length vs)) -> place_at S i j = place_at (G D0) i j /\ value_at a S i j = sum_all (map (fun D => value_at a (G D) i j) (D0 :: Ds)) /\ exists p, cell S i j = Some p).
      { intros i Hi. apply in_seq in Hi. destruct (H i j ltac:(lia) Lj) as [X Y]. split; [exact X|]. split; [apply Y|]. rewrite cell_entry.
        destruct Sh as [S1 S2]. unfold entry. destruct (nth_error (g_cells S) i) as [row|] eqn:R; [|apply nth_error_None in R; lia]. destruct (nth_error row j) as [r|] eqn:R2; [eauto|].
        apply nth_error_None in R2. rewrite (S2 row) in R2 by now apply nth_error_In in R. lia. }
      clear E EN H. revert H'. generalize (seq 0 (length vs)). induction l as [|i l IH]; intros H'; [now split|].
      destruct (H' i (or_introl eq_refl)) as [X [Y [p Z]]]. destruct IH as [I1 I2]; [intros k Hk; apply H'; now right|].
      cbn [flat_map]. rewrite Z. cbn [app filter]. unfold value_at in Y at 1. unfold place_at in X at 1. rewrite Z in X, Y. rewrite <- Y.
      destruct (get_attr a (gp_vals p)) as [x|] eqn:Ga.
      - cbn [map flat_map length]. rewrite Ga. cbn [app length combine]. split; [now f_equal|]. f_equal; [|exact I2]. f_equal. rewrite <- X. destruct (gp_at p) as [[v' t']|]; reflexivity.
      - now split.
    Qed.
  End Sum.
End C73.
Print Assumptions C73_grids.
Print Assumptions C73_fractional.
Print Assumptions C73_sum.
Print Assumptions C73_fit_data.

(** Grids with other volumes are refused. *)
Theorem C73_refused {F} {N : Num F} {A P : Type} (close : Z -> Z -> bool) (g0 g1 : @grid F A P) gs : length (g_volumes g1) = length (g_volumes g0) ->
  (exists i v v', nth_error (g_volumes g1) i = Some v /\ nth_error (g_volumes g0) i = Some v' /\ close v v' = false) ->
  sum_grids close (g0 :: g1 :: gs) = Err RuntimeError.
Proof.
  intros L [i [v [v' [E1 [E2 C]]]]]. unfold sum_grids. cbn [foldM]. unfold check_grid at 1, allclose. rewrite L, Nat.eqb_refl. cbn [bind].
  assert (K : forallb (fun q => close (fst q) (snd q)) (combine (g_volumes g1) (g_volumes g0)) = false).
  { apply not_true_is_false. intros K. rewrite forallb_forall in K. specialize (K (v, v')). cbn in K. rewrite C in K. discriminate K.
    revert i E1 E2. generalize (g_volumes g0), (g_volumes g1). induction l as [|a l IH]; intros [|b l'] [|i] E1 E2; cbn in *; try discriminate.
    - injection E1 as ->. injection E2 as ->. now left.
    - right. now apply (IH l' i). }
  rewrite K. reflexivity.
Qed.
Print Assumptions C73_refused.
(** So are grids with as many other temperatures, or with another number of volumes that is not one. *)
Lemma allclose_far (close : Z -> Z -> bool) a b : length a = length b -> (exists i v v', nth_error a i = Some v /\ nth_error b i = Some v' /\ close v v' = false) -> allclose close a b = Ok false.
Proof.
  intros L [i [v [v' [E1 [E2 C]]]]]. unfold allclose. rewrite L, Nat.eqb_refl. f_equal. apply not_true_is_false. intros K. rewrite forallb_forall in K. specialize (K (v, v')). cbn in K. rewrite C in K. discriminate K. clear -E1 E2.
  revert b i E1 E2. induction a as [|x a IH]; intros [|y b] [|i] E1 E2; cbn in *; try discriminate; [injection E1 as ->; injection E2 as ->; now left|right; now apply (IH b i)].
Qed.
Theorem C73_refused_temperatures {F} {N : Num F} {A P : Type} (close : Z -> Z -> bool) (g0 g1 : @grid F A P) gs : (forall x, close x x = true) -> g_volumes g1 = g_volumes g0 -> length (g_temps g1) = length (g_temps g0) ->
  (exists i v v', nth_error (g_temps g1) i = Some v /\ nth_error (g_temps g0) i = Some v' /\ close v v' = false) ->
  sum_grids close (g0 :: g1 :: gs) = Err RuntimeError.
Proof.
  intros R V L H. unfold sum_grids. cbn [foldM]. unfold check_grid at 1. rewrite (allclose_far close _ _ L H). rewrite V. unfold allclose. rewrite Nat.eqb_refl.
  assert (forallb (fun q => close (fst q) (snd q)) (combine (g_volumes g0) (g_volumes g0)) = true) as ->; [|reflexivity]. apply forallb_forall. intros [x y] H'. assert (x = y) as ->; [|apply R]. clear -H'. induction (g_volumes g0) as [|a l IH]; [easy|]. destruct H' as [E|H']; [congruence|now apply IH].
Qed.
Theorem C73_refused_sizes {F} {N : Num F} {A P : Type} (close : Z -> Z -> bool) (g0 g1 : @grid F A P) gs : length (g_volumes g1) <> length (g_volumes g0) -> length (g_volumes g1) <> 1 -> length (g_volumes g0) <> 1 ->
  sum_grids close (g0 :: g1 :: gs) = Err ValueError.
Proof.
  intros N1 N2 N3. unfold sum_grids. cbn [foldM]. unfold check_grid at 1. unfold allclose at 1. destruct (Nat.eqb_spec (length (g_volumes g1)) (length (g_volumes g0))); [contradiction|].
  destruct (g_volumes g1) as [|a [|b l]], (g_volumes g0) as [|c [|d l']]; cbn in *; try lia; reflexivity.
Qed.
Print Assumptions C73_refused_temperatures.
Print Assumptions C73_refused_sizes.

(** An SSCHA result: per atom, and only if converged without imaginary frequencies *)
Section Sscha.
  Context {F : Type} {N : Num F} {L : FieldLaws F} {A P : Type}.
  Local Open Scope num_scope.
  Add Field Ffield : (field_laws (F:=F)).
  Theorem C73_sscha (kjmol : F) (s : @sscha_file F A P) x : kjmol <> 0 -> nnat (s_natom s) <> 0 -> nnat 1000 <> 0 -> load_sscha kjmol s = Ok x ->
    (d_volume x == s_det s / inject_Z (Z.of_nat (s_natom s)))%Q /\ d_temp x = s_temp s /\
    v_free (d_vals x) = (if s_converge s && negb (s_imaginary s) then Some ((s_free s + s_static s) / (kjmol * nnat (s_natom s))) else None) /\
    v_entropy (d_vals x) = (if s_converge s && negb (s_imaginary s) then Some (s_entropy s / (kjmol * nnat 1000 * nnat (s_natom s))) else None) /\
    v_static (d_vals x) = (if s_converge s && negb (s_imaginary s) then Some (s_static s / (kjmol * nnat (s_natom s))) else None) /\
    v_restart (d_vals x) = Some (s_restart s) /\ v_fc2 (d_vals x) = Some (s_fc2 s).
  Proof.
    intros H1 H2 H3. unfold load_sscha. destruct (s_natom s =? 0)%nat eqn:E0; [discriminate|].
    set (k := nnat 1000) in *. intros [= <-]. cbn [d_volume d_temp d_vals v_free v_entropy v_static v_restart v_fc2].
    split; [|split; [reflexivity|split; [|split; [|split; [|now split]]]]].
    - assert (Hn : ~ (inject_Z (Z.of_nat (s_natom s)) == 0)%Q) by (apply Nat.eqb_neq in E0; unfold Qeq; cbn; lia). field. exact Hn.
    - destruct (s_converge s && negb (s_imaginary s)); [|reflexivity]. f_equal. field. now split.
    - destruct (s_converge s && negb (s_imaginary s)); [|reflexivity]. f_equal. field. now repeat split.
    - destruct (s_converge s && negb (s_imaginary s)); [|reflexivity]. f_equal. field. now split.
  Qed.
  (** Electrons: every temperature of the file, per atom *)
  Theorem C73_electron (s : electron_file) : (e_natom s = 0%nat -> load_electron (A:=A) (P:=P) s = Err ZeroDivisionError) /\
    (e_natom s <> 0%nat -> exists l, load_electron (A:=A) (P:=P) s = Ok l /\ length l = length (e_props s) /\ forall i t f e, nth_error (e_props s) i = Some (t, f, e) ->
       exists x, nth_error l i = Some x /\ (d_volume x == e_volume s / inject_Z (Z.of_nat (e_natom s)))%Q /\ d_temp x = t /\ v_free (d_vals x) = Some (f / nnat (e_natom s)) /\ v_entropy (d_vals x) = Some (e / nnat (e_natom s)) /\ v_restart (d_vals x) = None).
  Proof using.
    unfold load_electron. split; intros H.
    - now rewrite H.
    - destruct (Nat.eqb_spec (e_natom s) 0); [contradiction|]. eexists. split; [reflexivity|]. split; [apply map_length|]. intros i t f e E. rewrite nth_error_map, E. cbn [option_map]. eexists. split; [reflexivity|]. repeat split; reflexivity.
  Qed.
  Theorem C73_no_atoms (kjmol : F) (s : @sscha_file F A P) : s_natom s = 0%nat -> load_sscha kjmol s = Err ZeroDivisionError.
  Proof using. intros H. unfold load_sscha. now rewrite H. Qed.
End Sscha.
Print Assumptions C73_sscha.
Print Assumptions C73_electron.
Print Assumptions C73_no_atoms.

(** ** Examples and refutations *)
Section Examples.
  Notation V f := (mk_vals (F:=Z) (A:=nat) (P:=nat) f None None None None (Some 7) None).
  Notation D v t f := (mk_datum (F:=Z) (A:=nat) (P:=nat) v t (V f)).
  (** Two volumes, two temperatures, all there *)
  Definition two : list (@datum Z nat nat) := [D (100004 # 10000) 0 (Some 5%Z); D 11 0 (Some 6%Z); D 10 300 (Some 7%Z); D 11 300 (Some 8%Z)].
  Example C73_grids_example : exists g1 g2, load_grids 3 2 two (Some two) None None None = Ok (g1, Some g2, None, None, None) /\ g_volumes g1 = [10000; 11000]%Z /\ g_temps g1 = [0; 300]%Z /\
    value_at AFree g1 1 0 = Some 6%Z /\ value_at AFree g2 0 1 = Some 7%Z.
  Proof. exists (grid_data 3 [10000; 11000]%Z [0; 300]%Z two), (grid_data 3 [10000; 11000]%Z [0; 300]%Z two). repeat split; vm_compute; reflexivity. Qed.
  Example C73_sum_example : exists S, sum_grids (N := Z_num) Z.eqb (map (fun x => grid_data 3 [10000; 11000]%Z [0; 300]%Z x) [two; two; tl two]) = Ok S /\
    value_at AFree S 0 0 = None /\ value_at AFree S 1 1 = Some 24%Z.
  Proof.
    destruct (C73_sum (N := Z_num) 3 Z.eqb Z.eqb_refl [10000; 11000]%Z [0; 300]%Z ltac:(repeat constructor) ltac:(repeat constructor) two [two; tl two]) as [S [H1 [_ [_ H2]]]].
    exists S. split; [exact H1|]. split; [rewrite (proj2 (H2 0 0 ltac:(cbn; lia) ltac:(cbn; lia)))|rewrite (proj2 (H2 1 1 ltac:(cbn; lia) ltac:(cbn; lia)))]; vm_compute; reflexivity.
  Qed.

  (** The temperature 300.4 K makes the column 300 K, which stays empty. *)
  Theorem C73_fractional_refuted : exists g, load_grids 3 1 [D 10 (3004 # 10) (Some 5%Z)] None None None None = Ok (g, None, None, None, None) /\
    g_volumes g = [10000]%Z /\ g_temps g = [300]%Z /\ cell g 0 0 = Some empty_point.
  Proof. exists (grid_data 3 [10000]%Z [300]%Z [D 10 (3004 # 10) (Some 5%Z)]). repeat split; vm_compute; reflexivity. Qed.
  (** A later result without free energy takes the place of an earlier one with it. *)
  Theorem C73_overwritten_refuted : exists g, load_grids 3 1 [D 10 300 (Some 5%Z); D 10 300 None] None None None None = Ok (g, None, None, None, None) /\
    g_volumes g = [10000]%Z /\ g_temps g = [300]%Z /\ value_at AFree g 0 0 = None.
  Proof. exists (grid_data 3 [10000]%Z [300]%Z [D 10 300 (Some 5%Z); D 10 300 None]). repeat split; vm_compute; reflexivity. Qed.
  (** All empty points of a grid are one object: adding a grid gives them all the structure of one of its points. *)
  Theorem C73_shared_refuted : exists S p, sum_grids (N := Z_num) Z.eqb (map (fun x => grid_data 3 [10000; 11000]%Z [0; 300]%Z x) [[D 10 0 (Some 5%Z)]; [D 11 0 (Some 5%Z)]]) = Ok S /\
    cell S 0 1 = Some p /\ gp_at p = None /\ v_restart (gp_vals p) = Some 7.
  Proof.
    set (r := sum_grids _ _). pose (o := match r with Ok g => cell g 0 1 | Err _ => None end).
    assert (E : exists S, r = Ok S).
    { destruct (C73_sum (N := Z_num) 3 Z.eqb Z.eqb_refl [10000; 11000]%Z [0; 300]%Z ltac:(repeat constructor) ltac:(repeat constructor) [D 10 0 (Some 5%Z)] [[D 11 0 (Some 5%Z)]]) as [S [H1 _]]. now exists S. }
    destruct E as [S E]. exists S. assert (O : o = cell S 0 1) by (unfold o; now rewrite E). rewrite <- O.
    exists (mk_gp None (mk_vals None None None None None (Some 7) None)). split; [exact E|]. repeat split.
  Qed.
End Examples.
Print Assumptions C73_fractional_refuted.
Print Assumptions C73_overwritten_refuted.
Print Assumptions C73_shared_refuted.
