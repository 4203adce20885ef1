(** C64: potential files are read back as the potential that was saved, by the Python reader and by the C++ reader. *)
From Verif Require Import Base Num Model.Structure Model.SpinParams Model.Parser Model.PotentialFile Spec.PotentialFile Proofs.PotentialFile.
From Coq Require String Ascii.
Import String.StringSyntax.
Local Open Scope string_scope.
Local Open Scope list_scope.
Local Open Scope nat_scope.

Section C64.
  Context {F : Type} {N : Num F} {L : RingLaws F} {G : Type}.
  Variables (show fmt : F -> text) (stod : text -> res F) (rnd : F -> F) (mass_of : text -> res F) (g0 : G) (readgtinv : nat -> list nat -> nat -> G).
  Local Open Scope num_scope.
  Add Ring Fring : (ring_laws (F:=F)).
  Notation params := (SpinParams.params text F (list nat)).
  Notation p_elements := (p_elements text F (list nat)).
  Notation p_spins := (p_spins text F (list nat)).
  Notation p_pairs := (p_pairs text F (list nat)).
  Notation p_n_type := (p_n_type text F (list nat)).
  Notation save := (save mass_of).
  Notation lines_of := (lines_of show fmt).
  Notation of_file := (of_file stod g0 readgtinv).
  Notation of_object := (of_object g0 readgtinv).
  Notation load := (load rnd).

  (** Numbers are printed as words that read back: [show] exactly, [fmt] (15 decimals) rounded. *)
  Definition prints : Prop := (forall x, clean (show x) /\ stod (show x) = Ok x) /\ (forall x, clean (fmt x) /\ stod (fmt x) = Ok (rnd x)).
  (** The models that the package builds: words without separators, a complete pair table, gtinv parameters exactly for gtinv models. *)
  Record standard (p : params) (b : @basis F) (full : option (nat * list nat)) (d : list ((nat * nat) * list nat)) : Prop := mk_standard {
    st_elements : p_elements p <> [] /\ Forall clean (p_elements p);
    st_words : clean (b_pair_type b) /\ clean (b_feature b);
    st_rows : Forall (fun r => r <> []) (b_pair_params b);
    st_table : p_pairs p = Some d /\ complete (p_n_type p) d;
    st_gtinv : if text_eqb (b_feature b) (lit "gtinv") then (0 < g_order (b_gtinv b))%nat /\ g_maxl (b_gtinv b) <> [] /\ In (g_version (b_gtinv b)) [1%nat; 2%nat] else g_order (b_gtinv b) = 0%nat;
    st_full : match full with Some (_, idx) => idx <> [] | None => True end
  }.
  Definition unpolarised (p : params) : Prop := match p_spins p with None => True | Some l => Forall (fun s => s = false) l end.
  Definition stored (coeffs scales : list F) : list F := map (fun q => rnd (fst q / snd q)) (combine coeffs scales).
  (** The evaluator of the model *)
  Definition denotes (p : params) (b : @basis F) (d : list ((nat * nat) * list nat)) (fp : @feature_params F G) : Prop :=
    f_n_type fp = length (p_elements p) /\ f_params fp = b_pair_params b /\ square (p_n_type p) d (f_cond fp) /\ f_cutoff fp = b_cutoff b /\ f_pair_type fp = b_pair_type b /\
    f_feature fp = b_feature b /\ f_model_type fp = b_model_type b /\ f_maxp fp = b_max_p b /\ f_maxl fp = b_max_l b /\
    f_gtinv fp = if text_eqb (b_feature b) (lit "gtinv") then readgtinv (g_order (b_gtinv b)) (g_maxl (b_gtinv b)) (g_version (b_gtinv b)) else g0.

  Definition get_row (d : list ((nat * nat) * list nat)) (i j : nat) : list nat := match dict_get (list nat) d (i, j) with Some l => l | None => [] end.
  Lemma dict_get_In (d : list ((nat * nat) * list nat)) k l : NoDup (map fst d) -> (dict_get (list nat) d k = Some l <-> In (k, l) d).
  Proof.
    intros HN. unfold dict_get. split.
    - destruct (find _ d) as [q|] eqn:E; [|discriminate]. intros H. injection H as <-. apply find_some in E. destruct E as [HI HK]. apply key_eqb_true in HK. subst k. now destruct q.
    - intros HI. destruct (find _ d) as [q|] eqn:E.
      + apply find_some in E. destruct E as [HJ HK]. apply key_eqb_true in HK. f_equal. destruct q as [k' l']. cbn [fst snd] in *. subst k'. clear - HN HI HJ. induction d as [|[a b] d IH]; [easy|]. inversion HN as [|? ? H1 H2]; subst.
        destruct HI as [HI|HI], HJ as [HJ|HJ]; [congruence| | |now apply IH]; exfalso; apply H1; [injection HI as -> ->|injection HJ as -> ->]; [exact (in_map fst _ _ HJ)|exact (in_map fst _ _ HI)].
      + exfalso. pose proof (find_none _ _ E (k, l) HI) as HX. cbn [fst] in HX. now rewrite (proj2 (key_eqb_true k k) eq_refl) in HX.
  Qed.
  Lemma dict_get_none (d : list ((nat * nat) * list nat)) k : ~ In k (map fst d) -> dict_get (list nat) d k = None.
  Proof. intros H. unfold dict_get. destruct (find _ d) as [q|] eqn:E; [|reflexivity]. exfalso. apply find_some in E. destruct E as [HI HK]. apply key_eqb_true in HK. subst k. apply H. now apply in_map. Qed.
  Lemma tab_square n d : complete n d -> square n d (tab n (get_row d)).
  Proof.
    intros [HN HK HR]. unfold square, tab. split; [now rewrite map_length, seq_length|]. split; [apply Forall_map, Forall_forall; intros; now rewrite map_length, seq_length|].
    intros i j Hi Hj l. unfold entry. rewrite (nth_indep _ [] (map (get_row d 0) (seq 0 n))) by (rewrite map_length, seq_length; exact Hi). rewrite (map_nth (fun i => map (get_row d i) (seq 0 n))), seq_nth by exact Hi. cbn [Nat.add].
    rewrite (nth_indep _ [] (get_row d i 0)) by (rewrite map_length, seq_length; exact Hj). rewrite (map_nth (get_row d i)), seq_nth by exact Hj. cbn [Nat.add]. unfold get_row.
    destruct (le_lt_dec i j) as [HL|HL].
    - assert (HI : In (i, j) (map fst d)) by (apply HK; lia). apply in_map_iff in HI. destruct HI as [[k l0] [E HI]]. cbn in E. subst k. rewrite (proj2 (dict_get_In d _ _ HN) HI). split.
      + intros <-. now left.
      + intros [H|[H _]]; [|lia]. rewrite <- dict_get_In in H, HI by exact HN. congruence.
    - rewrite dict_get_none by (rewrite HK; lia). split; [intros <-; right; split; [exact HL|reflexivity]|]. intros [H|[_ ->]]; [|reflexivity]. exfalso. apply (in_map fst) in H. cbn [fst] in H. apply HK in H. lia.
  Qed.
  Lemma square_unique n d m m' : square n d m -> square n d m' -> m = m'.
  Proof.
    intros [L1 [F1 E1]] [L2 [F2 E2]]. apply (nth_ext _ _ [] []); [congruence|]. intros i Hi. rewrite Forall_forall in F1, F2.
    assert (G1 : length (nth i m []) = n) by (apply F1, nth_In; exact Hi). assert (G2 : length (nth i m' []) = n) by (apply F2, nth_In; lia).
    apply (nth_ext _ _ [] []); [congruence|]. intros j Hj. change (entry m i j = entry m' i j). apply E1; [lia|lia|]. apply E2; [lia|lia|reflexivity].
  Qed.
  Lemma py_cond_tab n d : complete n d -> py_cond n d = Ok (tab n (get_row d)).
  Proof.
    intros [HN HK HR]. unfold py_cond, tab. apply mapM_Ok. intros j Hj. apply mapM_Ok. intros i Hi. apply in_seq in Hi, Hj. unfold get_row. destruct (Nat.leb_spec j i) as [HL|HL].
    - assert (HI : In (j, i) (map fst d)) by (apply HK; lia). apply in_map_iff in HI. destruct HI as [[k l] [E HI]]. cbn in E. subst k. now rewrite (proj2 (dict_get_In d _ _ HN) HI).
    - now rewrite dict_get_none by (rewrite HK; lia).
  Qed.
  Lemma gtinv_lists_ok b : (if text_eqb (b_feature b) (lit "gtinv") then (0 < g_order (b_gtinv b))%nat /\ g_maxl (b_gtinv b) <> [] /\ In (g_version (b_gtinv b)) [1%nat; 2%nat] else g_order (b_gtinv b) = 0%nat) ->
    gtinv_lists g0 readgtinv (b_gtinv (F:=F) b) = if text_eqb (b_feature b) (lit "gtinv") then readgtinv (g_order (b_gtinv b)) (g_maxl (b_gtinv b)) (g_version (b_gtinv b)) else g0.
  Proof. unfold gtinv_lists. destruct (text_eqb _ _); [intros [H _]|intros ->; reflexivity]. now replace (0 <? g_order (b_gtinv b))%nat with true by (symmetry; apply Nat.ltb_lt; exact H). Qed.
  Lemma spread_count (els : list text) (en : list F) sp n : length en = length els -> length sp = length els ->
    let '(els', _, _, _, k) := spread text F els en sp n in (length els' = length els + length (filter (fun s => s) sp) /\ k = n + length els + length (filter (fun s => s) sp))%nat.
  Proof.
    revert en sp n. induction els as [|e els IH]; intros en sp n H1 H2; [destruct sp; [cbn; lia|discriminate H2]|]. destruct en as [|a en]; [discriminate H1|]. destruct sp as [|s sp]; [discriminate H2|].
    cbn [spread]. specialize (IH en sp (n + (if s then 2 else 1))%nat ltac:(cbn in H1; lia) ltac:(cbn in H2; lia)). destruct (spread _ _ els en sp _) as [[[[x1 x2] x3] x4] x5]. destruct IH as [IH1 IH2].
    rewrite app_length, repeat_length, IH1. subst x5. destruct s; cbn [filter length]; lia.
  Qed.
  (** The object keeps its arguments; each active spin adds one type. *)
  Lemma construct_any p b full o : construct p b full = Ok o -> o_copy o = p /\ o_basis o = b /\ o_full o = full /\ length (p_elements p) = p_n_type p /\ (match p_spins p with Some l => length l = p_n_type p | None => True end) /\
    length (p_elements (o_now o)) = p_n_type (o_now o) /\ (p_n_type (o_now o) = p_n_type p + length (filter (fun s => s) (match p_spins p with Some l => l | None => [] end)))%nat /\
    (filter (fun s => s) (match p_spins p with Some l => l | None => [] end) = [] -> o_now o = p).
  Proof.
    unfold construct. destruct (gtinv_check _); [|discriminate]. cbn [bind]. unfold post_init, SpinParams.check_errors, set_spins.
    destruct (length (p_elements p) =? p_n_type p)%nat eqn:EL; [|discriminate]. cbn [py_assert bind]. apply Nat.eqb_eq in EL. destruct (match p_energy _ _ _ p with Some l => _ | None => _ end) eqn:EPE; [|discriminate]. cbn [bind].
    destruct (p_spins p) as [l|].
    - destruct (length l =? p_n_type p)%nat eqn:ES; [|discriminate]. cbn [py_assert bind]. apply Nat.eqb_eq in ES. destruct (length (filter (fun b0 : bool => b0) l) =? 0)%nat eqn:EZ; cbn [bind fst].
      + intros H. injection H as <-. cbn [o_copy o_basis o_full o_now]. apply Nat.eqb_eq in EZ. rewrite EZ. repeat split; auto; lia.
      + destruct (p_energy _ _ _ p) as [en|]; [|discriminate]. unfold py_assert in EPE. destruct (length en =? p_n_type p)%nat eqn:EN; [|discriminate EPE]. apply Nat.eqb_eq in EN.
        pose proof (spread_count (p_elements p) en l 0 ltac:(congruence) ltac:(congruence)) as HS. destruct (spread _ _ _ en l 0) as [[[[x1 x2] x3] x4] x5]. destruct HS as [HS1 HS2]. cbn [bind fst]. intros H. injection H as <-.
        cbn [o_copy o_basis o_full o_now SpinParams.p_elements SpinParams.p_n_type]. repeat split; auto; try lia. intros HF. rewrite HF in EZ. discriminate EZ.
    - cbn [bind fst]. intros H. injection H as <-. cbn [o_copy o_basis o_full o_now filter length]. repeat split; auto; lia.
  Qed.
  Ltac key := apply cleanb_ok; [reflexivity|discriminate].
  Ltac keys := match goal with |- clean (lit _) => key | |- not_special _ => split; reflexivity | |- clean (show_nat _) => apply show_nat_clean end.
  Lemma ints_clean l : Forall clean (map show_nat l).
  Proof. apply Forall_map, Forall_forall. intros. apply show_nat_clean. Qed.
  Lemma map_nonempty {A B} (f : A -> B) l : l <> [] -> map f l <> [].
  Proof. destruct l; easy. Qed.
  Lemma mapM_stoi l : mapM stoi (map show_nat l) = Ok l.
  Proof. rewrite <- (map_id l) at 2. rewrite <- (mapM_Ok (fun n => Ok n) (fun n => n)) by reflexivity. induction l as [|n l IH]; [reflexivity|]. cbn [map mapM]. rewrite stoi_show. cbn [bind]. now rewrite IH. Qed.
  Lemma mapM_map {A B C} (f : B -> res C) (g : A -> B) l : mapM f (map g l) = mapM (fun a => f (g a)) l.
  Proof. induction l as [|a l IH]; [reflexivity|]. cbn [map mapM]. now rewrite IH. Qed.

  (** ** The C++ reader, item by item *)
  Hypothesis HP : prints.
  Notation run := (foldM read_line).
  Definition with_rows (st : cstate) (r : list (list text)) : cstate := mk_cstate (c_params st) r (c_pairs st).
  Definition with_pairs (st : cstate) (m : list (list (list text))) : cstate := mk_cstate (c_params st) (c_rows st) m.
  Lemma shown_clean l : Forall clean (map show l).
  Proof. apply Forall_map, Forall_forall. intros x _. apply (proj1 HP). Qed.
  Lemma fmt_clean l : Forall clean (map fmt l).
  Proof. apply Forall_map, Forall_forall. intros x _. apply (proj2 HP). Qed.
  Lemma go_blank st items : run (st, Top) (lines_of (Blank :: items)) = run (st, Top) (lines_of items).
  Proof. reflexivity. Qed.
  Lemma go_word st k pad w items : clean (lit k) -> not_special k -> clean w -> run (st, Top) (lines_of (Entry k pad (VWord w) :: items)) = run (put st k [w], Top) (lines_of items).
  Proof. intros H1 H2 H3. change (lines_of (Entry k pad (VWord w) :: items)) with ((label k pad ++ [blank_c] ++ w) :: lines_of items). cbn [foldM]. now rewrite top_word. Qed.
  Lemma go_int st k pad n items : clean (lit k) -> not_special k -> run (st, Top) (lines_of (Entry k pad (VInt n) :: items)) = run (put st k [show_nat n], Top) (lines_of items).
  Proof. intros H1 H2. exact (go_word st k pad (show_nat n) items H1 H2 (show_nat_clean n)). Qed.
  Lemma go_float st k pad x items : clean (lit k) -> not_special k -> run (st, Top) (lines_of (Entry k pad (VFloat x) :: items)) = run (put st k [show x], Top) (lines_of items).
  Proof. intros H1 H2. exact (go_word st k pad (show x) items H1 H2 (proj1 (proj1 HP x))). Qed.
  Lemma go_words st k pad l items : clean (lit k) -> not_special k -> l <> [] -> Forall clean l -> run (st, Top) (lines_of (Entry k pad (VWords l) :: items)) = run (put st k l, Top) (lines_of items).
  Proof. intros H1 H2 H3 H4. change (lines_of (Entry k pad (VWords l) :: items)) with ((label k pad ++ [blank_c] ++ brackets l) :: lines_of items). cbn [foldM]. now rewrite top_list. Qed.
  Lemma go_ints st k pad l items : clean (lit k) -> not_special k -> l <> [] -> run (st, Top) (lines_of (Entry k pad (VInts l) :: items)) = run (put st k (map show_nat l), Top) (lines_of items).
  Proof. intros H1 H2 H3. exact (go_words st k pad (map show_nat l) items H1 H2 (map_nonempty _ _ H3) (ints_clean l)). Qed.
  Lemma go_floats st k pad l items : clean (lit k) -> not_special k -> l <> [] -> run (st, Top) (lines_of (Entry k pad (VFloats l) :: items)) = run (put st k (map show l), Top) (lines_of items).
  Proof. intros H1 H2 H3. exact (go_words st k pad (map show l) items H1 H2 (map_nonempty _ _ H3) (shown_clean l)). Qed.
  Lemma go_coeffs st k pad l items : clean (lit k) -> not_special k -> l <> [] -> run (st, Top) (lines_of (Entry k pad (VCoeffs l) :: items)) = run (put st k (map fmt l), Top) (lines_of items).
  Proof. intros H1 H2 H3. exact (go_words st k pad (map fmt l) items H1 H2 (map_nonempty _ _ H3) (fmt_clean l)). Qed.
  Lemma count_line st k pad n m : clean (lit k) -> read_line (st, Top) (label k pad ++ [blank_c] ++ show_nat n) = (
      if String.eqb k "n_pair_params" then Ok (mk_cstate (c_params (put st k [show_nat n])) [] (c_pairs st), RowsHeader n)
      else if String.eqb k "n_type_pairs" then Ok (mk_cstate (c_params (put st k [show_nat n])) (c_rows st) (repeat (repeat [] m) m), PairsHeader n)
      else Ok (put st k [show_nat n], Top)) \/ m <> length (fget (c_params (put st k [show_nat n])) "elements").
  Proof.
    intros CK. destruct (Nat.eq_dec m (length (fget (c_params (put st k [show_nat n])) "elements"))) as [->|]; [left|now right]. destruct (show_nat_clean n) as [N1 N2].
    unfold read_line. rewrite line_split; [|exact CK|apply (not_in_clean 58); [exact N2|cbn; tauto]]. rewrite word_clean by apply CK. cbn [app]. rewrite name_lit.
    rewrite split_list_word by (apply show_nat_clean). cbn [bind get nth_error]. rewrite stoi_show. cbn [bind]. destruct (String.eqb k "n_pair_params"); [reflexivity|]. destruct (String.eqb k "n_type_pairs"); reflexivity.
  Qed.
  Lemma go_rows st k pad k' pad' rows items : k = "n_pair_params" -> Forall (fun r : list F => r <> []) rows ->
    run (st, Top) (lines_of (Entry k pad (VInt (length rows)) :: Entry k' pad' (VRows rows) :: items)) = run (with_rows (put st k [show_nat (length rows)]) (map (map show) rows), Top) (lines_of items).
  Proof.
    intros -> HR. change (lines_of (Entry "n_pair_params" pad (VInt _) :: _)) with ((label "n_pair_params" pad ++ [blank_c] ++ show_nat (length rows)) :: label k' pad' :: map (fun r => lit "- " ++ brackets (map show r)) rows ++ lines_of items).
    cbn [foldM]. destruct (count_line st "n_pair_params" pad (length rows) (length (fget (c_params (put st "n_pair_params" [show_nat (length rows)])) "elements"))) as [E|E]; [key| |congruence].
    rewrite E. change (String.eqb "n_pair_params" "n_pair_params") with true. cbn [bind read_line]. rewrite (rows_lines show); [reflexivity|]. eapply Forall_impl; [|exact HR]. intros r Hr. split; [now apply map_nonempty|apply shown_clean].
  Qed.
  Lemma go_pairs st k pad k' pad' n d items : k = "n_type_pairs" -> length (fget (c_params st) "elements") = n -> Forall (fun q => (fst (fst q) < n)%nat /\ (snd (fst q) < n)%nat /\ snd q <> []) d ->
    run (st, Top) (lines_of (Entry k pad (VInt (length d)) :: Entry k' pad' (VPairs d) :: items)) =
    run (with_pairs (put st k [show_nat (length d)]) (tab n (fold_left written d (fun _ _ => []))), Top) (lines_of items).
  Proof.
    intros -> En HD. change (lines_of (Entry "n_type_pairs" pad (VInt _) :: _)) with ((label "n_type_pairs" pad ++ [blank_c] ++ show_nat (length d)) :: label k' pad' ::
      flat_map (fun q => [lit "- atom_type_pair:      " ++ brackets (map show_nat [fst (fst q); snd (fst q)]); lit "  pair_params_indices: " ++ brackets (map show_nat (snd q))]) d ++ lines_of items).
    cbn [foldM]. destruct (count_line st "n_type_pairs" pad (length d) n) as [E|E]; [key| |cbn [put c_params] in E; rewrite fget_dset in E; change (String.eqb "elements" "n_type_pairs") with false in E; congruence].
    rewrite E. change (String.eqb "n_type_pairs" "n_pair_params") with false. change (String.eqb "n_type_pairs" "n_type_pairs") with true. cbn [bind read_line].
    rewrite (pairs_lines n _ d _ (fun _ _ => [])); [reflexivity|apply tab_repeat|exact HD].
  Qed.
  Lemma fget_put st k v k' : fget (c_params (put st k v)) k' = if String.eqb k' k then v else fget (c_params st) k'.
  Proof. apply fget_dset. Qed.
  Lemma rows_put st k v : c_rows (put st k v) = c_rows st.
  Proof. reflexivity. Qed.
  Lemma pairs_put st k v : c_pairs (put st k v) = c_pairs st.
  Proof. reflexivity. Qed.

  Lemma params_rows st r : c_params (with_rows st r) = c_params st.
  Proof. reflexivity. Qed.
  Lemma params_pairs st r : c_params (with_pairs st r) = c_params st.
  Proof. reflexivity. Qed.
  Ltac lookup := first [rewrite fget_put; match goal with |- context [String.eqb ?a ?b] => let r := eval vm_compute in (String.eqb a b) in change (String.eqb a b) with r end; cbv match | rewrite params_rows | rewrite params_pairs].
  (** The state of the C++ reader after the file *)
  Theorem C64_file p b full d o coeffs scales items : standard p b full d -> construct p b full = Ok o -> coeffs <> [] -> save o coeffs scales = Ok items ->
    exists fp mass, of_file (lines_of items) = Ok (fp, map (fun c => (1 + 1) * c) (stored coeffs scales), p_elements p, mass) /\ mapM mass_of (p_elements (o_now o)) = Ok mass /\ denotes p b d fp.
  Proof.
    intros ST HC NC HSV. destruct (construct_any _ _ _ _ HC) as [EC [EB [EFU [ELn [ESn [ELo [ENo _]]]]]]]. destruct ST as [[NE CE] [CP CF] HR [EP HT] HG HFU]. clear HC.
    unfold PotentialFile.save in HSV. rewrite EC, EB, EFU in HSV. destruct (mapM mass_of (p_elements (o_now o))) as [mass|] eqn:EM; [|discriminate HSV]. cbn [bind] in HSV.
    destruct (length coeffs =? length scales)%nat eqn:ELC; [|discriminate HSV]. cbn [bind] in HSV. rewrite EP in HSV. match type of HSV with Ok ?x = Ok ?y => assert (EI : y = x) by congruence end. subst items. clear HSV.
    assert (NM : mass <> []) by (intros ->; apply mapM_length in EM; destruct (p_elements p); [easy|]; cbn in *; lia).
    set (sp := match p_spins p with None => map (fun _ => 0%nat) (p_elements p) | Some l => map (fun s : bool => if s then 1%nat else 0%nat) l end).
    assert (NS : sp <> []) by (unfold sp; destruct (p_spins p) as [l|]; apply map_nonempty; [|exact NE]; intros ->; cbn in ESn; rewrite <- ELn in ESn; destruct (p_elements p); easy).
    clearbody sp. set (qs := map (fun q => fst q / snd q) (combine coeffs scales)).
    assert (NQ : qs <> []) by (unfold qs; apply map_nonempty; apply Nat.eqb_eq in ELC; destruct coeffs, scales; easy).
    set (ti := match full with Some (_, idx) => idx | None => seq 0 (p_n_type p) end). set (tf := match full with Some (f, _) => f | None => 1%nat end).
    assert (NT : ti <> []) by (unfold ti; destruct full as [[? ?]|]; [exact HFU|]; rewrite <- ELn; destruct (p_elements p); easy).
    set (tfi := match full with Some (f, idx) => _ | None => _ end). assert (ETF : tfi = [Entry "type_full" 3 (VInt tf); Entry "type_indices" 0 (VInts ti)]) by (unfold tfi, tf, ti; destruct full as [[? ?]|]; reflexivity).
    clearbody tfi. subst tfi. clearbody tf ti.
    exists (mk_fp (length (p_elements p)) (b_pair_params b) (tab (p_n_type p) (get_row d)) (b_cutoff b) (b_pair_type b) (b_feature b) (b_model_type b) (b_max_p b) (b_max_l b)
       (if text_eqb (b_feature b) (lit "gtinv") then readgtinv (g_order (b_gtinv b)) (g_maxl (b_gtinv b)) (g_version (b_gtinv b)) else g0)), mass.
    split; [|split; [reflexivity|unfold denotes; cbn; repeat split; try reflexivity; now apply (tab_square (p_n_type p) d)]].
    - assert (HD : Forall (fun q => (fst (fst q) < p_n_type p)%nat /\ (snd (fst q) < p_n_type p)%nat /\ snd q <> []) d).
      { destruct HT as [_ HK HR2]. apply Forall_forall. intros [[i j] l] HI. cbn [fst snd]. assert (HX : In (i, j) (map fst d)) by exact (in_map fst _ _ HI). apply HK in HX. split; [lia|]. split; [lia|]. exact (HR2 _ _ HI). }
      assert (MS : forall l, mapM stod (map show l) = Ok l) by (intros l; rewrite mapM_map; rewrite (mapM_Ok _ (fun x => x)) by (intros x _; apply (proj1 HP)); now rewrite map_id).
      assert (MF : mapM stod (map fmt qs) = Ok (stored coeffs scales)) by (rewrite mapM_map; rewrite (mapM_Ok _ rnd) by (intros x _; apply (proj2 HP)); unfold stored, qs; now rewrite map_map).
      assert (MR : mapM (mapM stod) (map (map show) (b_pair_params b)) = Ok (b_pair_params b)) by (rewrite mapM_map; rewrite (mapM_Ok _ (fun x => x)) by (intros x _; apply MS); now rewrite map_id).
      assert (MC : mapM (mapM (mapM stoi)) (tab (p_n_type p) (fold_left written d (fun _ _ => []))) = Ok (tab (p_n_type p) (get_row d))).
      { rewrite (tab_ext _ _ (fun i j => map show_nat (get_row d i j))).
        - rewrite (mapM_tab (mapM stoi) (map (fun t => match stoi t with Ok n => n | Err _ => 0%nat end))).
          + f_equal. apply tab_ext. intros i j _ _. rewrite map_map. rewrite <- (map_id (get_row d i j)) at 2. apply map_ext. intros n. now rewrite stoi_show.
          + intros i j _ _. rewrite mapM_stoi. f_equal. rewrite map_map. rewrite <- (map_id (get_row d i j)) at 1. apply map_ext. intros n. now rewrite stoi_show.
        - intros i j _ _. rewrite fold_written by apply HT. unfold get_row. destruct (dict_get _ d (i, j)); reflexivity. }
      unfold PotentialFile.of_file, read_lines, first. destruct (text_eqb (b_feature b) (lit "gtinv")) eqn:EF; cbn [app].
      all: repeat first
        [ rewrite go_blank
        | rewrite go_rows by (reflexivity || assumption)
        | rewrite (go_pairs _ _ _ _ _ (p_n_type p)) by (reflexivity || assumption || (repeat lookup; exact ELn))
        | rewrite go_words by (keys || assumption)
        | rewrite go_word by (keys || assumption)
        | rewrite go_int by keys
        | rewrite go_float by keys
        | rewrite go_floats by (keys || assumption)
        | rewrite go_coeffs by (keys || assumption)
        | rewrite go_ints by (keys || assumption || (apply map_nonempty; apply HG) || apply HG) ].
      all: change (lines_of []) with (@nil text); cbn [foldM bind fst].
      all: repeat lookup.
      all: match goal with |- context [c_rows ?x] => change (c_rows x) with (map (map show) (b_pair_params b)) end.
      all: match goal with |- context [c_pairs ?x] => change (c_pairs x) with (tab (p_n_type p) (fold_left written d (fun _ _ => []))) end.
      all: cbn [get nth_error bind]; rewrite (proj2 (proj1 HP _)); cbn [bind]; rewrite !stoi_show; cbn [bind]; rewrite ?EF; cbn [bind]; rewrite ?stoi_show; cbn [bind]; rewrite ?mapM_stoi; cbn [bind]; rewrite ?stoi_show; cbn [bind].
      all: rewrite MF; cbn [bind]; rewrite MR; cbn [bind]; rewrite MC; cbn [bind]; rewrite MS; cbn [bind]; rewrite ?mapM_stoi; cbn [bind].
      all: assert (E2 : map (fun c => c * (1 + 1)) (stored coeffs scales) = map (fun c => (1 + 1) * c) (stored coeffs scales)) by (apply map_ext; intros c; ring); rewrite E2.
      + replace (if (g_version (b_gtinv b) =? 2)%nat then 2%nat else 1%nat) with (g_version (b_gtinv b)); [reflexivity|]. destruct HG as [_ [_ HV]]. cbn in HV. destruct HV as [<-|[<-|[]]]; reflexivity.
      + reflexivity.
  Qed.
  (** Without active spins the C++ reader builds the evaluator of the object itself. *)
  Theorem C64_cxx p b full d o coeffs scales items : standard p b full d -> unpolarised p -> construct p b full = Ok o -> coeffs <> [] -> save o coeffs scales = Ok items ->
    exists fp mass, of_file (lines_of items) = Ok (fp, map (fun c => (1 + 1) * c) (stored coeffs scales), p_elements p, mass) /\ mapM mass_of (p_elements p) = Ok mass /\ denotes p b d fp /\
      of_object o (stored coeffs scales) = Ok (fp, map (fun c => (1 + 1) * c) (stored coeffs scales)).
  Proof.
    intros ST HU HC NC HSV. destruct (C64_file _ _ _ _ _ _ _ _ ST HC NC HSV) as [fp [mass [H1 [H2 H3]]]]. destruct (construct_any _ _ _ _ HC) as [_ [EB [_ [ELn [_ [_ [_ EN]]]]]]].
    assert (EO : o_now o = p). { apply EN. unfold unpolarised in HU. destruct (p_spins p) as [l|]; [|reflexivity]. clear - HU. induction HU as [|s l -> HU IH]; [reflexivity|exact IH]. }
    rewrite EO in H2. exists fp, mass. split; [exact H1|]. split; [exact H2|]. split; [exact H3|]. destruct ST as [_ _ _ [EP HT] HG _].
    unfold PotentialFile.of_object. rewrite EO, EB, EP. cbn [bind]. rewrite (py_cond_tab _ _ HT). cbn [bind]. rewrite (gtinv_lists_ok _ HG). do 2 f_equal.
    destruct H3 as [D1 [D2 [D3 [D4 [D5 [D6 [D7 [D8 [D9 D10]]]]]]]]]. clear EO EN HSV H1 H2 HC EB HU. destruct fp. cbn in *. subst. rewrite ELn. f_equal.
    symmetry. apply (square_unique (p_n_type p) d); [exact D3|now apply tab_square].
  Qed.
  (** With active spins it does not: the C++ reader knows one type per element, the object has more. *)
  Theorem C64_polarised p b full d o coeffs scales items fp mass cs els fp' cs' c : standard p b full d -> ~ unpolarised p -> construct p b full = Ok o -> coeffs <> [] -> save o coeffs scales = Ok items ->
    of_file (lines_of items) = Ok (fp, cs, els, mass) -> of_object o c = Ok (fp', cs') -> (f_n_type fp < f_n_type fp')%nat /\ length els = f_n_type fp /\ length mass = f_n_type fp'.
  Proof.
    intros ST HU HC NC HSV HF HO. destruct (C64_file _ _ _ _ _ _ _ _ ST HC NC HSV) as [fp0 [mass0 [H1 [H2 H3]]]]. rewrite HF in H1. injection H1 as -> -> -> ->. destruct (construct_any _ _ _ _ HC) as [_ [EB [_ [ELn [_ [ELo [ENo _]]]]]]].
    unfold PotentialFile.of_object in HO. destruct (p_pairs (o_now o)); [|discriminate HO]. cbn [bind] in HO. destruct (py_cond _ _); [|discriminate HO]. cbn [bind] in HO. injection HO as <- _. cbn [f_n_type]. destruct H3 as [D1 _]. rewrite D1. apply mapM_length in H2.
    split; [|split; [reflexivity|congruence]]. rewrite ENo, ELn. unfold unpolarised in HU. destruct (p_spins p) as [sp|]; [|now exfalso; apply HU]. assert (HX : filter (fun s : bool => s) sp <> []).
    { intros E. apply HU. apply Forall_forall. intros x Hx. destruct x; [|reflexivity]. exfalso. assert (HY : In true (filter (fun s : bool => s) sp)) by (apply filter_In; auto). rewrite E in HY. destruct HY. }
    destruct (filter _ sp); [easy|cbn; lia].
  Qed.

  (** ** The Python reader *)
  Lemma dict_again d acc : NoDup (map fst (acc ++ d)) -> fold_left (fun acc q => dict_set (list nat) acc (fst q) (snd q)) d acc = acc ++ d.
  Proof.
    revert acc. induction d as [|[k l] d IH]; intros acc HN; [now rewrite app_nil_r|]. cbn [fold_left fst snd].
    assert (E : forall acc : list ((nat * nat) * list nat), ~ In k (map fst acc) -> dict_set (list nat) acc k l = acc ++ [(k, l)]).
    { clear. induction acc as [|[k' l'] acc IH]; intros H; [reflexivity|]. cbn [dict_set app]. destruct (key_eqb k k') eqn:E; [exfalso; apply H; left; symmetry; now apply key_eqb_true|]. rewrite IH; [reflexivity|]. intros HI. apply H. now right. }
    rewrite map_app in HN. cbn [map fst] in HN. rewrite E by (apply NoDup_remove_2 in HN; intros HI; apply HN, in_app_iff; now left). rewrite IH by (rewrite !map_app; cbn [map fst]; now rewrite <- app_assoc). now rewrite <- app_assoc.
  Qed.
  Lemma spread_energies (els : list text) (en en' : list F) sp n : length en = length en' ->
    let '(a, _, s, m, k) := spread text F els en sp n in let '(a', _, s', m', k') := spread text F els en' sp n in a = a' /\ s = s' /\ m = m' /\ k = k'.
  Proof.
    revert en en' sp n. induction els as [|e els IH]; intros en en' sp n HL; [cbn; auto|]. destruct en as [|a en], en' as [|a' en']; try discriminate HL; [cbn; auto|]. destruct sp as [|s sp]; [cbn; auto|].
    cbn [spread]. specialize (IH en en' sp (n + (if s then 2 else 1))%nat ltac:(cbn in HL; lia)). destruct (spread _ _ els en sp _) as [[[[x1 x2] x3] x4] x5], (spread _ _ els en' sp _) as [[[[y1 y2] y3] y4] y5]. destruct IH as [-> [-> [-> ->]]]. auto.
  Qed.
  (** The spins of an object; no spins is the same as none of them active *)
  Definition spins_of (p : params) : list bool := match p_spins p with Some l => l | None => map (fun _ => false) (p_elements p) end.
  Lemma reconstruct p q b b' full full' d o : p_pairs p = Some d -> p_pairs q = Some d -> p_elements q = p_elements p -> p_n_type q = length (p_elements p) -> p_spins q = Some (spins_of p) ->
    p_energy _ _ _ q = Some (map (fun _ => 0) (spins_of p)) -> gtinv_check (b_gtinv b') = Ok tt ->
    construct p b full = Ok o -> exists o', construct q b' full' = Ok o' /\ o_basis o' = b' /\ o_full o' = full' /\ o_basis o = b /\ o_copy o' = q /\
      p_elements (o_now o') = p_elements (o_now o) /\ p_n_type (o_now o') = p_n_type (o_now o) /\ p_pairs (o_now o') = p_pairs (o_now o) /\ spins_of (o_now o') = spins_of (o_now o).
  Proof.
    intros EP EQ EE EN ES EEn HG. unfold construct. destruct (gtinv_check (b_gtinv b)); [|discriminate]. rewrite HG. cbn [bind]. unfold post_init, SpinParams.check_errors, set_spins. rewrite EE, EN, ES, EEn, EQ.
    rewrite Nat.eqb_refl. cbn [py_assert bind]. rewrite map_length. destruct (length (p_elements p) =? p_n_type p)%nat eqn:EL; [|discriminate]. cbn [py_assert bind]. apply Nat.eqb_eq in EL.
    unfold spins_of. destruct (p_spins p) as [l|] eqn:ESP.
    - destruct (match p_energy _ _ _ p with Some l => _ | None => _ end) eqn:EPE; [|discriminate]. cbn [bind]. destruct (length l =? p_n_type p)%nat eqn:ELL; [|discriminate]. cbn [py_assert bind]. rewrite EL, ELL. cbn [py_assert bind].
      destruct (length (filter (fun b0 : bool => b0) l) =? 0)%nat eqn:EZ; cbn [bind fst].
      + intros H. injection H as <-. eexists. split; [reflexivity|]. cbn [o_basis o_full o_now o_copy]. rewrite ES, EE, EN, EP, EQ, ESP. repeat split; [exact EL|]. unfold spins_of. now rewrite ESP.
      + destruct (p_energy _ _ _ p) as [en|]; [|discriminate]. rewrite EP. pose proof (spread_energies (p_elements p) en (map (fun _ => 0) l) l 0) as HS.
        assert (HLE : length en = length (map (fun _ : bool => (0 : F)) l)). { rewrite map_length. unfold py_assert in EPE. destruct (length en =? p_n_type p)%nat eqn:E; [|discriminate EPE]. apply Nat.eqb_eq in E, ELL. congruence. }
        specialize (HS HLE). destruct (spread _ _ _ en l 0) as [[[[x1 x2] x3] x4] x5]. destruct (spread _ _ _ (map _ l) l 0) as [[[[y1 y2] y3] y4] y5]. destruct HS as [-> [-> [-> ->]]].
        cbn [bind fst]. intros H. injection H as <-. eexists. split; [reflexivity|]. cbn [o_basis o_full o_now o_copy SpinParams.p_elements SpinParams.p_n_type SpinParams.p_pairs SpinParams.p_spins]. repeat split.
    - destruct (match p_energy _ _ _ p with Some l => _ | None => _ end); [|discriminate]. cbn [bind fst]. intros H. injection H as <-. rewrite map_length, Nat.eqb_refl. cbn [py_assert bind].
      assert (E : filter (fun b0 : bool => b0) (map (fun _ : text => false) (p_elements p)) = []) by (clear; induction (p_elements p) as [|e l IH]; [reflexivity|exact IH]). rewrite E. cbn [length Nat.eqb bind fst].
      eexists. split; [reflexivity|]. cbn [o_basis o_full o_now o_copy]. rewrite ES, EE, EN, EP, EQ, ESP. repeat split; [exact EL|]. unfold spins_of. now rewrite ESP.
  Qed.
  (** What is loaded is the saved model: same elements, types, spins, masses, coefficients, and the same evaluator. Models with active spins included. *)
  Theorem C64_python p b full d o coeffs scales items : standard p b full d -> construct p b full = Ok o -> save o coeffs scales = Ok items ->
    exists o' mass, load items = Ok (o', mass, stored coeffs scales) /\ mapM mass_of (p_elements (o_now o)) = Ok mass /\
      p_elements (o_now o') = p_elements (o_now o) /\ p_n_type (o_now o') = p_n_type (o_now o) /\ p_pairs (o_now o') = p_pairs (o_now o) /\ spins_of (o_now o') = spins_of (o_now o) /\
      o_full o' = Some (match full with Some x => x | None => (1%nat, seq 0 (p_n_type p)) end) /\ forall c, of_object o' c = of_object o c.
  Proof.
    intros ST HC HSV. destruct ST as [_ _ _ [EP HT] HG _].
    assert (EO : o_copy o = p /\ o_basis o = b /\ o_full o = full /\ gtinv_check (b_gtinv b) = Ok tt).
    { unfold construct in HC. destruct (gtinv_check (b_gtinv b)) as [[]|]; [|discriminate HC]. cbn [bind] in HC. destruct (post_init _ _ _ p); [|discriminate HC]. cbn [bind] in HC. injection HC as <-. auto. }
    destruct EO as [EC [EB [EFU HGC]]]. unfold PotentialFile.save in HSV. rewrite EC, EB, EFU, EP in HSV.
    destruct (mapM mass_of (p_elements (o_now o))) as [mass|] eqn:EM; [|discriminate HSV]. cbn [bind] in HSV. destruct (length coeffs =? length scales)%nat eqn:ELC; [|discriminate HSV]. cbn [bind] in HSV.
    match type of HSV with Ok ?x = Ok ?y => assert (EI : y = x) by congruence end. subst items. clear HSV.
    set (fu := match full with Some (f, _) => f | None => 1%nat end). set (ix := match full with Some (_, i) => i | None => seq 0 (p_n_type p) end).
    set (sp := match p_spins p with None => map (fun _ => 0%nat) (p_elements p) | Some l => map (fun s : bool => if s then 1%nat else 0%nat) l end).
    assert (E1 : map (fun s => negb (s =? 0)%nat) sp = spins_of p). { unfold sp, spins_of. destruct (p_spins p) as [l|]; rewrite map_map; [|reflexivity]. rewrite <- (map_id l) at 2. apply map_ext. intros []; reflexivity. }
    assert (E2 : map (fun _ : nat => (0 : F)) sp = map (fun _ => 0) (spins_of p)) by (rewrite <- E1, map_map; reflexivity).
    set (g := if text_eqb (b_feature b) (lit "gtinv") then b_gtinv b else mk_gtinv 0 [] 1).
    set (b' := mk_basis (b_cutoff b) (b_model_type b) (b_max_p b) (b_max_l b) (b_feature b) g (b_pair_type b) (b_pair_params b)).
    set (q := mk_params text F (list nat) (length (p_elements p)) (p_elements p) (Some (map (fun _ : nat => (0 : F)) sp)) (Some (map (fun s => negb (s =? 0)%nat) sp)) (Some d)).
    destruct (reconstruct p q b b' full (Some (fu, ix)) d o) as [o' [EO' [HB [HF' [HB' [_ [H1 [H2 [H3 H4]]]]]]]]]; try reflexivity.
    { exact EP. } { unfold q. cbn. now rewrite E1. } { unfold q. cbn. now rewrite E2. } { unfold b', g. cbn. destruct (text_eqb _ _); [exact HGC|reflexivity]. } { exact HC. }
    exists o', mass. split; [|split; [reflexivity|]; split; [exact H1|]; split; [exact H2|]; split; [exact H3|]; split; [exact H4|]; split; [rewrite HF'; unfold fu, ix; destruct full as [[? ?]|]; reflexivity|]].
    - assert (ED : fold_left (fun acc q => dict_set (list nat) acc (fst q) (snd q)) d [] = d) by (apply (dict_again d []); apply HT).
      assert (EQS : map rnd (map (fun q : F * F => fst q / snd q) (combine coeffs scales)) = stored coeffs scales) by (unfold stored; now rewrite map_map).
      assert (EG : b_gtinv b = mk_gtinv (g_order (b_gtinv b)) (g_maxl (b_gtinv b)) (g_version (b_gtinv b))) by (destruct (b_gtinv b); reflexivity).
      unfold PotentialFile.load, yget. unfold q, b', g, fu, ix in EO'. destruct (text_eqb (b_feature b) (lit "gtinv")) eqn:EF; destruct full as [[f idx]|].
      all: cbn [app find String.eqb Ascii.eqb Bool.eqb bind as_words as_floats as_ints as_word]; rewrite EF; cbn [bind as_int as_ints as_pairs as_float as_word as_rows]; fold sp; rewrite ED; rewrite <- ?EG; rewrite EO'; cbn [bind as_floats]; rewrite EQS; reflexivity.
    - intros c. unfold PotentialFile.of_object. rewrite H2, H3, HB, HB'. unfold b'. cbn. destruct (p_pairs (o_now o)); [|reflexivity]. cbn [bind]. destruct (py_cond _ _); [|reflexivity]. cbn [bind]. do 3 f_equal.
      unfold g. destruct (text_eqb _ _) eqn:EF; [reflexivity|]. unfold gtinv_lists. rewrite HG. reflexivity.
  Qed.
  (** Both readers of the same file build the same evaluator. *)
  Theorem C64_readers p b full d o coeffs scales items : standard p b full d -> unpolarised p -> construct p b full = Ok o -> coeffs <> [] -> save o coeffs scales = Ok items ->
    exists o' mass cs fp cs2, load items = Ok (o', mass, cs) /\ of_object o' cs = Ok (fp, cs2) /\ of_file (lines_of items) = Ok (fp, cs2, p_elements (o_now o'), mass).
  Proof.
    intros ST HU HC NC HSV. destruct (C64_cxx _ _ _ _ _ _ _ _ ST HU HC NC HSV) as [fp [mass [H1 [H2 [_ H3]]]]]. destruct (C64_python _ _ _ _ _ _ _ _ ST HC HSV) as [o' [mass' [G1 [G2 [G3 [_ [_ [_ [_ G4]]]]]]]]].
    destruct (construct_any _ _ _ _ HC) as [_ [_ [_ [_ [_ [_ [_ EN]]]]]]]. assert (EO : o_now o = p). { apply EN. unfold unpolarised in HU. destruct (p_spins p) as [l|]; [|reflexivity]. clear - HU. induction HU as [|s l -> HU IH]; [reflexivity|exact IH]. }
    rewrite EO in G2, G3. rewrite H2 in G2. injection G2 as <-. do 5 eexists. split; [exact G1|]. split; [rewrite G4; exact H3|]. rewrite H1, G3. reflexivity.
  Qed.
End C64.

(** ** Examples, over the integers: numbers with a sign, coefficients rounded to even numbers *)
Definition showz (x : Z) : text := (if (x <? 0)%Z then char 45 else char 43) :: show_nat (Z.abs_nat x).
Definition stodz (t : text) : res Z :=
  match t with [] => Err ValueError | c :: t => do n <- stoi t; if is_c c (char 45) then Ok (- Z.of_nat n)%Z else if is_c c (char 43) then Ok (Z.of_nat n) else Err ValueError end.
Definition rndz (x : Z) : Z := (2 * (x / 2))%Z.
Definition massz (t : text) : res Z := if text_eqb t (lit "Mg") then Ok 24%Z else if text_eqb t (lit "O") then Ok 16%Z else if text_eqb t (lit "Fe") then Ok 56%Z else Err KeyError.
Example C64_prints : prints showz (fun x => showz (rndz x)) stodz rndz.
Proof.
  assert (G : forall x, clean (showz x) /\ stodz (showz x) = Ok x).
  { intros x. destruct (show_nat_clean (Z.abs_nat x)) as [HN HC]. split.
    - split; [discriminate|]. constructor; [|exact HC]. destruct (x <? 0)%Z; cbn; intros H; repeat (destruct H as [H|H]; [discriminate H|]); exact H.
    - unfold showz, stodz. rewrite stoi_show. cbn [bind]. destruct (Z.ltb_spec x 0) as [H|H].
      + change (is_c (char 45) (char 45)) with true. cbn [andb]. cbv iota. f_equal. rewrite Zabs2Nat.id_abs. lia.
      + change (is_c (char 43) (char 45)) with false. change (is_c (char 43) (char 43)) with true. cbv iota. f_equal. rewrite Zabs2Nat.id_abs. lia. }
  split; [exact G|]. intros x. apply G.
Qed.
Definition mgo_pairs : list ((nat * nat) * list nat) := [((0, 0), [0; 1; 2]); ((0, 1), [0; 2]); ((1, 1), [1; 2])].
Definition mgo : params text Z (list nat) := mk_params _ _ _ 2 [lit "Mg"; lit "O"] (Some [-1; -2]%Z) None (Some mgo_pairs).
Definition mgo_basis : @basis Z := mk_basis 6%Z 4 2 4 (lit "gtinv") (mk_gtinv 3 [4; 2] 2) (lit "gaussian") [[1; 0]; [1; 5]; [0; 0]]%Z.
Definition obj_of (p : params text Z (list nat)) (b : @basis Z) : object := match construct p b None with Ok o => o | Err _ => mk_object p p b None end.
Definition mgo_object := obj_of mgo mgo_basis.
Definition mgo_items := match save massz mgo_object [7; -8; 12]%Z [1; 2; 3]%Z with Ok l => l | Err _ => [] end.
Notation rd := (fun (order : nat) (maxl : list nat) (version : nat) => (order, maxl, version)).
Notation file l := (of_file stodz (0, [], 0) rd l).
Notation printed l := (lines_of showz (fun x => showz (rndz x)) l).

Example C64_mgo_standard : standard mgo mgo_basis None mgo_pairs.
Proof.
  assert (W : forall t, (forallb (fun c => forallb (fun n => negb (Ascii.nat_of_ascii c =? n)) [9; 10; 11; 12; 13; 32; 44; 58; 91; 93]) t && negb (length t =? 0)) = true -> clean t).
  { intros t H. apply andb_prop in H. destruct H as [H1 H2]. split; [intros ->; discriminate H2|]. rewrite Forall_forall. intros c Hc HI. rewrite forallb_forall in H1. specialize (H1 c Hc). rewrite forallb_forall in H1. specialize (H1 _ HI). now rewrite Nat.eqb_refl in H1. }
  split.
  - split; [discriminate|]. constructor; [apply W; reflexivity|]. constructor; [apply W; reflexivity|constructor].
  - split; apply W; reflexivity.
  - repeat constructor; discriminate.
  - split; [reflexivity|]. split.
    + repeat constructor; cbn; intuition discriminate.
    + intros i j. cbn. split; [intros [H|[H|[H|[]]]]; injection H as <- <-; lia|]. intros [H1 H2]. assert (HJ : j = 0 \/ j = 1) by lia. assert (HI : i = 0 \/ i = 1) by lia. destruct HI as [-> | ->], HJ as [-> | ->]; auto; lia.
    + intros k l [H|[H|[H|[]]]]; injection H as <- <-; discriminate.
  - change (text_eqb (b_feature mgo_basis) (lit "gtinv")) with true. cbv iota. cbn. split; [lia|]. split; [discriminate|auto].
  - exact I.
Qed.
Example C64_mgo_run : construct mgo mgo_basis None = Ok mgo_object /\ save massz mgo_object [7; -8; 12]%Z [1; 2; 3]%Z = Ok mgo_items /\ unpolarised mgo.
Proof. split; [reflexivity|]. split; [vm_compute; reflexivity|exact I]. Qed.
(** The text of the file *)
Example C64_mgo_text : map name (printed mgo_items) =
  ["elements:      [Mg, O]"; "enable_spins:  [0, 0]"; "cutoff:        +6"; "pair_type:     gaussian"; "feature_type:  gtinv"; "model_type:    4"; "max_p:         2"; "max_l:         4"; "";
   "gtinv_order:   3"; "gtinv_maxl:    [4, 2]"; "gtinv_sym:     [0, 0]"; "gtinv_version: 2"; ""; "electrostatic: 0"; "mass:          [+24, +16]"; "";
   "n_pair_params: 3"; "pair_params:"; "- [+1, +0]"; "- [+1, +5]"; "- [+0, +0]"; "";
   "n_type_pairs: 3"; "type_pairs:"; "- atom_type_pair:      [0, 0]"; "  pair_params_indices: [0, 1, 2]"; "- atom_type_pair:      [0, 1]"; "  pair_params_indices: [0, 2]";
   "- atom_type_pair:      [1, 1]"; "  pair_params_indices: [1, 2]"; ""; "type_full:    1"; "type_indices: [0, 1]"; ""; "n_coeffs: 3"; "coeffs: [+6, -4, +4]"].
Proof. vm_compute. reflexivity. Qed.
Example C64_mgo_read : file (printed mgo_items) =
  Ok (mk_fp 2 [[1; 0]; [1; 5]; [0; 0]]%Z [[[0; 1; 2]; [0; 2]]; [[]; [1; 2]]] 6%Z (lit "gaussian") (lit "gtinv") 4 2 4 (3, [4; 2], 2), [12; -8; 8]%Z, [lit "Mg"; lit "O"], [24; 16]%Z).
Proof. vm_compute. reflexivity. Qed.

(** A blank before a closing bracket, which the writer never prints, is read as the last word again. *)
Example C64_blank : option_map (fun r => f_params (fst (fst (fst r)))) (match file (map (fun l => if text_eqb l (lit "- [+1, +5]") then lit "- [+1, +5 ]" else l) (printed mgo_items)) with Ok r => Some r | Err _ => None end) =
  Some [[1; 0]; [1; 5; 5]; [0; 0]]%Z.
Proof. vm_compute. reflexivity. Qed.

(** Of a spin-polarised model the C++ reader builds another one: one type instead of two, with two masses. *)
Definition fe : params text Z (list nat) := mk_params _ _ _ 1 [lit "Fe"] (Some [-3]%Z) (Some [true]) (Some [((0, 0), [0; 1])]).
Definition pair_basis : @basis Z := mk_basis 6%Z 2 2 0 (lit "pair") (mk_gtinv 0 [] 1) (lit "gaussian") [[1; 0]; [0; 0]]%Z.
Definition fe_items := match save massz (obj_of fe pair_basis) [7]%Z [1]%Z with Ok l => l | Err _ => [] end.
Example C64_constructed : construct fe pair_basis None = Ok (obj_of fe pair_basis).
Proof. reflexivity. Qed.
Example C64_spins_refuted : file (printed fe_items) = Ok (mk_fp 1 [[1; 0]; [0; 0]]%Z [[[0; 1]]] 6%Z (lit "gaussian") (lit "pair") 2 2 0 (0, [], 0), [12]%Z, [lit "Fe"], [56; 56]%Z) /\
  of_object (0, [], 0) rd (obj_of fe pair_basis) [6]%Z = Ok (mk_fp 2 [[1; 0]; [0; 0]]%Z [[[0; 1]; [0; 1]]; [[]; [0; 1]]] 6%Z (lit "gaussian") (lit "pair") 2 2 0 (0, [], 0), [12]%Z).
Proof. split; vm_compute; reflexivity. Qed.

(** An empty list of a pair of types ends the C++ reader (it indexes the first of no words); the Python reader takes it. *)
Definition odd_fe : params text Z (list nat) := mk_params _ _ _ 1 [lit "Fe"] (Some [-3]%Z) None (Some [((0, 0), [])]).
Definition odd_items := match save massz (obj_of odd_fe pair_basis) [7]%Z [1]%Z with Ok l => l | Err _ => [] end.
Example C64_empty_refuted : file (printed odd_items) = Err IndexError /\ exists o, load rndz odd_items = Ok (o, [56]%Z, [6]%Z).
Proof. split; [vm_compute; reflexivity|]. eexists. vm_compute. reflexivity. Qed.

(** The tables of active functions that the parameter parser builds are complete. *)
From Verif Require Import NumR Model.GaussParams Props.C26.
Theorem C64_tables ps z els (d : option distances) : NoDup els -> match d with Some d => proper els d | None => True end ->
  exists rows cond, active_params (ps ++ [z]) els d = Ok (rows, cond) /\ complete (length els) rows.
Proof.
  intros HN HD. destruct (C26_active ps z els d HN HD) as [rows [E [H1 [H2 H3]]]]. exists rows. eexists. split; [exact E|]. split; [exact H1|exact H2|].
  intros [i j] l HI -> . rewrite Forall_forall in H3. specialize (H3 _ HI). destruct H3 as [a [b [_ [_ [_ [H _]]]]]]. exact H.
Qed.

Print Assumptions C64_file.
Print Assumptions C64_cxx.
Print Assumptions C64_polarised.
Print Assumptions C64_python.
Print Assumptions C64_readers.
Print Assumptions C64_tables.
