(** C67: structure files and structures of other programs. *)
From Verif Require Import Base Num Model.Structure Model.StructureUtils Model.Parser Model.PotentialFile Model.Poscar Spec.PotentialFile Spec.Poscar
  Proofs.PotentialFile Proofs.StructureSpin Proofs.StructureUtils Proofs.Poscar Proofs.PoscarRead Proofs.PoscarGroups Props.C35.
From Coq Require String Ascii.
Import String.StringSyntax.
Local Open Scope string_scope.
Local Open Scope list_scope.
Local Open Scope nat_scope.

Definition title (comment header : option text) : text :=
  match header, comment with Some h, _ => h | None, Some c => c | None, None => lit "Generated by pypolymlp" end.

Section Files.
  Context {F : Type} {N : Num F}.
  Variables (fmt : F -> text) (stod : text -> res F) (det : mat3 (F := F) -> F) (rnd : F -> F).
  Notation structure := (structure (vec3 (F := F)) (mat3 (F := F)) F).

  (** A written structure is read back: cell and positions with their digits as printed, the counts, the title; the element of an
      atom is that of the first atom of its block, its type is the number of the block. *)
  Theorem C67_round_trip (st : structure) comment header fname :
    (forall x : F, nmul x n1 = x) -> prints fmt stod rnd ->
    length (positions st) = sum (n_atoms st) -> length (elements st) = sum (n_atoms st) -> 0 < sum (n_atoms st) ->
    Forall element_name (elements st) -> is_line (title comment header) ->
    exists file st', write_poscar fmt st comment header = Ok file /\ read_poscar stod det false fname file = Ok (st', title comment header) /\
      axis st' = rnd33 rnd (axis st) /\ positions st' = map (rnd3 rnd) (positions st) /\ n_atoms st' = n_atoms st /\
      length (elements st') = length (elements st) /\ length (types st') = length (elements st) /\
      (forall k b, in_block (n_atoms st) k b ->
         nth_error (elements st') k = nth_error (elements st) (sum (firstn b (n_atoms st))) /\ nth_error (types st') k = Some (Z.of_nat b)) /\
      volume st' = det (axis st') /\ Structure.name st' = Some fname.
  Proof.
    intros M1 [PW PR PO] HP HE HZ HN HT. change (stod (lit "1.0") = Ok n1) in PO. unfold write_poscar. rewrite block_names_heads by (cbn; lia). cbn [bind].
    destruct (axis st) as [[a b] c] eqn:EA. eexists. exists (content det fname (rnd33 rnd (a, b, c)) (heads (elements st) 0 (n_atoms st)) (n_atoms st) (map (rnd3 rnd) (positions st))).
    split; [reflexivity|]. cbn [content axis positions n_atoms elements types volume Structure.name].
    fold (title comment header).
    assert (NAMES : forall ns idx, idx + sum ns <= length (elements st) -> Forall (fun e => is_word (lit e) /\ Exists latin (lit e)) (heads (elements st) idx ns)).
    { induction ns as [|n ns IH]; intros idx H; [constructor|]. change (sum (n :: ns)) with (n + sum ns) in H. cbn [heads]. constructor; [|apply IH; lia]. destruct (Nat.ltb_spec 0 n).
      - rewrite Forall_forall in HN. apply HN. apply nth_In. lia.
      - split; [split; [discriminate|repeat constructor; unfold blank_char; cbn; intuition discriminate]|]. apply Exists_cons_hd. unfold latin. cbn. lia. }
    specialize (NAMES (n_atoms st) 0 ltac:(cbn; lia)). set (names := heads (elements st) 0 (n_atoms st)) in *.
    assert (HL : length names = length (n_atoms st)) by apply heads_length.
    split; [|split; [reflexivity|split; [reflexivity|split; [reflexivity|]]]].
    - unfold read_poscar. rewrite !(print_vec_text fmt). rewrite readlines_line by assumption. rewrite readlines_line by (repeat constructor; discriminate). rewrite !readlines_line by (apply vec_line; assumption).
      unfold print_entries. change (lit " " ++ flat_map (fun x => x ++ lit "  ") ?l) with (entries_text l).
      rewrite readlines_line. 2: { apply entries_line. apply Forall_map. eapply Forall_impl; [|exact NAMES]. intros e [HE1 _]. now apply word_line. }
      rewrite readlines_line. 2: { apply entries_line. apply Forall_map, Forall_forall. intros n _. apply word_line, show_nat_word. }
      rewrite readlines_line by (repeat constructor; discriminate).
      assert (EP : flat_map (print_vec fmt) (positions st) = flat_map print_line (map (vec_text fmt) (positions st)) ++ []).
      { rewrite app_nil_r. clear. induction (positions st) as [|p ps IH]; [reflexivity|]. cbn [flat_map map]. now rewrite IH, print_vec_text. }
      rewrite EP, readlines_rows by (apply Forall_map, Forall_forall; intros; apply vec_line; assumption). change (readlines []) with (@nil text). rewrite app_nil_r.
      apply (parse_named fmt stod det rnd M1 PO PW PR fname false (title comment header) a b c names (n_atoms st) [] (lit "Direct")).
      + apply Forall_map. eapply Forall_impl; [|exact NAMES]. now intros e [HE1 _].
      + exact HL.
      + destruct (n_atoms st) as [|n0 ns0] eqn:EN; [cbn in HZ; lia|]. destruct names as [|e0 names0]; [discriminate|]. inversion NAMES as [|? ? [_ HX] _]. subst.
        apply existsb_exists. apply Exists_exists in HX. destruct HX as (ch & HI & HLt). exists ch. split; [unfold entries_text; cbn [map flat_map]; rewrite !in_app_iff; tauto|].
        unfold latin in HLt. unfold letter. cbn zeta. lia.
      + reflexivity.
      + clear -PW PR. induction (positions st) as [|p ps IH]; constructor; [|exact IH]. apply row3_plain; assumption.
      + exact HP.
      + exact HZ.
    - cbn [content elements types volume axis Structure.name]. change (spread names (n_atoms st)) with (block_elements (elements st) (n_atoms st)). rewrite block_elements_length, block_types_length. split; [lia|]. split; [lia|]. split; [|split; reflexivity].
      intros k bl HB. split; [now apply block_elements_nth; [lia|]|now apply (block_types_nth 0)].
  Qed.

  (** The elements are those that were written exactly if the atoms of a block have one element; the types are those that were
      written exactly if they are the numbers of the blocks. *)
  Theorem C67_same (st st' : structure) comment header fname file :
    (forall x : F, nmul x n1 = x) -> prints fmt stod rnd ->
    length (positions st) = sum (n_atoms st) -> length (elements st) = sum (n_atoms st) -> length (types st) = sum (n_atoms st) -> 0 < sum (n_atoms st) ->
    Forall element_name (elements st) -> is_line (title comment header) ->
    write_poscar fmt st comment header = Ok file -> read_poscar stod det false fname file = Ok (st', title comment header) ->
    (elements st' = elements st <-> one_element (n_atoms st) (elements st)) /\
    (types st' = types st <-> forall k b, in_block (n_atoms st) k b -> nth_error (types st) k = Some (Z.of_nat b)).
  Proof.
    intros M1 PP HP HE HTY HZ HN HT HW HR. destruct (C67_round_trip st comment header fname M1 PP HP HE HZ HN HT) as (file' & st'' & EW & ER & _ & _ & _ & L1 & L2 & EB & _).
    assert (file' = file) by congruence. subst file'. assert (st'' = st') by congruence. subst st''. split.
    - rewrite <- (block_elements_same (elements st) (n_atoms st) HE).
      assert (EL : elements st' = block_elements (elements st) (n_atoms st)).
      { apply nth_error_ext_lt; [rewrite block_elements_length; lia|]. intros k Hk. destruct (in_block_ex (n_atoms st) k) as [b Hb]; [lia|]. rewrite (proj1 (EB k b Hb)). symmetry. apply block_elements_nth; [lia|exact Hb]. }
      rewrite EL. reflexivity.
    - split.
      + intros ET k b Hb. rewrite <- ET. apply (EB k b Hb).
      + intros H. apply nth_error_ext_lt; [lia|]. intros k Hk. destruct (in_block_ex (n_atoms st) k) as [b Hb]; [lia|]. rewrite (proj2 (EB k b Hb)). symmetry. now apply H.
  Qed.

  (** The line that says how the coordinates are given is not looked at: Cartesian coordinates are taken for fractional ones. *)
  Theorem C67_mode (sel : bool) fname (front : list text) (mode mode' : text) (rows : list text) :
    length front = (if existsb letter (nth 5 front []) then 7 else 6) + (if sel then 1 else 0) ->
    Forall is_line front -> is_line mode -> is_line mode' -> Forall is_line rows ->
    read_poscar stod det sel fname (flat_map print_line (front ++ mode :: rows)) = read_poscar stod det sel fname (flat_map print_line (front ++ mode' :: rows)).
  Proof.
    intros HL H1 H2 H2' H3. unfold read_poscar.
    assert (RL : forall l, Forall is_line l -> readlines (flat_map print_line l) = l) by (intros l Hl; rewrite <- (app_nil_r (flat_map _ _)), readlines_rows by assumption; change (readlines []) with (@nil text); apply app_nil_r).
    rewrite !RL by (apply Forall_app; split; auto). unfold parse_poscar.
    assert (G : forall i, i <> length front -> get (front ++ mode :: rows) i = get (front ++ mode' :: rows) i).
    { intros i Hi. unfold get. destruct (Nat.lt_ge_cases i (length front)); [now rewrite !nth_error_app1 by assumption|]. rewrite !nth_error_app2 by assumption. destruct (i - length front) eqn:E; [lia|reflexivity]. }
    assert (G5 : get (front ++ mode' :: rows) 5 = Ok (nth 5 front [])).
    { destruct (Nat.lt_ge_cases 5 (length front)) as [H5|H5]; [|destruct (existsb letter _), sel; lia]. unfold get. rewrite nth_error_app1 by assumption. now rewrite (nth_error_nth' front [] H5). }
    assert (L6 : 6 <= length front) by (destruct (existsb letter _), sel; lia).
    rewrite (G 0), (G 1), (G 2), (G 3), (G 4), (G 5), G5 by lia. cbn [bind].
    destruct (existsb letter (nth 5 front [])) eqn:EX.
    - rewrite (G 6) by lia.
      assert (GM : forall n, mapM (fun i => do l <- get (front ++ mode :: rows) ((if sel then 7 + 1 else 7) + 1 + i); row3 stod l) (seq 0 n) = mapM (fun i => do l <- get (front ++ mode' :: rows) ((if sel then 7 + 1 else 7) + 1 + i); row3 stod l) (seq 0 n)).
      { intros n. generalize (seq 0 n). intros l. induction l as [|i l IH]; [reflexivity|]. cbn [mapM]. rewrite IH, G by (destruct sel; lia). reflexivity. }
      destruct (get (front ++ mode' :: rows) 0); [|reflexivity]. cbn [bind]. destruct (get (front ++ mode' :: rows) 1) as [l1|]; [|reflexivity]. cbn [bind]. destruct (get (words l1) 0) as [w1|]; [|reflexivity]. cbn [bind]. destruct (stod w1); [|reflexivity]. cbn [bind].
      destruct (get (front ++ mode' :: rows) 2) as [l2|]; [|reflexivity]. cbn [bind]. destruct (row3 stod l2); [|reflexivity]. cbn [bind]. destruct (get (front ++ mode' :: rows) 3) as [l3|]; [|reflexivity]. cbn [bind]. destruct (row3 stod l3); [|reflexivity]. cbn [bind].
      destruct (get (front ++ mode' :: rows) 4) as [l4|]; [|reflexivity]. cbn [bind]. destruct (row3 stod l4); [|reflexivity]. cbn [bind]. destruct (get (front ++ mode' :: rows) 6) as [l6|]; [|reflexivity]. cbn [bind]. destruct (mapM py_int (words l6)) as [ns|]; [|reflexivity]. cbn [bind]. destruct (assign _ 0 ns) as [[es ts]|]; [|reflexivity]. cbn [bind]. now rewrite GM.
    - assert (GM : forall n, mapM (fun i => do l <- get (front ++ mode :: rows) ((if sel then 6 + 1 else 6) + 1 + i); row3 stod l) (seq 0 n) = mapM (fun i => do l <- get (front ++ mode' :: rows) ((if sel then 6 + 1 else 6) + 1 + i); row3 stod l) (seq 0 n)).
      { intros n. generalize (seq 0 n). intros l. induction l as [|i l IH]; [reflexivity|]. cbn [mapM]. rewrite IH, G by (destruct sel; lia). reflexivity. }
      destruct (get (front ++ mode' :: rows) 0); [|reflexivity]. cbn [bind]. destruct (get (front ++ mode' :: rows) 1) as [l1|]; [|reflexivity]. cbn [bind]. destruct (get (words l1) 0) as [w1|]; [|reflexivity]. cbn [bind]. destruct (stod w1); [|reflexivity]. cbn [bind].
      destruct (get (front ++ mode' :: rows) 2) as [l2|]; [|reflexivity]. cbn [bind]. destruct (row3 stod l2); [|reflexivity]. cbn [bind]. destruct (get (front ++ mode' :: rows) 3) as [l3|]; [|reflexivity]. cbn [bind]. destruct (row3 stod l3); [|reflexivity]. cbn [bind].
      destruct (get (front ++ mode' :: rows) 4) as [l4|]; [|reflexivity]. cbn [bind]. destruct (row3 stod l4); [|reflexivity]. cbn [bind]. destruct (mapM py_int (words _)) as [ns|]; [|reflexivity]. cbn [bind]. destruct (assign _ 0 ns) as [[es ts]|]; [|reflexivity]. cbn [bind]. now rewrite GM.
  Qed.

  (** Files with selective dynamics: the extra line and the flags after the coordinates change nothing if the reader is told of it;
      otherwise the line of the coordinate type is read as coordinates. *)
  Theorem C67_selective fname comment a b c names ns sd mode (ps : list (vec3 (F := F) * text)) w ws e :
    (forall x : F, nmul x n1 = x) -> prints fmt stod rnd ->
    names <> [] -> Forall element_name names -> length names = length ns -> length ps = sum ns -> 0 < sum ns ->
    is_line comment -> is_line sd -> is_line mode -> Forall (fun p => is_line (snd p)) ps ->
    words mode = w :: ws -> stod w = Err e ->
    let front := [comment; lit "1.0"; vec_text fmt a; vec_text fmt b; vec_text fmt c; lit " " ++ flat_map (fun x => x ++ lit "  ") (map lit names); lit " " ++ flat_map (fun x => x ++ lit "  ") (map show_nat ns)] in
    let rows := map (fun p => vec_text fmt (fst p) ++ lit " " ++ snd p) ps in
    (exists st, read_poscar stod det true fname (flat_map print_line (front ++ [sd; mode] ++ rows)) = Ok (st, comment) /\
       read_poscar stod det false fname (flat_map print_line (front ++ [mode] ++ map (fun p => vec_text fmt (fst p)) ps)) = Ok (st, comment) /\
       positions st = map (fun p => rnd3 rnd (fst p)) ps) /\
    read_poscar stod det false fname (flat_map print_line (front ++ [sd; mode] ++ rows)) = Err e.
  Proof.
    intros M1 [PW PR PO] HN0 HN HL HP HZ LC LS LM LP WM SM front rows. change (stod (lit "1.0") = Ok n1) in PO. unfold read_poscar.
    assert (RL : forall l, Forall is_line l -> readlines (flat_map print_line l) = l) by (intros l Hl; rewrite <- (app_nil_r (flat_map _ _)), readlines_rows by assumption; change (readlines []) with (@nil text); apply app_nil_r).
    assert (W : Forall is_word (map lit names)) by (apply Forall_map; eapply Forall_impl; [|exact HN]; now intros x [H _]).
    assert (LF : Forall is_line front).
    { apply Forall_cons; [exact LC|]. apply Forall_cons; [repeat constructor; discriminate|]. do 3 (apply Forall_cons; [apply vec_line; assumption|]).
      apply Forall_cons; [apply (entries_line _); eapply Forall_impl; [|exact W]; apply word_line|]. apply Forall_cons; [|apply Forall_nil]. apply (entries_line _). apply Forall_map, Forall_forall. intros n _. apply word_line, show_nat_word. }
    assert (LR : Forall is_line rows).
    { apply Forall_map. eapply Forall_impl; [|exact LP]. intros p Hp. cbn beta in *. apply is_line_app; [apply vec_line; assumption|]. apply is_line_app; [repeat constructor; discriminate|exact Hp]. }
    assert (LT : existsb letter (entries_text (map lit names)) = true).
    { destruct names as [|e0 names0]; [easy|]. inversion HN as [|? ? [_ HX] _]. subst. apply existsb_exists. apply Exists_exists in HX. destruct HX as (ch & HI & HLt). exists ch. split; [unfold entries_text; cbn [map flat_map]; rewrite !in_app_iff; tauto|].
      unfold latin in HLt. unfold letter. cbn zeta. lia. }
    assert (LV : Forall is_line (map (fun p : vec3 (F := F) * text => vec_text fmt (fst p)) ps)) by (apply Forall_map, Forall_forall; intros; apply vec_line; assumption).
    rewrite !RL by (repeat (apply Forall_app; split); auto). split.
    - exists (content det fname (rnd33 rnd (a, b, c)) names ns (map (rnd3 rnd) (map fst ps))). split; [|split].
      + apply (parse_named fmt stod det rnd M1 PO PW PR fname true comment a b c names ns [sd] mode rows (map fst ps)); try assumption; try reflexivity; [|rewrite map_length; exact HP].
        unfold rows. clear -PW PR. induction ps as [|p ps IH]; constructor; [|exact IH]. change (lit " " ++ snd p) with (blank_c :: snd p). apply (row3_flags fmt stod rnd); assumption.
      + apply (parse_named fmt stod det rnd M1 PO PW PR fname false comment a b c names ns [] mode _ (map fst ps)); try assumption; try reflexivity; [|rewrite map_length; exact HP].
        clear -PW PR. induction ps as [|p ps IH]; constructor; [|exact IH]. apply (row3_plain fmt stod rnd); assumption.
      + cbn. now rewrite map_map.
    - unfold parse_poscar, front. cbn [app]. unfold get at 1 2 4 5 6 7. cbn [nth_error bind].
      assert (W1 : is_word (lit "1.0")) by (split; [discriminate|]; repeat constructor; unfold blank_char; cbn; intuition discriminate).
      rewrite (words_last _ W1). unfold get at 1. cbn [nth_error bind]. rewrite PO. cbn [bind]. rewrite !(row3_plain fmt stod rnd PW PR). cbn [bind].
      change (lit " " ++ flat_map (fun x => x ++ lit "  ") (map lit names)) with (entries_text (map lit names)).
      change (lit " " ++ flat_map (fun x => x ++ lit "  ") (map show_nat ns)) with (entries_text (map show_nat ns)).
      rewrite LT. unfold get at 1. cbn [nth_error bind]. rewrite words_entries by (apply Forall_map, Forall_forall; intros; apply show_nat_word). rewrite mapM_py_int. cbn [bind].
      rewrite words_entries by assumption. pose proof (assign_spec [] names ns ltac:(lia)) as HA. cbn [app length] in HA. rewrite HA. cbn [bind].
      destruct (sum ns) as [|m]; [lia|]. cbn [seq mapM]. unfold get at 1. cbn [Nat.add nth_error bind]. unfold row3 at 1. rewrite WM. cbn [firstn mapM]. rewrite SM. reflexivity.
  Qed.
End Files.
Print Assumptions C67_round_trip.
Print Assumptions C67_same.
Print Assumptions C67_mode.
Print Assumptions C67_selective.

Section Groups.
  Context {F : Type} {N : Num F}.
  Variables (det : mat3 (F := F) -> F).
  Notation structure := (structure (vec3 (F := F)) (mat3 (F := F)) F).

  (** A structure sorted by types ([reorder]) can be written: its blocks have one element each, and the atoms are those of the
      structure in another order. *)
  Theorem C67_reorder (st : structure) :
    length (types st) = length (positions st) -> length (elements st) = length (positions st) -> types_determine (elements st) (types st) ->
    exists st', reorder st = Ok st' /\ length (positions st') = sum (n_atoms st') /\ length (elements st') = sum (n_atoms st') /\
      one_element (n_atoms st') (elements st') /\
      Permutation (combine (elements st') (positions st')) (combine (elements st) (positions st)).
  Proof.
    intros HT HE HD. destruct (C35_sort_wrt_types st HT HE HD) as (st' & ids & ES & ER & HP & MP & MT & ME). exists st'. split; [exact ER|].
    destruct (sort_wrt_types_ok st HT HE) as (st2 & ids2 & ES2 & T1 & _ & _ & T4 & _). assert (st2 = st') by congruence. subst st2.
    assert (TS : types st' = spread (np_unique (types st)) (n_atoms st')) by (rewrite T1, T4; apply sorted_types_spread).
    assert (LU : length (np_unique (types st)) = length (n_atoms st')) by (rewrite T4; now rewrite map_length).
    assert (LT : length (types st') = sum (n_atoms st')) by (rewrite TS; now apply spread_length).
    assert (LI : forall X (l l' : list X), mapM (get l) ids = Ok l' -> length l' = length ids) by (intros X l l' H; now apply mapM_length in H).
    rewrite <- LT, (LI _ _ _ MP), (LI _ _ _ ME), (LI _ _ _ MT). split; [reflexivity|]. split; [reflexivity|]. split.
    - intros k k' b Hk Hk'.
      assert (R : forall j, in_block (n_atoms st') j b -> exists m t e, nth_error (np_unique (types st)) b = Some t /\ nth_error (elements st') j = Some e /\ nth_error (types st) m = Some t /\ nth_error (elements st) m = Some e).
      { intros j Hj. assert (LJ : j < length ids) by (rewrite <- (LI _ _ _ MT), LT; now apply in_block_lt in Hj). destruct (nth_error ids j) as [m|] eqn:EJ; [|apply nth_error_None in EJ; lia]. exists m.
        assert (Q : forall X (l l' : list X), mapM (get l) ids = Ok l' -> exists x, nth_error l' j = Some x /\ nth_error l m = Some x).
        { clear -EJ. revert j EJ. induction ids as [|i ids IH]; intros [|j] EJ X l l' H; try discriminate; cbn in EJ, H.
          - injection EJ as ->. destruct (get l m) as [x|] eqn:G; [|discriminate]. cbn in H. destruct (mapM (get l) ids); [|discriminate]. injection H as <-. exists x. split; [reflexivity|]. now apply get_Some.
          - destruct (get l i); [|discriminate]. cbn in H. destruct (mapM (get l) ids) as [l2|] eqn:E2; [|discriminate]. injection H as <-. now apply (IH j EJ). }
        destruct (Q _ _ _ MT) as (t & Q1 & Q2). destruct (Q _ _ _ ME) as (e & Q3 & Q4). exists t, e. rewrite TS, (spread_nth _ _ j b LU Hj) in Q1. auto. }
      destruct (R k Hk) as (m & t & e & R1 & R2 & R3 & R4). destruct (R k' Hk') as (m' & t' & e' & R1' & R2' & R3' & R4'). assert (t' = t) by congruence. subst t'. rewrite R2, R2'. f_equal. apply (HD t).
      + apply nth_error_In with m. clear -R3 R4. revert m R3 R4. generalize (elements st). induction (types st) as [|x l IH]; intros [|y l'] [|m] R3 R4; try discriminate; cbn in *; [congruence|auto].
      + apply nth_error_In with m'. clear -R3' R4'. revert m' R3' R4'. generalize (elements st). induction (types st) as [|x l IH]; intros [|y l'] [|m'] R3' R4'; try discriminate; cbn in *; [congruence|auto].
    - assert (Q : forall X Y (a a' : list X) (b b' : list Y) ids, mapM (get a) ids = Ok a' -> mapM (get b) ids = Ok b' -> mapM (get (combine a b)) ids = Ok (combine a' b')).
      { clear. intros X Y a a' b b' ids. revert a' b'. induction ids as [|i ids IH]; intros a' b' HA HB; cbn in *; [injection HA as <-; injection HB as <-; reflexivity|].
        destruct (get a i) as [x|] eqn:GA; [|discriminate]. destruct (get b i) as [y|] eqn:GB; [|discriminate]. cbn in *. destruct (mapM (get a) ids) as [a2|]; [|discriminate]. destruct (mapM (get b) ids) as [b2|]; [|discriminate]. cbn in *.
        assert (EA : a' = x :: a2) by congruence. assert (EB : b' = y :: b2) by congruence. subst. apply get_Some in GA. apply get_Some in GB.
        assert (GC : get (combine a b) i = Ok (x, y)). { apply get_Some. clear -GA GB. revert b i GA GB. induction a as [|u a IH]; intros [|v b] [|i] GA GB; try discriminate; cbn in *; [congruence|auto]. }
        rewrite GC. cbn. now rewrite (IH a2 b2). }
      pose proof (Q _ _ _ _ _ _ _ ME MP) as MC. rewrite <- (Nat.min_id (length (positions st))) in HP. rewrite <- HE in HP at 1. rewrite <- combine_length in HP.
      destruct (mapM_get_perm (combine (elements st) (positions st)) _ _ _ HP MC) as (vs & E1 & E2). rewrite mapM_get_seq in E1. injection E1 as <-. exact E2.
  Qed.

  (** Structures made from phonopy cells keep cell, positions and elements; their types name the elements exactly if equal elements
      stand together, and then they can be written and read back. *)
  Theorem C67_phonopy (cell : mat3 (F := F)) (pos : list (vec3 (F := F))) symbols (vol : F) :
    let st := phonopy_cell_to_structure cell pos symbols vol in
    axis st = cell /\ positions st = pos /\ elements st = symbols /\ volume st = vol /\ sum (n_atoms st) = length symbols /\ length (types st) = length symbols /\
    (types_match (elements st) (types st) <-> together symbols) /\ (together symbols -> one_element (n_atoms st) (elements st)).
  Proof.
    cbn zeta. unfold phonopy_cell_to_structure. cbn [axis positions elements volume n_atoms types].
    assert (SC : sum (map (count symbols) (firsts [] symbols)) = length symbols) by (apply sum_counts; [apply firsts_NoDup|]; intros e HE; apply firsts_In; split; [exact HE|intros []]).
    do 4 (split; [reflexivity|]). split; [exact SC|]. split; [now rewrite block_types_length|]. split; [split|].
    - apply types_match_together.
    - intros HT. rewrite (together_spread symbols HT) at 1. apply types_match_spread; [apply firsts_NoDup|now rewrite map_length].
    - intros HT. pose proof (together_spread symbols HT) as ES. assert (LN : length (firsts [] symbols) = length (map (count symbols) (firsts [] symbols))) by (now rewrite map_length).
      set (u := firsts [] symbols) in *. set (ns := map (count symbols) u) in *. clearbody ns u. rewrite ES. now apply one_element_spread.
  Qed.

  (** Structures of OpenMX: the types always name the elements, in alphabetical order, and the counts are the numbers of atoms of the types. *)
  Theorem C67_openmx (ax : mat3 (F := F)) pos els : length pos = length els ->
    exists st u, openmx_structure det ax pos els = Ok st /\ axis st = ax /\ positions st = pos /\ elements st = els /\
      StronglySorted (fun a b => String.compare a b = Lt) u /\ (forall e, In e u <-> In e els) /\
      (forall k e t, nth_error els k = Some e -> (nth_error (types st) k = Some t <-> exists p, t = Z.of_nat p /\ nth_error u p = Some e)) /\
      types_match els (types st) /\
      n_atoms st = map (fun e => length (filter (String.eqb e) els)) u.
  Proof.
    intros HL. unfold openmx_structure, assign_types. pose proof (np_unique_str_sorted els) as SU. pose proof (sorted_NoDup _ SU) as NU.
    pose proof (assign_types_spec els (np_unique_str els) 0 (repeat 0%Z (length els)) NU ltac:(now rewrite repeat_length)) as A.
    destruct (assign_types_loop els (np_unique_str els) 0 _) as [ty ns]. destruct A as (-> & LT & T1 & _).
    assert (SC : sum (map (count els) (np_unique_str els)) = length els) by (apply sum_counts; [exact NU|]; intros e HE; now apply np_unique_str_In).
    unfold new_structure. rewrite SC, HL, LT, !Nat.eqb_refl. cbn [py_assert bind]. eexists. exists (np_unique_str els). split; [reflexivity|]. cbn [axis positions elements types n_atoms].
    do 3 (split; [reflexivity|]). split; [exact SU|]. split; [intros e; apply np_unique_str_In|].
    assert (TT : forall k e t, nth_error els k = Some e -> (nth_error ty k = Some t <-> exists p, t = Z.of_nat p /\ nth_error (np_unique_str els) p = Some e)).
    { intros k e t HK. assert (HI : In e (np_unique_str els)) by (apply np_unique_str_In; now apply nth_error_In in HK). apply In_nth_error in HI. destruct HI as [p Hp]. pose proof (T1 k e p HK Hp) as TK. cbn [Nat.add] in TK. split.
      - intros HT. exists p. split; [congruence|exact Hp].
      - intros (p' & -> & Hp'). now apply (T1 k e p'). }
    split; [exact TT|]. split; [|reflexivity]. split; [exact LT|]. intros k k' e e' t t' He He' Ht Ht'. apply (TT _ _ _ He) in Ht. apply (TT _ _ _ He') in Ht'. destruct Ht as (p & -> & Hp). destruct Ht' as (p' & -> & Hp'). split.
    - intros <-. f_equal. apply (proj1 (NoDup_nth_error (np_unique_str els)) NU); [apply nth_error_Some; congruence|congruence].
    - intros EP. assert (p = p') by lia. subst. congruence.
  Qed.
End Groups.
Print Assumptions C67_reorder.
Print Assumptions C67_phonopy.
Print Assumptions C67_openmx.

(** ** Examples: integers printed as -12.0 *)
Definition zfmt (z : Z) : text := (if (z <? 0)%Z then lit "-" else []) ++ show_nat (Z.abs_nat z) ++ lit ".0".
Definition zstod (s : text) : res Z :=
  match s with
  | [] => Err ValueError
  | c :: t => if is_c c (char 45) then Ok (- Z.of_nat (digits 0 t))%Z else match digit c with Some _ => Ok (Z.of_nat (digits 0 s)) | None => Err ValueError end
  end.
Definition zdet (m : mat3 (F := Z)) : Z := let '((a, b, c), (d, e, f), (g, h, i)) := m in (a * (e * i - f * h) - b * (d * i - f * g) + c * (d * h - e * g))%Z.
Lemma digits_point n : digits 0 (show_nat n ++ lit ".0") = n.
Proof.
  assert (G : forall d acc, digits acc (of_uint d ++ lit ".0") = Nat.of_uint_acc d acc).
  { induction d; intros acc; cbn [of_uint app digits Nat.of_uint_acc]; [reflexivity|..]; dig; rewrite IHd, Nat.tail_mul_spec; f_equal; lia. }
  unfold show_nat. rewrite G. apply (DecimalNat.Unsigned.of_to n).
Qed.
Lemma z_prints : prints zfmt zstod (fun z => z).
Proof.
  constructor.
  - intros z. unfold zfmt. split.
    + intros H. apply app_eq_nil in H. destruct H as [_ H]. apply app_eq_nil in H. destruct H as [_ H]. discriminate H.
    + apply Forall_app. split; [destruct (z <? 0)%Z; repeat constructor; unfold blank_char; cbn; intuition discriminate|]. apply Forall_app. split; [apply show_nat_word|]. repeat constructor; unfold blank_char; cbn; intuition discriminate.
  - intros z. unfold zfmt. destruct (Z.ltb_spec z 0).
    + cbn [app lit String.list_ascii_of_string zstod]. change (is_c _ (char 45)) with true. cbn match. change (String.list_ascii_of_string ".0") with (lit ".0"). rewrite digits_point. f_equal. lia.
    + cbn [app]. unfold zstod. destruct (show_nat (Z.abs_nat z) ++ lit ".0") as [|c t] eqn:E; [apply app_eq_nil in E; destruct E as [_ E]; discriminate E|].
      assert (D : exists d, digit c = Some d).
      { pose proof (show_nat_word (Z.abs_nat z)) as [NE _]. pose proof (uint_digits (Nat.to_uint (Z.abs_nat z))) as DD. change (of_uint (Nat.to_uint (Z.abs_nat z))) with (show_nat (Z.abs_nat z)) in DD.
        destruct (show_nat (Z.abs_nat z)) as [|c' t']; [easy|]. cbn [app] in E. assert (c' = c) by congruence. subst c'. cbn [forallb] in DD. destruct (digit c) as [d|]; [now exists d|discriminate DD]. }
      destruct D as [d D]. assert (NC : is_c c (char 45) = false). { destruct (is_c c (char 45)) eqn:EC; [|reflexivity]. unfold is_c in EC. apply Ascii.eqb_eq in EC. subst c. discriminate D. }
      rewrite NC, D, <- E, digits_point. f_equal. lia.
  - reflexivity.
Qed.
Definition ex_axis : mat3 (F := Z) := ((4, 0, 0), (0, 4, 0), (1, 0, -5))%Z.
Definition ex_st (ns : list nat) (els : list string) (ty : list Z) : structure (vec3 (F := Z)) (mat3 (F := Z)) Z :=
  mk_structure ex_axis [(0, 0, 0); (1, 0, 0); (0, 2, 0); (0, 0, -3)]%Z ns els ty (-80)%Z None.
Example C67_example_names : Forall element_name ["Mg"; "O"; "Z"].
Proof. repeat constructor; try discriminate; try (unfold blank_char; cbn; intuition discriminate); unfold latin; cbn; lia. Qed.
Example C67_example_file :
  write_poscar zfmt (ex_st [2; 0; 2] ["Mg"; "Mg"; "O"; "O"] [0; 0; 2; 2]%Z) None None =
  Ok (flat_map (fun l => print_line (lit l)) ["Generated by pypolymlp"; "1.0"; "   4.0 0.0 0.0"; "   0.0 4.0 0.0"; "   1.0 0.0 -5.0"; " Mg  Z  O  "; " 2  0  2  "; "Direct"; "   0.0 0.0 0.0"; "   1.0 0.0 0.0"; "   0.0 2.0 0.0"; "   0.0 0.0 -3.0"]).
Proof. vm_compute. reflexivity. Qed.
Example C67_example :
  exists file, write_poscar zfmt (ex_st [2; 0; 2] ["Mg"; "Mg"; "O"; "O"] [0; 0; 2; 2]%Z) (Some (lit "rock salt")) None = Ok file /\
    read_poscar zstod zdet false "POSCAR" file = Ok (mk_structure ex_axis (positions (ex_st [] [] [])) [2; 0; 2] ["Mg"; "Mg"; "O"; "O"] [0; 0; 2; 2]%Z (-80)%Z (Some "POSCAR"), lit "rock salt").
Proof. eexists. split; vm_compute; reflexivity. Qed.

(** Atoms of a block that have other elements than its first atom get its element. *)
Theorem C67_elements_refuted :
  let st := ex_st [2; 2] ["Mg"; "O"; "Mg"; "O"] [0; 1; 0; 1]%Z in
  exists file st', length (elements st) = sum (n_atoms st) /\ length (types st) = sum (n_atoms st) /\ types_match (elements st) (types st) /\
    write_poscar zfmt st None None = Ok file /\ read_poscar zstod zdet false "POSCAR" file = Ok (st', title None None) /\
    elements st' = ["Mg"; "Mg"; "Mg"; "Mg"] /\ types st' = [0; 0; 1; 1]%Z.
Proof.
  cbn zeta. do 2 eexists. split; [reflexivity|]. split; [reflexivity|]. split.
  - split; [reflexivity|]. intros k k' e e' t t' H1 H2 H3 H4. destruct k as [|[|[|[|k]]]]; try (destruct k; discriminate); destruct k' as [|[|[|[|k']]]]; try (destruct k'; discriminate); cbn in *; split; congruence.
  - split; [vm_compute; reflexivity|]. split; [vm_compute; reflexivity|]. split; reflexivity.
Qed.
Print Assumptions C67_elements_refuted.

(** A newline in the title shifts all lines. *)
Theorem C67_newline_refuted :
  exists file, write_poscar zfmt (ex_st [2; 2] ["Mg"; "Mg"; "O"; "O"] [0; 0; 1; 1]%Z) None (Some (lit "a" ++ [newline] ++ lit "b")) = Ok file /\
    read_poscar zstod zdet false "POSCAR" file = Err ValueError.
Proof. eexists. split; vm_compute; reflexivity. Qed.
Print Assumptions C67_newline_refuted.

(** Alternating elements of a phonopy cell get types that do not name them. *)
Theorem C67_phonopy_refuted :
  let st := phonopy_cell_to_structure ex_axis (positions (ex_st [] [] [])) ["Mg"; "O"; "Mg"; "O"] 80%Z in
  n_atoms st = [2; 2] /\ types st = [0; 0; 1; 1]%Z /\ ~ types_match (elements st) (types st) /\ ~ together ["Mg"; "O"; "Mg"; "O"].
Proof.
  cbn zeta. split; [reflexivity|]. split; [reflexivity|]. split.
  - intros [_ H]. specialize (H 0 1 "Mg" "O" 0%Z 0%Z eq_refl eq_refl eq_refl eq_refl). destruct H as [_ H]. specialize (H eq_refl). discriminate H.
  - intros H. specialize (H 0 1 2 "Mg" ltac:(lia) eq_refl eq_refl). discriminate H.
Qed.
Print Assumptions C67_phonopy_refuted.
Example C67_phonopy_example : together ["Mg"; "O"; "O"].
Proof. intros i j k e HJ HI HK. destruct k as [|[|[|k]]]; [lia|lia| |destruct k; discriminate]. destruct j as [|[|j]]; [lia| |lia]. assert (i = 0) by lia. subst i. cbn in *. congruence. Qed.

(** Structures of OpenMX whose elements are not in alphabetical order have counts that are not those of their blocks. *)
Theorem C67_openmx_refuted :
  exists st file st', openmx_structure zdet ex_axis (positions (ex_st [] [] [])) ["O"; "O"; "O"; "Mg"] = Ok st /\ n_atoms st = [1; 3] /\ types st = [1; 1; 1; 0]%Z /\
    write_poscar zfmt st None None = Ok file /\ read_poscar zstod zdet false "POSCAR" file = Ok (st', title None None) /\ elements st' = ["O"; "O"; "O"; "O"].
Proof. do 3 eexists. split; [vm_compute; reflexivity|]. split; [reflexivity|]. split; [reflexivity|]. split; [vm_compute; reflexivity|]. split; [vm_compute; reflexivity|]. reflexivity. Qed.
Print Assumptions C67_openmx_refuted.

(** Selective dynamics: "Direct" is not a number. *)
Example C67_selective_example : words (lit "Direct") = [lit "Direct"] /\ zstod (lit "Direct") = Err ValueError.
Proof. split; vm_compute; reflexivity. Qed.
(** A file with Cartesian coordinates *)
Example C67_mode_example :
  let front := map lit ["MgO"; "1.0"; "4.0 0.0 0.0"; "0.0 4.0 0.0"; "0.0 0.0 4.0"; "Mg O"; "1 1"] in
  exists st, read_poscar zstod zdet false "POSCAR" (flat_map print_line (front ++ lit "Cartesian" :: [lit "0.0 0.0 0.0"; lit "2.0 2.0 2.0"])) = Ok (st, lit "MgO") /\ positions st = [(0, 0, 0); (2, 2, 2)]%Z.
Proof. cbn zeta. eexists. split; [vm_compute; reflexivity|]. reflexivity. Qed.
