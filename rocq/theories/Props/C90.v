(** C90: YAML files of structures, properties and self-consistent harmonic calculations come back as they were written. *)
From Verif Require Import Base Model.Structure Model.Readers Proofs.Readers Model.Parser Model.PotentialFile Proofs.YamlFiles.
From Coq Require Import Ascii String List.
From Verif Require Import Model.YamlFiles.
Local Open Scope list_scope.
Local Open Scope nat_scope.

(** repr and float(): printed numbers are words of letters, digits, points and signs, not integers nor words of YAML, and are read back *)
Definition repr_spec {F} (repr : F -> text) (fl : text -> option F) : Prop :=
  forall x, repr x <> [] /\ forallb plain_char (repr x) = true /\ is_int (repr x) = false /\ bool_of (repr x) = None /\ existsb (text_eqb (repr x)) nulls = false /\ fl (repr x) = Some x.
(** Printed with a point, as 0.5 or 1.5e-05 and unlike 1e-05 *)
Definition pointed {F} (repr : F -> text) (x : F) : Prop := is_float (repr x) = true.

Section Files.
  Context {F : Type}.
  Variables (repr : F -> text) (fl : text -> option F).
  Hypothesis HR : repr_spec repr fl.
  Notation py := (py (F:=F)). Notation sc := (sc (F:=F)). Notation cell := (cell (F:=F)).
  Notation show := (show (F:=F) repr). Notation show_list := (show_list (F:=F) repr).
  (** What a printed number is read as *)
  Definition rd (x : F) : sc := if is_float (repr x) then SNum x else SStr (repr x).
  Definition sem (v : py) : sc := match v with PF x => rd x | PI z => SInt z | PQ s => SStr s | PS s => resolve fl s | PB b => SBool b | PNone => SStr (lit "None") end.
  Definition good_py (v : py) : Prop := match v with PQ s => forallb quoted_char s = true | PS s => s <> [] /\ forallb plain_char s = true | _ => True end.
  Lemma resolve_repr x : resolve fl (repr x) = rd x.
  Proof. destruct (HR x) as (_ & _ & I & B & N & E). unfold resolve, rd. now rewrite B, N, I, E. Qed.
  Lemma good_show v : good_py v -> good_item fl (show v) (sem v).
  Proof.
    destruct v as [x|z|s|s|[|]|]; cbn [YamlFiles.show sem good_py]; intros H.
    - destruct (HR x) as (N & P & _). rewrite <- resolve_repr. now apply good_plain.
    - rewrite <- (resolve_int fl). destruct (show_Z_int z) as (_ & _ & N & P). now apply good_plain.
    - now apply good_quoted.
    - now apply good_plain.
    - apply (good_plain fl (lit "True")); [discriminate|reflexivity].
    - apply (good_plain fl (lit "False")); [discriminate|reflexivity].
    - apply (good_plain fl (lit "None")); [discriminate|reflexivity].
  Qed.
  Lemma good_show_list l : Forall good_py l -> good_val fl (show_list l) (Flow (map sem l)).
  Proof. intros H. apply flow_value. induction H as [|v l G H IH]; constructor; [now apply good_show|exact IH]. Qed.
  Lemma good_show_one v : good_py v -> good_val fl (show v) (One (sem v)).
  Proof. intros H. now apply good_value, good_show. Qed.

  (** *** What the writers write, as a document *)
  Definition row_leaf (rows : list (list py)) : leaf (F:=F) := LSeq (map (fun r => (show_list r, Flow (map sem r))) rows).
  Definition list_leaf (l : list py) : leaf (F:=F) := LSeq (map (fun v => (show v, One (sem v))) l).
  Definition val_leaf (pad : nat) (v : py) : leaf (F:=F) := LVal pad (show v) (One (sem v)).
  Definition flow_leaf (pad : nat) (l : list py) : leaf (F:=F) := LVal pad (show_list l) (Flow (map sem l)).
  Lemma array2d_lines rows tag i : print_array2d repr rows tag i = leaf_lines i (tag, row_leaf rows).
  Proof. unfold print_array2d, leaf_lines, row_leaf. cbn [fst snd]. now rewrite map_map. Qed.
  Lemma array1d_lines l tag i : print_array1d repr l tag i = leaf_lines i (tag, list_leaf l).
  Proof. unfold print_array1d, leaf_lines, list_leaf. cbn [fst snd]. now rewrite map_map. Qed.
  Lemma good_rows k rows : key_ok k = true -> Forall (Forall good_py) rows -> good_leaf fl (k, row_leaf rows).
  Proof. intros K H. split; [exact K|]. cbn. apply Forall_map. cbn. revert H. apply Forall_impl. intros r Hr. now apply good_show_list. Qed.
  Lemma good_list k l : key_ok k = true -> Forall good_py l -> good_leaf fl (k, list_leaf l).
  Proof. intros K H. split; [exact K|]. cbn. apply Forall_map. cbn. revert H. apply Forall_impl. intros v Hv. now apply good_show_one. Qed.
  Lemma good_one k pad v : key_ok k = true -> good_py v -> good_leaf fl (k, val_leaf pad v).
  Proof. intros K H. split; [exact K|]. now apply good_show_one. Qed.
  Lemma good_flow k pad l : key_ok k = true -> Forall good_py l -> good_leaf fl (k, flow_leaf pad l).
  Proof. intros K H. split; [exact K|]. now apply good_show_list. Qed.
  Lemma good_floats l : Forall (Forall good_py) (floats l).
  Proof using. unfold floats. apply Forall_map. apply Forall_forall. intros r _. apply Forall_map. apply Forall_forall. now intros x _. Qed.
  Lemma good_ints (A : Type) (f : A -> Z) l : Forall good_py (map (fun a => PI (f a)) l).
  Proof using. apply Forall_map. apply Forall_forall. now intros x _. Qed.

  Definition int_rows_py (m : list (list Z)) : list (list py) := map (map PI) m.
  Definition cell_leaves (c : cell) (super : bool) : list (string * leaf (F:=F)) :=
    [("axis"%string, row_leaf (floats (axis c))); ("positions"%string, row_leaf (floats (positions c)));
     ("n_atoms"%string, flow_leaf 2 (map (fun n => PI (Z.of_nat n)) (n_atoms c))); ("types"%string, flow_leaf 4 (map (fun n => PI (Z.of_nat n)) (types c)));
     ("elements"%string, flow_leaf 1 (map PQ (elements c)))]
    ++ match volume c with Some v => [("volume"%string, val_leaf 3 (of_sc v))] | None => [] end
    ++ (if super then match n_units c with Some n => [("n_unitcells"%string, val_leaf 1 (PI n))] | None => [] end
          ++ match matrix_of c with Some m => [("supercell_matrix"%string, row_leaf (int_rows_py (rows_of m)))] | None => [] end else []).
  (** A structure that can be written: its arrays fit, it has atoms, and its elements are plain names *)
  Definition wf_cell (c : cell) : Prop :=
    List.length (axis c) = 3 /\ Forall (fun r => List.length r = 3) (axis c) /\ positions c <> [] /\ Forall (fun r => List.length r = 3) (positions c) /\
    List.length (positions c) = List.length (elements c) /\ List.length (elements c) = List.length (types c) /\ List.length (elements c) = sum (n_atoms c) /\
    Forall (fun e => forallb quoted_char e = true) (elements c) /\ match volume c with None | Some (SNum _) | Some (SInt _) => True | _ => False end /\
    match matrix_of c with Some m => rows_of m <> [] /\ same_len (rows_of m) = true | None => True end.
  Lemma cell_lines c tag : (tag = "supercell"%string -> matrix_of c <> None) ->
    save_cell repr c tag = (doc_lines [(tag, TMap (cell_leaves c (String.eqb tag "supercell")))] ++ [empty_line], Ok tt).
  Proof using.
    intros H. unfold save_cell. rewrite !array2d_lines. unfold doc_lines, cell_leaves. cbn [flat_map fst snd]. rewrite app_nil_r.
    destruct (String.eqb_spec tag "supercell") as [->|N].
    - specialize (H eq_refl). destruct (matrix_of c) as [m|]; [|contradiction]. rewrite array2d_lines. destruct (volume c), (n_units c); cbn [flat_map app]; rewrite ?app_nil_r, <- ?app_assoc; cbn [app]; reflexivity.
    - destruct (volume c); cbn [flat_map app]; rewrite ?app_nil_r, <- ?app_assoc; cbn [app]; reflexivity.
  Qed.
  Lemma good_cell c super : wf_cell c -> cell_leaves c super <> [] /\ Forall (good_leaf fl) (cell_leaves c super).
  Proof.
    intros (_ & _ & _ & _ & _ & _ & _ & E & V & _). split; [discriminate|]. unfold cell_leaves. apply Forall_app. split; [|apply Forall_app; split].
    - do 2 (apply Forall_cons; [apply good_rows; [reflexivity|apply good_floats]|]). do 2 (apply Forall_cons; [apply good_flow; [reflexivity|apply good_ints]|]). apply Forall_cons; [|constructor]. apply good_flow; [reflexivity|]. apply Forall_map. exact E.
    - destruct (volume c) as [v|]; [|constructor]. constructor; [|constructor]. apply good_one; [reflexivity|]. destruct v; try contradiction; exact I.
    - destruct super; [|constructor]. apply Forall_app. split; [destruct (n_units c); constructor; [now apply good_one|constructor]|]. destruct (matrix_of c); constructor; [|constructor]. apply good_rows; [reflexivity|]. unfold int_rows_py. apply Forall_map, Forall_forall. intros r _. apply Forall_map, Forall_forall. now intros z _.
  Qed.

  (** *** Reading a structure *)
  Variables (det : list (list F) -> F) (of_Z : Z -> F).
  Notation load_cell := (load_cell (F:=F) fl det of_Z).
  Lemma to_float_rd x : to_float fl (rd x) of_Z = Ok x.
  Proof. unfold rd. destruct (is_float (repr x)); [reflexivity|]. cbn. now destruct (HR x) as (_ & _ & _ & _ & _ & ->). Qed.
  Lemma same_len_map (A B : Type) (f : A -> B) l : same_len (map (map f) l) = same_len l.
  Proof using. unfold same_len. destruct l as [|a l]; [reflexivity|]. cbn [map]. rewrite map_length. induction l as [|b l IH]; [reflexivity|]. cbn [map forallb]. now rewrite map_length, IH. Qed.
  Lemma rows_leaf m : m <> [] -> rows (leaf_sem (row_leaf m)) = if same_len m then Ok (map (map sem) m) else Err ValueError.
  Proof using.
    intros N. assert (E : leaf_sem (row_leaf m) = Seq (map (fun r => Flow (map sem r)) m)) by (unfold row_leaf, leaf_sem; destruct m as [|a m]; [easy|]; cbn [map snd]; now rewrite map_map).
    rewrite E. unfold rows. assert (X : mapM flow (map (fun r => Flow (map sem r)) m) = Ok (map (map sem) m)) by (clear; induction m as [|r m IH]; [reflexivity|]; cbn [map mapM flow bind]; now rewrite IH).
    rewrite X. cbn [bind]. now rewrite same_len_map.
  Qed.
  Lemma same_len_3 (A : Type) (l : list (list A)) : Forall (fun r => List.length r = 3) l -> same_len l = true.
  Proof using. intros H. unfold same_len. destruct H as [|a l Ha H]; [reflexivity|]. apply forallb_forall. rewrite Forall_forall in H. intros b Hb. rewrite (H b Hb), Ha. reflexivity. Qed.
  Lemma float_rows_leaf m : m <> [] -> Forall (fun r => List.length r = 3) m -> float_rows fl of_Z (leaf_sem (row_leaf (floats m))) = Ok m.
  Proof.
    intros N H. unfold float_rows. rewrite rows_leaf by (unfold floats; destruct m; [easy|discriminate]). unfold floats at 1. rewrite same_len_map, (same_len_3 _ _ H). cbn [bind]. unfold floats. rewrite map_map.
    rewrite (mapM_all _ (fun r => map (fun s => match to_float fl s of_Z with Ok x => x | Err _ => of_Z 0 end) r)).
    - rewrite map_map. f_equal. rewrite <- (map_id m) at 2. apply map_ext. intros r. rewrite !map_map. rewrite <- (map_id r) at 2. apply map_ext. intros x. cbn [sem]. now rewrite to_float_rd.
    - intros r Hr. apply in_map_iff in Hr. destruct Hr as (q & <- & _). apply mapM_all. intros s Hs. rewrite map_map in Hs. apply in_map_iff in Hs. destruct Hs as (x & <- & _). cbn [sem]. now rewrite to_float_rd.
  Qed.
  Lemma nat_list_leaf pad l : nat_list (leaf_sem (flow_leaf pad (map (fun n => PI (Z.of_nat n)) l))) = Ok l.
  Proof using.
    cbn [flow_leaf leaf_sem nat_list]. rewrite map_map. cbn [sem]. induction l as [|n l IH]; [reflexivity|]. cbn [map mapM]. unfold nat_of at 1. destruct (Z.ltb_spec (Z.of_nat n) 0); [lia|]. rewrite Nat2Z.id. cbn [bind]. now rewrite IH.
  Qed.
  Lemma string_list_leaf pad l : string_list (leaf_sem (flow_leaf pad (map PQ l))) = Ok l.
  Proof using. cbn [flow_leaf leaf_sem string_list]. rewrite map_map. cbn [sem]. induction l as [|n l IH]; [reflexivity|]. cbn [map mapM bind]. now rewrite IH. Qed.
  Lemma int_rows_leaf m : m <> [] -> same_len m = true -> int_rows (leaf_sem (row_leaf (int_rows_py m))) = Ok m.
  Proof using.
    intros N H. unfold int_rows. rewrite rows_leaf by (unfold int_rows_py; destruct m; [easy|discriminate]). unfold int_rows_py at 1. rewrite same_len_map, H. cbn [bind]. unfold int_rows_py. rewrite map_map.
    clear. induction m as [|r m IH]; [reflexivity|]. cbn [map mapM]. rewrite IH. assert (E : mapM (fun s : sc => match s with SInt z => Ok z | _ => Err TypeError end) (map sem (map PI r)) = Ok r) by (clear; induction r as [|z r IH]; [reflexivity|]; cbn [map mapM bind sem]; now rewrite IH). now rewrite E.
  Qed.
  Definition volume_read (c : cell) : sc := match volume c with Some (SNum x) => rd x | Some v => v | None => SNum (det (axis c)) end.
  Definition loaded (c : cell) (super : bool) : cell :=
    mk_cell (axis c) (positions c) (n_atoms c) (types c) (elements c) (Some (volume_read c)) (if super then n_units c else None) (if super then option_map (fun m => M9 (rows_of m)) (matrix_of c) else None).
  Lemma load_cell_leaves c super data tag : wf_cell c -> ykey data (lit tag) = Ok (entry_sem (TMap (cell_leaves c super))) -> load_cell data tag = Ok (loaded c super).
  Proof.
    intros (A3 & A & PN & P & L1 & L2 & L3 & _ & V & M) HK. unfold YamlFiles.load_cell. rewrite HK. cbn [bind].
    set (d := entry_sem (TMap (cell_leaves c super))).
    assert (K1 : ykey d (lit "axis") = Ok (leaf_sem (row_leaf (floats (axis c)))) /\ ykey d (lit "positions") = Ok (leaf_sem (row_leaf (floats (positions c)))) /\
      ykey d (lit "n_atoms") = Ok (leaf_sem (flow_leaf 2 (map (fun n => PI (Z.of_nat n)) (n_atoms c)))) /\ ykey d (lit "types") = Ok (leaf_sem (flow_leaf 4 (map (fun n => PI (Z.of_nat n)) (types c)))) /\
      ykey d (lit "elements") = Ok (leaf_sem (flow_leaf 1 (map PQ (elements c)))) /\
      ykey d (lit "volume") = match volume c with Some v => Ok (leaf_sem (val_leaf 3 (of_sc v))) | None => Err KeyError end /\
      ykey d (lit "n_unitcells") = (if super then match n_units c with Some n => Ok (leaf_sem (val_leaf 1 (PI n))) | None => Err KeyError end else Err KeyError) /\
      ykey d (lit "supercell_matrix") = (if super then match matrix_of c with Some m => Ok (leaf_sem (row_leaf (int_rows_py (rows_of m)))) | None => Err KeyError end else Err KeyError)).
    { unfold d, cell_leaves. destruct (volume c), super, (n_units c), (matrix_of c); cbn [app]; repeat split; reflexivity. }
    destruct K1 as (-> & -> & -> & -> & -> & K6 & K7 & K8). cbn [bind].
    rewrite (float_rows_leaf (axis c)) by (try exact A; intros X; rewrite X in A3; discriminate). cbn [bind]. rewrite (float_rows_leaf (positions c)) by assumption. cbn [bind].
    rewrite !nat_list_leaf, string_list_leaf. cbn [bind]. unfold optional. rewrite K6, K7, K8.
    assert (E1 : (match (match volume c with Some v => Ok (leaf_sem (val_leaf 3 (of_sc v))) | None => Err KeyError end) with Ok v => do a <- match v with Val (One s) => Ok s | _ => Err TypeError end; Ok (Some a) | Err _ => Ok None end)
      = Ok (match volume c with Some (SNum x) => Some (rd x) | Some v => Some v | None => None end)).
    { destruct (volume c) as [[x|z|s|b|]|]; try contradiction; reflexivity. }
    rewrite E1. cbn [bind].
    assert (E2 : (match (if super then match n_units c with Some n => Ok (leaf_sem (val_leaf 1 (PI n))) | None => Err KeyError end else Err KeyError) with
      Ok v => do a <- match v with Val (One (SInt z)) => Ok z | _ => Err TypeError end; Ok (Some a) | Err _ => Ok None end) = Ok (if super then n_units c else None)) by (destruct super, (n_units c); reflexivity).
    rewrite E2. cbn [bind].
    assert (E3 : (match (if super then match matrix_of c with Some m => Ok (leaf_sem (row_leaf (int_rows_py (rows_of m)))) | None => Err KeyError end else Err KeyError) with
      Ok (Val (One SNull)) | Err _ => Ok None | Ok y => do r <- int_rows y; Ok (Some r) end) = Ok (if super then option_map rows_of (matrix_of c) else None)).
    { destruct super; [|reflexivity]. destruct (matrix_of c) as [m|]; [|reflexivity]. destruct M as [M1 M2]. pose proof (int_rows_leaf (rows_of m) M1 M2) as E. destruct (leaf_sem (row_leaf (int_rows_py (rows_of m)))) as [[[]|]| |] eqn:EL; try (rewrite E; reflexivity); discriminate. }
    rewrite E3. cbn [bind]. rewrite A3. replace (forallb (fun r => (List.length r =? 3)) (axis c)) with true by (symmetry; apply forallb_forall; rewrite Forall_forall in A; intros r Hr; now rewrite (A r Hr)).
    replace (forallb (fun r => (List.length r =? 3)) (positions c)) with true by (symmetry; apply forallb_forall; rewrite Forall_forall in P; intros r Hr; now rewrite (P r Hr)).
    rewrite L1, <- L2, L3, !Nat.eqb_refl. cbn [andb py_assert bind]. unfold loaded, volume_read. do 2 f_equal; [destruct (volume c) as [[]|]; reflexivity|]. destruct super; [|reflexivity]. now destruct (matrix_of c).
  Qed.

  (** *** One structure *)
  Theorem C90_cell c tag : wf_cell c -> key_ok tag = true -> (tag = "supercell"%string -> matrix_of c <> None) ->
    snd (save_cell repr c tag) = Ok tt /\ exists y, safe_load fl (fst (save_cell repr c tag)) = Some y /\ exists c', load_cell y tag = Ok c' /\
      axis c' = axis c /\ positions c' = positions c /\ n_atoms c' = n_atoms c /\ types c' = types c /\ elements c' = elements c /\
      (forall x, volume c = Some (SNum x) -> pointed repr x -> volume c' = Some (SNum x)) /\ (volume c = None -> volume c' = Some (SNum (det (axis c)))) /\
      (tag = "supercell"%string -> n_units c' = n_units c /\ option_map rows_of (matrix_of c') = option_map rows_of (matrix_of c)) /\
      (tag <> "supercell"%string -> n_units c' = None /\ matrix_of c' = None).
  Proof.
    intros W K H. rewrite cell_lines by exact H. cbn [fst snd]. split; [reflexivity|]. set (super := String.eqb tag "supercell"). destruct (good_cell c super W) as [NL GL].
    exists (Map [(lit tag, entry_sem (TMap (cell_leaves c super)))]). split.
    { rewrite (load_doc fl [(tag, TMap (cell_leaves c super))]); [reflexivity|discriminate| |reflexivity]. constructor; [split; [exact K|split; [exact NL|exact GL]]|constructor]. }
    exists (loaded c super). split.
    { apply load_cell_leaves; [exact W|]. unfold ykey. cbn [rev app find fst]. destruct (text_eqb_spec (lit tag) (lit tag)); [reflexivity|contradiction]. }
    do 5 (split; [reflexivity|]). split; [intros x E X; cbn [volume loaded]; unfold volume_read; rewrite E; unfold rd; now rewrite X|]. split; [intros E; cbn [volume loaded]; unfold volume_read; now rewrite E|].
    unfold super. split; intros E.
    - subst tag. cbn [String.eqb]. change (String.eqb "supercell" "supercell") with true. cbn [n_units matrix_of loaded]. split; [reflexivity|]. now destruct (matrix_of c).
    - apply String.eqb_neq in E. rewrite E. split; reflexivity.
  Qed.

  (** "A structure can be written as a supercell": not without its matrix. *)
  Theorem C90_supercell_refuted c : matrix_of c = None -> snd (save_cell repr c "supercell") = Err TypeError.
  Proof using. intros H. unfold save_cell. change (String.eqb "supercell" "supercell") with true. cbv zeta. now rewrite H. Qed.

  Definition same_structure (c c' : cell) : Prop := axis c' = axis c /\ positions c' = positions c /\ n_atoms c' = n_atoms c /\ types c' = types c /\ elements c' = elements c /\
    (forall x, volume c = Some (SNum x) -> pointed repr x -> volume c' = Some (SNum x)).
  Lemma loaded_same c super : same_structure c (loaded c super).
  Proof using. do 5 (split; [reflexivity|]). intros x E X. cbn [volume loaded]. unfold volume_read. rewrite E. unfold rd. now rewrite X. Qed.
  Lemma doc_app a b : doc_lines (F:=F) (a ++ b) = doc_lines a ++ doc_lines b.
  Proof using. apply flat_map_app. Qed.
  Lemma tokens_end a : tokens (a ++ [empty_line]) = tokens a.
  Proof using. rewrite tokens_app. apply app_nil_r. Qed.

  (** *** Unit cell and supercell *)
  Theorem C90_cells u s : wf_cell u -> wf_cell s -> matrix_of s <> None ->
    snd (save_cells repr u s) = Ok tt /\ exists y u' s', safe_load fl (fst (save_cells repr u s)) = Some y /\ load_cells fl det of_Z y = Ok (u', s') /\
      same_structure u u' /\ same_structure s s' /\ n_units s' = n_units s /\ option_map rows_of (matrix_of s') = option_map rows_of (matrix_of s).
  Proof.
    intros WU WS HM. unfold save_cells. rewrite (cell_lines u "unitcell") by discriminate. rewrite (cell_lines s "supercell") by (intros _; exact HM).
    change (String.eqb "unitcell" "supercell") with false. change (String.eqb "supercell" "supercell") with true. cbn match. cbn [fst snd]. split; [reflexivity|].
    set (d := [("unitcell"%string, TMap (cell_leaves u false)); ("supercell"%string, TMap (cell_leaves s true))]). set (y := Map (map (fun e => (lit (fst e), entry_sem (snd e))) d)).
    assert (KU : ykey y (lit "unitcell") = Ok (entry_sem (TMap (cell_leaves u false)))) by reflexivity. assert (KS : ykey y (lit "supercell") = Ok (entry_sem (TMap (cell_leaves s true)))) by reflexivity.
    exists y, (loaded u false), (loaded s true). split; [|split].
    - apply (load_lines fl d); [discriminate| |].
      + destruct (good_cell u false WU), (good_cell s true WS). constructor; [split; [reflexivity|split; assumption]|]. constructor; [split; [reflexivity|split; assumption]|constructor].
      + change d with ([("unitcell"%string, TMap (cell_leaves u false))] ++ [("supercell"%string, TMap (cell_leaves s true))]). rewrite doc_app. rewrite !tokens_app. change (tokens [empty_line]) with (@nil (nat * text)). now rewrite !app_nil_r.
    - unfold load_cells. rewrite (load_cell_leaves u false _ _ WU KU). cbn [bind]. rewrite (load_cell_leaves s true _ _ WS KS). cbn [bind]. rewrite KS. cbn [bind].
      destruct WS as (_ & _ & _ & _ & _ & _ & _ & _ & _ & M). destruct (matrix_of s) as [m|] eqn:EM; [|contradiction]. destruct M as [M1 M2].
      assert (K : ykey (entry_sem (TMap (cell_leaves s true))) (lit "supercell_matrix") = Ok (leaf_sem (row_leaf (int_rows_py (rows_of m))))) by (unfold cell_leaves; rewrite EM; destruct (volume s), (n_units s); reflexivity).
      rewrite K. cbn [bind]. rewrite int_rows_leaf by assumption. cbn [bind]. unfold loaded. rewrite EM. reflexivity.
    - split; [apply loaded_same|]. split; [apply loaded_same|]. split; [reflexivity|]. cbn [matrix_of loaded]. now destruct (matrix_of s).
  Qed.

  (** *** Properties of one structure *)
  Notation pointed := (pointed repr).
  Lemma array_rd f : (Forall (Forall pointed) f -> array fl of_Z (map (map rd) f) = Ok (Nums f)) /\ (~ Forall (Forall pointed) f -> array fl of_Z (map (map rd) f) = Ok (Strs (map (map rd) f))).
  Proof.
    assert (E : existsb (existsb is_str) (map (map rd) f) = true <-> ~ Forall (Forall pointed) f).
    { assert (A : Forall (Forall pointed) f <-> forallb (forallb (fun x => is_float (repr x))) f = true).
      { rewrite Forall_forall, forallb_forall. split; intros H r Hr; specialize (H r Hr); [apply forallb_forall; rewrite Forall_forall in H; exact H|rewrite forallb_forall in H; apply Forall_forall; exact H]. }
      assert (B : existsb (existsb is_str) (map (map rd) f) = negb (forallb (forallb (fun x => is_float (repr x))) f)).
      { clear A. induction f as [|r f IH]; [reflexivity|]. cbn [map existsb forallb]. rewrite IH, negb_andb. f_equal. induction r as [|x r IHr]; [reflexivity|]. cbn [map existsb forallb]. rewrite IHr, negb_andb. f_equal. unfold rd. now destruct (is_float (repr x)). }
      rewrite A, B. destruct (forallb _ f); cbn; split; intros; try easy. }
    unfold array. split; intros H.
    - destruct (existsb (existsb is_str) (map (map rd) f)) eqn:X; [exfalso; now apply E|]. rewrite (mapM_all _ (fun r => map (fun s => match to_float fl s of_Z with Ok x => x | Err _ => of_Z 0 end) r)).
      + cbn [bind]. do 2 f_equal. rewrite map_map. rewrite <- (map_id f) at 2. apply map_ext. intros r. rewrite map_map. rewrite <- (map_id r) at 2. apply map_ext. intros x. now rewrite to_float_rd.
      + intros r Hr. apply in_map_iff in Hr. destruct Hr as (q & <- & _). apply mapM_all. intros s Hs. apply in_map_iff in Hs. destruct Hs as (x & <- & _). now rewrite to_float_rd.
    - apply E in H. now rewrite H.
  Qed.
  Lemma floats_sem f : map (map sem) (floats f) = map (map rd) f.
  Proof using. unfold floats. rewrite map_map. apply map_ext. intros r. now rewrite map_map. Qed.
  Lemma sems l : map sem (map PF l) = map rd l.
  Proof using. now rewrite map_map. Qed.
  Definition data_doc (c : cell) (e : F) (f : option (list (list F))) (s : option (list F)) : list (string * entry_of (F:=F)) :=
    [("structure"%string, TMap (cell_leaves c false)); ("energy"%string, TLeaf (val_leaf 0 (PF e)))]
    ++ match f with Some f => [("forces"%string, TLeaf (row_leaf (floats f)))] | None => [] end ++ match s with Some s => [("stress"%string, TLeaf (flow_leaf 0 (map PF s)))] | None => [] end.
  Lemma data_load c e f s : wf_cell c -> safe_load fl (save_data repr c e f s) = Some (Map (map (fun e => (lit (fst e), entry_sem (snd e))) (data_doc c e f s))).
  Proof.
    intros W. destruct (good_cell c false W) as [NL GL]. apply load_lines.
    - discriminate.
    - unfold data_doc. apply Forall_app. split; [|apply Forall_app; split].
      + constructor; [split; [reflexivity|split; assumption]|]. constructor; [|constructor]. split; [reflexivity|]. now apply good_one.
      + destruct f as [f|]; [|constructor]. constructor; [|constructor]. split; [reflexivity|]. apply good_rows; [reflexivity|apply good_floats].
      + destruct s as [s|]; [|constructor]. constructor; [|constructor]. split; [reflexivity|]. apply good_flow; [reflexivity|]. apply Forall_map, Forall_forall. now intros x _.
    - unfold save_data, data_doc. rewrite (cell_lines c "structure") by discriminate. change (String.eqb "structure" "supercell") with false. cbn [fst]. rewrite !doc_app. change [("structure"%string, TMap (cell_leaves c false)); ("energy"%string, TLeaf (val_leaf 0 (PF e)))] with ([("structure"%string, TMap (cell_leaves c false))] ++ [("energy"%string, TLeaf (val_leaf 0 (PF e)))]).
      rewrite doc_app, !tokens_app. change (tokens [empty_line]) with (@nil (nat * text)). rewrite app_nil_r, <- !app_assoc. do 2 f_equal. f_equal; [|destruct s; reflexivity]. destruct f as [f|]; [|reflexivity]. rewrite array2d_lines. unfold doc_lines. cbn [flat_map fst snd]. now rewrite app_nil_r.
  Qed.
  (** Energy, forces and stress come back; the arrays as numbers if every one of them is printed with a point. *)
  Theorem C90_data c e f s : wf_cell c -> f <> [] -> same_len f = true ->
    exists y c' fa sa, safe_load fl (save_data repr c e (Some f) (Some s)) = Some y /\ load_data fl det of_Z y = Ok (c', (e, fa, sa)) /\ same_structure c c' /\
      (Forall (Forall pointed) f -> fa = Nums f) /\ (Forall pointed s -> sa = Nums [s]).
  Proof.
    intros W N L. rewrite data_load by exact W. set (y := Map _). assert (KC : ykey y (lit "structure") = Ok (entry_sem (TMap (cell_leaves c false)))) by reflexivity. assert (KE : ykey y (lit "energy") = Ok (Val (One (rd e)))) by reflexivity.
    assert (KF : ykey y (lit "forces") = Ok (leaf_sem (row_leaf (floats f)))) by reflexivity. assert (KS : ykey y (lit "stress") = Ok (Val (Flow (map sem (map PF s))))) by reflexivity.
    exists y, (loaded c false). unfold load_data. rewrite (load_cell_leaves c false _ _ W KC). cbn [bind]. rewrite KE. cbn [bind one]. rewrite to_float_rd. cbn [bind]. rewrite KF, KS. cbn [bind flow_of]. rewrite rows_leaf by (unfold floats; destruct f; [easy|discriminate]).
    unfold floats at 1. rewrite same_len_map, L. cbn [bind]. rewrite floats_sem. rewrite sems. pose proof (array_rd f) as [F1 F2]. pose proof (array_rd [s]) as [S1 S2]. cbn [map] in S1, S2.
    assert (DF : Forall (Forall pointed) f \/ ~ Forall (Forall pointed) f) by (destruct (forallb (forallb (fun x => is_float (repr x))) f) eqn:B; [left; rewrite forallb_forall in B; apply Forall_forall; intros r Hr; specialize (B r Hr); rewrite forallb_forall in B; now apply Forall_forall|right; intros X; apply not_true_iff_false in B; apply B; apply forallb_forall; rewrite Forall_forall in X; intros r Hr; apply forallb_forall; specialize (X r Hr); now rewrite Forall_forall in X]).
    assert (DS : Forall (Forall pointed) [s] \/ ~ Forall (Forall pointed) [s]) by (destruct (forallb (fun x => is_float (repr x)) s) eqn:B; [left; constructor; [|constructor]; rewrite forallb_forall in B; now apply Forall_forall|right; intros X; apply not_true_iff_false in B; apply B; inversion X as [|? ? X1 _]; subst; rewrite Forall_forall in X1; now apply forallb_forall]).
    destruct DF as [DF|DF]; [rewrite (F1 DF)|rewrite (F2 DF)]; cbn [bind]; (destruct DS as [DS|DS]; [rewrite (S1 DS)|rewrite (S2 DS)]); cbn [bind]; eexists; eexists; (split; [reflexivity|]); (split; [reflexivity|]); (split; [apply loaded_same|]); split; intros X; try reflexivity; try contradiction; exfalso; apply DS; constructor; auto.
  Qed.
  (** "Forces come back as numbers": a single number such as 1e-05 makes all of them strings. *)
  Theorem C90_strings_refuted c e f s : wf_cell c -> f <> [] -> same_len f = true -> ~ Forall (Forall pointed) f ->
    exists y c' l sa, safe_load fl (save_data repr c e (Some f) (Some s)) = Some y /\ load_data fl det of_Z y = Ok (c', (e, Strs l, sa)).
  Proof.
    intros W N L NP. rewrite data_load by exact W. set (y := Map _). assert (KC : ykey y (lit "structure") = Ok (entry_sem (TMap (cell_leaves c false)))) by reflexivity. assert (KE : ykey y (lit "energy") = Ok (Val (One (rd e)))) by reflexivity.
    assert (KF : ykey y (lit "forces") = Ok (leaf_sem (row_leaf (floats f)))) by reflexivity. assert (KS : ykey y (lit "stress") = Ok (Val (Flow (map sem (map PF s))))) by reflexivity.
    exists y, (loaded c false). unfold load_data. rewrite (load_cell_leaves c false _ _ W KC). cbn [bind]. rewrite KE. cbn [bind one]. rewrite to_float_rd. cbn [bind]. rewrite KF, KS. cbn [bind flow_of]. rewrite rows_leaf by (unfold floats; destruct f; [easy|discriminate]).
    unfold floats at 1. rewrite same_len_map, L. cbn [bind]. rewrite floats_sem. rewrite (proj2 (array_rd f) NP). cbn [bind]. rewrite sems. destruct (array fl of_Z [map rd s]) as [sa|err] eqn:ES.
    - exists (map (map rd) f), sa. split; reflexivity.
    - exfalso. unfold array in ES. destruct (existsb _ _); [discriminate|]. rewrite (mapM_all _ (fun _ => s)) in ES; [discriminate|]. intros r [<-|[]]. rewrite (mapM_all _ (fun s => match to_float fl s of_Z with Ok x => x | Err _ => of_Z 0 end)).
      + f_equal. rewrite map_map. rewrite <- (map_id s) at 2. apply map_ext. intros x. now rewrite to_float_rd.
      + intros q Hq. apply in_map_iff in Hq. destruct Hq as (x & <- & _). now rewrite to_float_rd.
  Qed.
  (** "Forces and stress are optional": they are for writing; a file without one of them is refused. *)
  Theorem C90_optional_refuted c e f s : wf_cell c -> f = None \/ (exists r, f = Some r /\ r <> [] /\ same_len r = true) /\ s = None ->
    exists y, safe_load fl (save_data repr c e f s) = Some y /\ load_data fl det of_Z y = Err KeyError.
  Proof.
    intros W H. rewrite data_load by exact W. set (y := Map _). exists y. split; [reflexivity|]. assert (KC : ykey y (lit "structure") = Ok (entry_sem (TMap (cell_leaves c false)))) by (destruct f, s; reflexivity).
    assert (KE : ykey y (lit "energy") = Ok (Val (One (rd e)))) by (destruct f, s; reflexivity). unfold load_data. rewrite (load_cell_leaves c false _ _ W KC). cbn [bind]. rewrite KE. cbn [bind one]. rewrite to_float_rd. cbn [bind].
    destruct H as [->|((r & -> & N & L) & ->)].
    - assert (KF : ykey y (lit "forces") = Err KeyError) by (destruct s; reflexivity). now rewrite KF.
    - assert (KF : ykey y (lit "forces") = Ok (leaf_sem (row_leaf (floats r)))) by reflexivity. assert (KS : ykey y (lit "stress") = Err KeyError) by reflexivity. rewrite KF, KS. cbn [bind].
      rewrite rows_leaf by (unfold floats; destruct r; [easy|discriminate]). unfold floats at 1. rewrite same_len_map, L. cbn [bind]. rewrite floats_sem. destruct (array fl of_Z (map (map rd) r)) as [a|err] eqn:ES; [reflexivity|].
      exfalso. unfold array in ES. destruct (existsb _ _); [discriminate|]. rewrite (mapM_all _ (map (fun s => match to_float fl s of_Z with Ok x => x | Err _ => of_Z 0 end))) in ES; [discriminate|]. intros q Hq. apply in_map_iff in Hq. destruct Hq as (t & <- & _). apply mapM_all.
      intros q Hq. apply in_map_iff in Hq. destruct Hq as (x & <- & _). now rewrite to_float_rd.
  Qed.
  (** The reader of training data: the symmetric 3 x 3 tensor of the six numbers xx yy zz xy yz zx *)
  Theorem C90_property c e f a1 a2 a3 a4 a5 a6 : wf_cell c -> f <> [] -> same_len f = true -> Forall (Forall pointed) f -> Forall pointed [a1; a2; a3; a4; a5; a6] -> pointed e ->
    exists y c', safe_load fl (save_data repr c e (Some f) (Some [a1; a2; a3; a4; a5; a6])) = Some y /\
      parse_property fl det of_Z y = Ok (c', SNum e, Nums f, Nums [[a1; a4; a6]; [a4; a2; a5]; [a6; a5; a3]]) /\ same_structure c c'.
  Proof.
    intros W N L PF PS PE. rewrite data_load by exact W. set (y := Map _). assert (KC : ykey y (lit "structure") = Ok (entry_sem (TMap (cell_leaves c false)))) by reflexivity. assert (KE : ykey y (lit "energy") = Ok (Val (One (rd e)))) by reflexivity.
    assert (KF : ykey y (lit "forces") = Ok (leaf_sem (row_leaf (floats f)))) by reflexivity. assert (KS : ykey y (lit "stress") = Ok (Val (Flow (map rd [a1; a2; a3; a4; a5; a6])))) by reflexivity.
    exists y, (loaded c false). split; [reflexivity|]. split; [|apply loaded_same]. unfold parse_property. rewrite (load_cell_leaves c false _ _ W KC). cbn [bind]. rewrite KE, KF, KS. cbn [bind one flow_of]. rewrite rows_leaf by (unfold floats; destruct f; [easy|discriminate]).
    unfold floats at 1. rewrite same_len_map, L. cbn [bind]. rewrite floats_sem. rewrite (proj1 (array_rd f) PF). cbn [bind]. cbn [map List.length Nat.ltb Nat.leb].
    change (sym9 SNull [rd a1; rd a2; rd a3; rd a4; rd a5; rd a6]) with (map (map rd) [[a1; a4; a6]; [a4; a2; a5]; [a6; a5; a3]]). rewrite (proj1 (array_rd _)).
    - cbn [bind]. unfold rd. unfold C90.pointed in PE. now rewrite PE.
    - rewrite Forall_forall in PS. repeat constructor; apply PS; cbn; tauto.
  Qed.

  (** *** Self-consistent harmonic calculations *)
  Variables (add : F -> F -> F) (per_ev : F -> F) (trunc : F -> Z) (sym_f : list (list F) -> list (list F)) (sym_s : list F -> list F).
  Notation params := (params (F:=F)). Notation data := (data (F:=F)).
  Notation save_sscha := (save_sscha repr add per_ev trunc sym_f sym_s).
  Notation load_sscha := (load_sscha fl det of_Z).
  Definition opt_py (o : option Z) : py := match o with Some z => PI z | None => PNone end.
  Definition units_leaves : list (string * leaf (F:=F)) :=
    [("free_energy"%string, val_leaf 11 (PS (lit "kJ/mol"))); ("static_potential"%string, val_leaf 6 (PS (lit "kJ/mol"))); ("entropy"%string, val_leaf 15 (PS (lit "J/K/mol")));
     ("harmonic_heat_capacity"%string, val_leaf 0 (PS (lit "J/K/mol"))); ("force"%string, val_leaf 17 (PS (lit "eV/angstrom"))); ("stress_tensor"%string, val_leaf 9 (PS (lit "eV/unitcell")))].
  Definition head_doc (p : params) (d : data) : list (string * entry_of (F:=F)) :=
    [("parameters"%string, TMap [("pot"%string, if s_multi p then flow_leaf 5 (map PQ (s_pot p)) else val_leaf 5 (PS (concat (s_pot p)))); ("temperature"%string, val_leaf 3 (d_temp d));
        ("n_steps"%string, val_leaf 7 (opt_py (s_init p))); ("n_steps_final"%string, val_leaf 1 (opt_py (s_final p))); ("tolerance"%string, val_leaf 5 (PF (s_tol p)));
        ("mixing"%string, val_leaf 8 (PF (s_mixing p))); ("mesh_phonon"%string, flow_leaf 3 (map PI (s_mesh p)))]);
     ("units"%string, TMap units_leaves);
     ("properties"%string, TMap [("free_energy"%string, val_leaf 11 (PF (d_free d))); ("harmonic_free_energy"%string, val_leaf 2 (PF (d_harm d))); ("anharmonic_free_energy"%string, val_leaf 0 (PF (d_anh d)));
        ("static_potential"%string, val_leaf 6 (PF (d_static d))); ("entropy"%string, val_leaf 15 (PF (d_entropy d))); ("harmonic_heat_capacity"%string, val_leaf 0 (PF (d_cv d)))]);
     ("properties_eV"%string, TMap [("free_energy"%string, val_leaf 11 (PF (per_ev (d_free d)))); ("harmonic_free_energy"%string, val_leaf 2 (PF (per_ev (d_harm d))));
        ("anharmonic_free_energy"%string, val_leaf 0 (PF (per_ev (d_anh d)))); ("static_potential"%string, val_leaf 6 (PF (per_ev (d_static d))))]);
     ("status"%string, TMap [("delta_fc"%string, val_leaf 2 (PF (d_delta d))); ("converge"%string, val_leaf 2 (PB (d_converge d))); ("imaginary"%string, val_leaf 1 (PB (d_imaginary d)))])].
  Definition array_doc (k : string) (f : list (list F)) : list (string * entry_of (F:=F)) := [(k, TLeaf (row_leaf (floats f)))].
  Definition total_f (d : data) := add_rows add (d_forces d) (d_sforces d).
  Definition total_s (d : data) := map (fun '(u, v) => add u v) (combine (d_stress d) (d_sstress d)).
  Definition arrays_doc (d : data) (symmetrize : bool) : list (string * entry_of (F:=F)) :=
    let z := d_free d in
    array_doc "average_forces" (d_forces d) ++ array_doc "average_stress_tensor" (sym9 z (d_stress d)) ++ array_doc "total_forces" (total_f d) ++ array_doc "total_stress_tensor" (sym9 z (total_s d))
    ++ if symmetrize then array_doc "symmetrized_average_forces" (sym_f (d_forces d)) ++ array_doc "symmetrized_average_stress_tensor" (sym9 z (sym_s (d_stress d)))
         ++ array_doc "symmetrized_total_forces" (sym_f (total_f d)) ++ array_doc "symmetrized_total_stress_tensor" (sym9 z (sym_s (total_s d))) else [].
  Definition logs_doc (logs : list data) : list (string * entry_of (F:=F)) :=
    [("logs"%string, TMap [("free_energy"%string, list_leaf (map (fun l => PF (d_free l)) logs)); ("harmonic_potential"%string, list_leaf (map (fun l => PF (d_harmpot l)) logs));
       ("average_potential"%string, list_leaf (map (fun l => PF (d_avgpot l)) logs)); ("anharmonic_free_energy"%string, list_leaf (map (fun l => PF (d_anh l)) logs))])].
  Definition matrix_doc (p : params) : list (string * entry_of (F:=F)) := [("supercell_matrix"%string, TLeaf (row_leaf (int_rows_py (map (map trunc) (s_matrix p)))))].
  Definition sscha_doc (p : params) (logs : list data) (d : data) (symmetrize : bool) : list (string * entry_of (F:=F)) :=
    head_doc p d ++ [("unitcell"%string, TMap (cell_leaves (s_unit p) false))] ++ matrix_doc p ++ [("supercell"%string, TMap (cell_leaves (s_super p) true))] ++ arrays_doc d symmetrize ++ logs_doc logs.
  (** What can be written: cells that can, the matrix of the supercell, and names of potentials that are plain names *)
  Definition wf_params (p : params) : Prop :=
    wf_cell (s_unit p) /\ wf_cell (s_super p) /\ matrix_of (s_super p) <> None /\ s_matrix p <> [] /\ same_len (s_matrix p) = true /\
    (if s_multi p then Forall (fun n => forallb quoted_char n = true) (s_pot p) else exists n, s_pot p = [n] /\ n <> [] /\ forallb plain_char n = true /\ resolve fl n = SStr n).
  Definition pot_read (p : params) : val (F:=F) := if s_multi p then Flow (map SStr (s_pot p)) else One (SStr (concat (s_pot p))).
  Lemma good_array k f : key_ok k = true -> Forall (good_entry fl) (array_doc k f).
  Proof. intros K. constructor; [|constructor]. split; [exact K|]. apply good_rows; [exact K|apply good_floats]. Qed.
  Lemma good_doc p logs d symmetrize : wf_params p -> good_py (d_temp d) -> Forall (good_entry fl) (sscha_doc p logs d symmetrize).
  Proof.
    intros (WU & WS & MS & _ & _ & P) T. assert (O : forall o, good_py (opt_py o)) by now intros [z|].
    assert (G1 : forall k pad v, key_ok k = true -> good_py v -> good_leaf fl (k, val_leaf pad v)) by (intros; now apply good_one).
    unfold sscha_doc, head_doc, units_leaves. apply Forall_app; split; [|apply Forall_app; split; [|apply Forall_app; split; [|apply Forall_app; split; [|apply Forall_app; split]]]].
    - apply Forall_cons; [split; [reflexivity|]; split; [discriminate|]|].
      { apply Forall_cons; [destruct (s_multi p); [apply good_flow; [reflexivity|apply Forall_map; exact P]|destruct P as (n & -> & N & PL & _); apply good_one; [reflexivity|]; cbn [concat]; rewrite app_nil_r; split; assumption]|].
        apply Forall_cons; [now apply G1|]. do 2 (apply Forall_cons; [apply G1; [reflexivity|apply O]|]). do 2 (apply Forall_cons; [apply G1; [reflexivity|exact I]|]). apply Forall_cons; [|constructor]. apply good_flow; [reflexivity|]. apply Forall_map, Forall_forall. now intros z _. }
      apply Forall_cons; [split; [reflexivity|]; split; [discriminate|]|]. { repeat (apply Forall_cons; [apply G1; [reflexivity|split; [discriminate|reflexivity]]|]). constructor. }
      apply Forall_cons; [split; [reflexivity|]; split; [discriminate|]|]. { repeat (apply Forall_cons; [apply G1; [reflexivity|exact I]|]). constructor. }
      apply Forall_cons; [split; [reflexivity|]; split; [discriminate|]|]. { repeat (apply Forall_cons; [apply G1; [reflexivity|exact I]|]). constructor. }
      apply Forall_cons; [split; [reflexivity|]; split; [discriminate|]|constructor]. { repeat (apply Forall_cons; [apply G1; [reflexivity|exact I]|]). constructor. }
    - destruct (good_cell (s_unit p) false WU). constructor; [split; [reflexivity|split; assumption]|constructor].
    - constructor; [|constructor]. split; [reflexivity|]. apply good_rows; [reflexivity|]. unfold int_rows_py. apply Forall_map, Forall_forall. intros r _. apply Forall_map, Forall_forall. now intros z _.
    - destruct (good_cell (s_super p) true WS). constructor; [split; [reflexivity|split; assumption]|constructor].
    - unfold arrays_doc. cbv zeta. do 4 (apply Forall_app; split; [now apply good_array|]). destruct symmetrize; [|constructor]. do 3 (apply Forall_app; split; [now apply good_array|]). now apply good_array.
    - constructor; [|constructor]. split; [reflexivity|]. split; [discriminate|]. repeat (apply Forall_cons; [apply good_list; [reflexivity|apply Forall_map, Forall_forall; now intros x _]|]). constructor.
  Qed.
  Fixpoint no_blank (l : list text) : list text := match l with [] => [] | [] :: r => no_blank r | t :: r => t :: no_blank r end.
  Lemma tokens_no_blank l : tokens l = tokens (no_blank l).
  Proof using. induction l as [|[|c t] l IH]; [reflexivity|exact IH|]. cbn [no_blank]. pose proof (tokens_app [c :: t] l) as E1. pose proof (tokens_app [c :: t] (no_blank l)) as E2. cbn [app] in E1, E2. rewrite E1, E2. now rewrite IH. Qed.
  Lemma head_tokens p d : tokens [header 0 "parameters";
             entry 2 "pot" 5 (if s_multi p then show_list (map PQ (s_pot p)) else concat (s_pot p));
             entry 2 "temperature" 3 (show (d_temp d)); entry 2 "n_steps" 7 (opt_int (s_init p)); entry 2 "n_steps_final" 1 (opt_int (s_final p));
             entry 2 "tolerance" 5 (repr (s_tol p)); entry 2 "mixing" 8 (repr (s_mixing p)); entry 2 "mesh_phonon" 3 (show_list (map PI (s_mesh p))); empty_line;
             header 0 "units";
             entry 2 "free_energy" 11 (lit "kJ/mol"); entry 2 "static_potential" 6 (lit "kJ/mol"); entry 2 "entropy" 15 (lit "J/K/mol");
             entry 2 "harmonic_heat_capacity" 0 (lit "J/K/mol"); entry 2 "force" 17 (lit "eV/angstrom"); entry 2 "stress_tensor" 9 (lit "eV/unitcell"); empty_line;
             header 0 "properties";
             entry 2 "free_energy" 11 (repr (d_free d)); entry 2 "harmonic_free_energy" 2 (repr (d_harm d)); entry 2 "anharmonic_free_energy" 0 (repr (d_anh d));
             entry 2 "static_potential" 6 (repr (d_static d)); entry 2 "entropy" 15 (repr (d_entropy d)); entry 2 "harmonic_heat_capacity" 0 (repr (d_cv d)); empty_line;
             header 0 "properties_eV";
             entry 2 "free_energy" 11 (repr (per_ev (d_free d))); entry 2 "harmonic_free_energy" 2 (repr (per_ev (d_harm d)));
             entry 2 "anharmonic_free_energy" 0 (repr (per_ev (d_anh d))); entry 2 "static_potential" 6 (repr (per_ev (d_static d))); empty_line;
             header 0 "status";
             entry 2 "delta_fc" 2 (repr (d_delta d)); entry 2 "converge" 2 (show (PB (d_converge d))); entry 2 "imaginary" 1 (show (PB (d_imaginary d))); empty_line] = tokens (doc_lines (head_doc p d)).
  Proof using.
    match goal with |- tokens ?l = _ => rewrite (tokens_no_blank l) end. f_equal.
    assert (O : forall o, opt_int o = show (opt_py o)) by now intros [z|]. rewrite !O.
    assert (E : (if s_multi p then flow_leaf 5 (map PQ (s_pot p)) else val_leaf 5 (PS (concat (s_pot p)))) = LVal 5 (if s_multi p then show_list (map PQ (s_pot p)) else concat (s_pot p)) (if s_multi p then Flow (map sem (map PQ (s_pot p))) else One (sem (PS (concat (s_pot p))))))
      by now destruct (s_multi p).
    unfold head_doc. rewrite E. reflexivity.
  Qed.
  Lemma sscha_lines p logs d symmetrize : matrix_of (s_super p) <> None ->
    snd (save_sscha p (logs ++ [d]) symmetrize) = Ok tt /\ tokens (fst (save_sscha p (logs ++ [d]) symmetrize)) = tokens (doc_lines (sscha_doc p (logs ++ [d]) d symmetrize)).
  Proof using.
    intros HM. unfold YamlFiles.save_sscha. rewrite rev_app_distr. change (rev [d] ++ rev logs) with (d :: rev logs). rewrite (cell_lines (s_unit p) "unitcell") by discriminate. rewrite (cell_lines (s_super p) "supercell") by (intros _; exact HM).
    change (String.eqb "unitcell" "supercell") with false. change (String.eqb "supercell" "supercell") with true. cbn match. cbn [fst snd]. split; [reflexivity|].
    unfold sscha_doc. rewrite !doc_app, !tokens_app. change (tokens [empty_line]) with (@nil (nat * text)). rewrite ?app_nil_r, <- ?app_assoc.
    assert (A2 : forall f tag, print_array2d repr f tag 0 = doc_lines [(tag, TLeaf (row_leaf f))]) by (intros; rewrite array2d_lines; unfold doc_lines; cbn [flat_map snd fst]; now rewrite app_nil_r).
    assert (AF : forall f tag, tokens (print_forces repr f tag) = tokens (doc_lines (array_doc tag f))) by (intros; unfold print_forces; rewrite tokens_app, app_nil_r, A2; reflexivity).
    assert (AS : forall z st tag, tokens (print_stress repr z st tag) = tokens (doc_lines (array_doc tag (sym9 z st)))) by (intros; unfold print_stress; rewrite tokens_app, app_nil_r, A2; reflexivity).
    f_equal; [apply head_tokens|]. f_equal. f_equal; [rewrite A2; unfold matrix_doc, int_rows_py; do 6 f_equal; rewrite map_map; apply map_ext; intros r; now rewrite map_map|]. f_equal.
    unfold arrays_doc. cbv zeta. rewrite !doc_app, !tokens_app, !AF, !AS, <- !app_assoc. do 4 f_equal. f_equal; [destruct symmetrize; [|reflexivity]; now rewrite !doc_app, !tokens_app, !AF, !AS|].
    unfold logs_doc, doc_lines. cbn [flat_map fst snd]. rewrite !app_nil_r, !array1d_lines. match goal with |- _ = tokens (?a :: ?b) => change (a :: b) with ([a] ++ b) end. rewrite !tokens_app. reflexivity.
  Qed.

  (** What is found in the file under the name of an array *)
  Definition array_in (y : yaml (F:=F)) (tag : string) (f : list (list F)) : Prop := f <> [] -> Forall (fun r => List.length r = 3) f -> exists v, ykey y (lit tag) = Ok v /\ float_rows fl of_Z v = Ok f.
  Definition log_in (r : restart (F:=F)) (tag : string) (l : list F) : Prop := Forall pointed l -> ykey (k_logs r) (lit tag) = Ok (Seq (map (fun x => One (SNum x)) l)).
  Definition number_in (s : sc) (x : F) : Prop := to_float fl s of_Z = Ok x /\ (pointed x -> s = SNum x) /\ (~ pointed x -> s = SStr (repr x)).
  Lemma number_rd x : number_in (rd x) x.
  Proof. split; [apply to_float_rd|]. unfold rd, C90.pointed. split; intros H; [now rewrite H|]. now destruct (is_float (repr x)). Qed.
  Theorem C90_sscha p logs d symmetrize : wf_params p -> good_py (d_temp d) ->
    snd (save_sscha p (logs ++ [d]) symmetrize) = Ok tt /\ exists y r, safe_load fl (fst (save_sscha p (logs ++ [d]) symmetrize)) = Some y /\ load_sscha y None = Ok r /\
      k_pot r = pot_read p /\ (forall z, d_temp d = PI z -> k_temp r = SInt z) /\ (forall x, d_temp d = PF x -> number_in (k_temp r) x) /\
      number_in (k_static r) (d_static d) /\ (exists s, k_harm r = Some s /\ number_in s (d_harm d)) /\ (exists s, k_anh r = Some s /\ number_in s (d_anh d)) /\ number_in (k_free r) (d_free d) /\
      number_in (k_entropy r) (d_entropy d) /\ number_in (k_cv r) (d_cv d) /\ (exists s, k_delta r = Ok s /\ number_in s (d_delta d)) /\
      k_converge r = Ok (SBool (d_converge d)) /\ k_imaginary r = Ok (SBool (d_imaginary d)) /\
      same_structure (s_unit p) (k_unit r) /\ k_matrix r = map (map trunc) (s_matrix p) /\
      log_in r "free_energy" (map d_free (logs ++ [d])) /\ log_in r "harmonic_potential" (map d_harmpot (logs ++ [d])) /\
      log_in r "average_potential" (map d_avgpot (logs ++ [d])) /\ log_in r "anharmonic_free_energy" (map d_anh (logs ++ [d])) /\
      array_in y "average_forces" (d_forces d) /\ array_in y "average_stress_tensor" (sym9 (d_free d) (d_stress d)) /\
      array_in y "total_forces" (total_f d) /\ array_in y "total_stress_tensor" (sym9 (d_free d) (total_s d)) /\
      (symmetrize = true -> array_in y "symmetrized_average_forces" (sym_f (d_forces d)) /\ array_in y "symmetrized_average_stress_tensor" (sym9 (d_free d) (sym_s (d_stress d))) /\
         array_in y "symmetrized_total_forces" (sym_f (total_f d)) /\ array_in y "symmetrized_total_stress_tensor" (sym9 (d_free d) (sym_s (total_s d)))) /\
      (symmetrize = false -> ykey y (lit "symmetrized_average_forces") = Err KeyError).
  Proof.
    intros W T. pose proof W as (WU & WS & MS & MN & ML & P). destruct (sscha_lines p logs d symmetrize MS) as [S1 S2]. split; [exact S1|].
    set (dd := sscha_doc p (logs ++ [d]) d symmetrize) in S2. set (y := Map (map (fun e => (lit (fst e), entry_sem (snd e))) dd)). exists y.
    assert (L : safe_load fl (fst (save_sscha p (logs ++ [d]) symmetrize)) = Some y) by (apply load_lines; [discriminate|now apply good_doc|exact S2]). rewrite L. clear L S1 S2.
    assert (KU : ykey y (lit "unitcell") = Ok (entry_sem (TMap (cell_leaves (s_unit p) false)))) by (destruct symmetrize; reflexivity).
    assert (KM : ykey y (lit "supercell_matrix") = Ok (leaf_sem (row_leaf (int_rows_py (map (map trunc) (s_matrix p)))))) by (destruct symmetrize; reflexivity).
    assert (KL : ykey y (lit "logs") = Ok (entry_sem (snd (hd (EmptyString, TMap []) (logs_doc (logs ++ [d])))))) by (destruct symmetrize; reflexivity).
    assert (PT : exists par, ykey y (lit "parameters") = Ok par /\ ykey par (lit "pot") = Ok (Val (pot_read p)) /\ field par "temperature" = Ok (sem (d_temp d))).
    { eexists. split; [destruct symmetrize; reflexivity|]. split; [|reflexivity]. unfold pot_read. destruct (s_multi p).
      - transitivity (Ok (A:=yaml (F:=F)) (Val (Flow (map sem (map PQ (s_pot p)))))); [reflexivity|]. now rewrite map_map.
      - destruct P as (n & -> & _ & _ & X). transitivity (Ok (A:=yaml (F:=F)) (Val (One (resolve fl (concat [n]))))); [reflexivity|]. cbn [concat]. rewrite app_nil_r. now rewrite X. }
    destruct PT as (par & KP & KPot & KT).
    assert (PR : exists prop, ykey y (lit "properties") = Ok prop /\ field prop "static_potential" = Ok (rd (d_static d)) /\ field prop "free_energy" = Ok (rd (d_free d)) /\ field prop "entropy" = Ok (rd (d_entropy d)) /\
      field prop "harmonic_heat_capacity" = Ok (rd (d_cv d)) /\ field prop "harmonic_free_energy" = Ok (rd (d_harm d)) /\ field prop "anharmonic_free_energy" = Ok (rd (d_anh d))) by (eexists; split; [destruct symmetrize; reflexivity|]; repeat split; reflexivity).
    destruct PR as (prop & KPr & K1 & K2 & K3 & K4 & K5 & K6).
    assert (ST : exists st, ykey y (lit "status") = Ok st /\ field st "delta_fc" = Ok (rd (d_delta d)) /\ field st "converge" = Ok (SBool (d_converge d)) /\ field st "imaginary" = Ok (SBool (d_imaginary d))) by (eexists; split; [destruct symmetrize; reflexivity|]; repeat split; reflexivity).
    destruct ST as (st & KS & K7 & K8 & K9).
    eexists. split; [reflexivity|]. split.
    { unfold YamlFiles.load_sscha. rewrite KP. cbn [bind]. rewrite KPot. cbn [bind value_of]. rewrite KPr, KS, KL. cbn [bind]. rewrite KT, K1, K2, K3, K4. cbn [bind]. rewrite (load_cell_leaves _ false _ _ WU KU). cbn [bind]. rewrite KM. cbn [bind].
      rewrite int_rows_leaf; [|destruct (s_matrix p); [easy|discriminate]|rewrite same_len_map; exact ML]. cbn [bind]. rewrite K5, K6, K7, K8, K9. reflexivity. }
    cbn [k_pot k_temp k_static k_harm k_anh k_free k_entropy k_cv k_delta k_converge k_imaginary k_logs k_unit k_matrix].
    assert (AI : forall tag f, ykey y (lit tag) = Ok (leaf_sem (row_leaf (floats f))) -> array_in y tag f) by (intros tag f E N H3; exists (leaf_sem (row_leaf (floats f))); split; [exact E|]; now apply float_rows_leaf).
    assert (LI : forall (g : data -> F) l, Forall pointed (map g l) -> l <> [] -> leaf_sem (list_leaf (map (fun x => PF (g x)) l)) = Seq (map (fun x => One (SNum x)) (map g l))).
    { intros g l H N. unfold list_leaf. destruct l as [|a l]; [easy|]. cbn [map leaf_sem snd]. f_equal. inversion H as [|? ? H1 H2]; subst. f_equal; [cbn [sem]; unfold rd; now rewrite H1|]. rewrite !map_map. cbn [snd sem]. clear -H2. induction l as [|b l IH]; [reflexivity|]. inversion H2; subst. cbn [map]. f_equal; [unfold rd; now rewrite H1|]. now apply IH. }
    assert (NL : logs ++ [d] <> []) by now destruct logs.
    split; [reflexivity|]. split; [now intros z ->|]. split; [intros x ->; apply number_rd|]. split; [apply number_rd|]. do 2 (split; [eexists; split; [reflexivity|apply number_rd]|]). do 3 (split; [apply number_rd|]).
    split; [eexists; split; [reflexivity|apply number_rd]|]. do 2 (split; [reflexivity|]). split; [apply loaded_same|]. split; [reflexivity|].
    split; [intros H; rewrite <- (LI d_free _ H NL); reflexivity|]. split; [intros H; rewrite <- (LI d_harmpot _ H NL); reflexivity|]. split; [intros H; rewrite <- (LI d_avgpot _ H NL); reflexivity|]. split; [intros H; rewrite <- (LI d_anh _ H NL); reflexivity|].
    do 4 (split; [apply AI; destruct symmetrize; reflexivity|]). split; [intros ->; repeat split; apply AI; reflexivity|]. intros ->. reflexivity.
  Qed.

  (** "The properties of the restart file can be asked for": a free energy printed as 1e-05 is a string, which is not multiplied by 1.0. *)
  Theorem C90_restart_refuted p logs d symmetrize : wf_params p -> good_py (d_temp d) -> ~ pointed (d_free d) ->
    exists y r, safe_load fl (fst (save_sscha p (logs ++ [d]) symmetrize)) = Some y /\ load_sscha y None = Ok r /\ free_energy of_Z r = Err TypeError.
  Proof.
    intros W T NP. destruct (C90_sscha p logs d symmetrize W T) as (_ & y & r & L & R & _ & _ & _ & _ & _ & _ & (_ & _ & X) & _). exists y, r. split; [exact L|]. split; [exact R|]. unfold free_energy. now rewrite (X NP).
  Qed.
  Theorem C90_restart p logs d symmetrize : wf_params p -> good_py (d_temp d) -> Forall pointed [d_free d; d_static d; d_harm d; d_anh d; d_entropy d; d_cv d] ->
    exists y r, safe_load fl (fst (save_sscha p (logs ++ [d]) symmetrize)) = Some y /\ load_sscha y None = Ok r /\ free_energy of_Z r = Ok (d_free d) /\ static_potential of_Z r = Ok (d_static d) /\
      harmonic_free_energy of_Z r = Ok (d_harm d) /\ anharmonic_free_energy of_Z r = Ok (d_anh d) /\ entropy of_Z r = Ok (d_entropy d) /\ heat_capacity of_Z r = Ok (d_cv d).
  Proof.
    intros W T NP. destruct (C90_sscha p logs d symmetrize W T) as (_ & y & r & L & R & _ & _ & _ & (_ & X1 & _) & (s1 & E1 & _ & X2 & _) & (s2 & E2 & _ & X3 & _) & (_ & X4 & _) & (_ & X5 & _) & (_ & X6 & _) & _).
    rewrite Forall_forall in NP. exists y, r. split; [exact L|]. split; [exact R|]. unfold free_energy, static_potential, harmonic_free_energy, anharmonic_free_energy, entropy, heat_capacity. rewrite E1, E2, X1, X2, X3, X4, X5, X6 by (apply NP; cbn; tauto). repeat split.
  Qed.
  (** The name of the potential that is given takes the place of the one in the file. *)
  Theorem C90_given y v r : load_sscha y (Some v) = Ok r -> k_pot r = v.
  Proof using.
    unfold YamlFiles.load_sscha. intros H. repeat (apply bind_Ok in H; destruct H as (? & ? & H)). cbn [bind] in *. inversion H; subst; clear H. cbn [k_pot]. now match goal with E : Ok v = Ok _ |- _ => inversion E end.
  Qed.
  (** Nothing is written without logs, and the writing stops at a supercell without its matrix. *)
  Theorem C90_stops p logs d symmetrize : save_sscha p [] symmetrize = ([], Err IndexError) /\ (matrix_of (s_super p) = None -> snd (save_sscha p (logs ++ [d]) symmetrize) = Err TypeError).
  Proof.
    split; [reflexivity|]. intros H. unfold YamlFiles.save_sscha. rewrite rev_app_distr. change (rev [d] ++ rev logs) with (d :: rev logs). rewrite (cell_lines (s_unit p) "unitcell") by discriminate. cbn match.
    pose proof (C90_supercell_refuted (s_super p) H) as E. destruct (save_cell repr (s_super p) "supercell") as [l r]. cbn [snd] in E. now rewrite E.
  Qed.
End Files.

(** ** Examples: two numbers, 1.5 and 1e-05 *)
Definition ex_repr (b : bool) : text := if b then lit "1.5" else lit "1e-05".
Definition ex_fl (t : text) : option bool := if text_eqb t (lit "1.5") then Some true else if text_eqb t (lit "1e-05") then Some false else None.
Example ex_spec : repr_spec ex_repr ex_fl.
Proof. intros [|]; (split; [discriminate|]); repeat split; vm_compute; reflexivity. Qed.
Example ex_pointed : pointed ex_repr true /\ ~ pointed ex_repr false.
Proof. split; [reflexivity|discriminate]. Qed.
Definition ex_u : cell (F:=bool) := mk_cell [[true; false; false]; [false; true; false]; [false; false; true]] [[true; true; true]; [false; true; false]] [1; 1] [0; 1] [lit "Mg"; lit "O"] (Some (SNum true)) None None.
Definition ex_s : cell (F:=bool) := mk_cell (axis ex_u) (positions ex_u) [1; 1] [0; 1] [lit "Mg"; lit "O"] None (Some 2%Z) (Some (M3 [1; 1; 2]%Z)).
Example ex_wf : wf_cell ex_u /\ wf_cell ex_s.
Proof. split; (split; [reflexivity|]); (split; [repeat constructor|]); (split; [discriminate|]); (split; [repeat constructor|]); repeat split; try discriminate; apply Forall_cons; auto. Qed.
Notation ex_det := (fun _ => true). Notation ex_of_Z := (fun _ => true).
Example ex_cells : match safe_load ex_fl (fst (save_cells ex_repr ex_u ex_s)) with Some y => match load_cells ex_fl ex_det ex_of_Z y with Ok (u, s) => Some (axis u, elements u, volume u, n_units s, matrix_of s) | Err _ => None end | None => None end
  = Some (axis ex_u, [lit "Mg"; lit "O"], Some (SNum true), Some 2%Z, Some (M9 [[1; 0; 0]; [0; 1; 0]; [0; 0; 2]]%Z)).
Proof. vm_compute. reflexivity. Qed.
Example ex_text : firstn 4 (fst (save_cell ex_repr ex_u "unitcell")) = [lit "unitcell:"; lit "  axis:"; lit "   - [1.5, 1e-05, 1e-05]"; lit "   - [1e-05, 1.5, 1e-05]"].
Proof. vm_compute. reflexivity. Qed.
Definition ex_read f s := match safe_load ex_fl (save_data ex_repr ex_u false f s) with Some y => match load_data ex_fl ex_det ex_of_Z y with Ok (_, (e, f, s)) => Ok (e, f, s) | Err e => Err e end | None => Err NameError end.
Example ex_data : ex_read (Some [[true; true; true]; [true; true; true]]) (Some [true; true; true; true; true; true]) = Ok (false, Nums [[true; true; true]; [true; true; true]], Nums [[true; true; true; true; true; true]]).
Proof. vm_compute. reflexivity. Qed.
Example ex_strings : ex_read (Some [[true; false; true]]) (Some [true]) = Ok (false, Strs [[SNum true; SStr (lit "1e-05"); SNum true]], Nums [[true]]).
Proof. vm_compute. reflexivity. Qed.
Example ex_optional : ex_read None (Some [true]) = Err KeyError /\ ex_read (Some [[true; true; true]]) None = Err KeyError.
Proof. vm_compute. split; reflexivity. Qed.
Definition ex_p : params (F:=bool) := mk_params [lit "polymlp.yaml"] false (Some 20000%Z) None true true [10; 10; 10]%Z ex_u ex_s [[true; false; false]; [false; true; false]; [false; false; true]].
Definition ex_d (free : bool) : data (F:=bool) := mk_data (PI 300) true false true free true true false true false true true [[true; true; false]; [false; true; true]] [[true; true; false]; [false; true; true]] [true; false; true; false; true; false] [true; true; true; true; true; true].
Example ex_params : wf_params ex_fl ex_p /\ good_py (d_temp (ex_d true)).
Proof.
  split; [|exact I]. split; [apply ex_wf|]. split; [apply ex_wf|]. split; [discriminate|]. split; [discriminate|]. split; [reflexivity|]. exists (lit "polymlp.yaml"). split; [reflexivity|]. split; [discriminate|]. split; vm_compute; reflexivity.
Qed.
Definition ex_restart (free : bool) := match safe_load ex_fl (fst (save_sscha ex_repr andb negb (fun b : bool => if b then 1%Z else 0%Z) (fun f => f) (fun s => s) ex_p [ex_d true; ex_d free] true)) with
  | Some y => match load_sscha ex_fl ex_det ex_of_Z y None with Ok r => Ok (k_pot r, k_temp r, free_energy ex_of_Z r, k_converge r, k_matrix r, elements (k_unit r)) | Err e => Err e end | None => Err NameError end.
Example ex_sscha : ex_restart true = Ok (One (SStr (lit "polymlp.yaml")), SInt 300, Ok true, Ok (SBool true), [[1; 0; 0]; [0; 1; 0]; [0; 0; 1]]%Z, [lit "Mg"; lit "O"]).
Proof. vm_compute. reflexivity. Qed.
Example ex_restart_string : ex_restart false = Ok (One (SStr (lit "polymlp.yaml")), SInt 300, Err TypeError, Ok (SBool true), [[1; 0; 0]; [0; 1; 0]; [0; 0; 1]]%Z, [lit "Mg"; lit "O"]).
Proof. vm_compute. reflexivity. Qed.

(** Which words are numbers: digits, a point, digits and maybe an exponent with a sign; 1e-05 and 1.5e5 are not (PyYAML also takes .5, .inf and .nan, which Python does not print) *)
Definition digits_ (l : text) : Prop := forall c, In c l -> is_digit c = true.
Definition sign_ (c : ascii) : Prop := c = minus_c \/ c = plus_c.
Definition exponent_ (t : text) : Prop := t = [] \/ exists e s d ds, t = e :: s :: d :: ds /\ (e = char 101 \/ e = char 69) /\ sign_ s /\ digits_ (d :: ds).
Definition signed_ (P : text -> Prop) (t : text) : Prop := (exists c t', t = c :: t' /\ sign_ c /\ P t') \/ P t.
Definition float_ (t : text) : Prop := exists c ip fp ex, t = c :: ip ++ dot_c :: fp ++ ex /\ digits_ (c :: ip) /\ digits_ fp /\ exponent_ ex.
Definition int_ (t : text) : Prop := t <> [] /\ digits_ t.
Lemma is_c_eq a b : is_c a b = true <-> a = b.
Proof. unfold is_c. apply Ascii.eqb_eq. Qed.
Lemma skip_spec t : exists ds r, t = ds ++ r /\ digits_ ds /\ skip_digits t = r /\ match r with [] => True | c :: _ => is_digit c = false end.
Proof.
  induction t as [|c t IH]; [exists [], []; repeat split; easy|]. cbn [skip_digits]. destruct (is_digit c) eqn:E.
  - destruct IH as (ds & r & -> & D & S' & X). exists (c :: ds), r. repeat split; auto. intros a [<-|I]; auto.
  - exists [], (c :: t). repeat split; auto. easy.
Qed.
Lemma skip_app ds r : digits_ ds -> match r with [] => True | c :: _ => is_digit c = false end -> skip_digits (ds ++ r) = r.
Proof.
  intros D X. induction ds as [|c ds IH]; cbn [app skip_digits].
  - destruct r as [|c r]; [reflexivity|]. cbn. now rewrite X.
  - rewrite (D c) by now left. apply IH. intros a I. apply D. now right.
Qed.
Lemma forallb_digits l : forallb is_digit l = true <-> digits_ l.
Proof. apply forallb_forall. Qed.
Lemma is_exp_iff t : is_exp t = true <-> exponent_ t.
Proof.
  unfold is_exp, exponent_. destruct t as [|e [|s [|d ds]]].
  - split; auto.
  - split; [discriminate|]. intros [H|(? & ? & ? & ? & H & _)]; discriminate.
  - rewrite andb_false_r. split; [discriminate|]. intros [H|(? & ? & ? & ? & H & _)]; discriminate.
  - rewrite !andb_true_iff, !orb_true_iff, !is_c_eq, forallb_digits. split.
    + intros [[E S'] D]. right. exists e, s, d, ds. repeat split; auto.
    + intros [H|(e' & s' & d' & ds' & H & E & S' & D)]; [discriminate|]. injection H as -> -> -> ->. auto.
Qed.
Lemma unsigned_iff (P : text -> Prop) t : (forall c t', P (c :: t') -> ~ sign_ c) -> ~ P [] \/ t <> [] -> (P (unsigned t) <-> signed_ P t).
Proof.
  intros H N. unfold signed_, unsigned, sign_. destruct t as [|c t].
  - split; [auto|]. intros [(c & t' & E & _)|X]; [discriminate|exact X].
  - destruct (is_c c minus_c || is_c c plus_c) eqn:E.
    + apply orb_true_iff in E. rewrite !is_c_eq in E. split; [left; now exists c, t|]. intros [(c' & t' & [= <- <-] & _ & X)|X]; [exact X|]. now apply H in X.
    + split; [auto|]. intros [(c' & t' & [= <- <-] & S' & _)|X]; [|exact X]. exfalso. apply orb_false_iff in E. destruct E as [E1 E2]. destruct S' as [-> | ->]; [now rewrite (proj2 (is_c_eq _ _) eq_refl) in E1|now rewrite (proj2 (is_c_eq _ _) eq_refl) in E2].
Qed.
Lemma sign_digit c : is_digit c = true -> ~ sign_ c.
Proof. intros D [-> | ->]; discriminate. Qed.
Theorem C90_float t : is_float t = true <-> signed_ float_ t.
Proof.
  rewrite <- (unsigned_iff float_ t).
  - unfold is_float. destruct (unsigned t) as [|c u]; [split; [discriminate|]; intros (? & ? & ? & ? & H & _); discriminate|]. rewrite andb_true_iff. split.
    + intros [D H]. destruct (skip_spec u) as (ip & r & -> & DI & E & X). rewrite E in H. destruct r as [|p r]; [discriminate|]. apply andb_true_iff in H. destruct H as [P H]. apply is_c_eq in P. subst p. destruct (skip_spec r) as (fp & ex & -> & DF & E2 & _). rewrite E2 in H. apply is_exp_iff in H.
      exists c, ip, fp, ex. repeat split; auto. intros a [<-|I]; auto.
    + intros (c' & ip & fp & ex & [= <- ->] & D & DF & E). split; [apply D; now left|]. rewrite skip_app; [|intros a I; apply D; now right|reflexivity]. rewrite (proj2 (is_c_eq _ _) eq_refl). rewrite skip_app; [now apply is_exp_iff|exact DF|]. destruct E as [->|(e & s & d & ds & -> & [-> | ->] & _)]; [exact I|reflexivity|reflexivity].
  - intros c t' (c' & ip & fp & ex & [= <- ->] & D & _). apply sign_digit, D. now left.
  - left. intros (? & ? & ? & ? & H & _). discriminate.
Qed.
Theorem C90_int t : is_int t = true <-> signed_ int_ t.
Proof.
  rewrite <- (unsigned_iff int_ t).
  - unfold is_int, int_. destruct (unsigned t) as [|c u]; [split; [discriminate|]; now intros [H _]|]. rewrite forallb_digits. split; [intros H; split; [discriminate|exact H]|intros H; apply H].
  - intros c t' [_ D]. apply sign_digit, D. now left.
  - left. now intros [H _].
Qed.
(** Words for true and false, and no others *)
Definition yes_words : list string := ["yes"; "Yes"; "YES"; "true"; "True"; "TRUE"; "on"; "On"; "ON"]%string.
Definition no_words : list string := ["no"; "No"; "NO"; "false"; "False"; "FALSE"; "off"; "Off"; "OFF"]%string.
Lemma bool_cases t b : bool_of t = Some b -> In (t, b) bools.
Proof. unfold bool_of. destruct (find _ _) as [[u v]|] eqn:E; [|discriminate]. cbn [option_map snd]. intros [= <-]. apply find_some in E. destruct E as [I E]. cbn [fst] in E. now destruct (text_eqb_spec u t) as [->|]. Qed.
Lemma words_in (w : list text) b : forallb (fun e => implb (Bool.eqb (snd e) b) (existsb (text_eqb (fst e)) w)) bools = true -> forall t, bool_of t = Some b -> In t w.
Proof.
  intros A t H. apply bool_cases in H. rewrite forallb_forall in A. specialize (A _ H). cbn [fst snd] in A. rewrite Bool.eqb_reflx in A. cbn [implb] in A. apply existsb_exists in A. destruct A as (u & I & E). now destruct (text_eqb_spec t u) as [->|].
Qed.
Lemma words_are (w : list text) b : forallb (fun t => match bool_of t with Some b' => Bool.eqb b' b | None => false end) w = true -> forall t, In t w -> bool_of t = Some b.
Proof. intros A t H. rewrite forallb_forall in A. specialize (A _ H). destruct (bool_of t) as [b'|]; [|discriminate]. apply Bool.eqb_prop in A. now subst. Qed.
Theorem C90_bool t : (bool_of t = Some true <-> In t (map lit yes_words)) /\ (bool_of t = Some false <-> In t (map lit no_words)).
Proof. split; split; (apply words_in || apply words_are); vm_compute; reflexivity. Qed.
(** A key that occurs again replaces the value; other keys keep theirs; a key that does not occur raises KeyError *)
Theorem C90_last {F : Type} (l : list (text * yaml (F:=F))) k v k' : ykey (Map (l ++ [(k, v)])) k = Ok v /\ (k <> k' -> ykey (Map (l ++ [(k, v)])) k' = ykey (Map l) k') /\ (~ In k (map fst l) -> ykey (Map l) k = Err KeyError).
Proof.
  unfold ykey. rewrite rev_app_distr. cbn [rev app find fst]. split; [|split].
  - now destruct (text_eqb_spec k k).
  - intros N. now destruct (text_eqb_spec k k').
  - intros N. destruct (find _ _) as [e|] eqn:E; [|reflexivity]. exfalso. apply find_some in E. destruct E as [I E]. destruct (text_eqb_spec (fst e) k) as [<-|]; [|discriminate]. apply N, in_map. now apply in_rev.
Qed.
Example ex_words : map is_float (map lit ["0.5"; "-1.5e-05"; "1.E+3"; "1e-05"; "1.5e5"; "nan"]%string) = [true; true; true; false; false; false] /\
  map is_int (map lit ["12"; "-3"; "+"; "1.0"]%string) = [true; true; false; false].
Proof. now vm_compute. Qed.

Print Assumptions C90_cell.
Print Assumptions C90_supercell_refuted.
Print Assumptions C90_cells.
Print Assumptions C90_data.
Print Assumptions C90_strings_refuted.
Print Assumptions C90_optional_refuted.
Print Assumptions C90_property.
Print Assumptions C90_sscha.
Print Assumptions C90_restart.
Print Assumptions C90_restart_refuted.
Print Assumptions C90_given.
Print Assumptions C90_stops.
Print Assumptions C90_float.
Print Assumptions C90_int.
Print Assumptions C90_bool.
Print Assumptions C90_last.
