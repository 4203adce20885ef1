(** Lemmas on YAML files: lines, blocks, values. *)
From Verif Require Import Base Model.Structure Model.Readers Proofs.Readers Model.Parser Model.PotentialFile Proofs.PotentialFile Proofs.Poscar Model.YamlFiles.
From Coq Require Import Ascii String List.
Local Open Scope list_scope.
Local Open Scope nat_scope.
Local Arguments is_c : simpl never.

(** ** Characters and blanks *)
Definition tight (t : text) : Prop := t <> [] /\ trim_l t = t /\ trim_l (rev t) = rev t.
Lemma trim_sp i t : trim_l (sp i ++ t) = trim_l t.
Proof. induction i; [reflexivity|]. cbn. exact IHi. Qed.
Lemma trim_tight i t : tight t -> trim (sp i ++ t) = t.
Proof. intros (_ & A & B). unfold trim. rewrite trim_sp, A, B. apply rev_involutive. Qed.
Lemma trim_tight0 t : tight t -> trim t = t.
Proof. exact (trim_tight 0 t). Qed.
Lemma trim_l_head c t : is_c c blank_c = false -> trim_l (c :: t) = c :: t.
Proof. intros H. cbn [trim_l]. now rewrite H. Qed.
Lemma indent_tight i t : tight t -> indent (sp i ++ t) = i.
Proof.
  intros (N & A & _). induction i as [|i IH]; [cbn [sp repeat app]|change (S (indent (sp i ++ t)) = S i); now rewrite IH].
  destruct t as [|c t]; [easy|]. cbn [trim_l indent] in *. destruct (is_c c blank_c) eqn:E; [|reflexivity]. exfalso. assert (L : forall u, List.length (trim_l u) <= List.length u) by (induction u as [|a u IH]; cbn [trim_l List.length]; [lia|destruct (is_c a blank_c); cbn [List.length]; lia]).
  specialize (L t). rewrite A in L. cbn in L. lia.
Qed.
Lemma tight_ends c t d : is_c c blank_c = false -> is_c d blank_c = false -> tight (c :: t ++ [d]).
Proof.
  intros H1 H2. split; [discriminate|]. split; [now apply trim_l_head|]. change (c :: t ++ [d]) with ((c :: t) ++ [d]). rewrite rev_app_distr. cbn [rev app]. now apply trim_l_head.
Qed.
Lemma tight_chars t : t <> [] -> forallb (fun c => negb (is_c c blank_c)) t = true -> tight t.
Proof.
  intros N H. rewrite forallb_forall in H. assert (K : forall u, u <> [] -> (forall c, In c u -> is_c c blank_c = false) -> trim_l u = u) by (intros [|c u] Nu Hu; [easy|apply trim_l_head, Hu; now left]).
  split; [exact N|]. split; apply K.
  - exact N.
  - intros c Hc. specialize (H c Hc). now destruct (is_c c blank_c).
  - intros E. apply N. apply (f_equal (@rev ascii)) in E. now rewrite rev_involutive in E.
  - intros c Hc. apply in_rev in Hc. specialize (H c Hc). now destruct (is_c c blank_c).
Qed.
Lemma tight_app a m b : a <> [] -> forallb (fun c => negb (is_c c blank_c)) a = true -> tight b -> tight (a ++ m ++ b).
Proof.
  intros N H (Nb & _ & B). destruct a as [|c a]; [easy|]. cbn [forallb] in H. apply andb_true_iff in H. destruct H as [Hc _]. split; [discriminate|]. split; [cbn [trim_l app]; now destruct (is_c c blank_c)|].
  rewrite app_assoc, rev_app_distr. destruct (rev b) as [|d r] eqn:E; [exfalso; apply Nb; apply (f_equal (@rev ascii)) in E; now rewrite rev_involutive in E|]. cbn [trim_l app] in *. destruct (is_c d blank_c) eqn:Ed; [|reflexivity].
  exfalso. assert (L : forall u, List.length (trim_l u) <= List.length u) by (induction u as [|x u IH]; cbn [trim_l List.length]; [lia|destruct (is_c x blank_c); cbn [List.length]; lia]). specialize (L r). rewrite B in L. cbn in L. lia.
Qed.

(** ** Keys *)
Definition key_char (c : ascii) : bool := let n := nat_of_ascii c in ((65 <=? n) && (n <=? 90)) || ((97 <=? n) && (n <=? 122)) || (n =? 95).
Definition key_ok (k : string) : bool := match lit k with [] => false | t => forallb key_char t end.
Lemma is_c_nat c n : n < 256 -> is_c c (char n) = (nat_of_ascii c =? n).
Proof.
  intros H. unfold is_c. destruct (Ascii.eqb_spec c (char n)) as [->|N].
  - unfold char. rewrite nat_ascii_embedding by exact H. now rewrite Nat.eqb_refl.
  - symmetry. apply Nat.eqb_neq. intros E. apply N. unfold char. now rewrite <- E, ascii_nat_embedding.
Qed.
Lemma key_char_not c n : key_char c = true -> In n [32; 44; 58; 45; 91; 93; 39] -> is_c c (char n) = false.
Proof. intros H I. rewrite is_c_nat by (cbn in I; lia). apply Nat.eqb_neq. unfold key_char in H. cbn in I. lia. Qed.
Lemma key_blank c : key_char c = true -> is_c c blank_c = false.
Proof. intros H. apply (key_char_not c 32 H). cbn. auto. Qed.
Lemma key_colon c : key_char c = true -> is_c c colon_c = false.
Proof. intros H. apply (key_char_not c 58 H). cbn. auto. Qed.
Lemma key_minus c : key_char c = true -> is_c c minus_c = false.
Proof. intros H. apply (key_char_not c 45 H). cbn. auto. Qed.
Lemma key_parts k : key_ok k = true -> exists c t, lit k = c :: t /\ key_char c = true /\ forallb key_char (lit k) = true.
Proof. unfold key_ok. destruct (lit k) as [|c t]; [discriminate|]. intros H. exists c, t. split; [reflexivity|]. split; [|exact H]. cbn [forallb] in H. apply andb_true_iff in H. tauto. Qed.
Lemma key_no_blank k : key_ok k = true -> lit k <> [] /\ forallb (fun c => negb (is_c c blank_c)) (lit k) = true.
Proof.
  intros H. destruct (key_parts k H) as (c & t & E & _ & K). split; [rewrite E; discriminate|]. rewrite forallb_forall in *. intros x Hx. now rewrite (key_blank x (K x Hx)).
Qed.
Lemma key_head k : key_ok k = true -> key_of (lit k ++ [colon_c]) = Some (lit k, []).
Proof.
  intros H. destruct (key_parts k H) as (_ & _ & _ & _ & K). clear H. induction (lit k) as [|a u IH]; [reflexivity|]. cbn [forallb] in K. cbn [key_of app]. apply andb_true_iff in K. destruct K as [A B]. rewrite IH by exact B.
  now rewrite (key_colon a A).
Qed.
Lemma key_entry k pad v : key_ok k = true -> tight v -> key_of (lit k ++ colon_c :: sp (S pad) ++ v) = Some (lit k, v).
Proof.
  intros H T. destruct (key_parts k H) as (_ & _ & _ & _ & K). clear H. induction (lit k) as [|a u IH].
  - cbn [app key_of]. change (is_c colon_c colon_c) with true. cbn match. change (sp (S pad) ++ v) with (blank_c :: sp pad ++ v). cbn [is_c]. change (is_c blank_c blank_c) with true. cbn match.
    f_equal. f_equal. exact (trim_tight (S pad) v T).
  - cbn [forallb] in K. apply andb_true_iff in K. destruct K as [A B]. cbn [app key_of]. rewrite (key_colon a A). now rewrite IH.
Qed.
Lemma item_key k r : key_ok k = true -> item (lit k ++ colon_c :: r) = None.
Proof.
  intros H. destruct (key_parts k H) as (c & t & E & K & _). rewrite E. cbn [app item]. destruct (t ++ colon_c :: r) as [|b q]; [reflexivity|]. now rewrite (key_minus c K).
Qed.
Lemma item_row v : tight v -> item (lit "- " ++ v) = Some v.
Proof. intros T. change (item (lit "- " ++ v)) with (Some (trim v)). now rewrite (trim_tight0 v T). Qed.

Lemma all_some_map {A B} (f : A -> option B) g l : (forall x, In x l -> f x = Some (g x)) -> all_some (map f l) = Some (map g l).
Proof. induction l as [|a l IH]; intros H; [reflexivity|]. cbn. unfold all_some in IH. rewrite H by now left. now rewrite IH by (intros; apply H; now right). Qed.
Lemma mapM_all {A B} (f : A -> res B) g l : (forall x, In x l -> f x = Ok (g x)) -> mapM f l = Ok (map g l).
Proof. induction l as [|a l IH]; intros H; [reflexivity|]. cbn. rewrite H by now left. cbn. now rewrite IH by (intros; apply H; now right). Qed.

Section Blocks.
  Context {F : Type}.
  Variable fl : text -> option F.
  Notation val := (val (F:=F)). Notation yaml := (yaml (F:=F)).
  Notation value := (value (F:=F) fl). Notation block := (block (F:=F) fl).
  (** ** A document: what is written and what it means *)
  Inductive leaf := LVal (pad : nat) (v : text) (d : val) | LSeq (l : list (text * val)).
  Inductive entry_of := TLeaf (l : leaf) | TMap (l : list (string * leaf)).
  Definition leaf_lines (i : nat) (e : string * leaf) : list text :=
    match snd e with
    | LVal pad v _ => [entry i (fst e) pad v]
    | LSeq l => header i (fst e) :: map (fun x => sp i ++ lit " - " ++ fst x) l
    end.
  Definition doc_lines (d : list (string * entry_of)) : list text :=
    flat_map (fun e => match snd e with TLeaf l => leaf_lines 0 (fst e, l) | TMap l => header 0 (fst e) :: flat_map (leaf_lines 2) l end) d.
  Definition leaf_sem (l : leaf) : yaml := match l with LVal _ _ d => Val d | LSeq [] => Val (One SNull) | LSeq l => Seq (map snd l) end.
  Definition entry_sem (e : entry_of) : yaml := match e with TLeaf l => leaf_sem l | TMap l => Map (map (fun e => (lit (fst e), leaf_sem (snd e))) l) end.
  Definition good_val (v : text) (d : val) : Prop := tight v /\ value v = Some d.
  Definition good_leaf (e : string * leaf) : Prop :=
    key_ok (fst e) = true /\ match snd e with LVal _ v d => good_val v d | LSeq l => Forall (fun x => good_val (fst x) (snd x)) l end.
  Definition good_entry (e : string * entry_of) : Prop :=
    key_ok (fst e) = true /\ match snd e with TLeaf l => good_leaf (fst e, l) | TMap l => l <> [] /\ Forall good_leaf l end.

  Definition leaf_tok (i : nat) (e : string * leaf) : text * list (nat * text) :=
    match snd e with LVal pad v _ => (lit (fst e) ++ colon_c :: sp (S pad) ++ v, []) | LSeq l => (lit (fst e) ++ [colon_c], map (fun x => (S i, lit "- " ++ fst x)) l) end.
  Lemma tokens_app a b : tokens (a ++ b) = tokens a ++ tokens b.
  Proof. unfold tokens. now rewrite filter_app, map_app. Qed.
  Lemma tokens_line i t r : tight t -> tokens ((sp i ++ t) :: r) = (i, t) :: tokens r.
  Proof.
    intros T. unfold tokens. cbn [filter]. rewrite trim_sp. destruct T as (N & A & B). rewrite A. destruct t as [|c t]; [easy|]. cbn [map]. rewrite indent_tight by (split; auto). rewrite trim_tight by (split; auto). reflexivity.
  Qed.
  Lemma tokens_blank r : tokens ([] :: r) = tokens r.
  Proof. reflexivity. Qed.
  Lemma tight_header k : key_ok k = true -> tight (lit k ++ [colon_c]).
  Proof. intros H. destruct (key_no_blank k H) as [N B]. apply (tight_app (lit k) [] [colon_c] N B). apply tight_chars; [discriminate|reflexivity]. Qed.
  Lemma tight_entry k pad v : key_ok k = true -> tight v -> tight (lit k ++ colon_c :: sp (S pad) ++ v).
  Proof. intros H T. destruct (key_no_blank k H) as [N B]. exact (tight_app (lit k) (colon_c :: sp (S pad)) v N B T). Qed.
  Lemma tight_row v : tight v -> tight (lit "- " ++ v).
  Proof. intros T. exact (tight_app [minus_c] [blank_c] v ltac:(discriminate) eq_refl T). Qed.
  Lemma row_line i v : sp i ++ lit " - " ++ v = sp (S i) ++ lit "- " ++ v.
  Proof. induction i as [|i IH]; [reflexivity|]. change (blank_c :: (sp i ++ lit " - " ++ v) = blank_c :: sp (S i) ++ lit "- " ++ v). now rewrite IH. Qed.
  Lemma leaf_tokens i e r : good_leaf e -> tokens (leaf_lines i e ++ r) = (i, fst (leaf_tok i e)) :: snd (leaf_tok i e) ++ tokens r.
  Proof.
    intros [K G]. unfold leaf_lines, leaf_tok. destruct e as [k [pad v d|l]]; cbn [fst snd] in *.
    - cbn [app]. unfold entry. rewrite tokens_line by (apply tight_entry; [exact K|apply G]). reflexivity.
    - cbn [app]. unfold header. rewrite tokens_line by now apply tight_header. f_equal. induction G as [|x l [T V] G IH]; [reflexivity|]. cbn [map app].
      rewrite row_line, (tokens_line (S i)) by now apply tight_row. f_equal. exact IH.
  Qed.
  Lemma leaves_tokens i l r : Forall good_leaf l -> tokens (flat_map (leaf_lines i) l ++ r) = flat_map (fun e => (i, fst e) :: snd e) (map (leaf_tok i) l) ++ tokens r.
  Proof. induction 1 as [|e l G H IH]; [reflexivity|]. cbn [flat_map map]. rewrite <- !app_assoc, leaf_tokens by exact G. rewrite IH. cbn [app]. now rewrite <- ?app_assoc. Qed.
  Definition entry_tok (e : string * entry_of) : text * list (nat * text) :=
    match snd e with TLeaf l => leaf_tok 0 (fst e, l) | TMap l => (lit (fst e) ++ [colon_c], flat_map (fun e => (2, fst e) :: snd e) (map (leaf_tok 2) l)) end.
  Lemma doc_tokens d r : Forall good_entry d -> tokens (doc_lines d ++ r) = flat_map (fun e => (0, fst e) :: snd e) (map entry_tok d) ++ tokens r.
  Proof.
    induction 1 as [|e d [K G] H IH]; [reflexivity|]. unfold doc_lines in *. cbn [flat_map map]. rewrite <- !app_assoc. unfold entry_tok at 1 2. destruct e as [k [l|l]]; cbn [fst snd] in *.
    - rewrite leaf_tokens by exact G. rewrite IH. cbn [app]. now rewrite <- ?app_assoc.
    - cbn [app]. change (header 0 k) with (sp 0 ++ (lit k ++ [colon_c])). rewrite tokens_line by now apply tight_header. destruct G as [_ G]. rewrite leaves_tokens by exact G. rewrite IH. cbn [app]. now rewrite <- ?app_assoc.
  Qed.

  (** ** Reading blocks *)
  Lemma group_body n b r : (forall t, In t b -> fst t <> n) -> group n (b ++ r) = (b ++ fst (group n r), snd (group n r)).
  Proof.
    induction b as [|[i c] b IH]; intros H; [cbn; now destruct (group n r)|]. cbn [app group]. rewrite IH by (intros; apply H; now right).
    destruct (Nat.eqb_spec i n) as [E|E]; [exfalso; exact (H (i, c) (or_introl eq_refl) E)|reflexivity].
  Qed.
  Lemma group_flat n es : (forall e, In e es -> forall t, In t (snd e) -> fst t <> n) -> group n (flat_map (fun e => (n, fst e) :: snd e) es) = ([], es).
  Proof.
    induction es as [|[c b] es IH]; intros H; [reflexivity|]. cbn [flat_map fst snd app group]. rewrite group_body by (apply (H (c, b)); now left). rewrite IH by (intros; eapply H; [right|]; eassumption).
    cbn [fst snd]. now rewrite Nat.eqb_refl, app_nil_r.
  Qed.
  Lemma leaf_tok_above i e t : In t (snd (leaf_tok i e)) -> fst t = S i.
  Proof. unfold leaf_tok. destruct (snd e) as [pad v d|l]; cbn; [easy|]. rewrite in_map_iff. intros (x & <- & _). reflexivity. Qed.
  Lemma leaf_block depth i e : good_leaf e ->
    match key_of (fst (leaf_tok i e)) with
    | Some (k, []) => option_map (pair k) (block depth (snd (leaf_tok i e)))
    | Some (k, v) => match snd (leaf_tok i e) with [] => option_map (fun v => (k, Val v)) (value v) | _ => None end
    | None => None
    end = Some (lit (fst e), leaf_sem (snd e)).
  Proof.
    intros [K G]. unfold leaf_tok. destruct e as [k [pad v d|l]]; cbn [fst snd] in *.
    - destruct G as [T V]. rewrite key_entry by assumption. destruct v as [|c v]; [now destruct T|]. now rewrite V.
    - rewrite key_head by exact K. unfold leaf_sem. destruct l as [|x l]; [destruct depth; reflexivity|].
      assert (B : block depth (map (fun x => (S i, lit "- " ++ fst x)) (x :: l)) = Some (Seq (map snd (x :: l)))).
      { set (toks := map (fun x => (S i, lit "- " ++ fst x)) (x :: l)). assert (E : exists t, toks = (S i, lit "- " ++ fst x) :: t) by (eexists; reflexivity).
        assert (A : all_some (map (fun tok => if (fst tok =? S i) then match item (snd tok) with Some t => value t | None => None end else None) toks) = Some (map snd (x :: l))).
        { unfold toks. rewrite map_map. cbn [fst snd]. rewrite Nat.eqb_refl. apply all_some_map. intros y Hy. rewrite Forall_forall in G. destruct (G y Hy) as [T V]. now rewrite item_row. }
        destruct E as [t E]. assert (T : tight (fst x)) by (inversion G as [|? ? [T _] _]; exact T). destruct depth; cbn [YamlFiles.block]; rewrite E in *; rewrite item_row by exact T; now rewrite A. }
      now rewrite B.
  Qed.
  Lemma map_block depth i (es : list (text * list (nat * text))) sem : es <> [] -> (forall e, In e es -> item (fst e) = None /\ (forall t, In t (snd e) -> i < fst t)) ->
    (forall e, In e es -> match key_of (fst e) with
      | Some (k, []) => option_map (pair k) (block depth (snd e))
      | Some (k, v) => match snd e with [] => option_map (fun v => (k, Val v)) (value v) | _ => None end
      | None => None end = Some (sem e)) -> block (S depth) (flat_map (fun e => (i, fst e) :: snd e) es) = Some (Map (map sem es)).
  Proof.
    intros N H1 H2. pose (toks := flat_map (fun e => (i, fst e) :: snd e) es). assert (HT : exists c t, toks = (i, c) :: t /\ item c = None).
    { destruct es as [|e es]; [easy|]. exists (fst e), (snd e ++ flat_map (fun e => (i, fst e) :: snd e) es). split; [reflexivity|]. apply H1. now left. }
    assert (HG : group i toks = ([], es)) by (apply group_flat; intros e He t Ht; destruct (H1 e He) as [_ L]; specialize (L t Ht); lia).
    assert (HA : forallb (fun tok => (i <=? fst tok)) toks = true).
    { apply forallb_forall. intros t Ht. unfold toks in Ht. apply in_flat_map in Ht. destruct Ht as (e & He & [<-|Ht]); cbn [fst]; apply Nat.leb_le; [lia|]. destruct (H1 e He) as [_ L]. specialize (L t Ht). lia. }
    change (block (S depth) toks = Some (Map (map sem es))). destruct HT as (c & t & E & I). clearbody toks. cbn [YamlFiles.block]. rewrite E. rewrite I. rewrite <- E, HA, HG. cbn [snd].
    erewrite all_some_map; [reflexivity|]. exact H2.
  Qed.
  Theorem load_doc d r : d <> [] -> Forall good_entry d -> tokens r = [] -> safe_load fl (doc_lines d ++ r) = Some (Map (map (fun e => (lit (fst e), entry_sem (snd e))) d)).
  Proof.
    intros N G HR. unfold safe_load. rewrite doc_tokens by exact G. rewrite HR, app_nil_r.
    assert (IT : forall e, good_entry e -> item (fst (entry_tok e)) = None).
    { intros e [K _]. unfold entry_tok, leaf_tok. destruct e as [k [[pad v d'|l]|l]]; cbn [fst snd] in *; now apply item_key. }
    assert (ITL : forall i e, good_leaf e -> item (fst (leaf_tok i e)) = None).
    { intros i e [K _]. unfold leaf_tok. destruct e as [k [pad v d'|l]]; cbn [fst snd] in *; now apply item_key. }
    rewrite Forall_forall in G.
    enough (E : exists sem, block 2 (flat_map (fun e => (0, fst e) :: snd e) (map entry_tok d)) = Some (Map (map sem (map entry_tok d))) /\ (forall e, In e d -> sem (entry_tok e) = (lit (fst e), entry_sem (snd e)))).
    { destruct E as (sem & -> & E). rewrite map_map. do 2 f_equal. now apply map_ext_in. }
    exists (fun e => match key_of (fst e) with
      | Some (k, []) => match block 1 (snd e) with Some y => (k, y) | None => (k, Val (One SNull)) end
      | Some (k, v) => match value v with Some v => (k, Val v) | None => (k, Val (One SNull)) end
      | None => ([], Val (One SNull)) end).
    assert (B : forall e, In e d -> match key_of (fst (entry_tok e)) with
      | Some (k, []) => option_map (pair k) (block 1 (snd (entry_tok e)))
      | Some (k, v) => match snd (entry_tok e) with [] => option_map (fun v => (k, Val v)) (value v) | _ => None end
      | None => None end = Some (lit (fst e), entry_sem (snd e))).
    { intros e He. destruct (G e He) as [K Ge]. destruct e as [k [l|l]]; cbn [fst snd entry_tok entry_sem] in *; [exact (leaf_block 1 0 (k, l) Ge)|]. unfold entry_tok. cbn [fst snd]. rewrite key_head by exact K.
      destruct Ge as [NL GL]. rewrite Forall_forall in GL.
      set (semk := fun e : text * list (nat * text) => match key_of (fst e) with
        | Some (k, []) => match block 0 (snd e) with Some y => (k, y) | None => (k, Val (One SNull)) end
        | Some (k, v) => match value v with Some v => (k, Val v) | None => (k, Val (One SNull)) end
        | None => ([], Val (One SNull)) end).
      assert (SK : forall e, In e l -> semk (leaf_tok 2 e) = (lit (fst e), leaf_sem (snd e)) /\ match key_of (fst (leaf_tok 2 e)) with
        | Some (k, []) => option_map (pair k) (block 0 (snd (leaf_tok 2 e)))
        | Some (k, v) => match snd (leaf_tok 2 e) with [] => option_map (fun v => (k, Val v)) (value v) | _ => None end
        | None => None end = Some (semk (leaf_tok 2 e))).
      { intros e' He'. pose proof (leaf_block 0 2 e' (GL e' He')) as LB. unfold semk. destruct (key_of (fst (leaf_tok 2 e'))) as [[k' [|v0 v]]|]; [|..|discriminate].
        - destruct (block 0 (snd (leaf_tok 2 e'))); cbn in *; [|discriminate]. split; [congruence|reflexivity].
        - destruct (snd (leaf_tok 2 e')); [|discriminate]. destruct (value (v0 :: v)); cbn in *; [|discriminate]. split; [congruence|reflexivity]. }
      rewrite (map_block 0 2 (map (leaf_tok 2) l) semk).
      - cbn [option_map]. rewrite map_map. rewrite (map_ext_in _ (fun e => (lit (fst e), leaf_sem (snd e)))) by (intros e' He'; now apply SK). reflexivity.
      - destruct l; [easy|discriminate].
      - intros x Hx. apply in_map_iff in Hx. destruct Hx as (e' & <- & He'). split; [apply ITL, GL, He'|]. intros t Ht. apply leaf_tok_above in Ht. lia.
      - intros x Hx. apply in_map_iff in Hx. destruct Hx as (e' & <- & He'). now apply SK. }
    split.
    - apply map_block.
      + destruct d; [easy|discriminate].
      + intros x Hx. apply in_map_iff in Hx. destruct Hx as (e & <- & He). split; [apply IT, G, He|]. intros t Ht. unfold entry_tok in Ht. destruct (snd e) as [l|l]; [apply leaf_tok_above in Ht; lia|].
        cbn [snd] in Ht. apply in_flat_map in Ht. destruct Ht as (x & Hx & [<-|Ht]); [cbn; lia|]. apply in_map_iff in Hx. destruct Hx as (e' & <- & _). apply leaf_tok_above in Ht. lia.
      + intros x Hx. apply in_map_iff in Hx. destruct Hx as (e & <- & He). specialize (B e He). destruct (key_of (fst (entry_tok e))) as [[k [|v0 v]]|]; [|..|discriminate].
        * destruct (block 1 (snd (entry_tok e))); [reflexivity|discriminate].
        * destruct (snd (entry_tok e)); [|discriminate]. destruct (value (v0 :: v)); [reflexivity|discriminate].
    - intros e He. specialize (B e He). destruct (key_of (fst (entry_tok e))) as [[k [|v0 v]]|]; [|..|discriminate].
      + destruct (block 1 (snd (entry_tok e))); cbn in B; [congruence|discriminate].
      + destruct (snd (entry_tok e)); [|discriminate]. destruct (value (v0 :: v)); cbn in B; [congruence|discriminate].
  Qed.
End Blocks.
Lemma load_lines {F} (fl : text -> option F) d lines : d <> [] -> Forall (good_entry fl) d -> tokens lines = tokens (doc_lines (F:=F) d) -> safe_load fl lines = Some (Map (map (fun e => (lit (fst e), entry_sem (snd e))) d)).
Proof. intros N G E. rewrite <- (load_doc fl d [] N G eq_refl), app_nil_r. unfold safe_load. now rewrite E. Qed.

(** ** Values *)
Lemma plain_nat c : plain_char c = true -> let n := nat_of_ascii c in n <> 32 /\ n <> 44 /\ n <> 58 /\ n <> 91 /\ n <> 93 /\ n <> 39.
Proof. unfold plain_char. cbv zeta. lia. Qed.
Lemma quoted_nat c : quoted_char c = true -> let n := nat_of_ascii c in n <> 44 /\ n <> 91 /\ n <> 93 /\ n <> 39.
Proof. unfold quoted_char. cbv zeta. lia. Qed.
Lemma plain_blank c : plain_char c = true -> is_c c blank_c = false.
Proof. intros H. apply plain_nat in H. unfold blank_c. rewrite is_c_nat by lia. apply Nat.eqb_neq. lia. Qed.
Lemma plain_quote c : plain_char c = true -> is_c c quote_c = false.
Proof. intros H. apply plain_nat in H. unfold quote_c. rewrite is_c_nat by lia. apply Nat.eqb_neq. lia. Qed.
Lemma plain_open c : plain_char c = true -> is_c c open_c = false.
Proof. intros H. apply plain_nat in H. unfold open_c. rewrite is_c_nat by lia. apply Nat.eqb_neq. lia. Qed.
Lemma plain_comma c : plain_char c = true -> is_c c comma_c = false.
Proof. intros H. apply plain_nat in H. unfold comma_c. rewrite is_c_nat by lia. apply Nat.eqb_neq. lia. Qed.
Lemma quoted_comma c : quoted_char c = true -> is_c c comma_c = false.
Proof. intros H. apply quoted_nat in H. unfold comma_c. rewrite is_c_nat by lia. apply Nat.eqb_neq. lia. Qed.
Lemma plain_tight t : t <> [] -> forallb plain_char t = true -> tight t.
Proof. intros N H. apply tight_chars; [exact N|]. rewrite forallb_forall in *. intros c Hc. now rewrite (plain_blank c (H c Hc)). Qed.

Lemma pieces_app d t : forall cur r, (forall c, In c t -> is_c c d = false) -> pieces d cur (t ++ r) = pieces d (cur ++ t) r.
Proof.
  induction t as [|c t IH]; intros cur r H; [now rewrite app_nil_r|]. cbn [app pieces]. rewrite (H c) by now left. rewrite IH by (intros; apply H; now right). now rewrite <- app_assoc.
Qed.
(** ** Printed values *)
Lemma text_eqb_spec a b : reflect (a = b) (text_eqb a b).
Proof. unfold text_eqb. destruct (list_eq_dec ascii_dec a b); now constructor. Qed.
Lemma int_not_bool t : is_int t = true -> bool_of t = None.
Proof.
  intros H. unfold bool_of. destruct (find _ bools) as [e|] eqn:E; [|reflexivity]. exfalso. apply find_some in E. destruct E as [I E]. destruct (text_eqb_spec (fst e) t) as [<-|]; [|discriminate].
  assert (A : forallb (fun e => negb (is_int (fst e))) bools = true) by reflexivity. rewrite forallb_forall in A. specialize (A e I). now rewrite H in A.
Qed.
Lemma int_not_null t : is_int t = true -> existsb (text_eqb t) nulls = false.
Proof.
  intros H. destruct (existsb (text_eqb t) nulls) eqn:E; [|reflexivity]. exfalso. apply existsb_exists in E. destruct E as (u & I & E). destruct (text_eqb_spec t u) as [->|]; [|discriminate].
  assert (A : forallb (fun u => negb (is_int u)) nulls = true) by reflexivity. rewrite forallb_forall in A. specialize (A u I). now rewrite H in A.
Qed.
Lemma show_nat_digits n : show_nat n <> [] /\ forallb is_digit (show_nat n) = true /\ digits 0 (show_nat n) = n.
Proof.
  split; [apply show_nat_word|]. split; [apply uint_digits|]. pose proof (py_int_show n) as H. unfold Poscar.py_int in H. destruct (show_nat n) as [|c t]; [discriminate|]. destruct (forallb _ _); [congruence|discriminate].
Qed.
Lemma digit_plain c : is_digit c = true -> plain_char c = true /\ is_c c minus_c = false /\ is_c c plus_c = false.
Proof.
  unfold is_digit, digit, plain_char. destruct ((48 <=? nat_of_ascii c) && (nat_of_ascii c <=? 57)) eqn:E; [|discriminate]. intros _. split; [lia|]. unfold minus_c, plus_c. rewrite !is_c_nat by lia. split; apply Nat.eqb_neq; lia.
Qed.
Lemma show_Z_int z : is_int (show_Z z) = true /\ int_of (show_Z z) = z /\ show_Z z <> [] /\ forallb plain_char (show_Z z) = true.
Proof.
  unfold show_Z. destruct (Z.ltb_spec z 0) as [H|H].
  - destruct (show_nat_digits (Z.to_nat (- z))) as (N & D & V). unfold is_int, int_of, unsigned. change (is_c minus_c minus_c || is_c minus_c plus_c) with true. change (is_c minus_c minus_c) with true. cbn match. rewrite V.
    split; [destruct (show_nat (Z.to_nat (- z))); [easy|exact D]|]. split; [lia|]. split; [discriminate|]. cbn [forallb]. change (plain_char minus_c) with true. cbn [andb]. rewrite forallb_forall in *. intros c Hc. apply digit_plain. now apply D.
  - destruct (show_nat_digits (Z.to_nat z)) as (N & D & V). assert (P : forallb plain_char (show_nat (Z.to_nat z)) = true) by (rewrite forallb_forall in *; intros c Hc; apply digit_plain; now apply D).
    unfold is_int, int_of, unsigned. destruct (show_nat (Z.to_nat z)) as [|c t]; [easy|]. assert (Hc : is_digit c = true) by (cbn [forallb] in D; apply andb_true_iff in D; tauto). destruct (digit_plain c Hc) as (_ & M & Q). rewrite M, Q. cbn [orb].
    split; [exact D|]. rewrite V. split; [lia|]. split; [discriminate|exact P].
Qed.
Section Values.
  Context {F : Type}.
  Variables (repr : F -> text) (fl : text -> option F).
  Notation scalar := (scalar (F:=F) fl). Notation value := (value (F:=F) fl). Notation resolve := (resolve (F:=F) fl).
  Notation show := (show (F:=F) repr). Notation show_list := (show_list (F:=F) repr).
  (** One written scalar: no commas, and it reads as [s] *)
  Definition good_item (t : text) (s : sc) : Prop := tight t /\ (forall c, In c t -> is_c c comma_c = false) /\ (exists c r, t = c :: r /\ is_c c open_c = false) /\ scalar t = Some s.
  Lemma good_value t s : good_item t s -> good_val fl t (One s).
  Proof. intros (T & _ & (c & r & -> & O) & E). split; [exact T|]. unfold YamlFiles.value. rewrite O, E. reflexivity. Qed.
  Lemma pieces_join ts cur : (forall t, In t ts -> forall c, In c t -> is_c c comma_c = false) -> ts <> [] ->
    pieces comma_c cur (join ts) = (cur ++ hd [] ts) :: map (cons blank_c) (tl ts).
  Proof.
    revert cur. induction ts as [|a ts IH]; intros cur H N; [easy|]. destruct ts as [|b ts].
    - cbn [join hd tl map]. rewrite <- (app_nil_r a) at 1. rewrite pieces_app by (apply H; now left). reflexivity.
    - change (join (a :: b :: ts)) with (a ++ comma_c :: blank_c :: join (b :: ts)). rewrite pieces_app by (apply H; now left). cbn [pieces]. change (is_c comma_c comma_c) with true. change (is_c blank_c comma_c) with false. cbn match.
      rewrite (IH ([] ++ [blank_c])) by first [discriminate | intros; eapply H; [right|]; eassumption]. cbn [hd tl map app]. reflexivity.
  Qed.
  Lemma flow_value ts ss : Forall2 good_item ts ss -> good_val fl (open_c :: join ts ++ [close_c]) (Flow ss).
  Proof.
    intros H. split; [apply tight_ends; reflexivity|]. unfold YamlFiles.value. change (is_c open_c open_c) with true. cbn match. rewrite rev_app_distr. cbn [rev app]. change (is_c close_c close_c) with true. cbn match. rewrite rev_involutive.
    destruct H as [|t s ts ss G H]; [reflexivity|]. assert (HF : Forall2 good_item (t :: ts) (s :: ss)) by now constructor.
    assert (HC : forall u, In u (t :: ts) -> forall c, In c u -> is_c c comma_c = false).
    { intros u Hu. clear - HF Hu. induction HF as [|a b l l' G' H' IH]; [easy|]. destruct Hu as [->|Hu]; [apply G'|now apply IH]. }
    assert (NJ : join (t :: ts) <> []).
    { destruct G as (_ & _ & (c & r & -> & _) & _). cbn [join]. destruct ts; discriminate. }
    destruct (join (t :: ts)) as [|c0 r0] eqn:EJ; [easy|]. rewrite <- EJ. rewrite pieces_join by first [discriminate | exact HC]. cbn [hd tl app map].
    assert (A : all_some (map (fun p => scalar (trim p)) (t :: map (cons blank_c) ts)) = Some (s :: ss)).
    { cbn [map]. rewrite (trim_tight0 t) by apply G. destruct G as (_ & _ & _ & E). unfold all_some. cbn [fold_right]. rewrite E. rewrite map_map. enough (X : fold_right (fun a r => match a, r with Some a, Some r => Some (a :: r) | _, _ => None end) (Some []) (map (fun x => scalar (trim (blank_c :: x))) ts) = Some ss) by now rewrite X.
      clear - H. induction H as [|a b l l' G' H' IH]; [reflexivity|]. cbn [map fold_right]. rewrite IH. change (blank_c :: a) with (sp 1 ++ a). rewrite (trim_tight 1 a) by apply G'. destruct G' as (_ & _ & _ & ->). reflexivity. }
    cbn [map] in A. rewrite A. reflexivity.
  Qed.

  Lemma resolve_int z : resolve (show_Z z) = SInt z.
  Proof. destruct (show_Z_int z) as (I & V & _). unfold YamlFiles.resolve. now rewrite int_not_bool, int_not_null, I, V by exact I. Qed.
  Lemma good_plain t : t <> [] -> forallb plain_char t = true -> good_item t (resolve t).
  Proof.
    intros N P. split; [now apply plain_tight|]. pose proof P as P'. rewrite forallb_forall in P'. split; [intros c Hc; apply plain_comma; auto|]. destruct t as [|c t]; [easy|]. split; [exists c, t; split; [reflexivity|apply plain_open, P'; now left]|].
    unfold YamlFiles.scalar. rewrite plain_quote by (apply P'; now left). now rewrite P.
  Qed.
  Lemma good_quoted s : forallb quoted_char s = true -> good_item (quote_c :: s ++ [quote_c]) (SStr s).
  Proof.
    intros Q. split; [apply tight_ends; reflexivity|]. split.
    { intros c [<-|Hc]; [reflexivity|]. apply in_app_iff in Hc. rewrite forallb_forall in Q. destruct Hc as [Hc|[<-|[]]]; [apply quoted_comma; auto|reflexivity]. }
    split; [exists quote_c, (s ++ [quote_c]); split; reflexivity|]. unfold YamlFiles.scalar. change (is_c quote_c quote_c) with true. cbn match. rewrite rev_app_distr. cbn [rev app]. change (is_c quote_c quote_c) with true. cbn [andb].
    replace (forallb quoted_char (rev s)) with true; [now rewrite rev_involutive|]. symmetry. rewrite forallb_forall in *. intros c Hc. apply Q. now apply in_rev.
  Qed.
End Values.
