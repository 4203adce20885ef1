(** Reading the lines of a potential file. *)
From Verif Require Import Base Num Model.Structure Model.SpinParams Model.Parser Model.PotentialFile Spec.PotentialFile.
From Coq Require String Ascii DecimalNat DecimalFacts.
Import String.StringSyntax.
Local Open Scope string_scope.
Local Open Scope list_scope.
Local Open Scope nat_scope.

Lemma is_c_true c d : is_c c d = true <-> c = d.
Proof. apply Ascii.eqb_eq. Qed.
Lemma is_c_refl c : is_c c c = true.
Proof. apply Ascii.eqb_refl. Qed.
Lemma is_c_neq c d : c <> d -> is_c c d = false.
Proof. apply Ascii.eqb_neq. Qed.

(** ** Pieces *)
Lemma pieces_none d a cur : ~ In d a -> pieces d cur a = [cur ++ a].
Proof. revert cur. induction a as [|c a IH]; intros cur H; cbn [pieces]; [now rewrite app_nil_r|]. rewrite is_c_neq by (intros ->; apply H; now left). rewrite IH by (intros HI; apply H; now right). now rewrite <- app_assoc. Qed.
Lemma pieces_app d a b cur : ~ In d a -> pieces d cur (a ++ d :: b) = (cur ++ a) :: pieces d [] b.
Proof.
  revert cur. induction a as [|c a IH]; intros cur H; cbn [pieces app]; [now rewrite is_c_refl, app_nil_r|].
  rewrite is_c_neq by (intros ->; apply H; now left). rewrite IH by (intros HI; apply H; now right). now rewrite <- app_assoc.
Qed.
Lemma split_two d a b : ~ In d a -> ~ In d b -> a <> [] -> b <> [] -> split d (a ++ d :: b) = [a; b].
Proof. intros Ha Hb Na Nb. unfold split. rewrite pieces_app, pieces_none by assumption. cbn [app filter]. destruct a; [easy|]. destruct b; easy. Qed.
Lemma split_last d a : ~ In d a -> a <> [] -> split d (a ++ [d]) = [a].
Proof. intros Ha Na. unfold split. rewrite pieces_app by assumption. cbn [pieces app filter]. destruct a; easy. Qed.

(** ** Clean words *)
Lemma clean_not c n : clean_char c -> In n [9; 10; 11; 12; 13; 32; 44; 58; 91; 93] -> c <> char n.
Proof.
  intros H HI ->. apply H. unfold char. rewrite Ascii.nat_ascii_embedding; [exact HI|].
  assert (HF : Forall (fun n => n < 256) [9; 10; 11; 12; 13; 32; 44; 58; 91; 93]) by (repeat constructor; lia). rewrite Forall_forall in HF. now apply HF.
Qed.
Lemma clean_cspace c : clean_char c -> cspace c = false.
Proof. intros H. unfold cspace, clean_char in *. set (n := Ascii.nat_of_ascii c) in *. clearbody n. cbn [In] in H. lia. Qed.
Lemma not_in_clean n t : Forall clean_char t -> In n [9; 10; 11; 12; 13; 32; 44; 58; 91; 93] -> ~ In (char n) t.
Proof. intros H HI HX. rewrite Forall_forall in H. exact (clean_not _ n (H _ HX) HI eq_refl). Qed.
Lemma extract_word tmp cur a s : Forall clean_char a -> cur ++ a <> [] -> extract tmp cur (a ++ blank_c :: s) = (cur ++ a) :: extract (cur ++ a) [] s.
Proof.
  revert cur. induction a as [|c a IH]; intros cur H HN; cbn [app extract].
  - rewrite app_nil_r in *. destruct cur; [easy|]. reflexivity.
  - inversion H; subst. rewrite clean_cspace by assumption. rewrite IH; [|assumption|destruct cur; discriminate]. now rewrite <- app_assoc.
Qed.
Lemma extract_last tmp cur a : Forall clean_char a -> cur ++ a <> [] -> extract tmp cur a = [cur ++ a].
Proof.
  revert cur. induction a as [|c a IH]; intros cur H HN; cbn [app extract].
  - rewrite app_nil_r in *. destruct cur; [easy|]. reflexivity.
  - inversion H; subst. rewrite clean_cspace by assumption. rewrite IH; [|assumption|destruct cur; discriminate]. now rewrite <- app_assoc.
Qed.
Lemma extract_list l tmp : l <> [] -> Forall clean l -> extract tmp [] (commas (join (lit ", ") l)) = l.
Proof.
  assert (HC : forall a, Forall clean_char a -> commas a = a).
  { induction 1 as [|c a Hc Ha IH]; [reflexivity|]. unfold commas in *. cbn [map]. rewrite IH. rewrite is_c_neq; [reflexivity|]. apply (clean_not c 44 Hc). cbn; tauto. }
  revert tmp. induction l as [|a l IH]; intros tmp HN HF; [easy|]. inversion HF as [|? ? [Na Ca] HF2]; subst. destruct l as [|b l].
  - cbn [join]. rewrite HC by assumption. now apply (extract_last tmp []).
  - change (join (lit ", ") (a :: b :: l)) with (a ++ lit ", " ++ join (lit ", ") (b :: l)). unfold commas. rewrite !map_app. fold (commas a). rewrite HC by assumption.
    change (map _ (lit ", ")) with [blank_c; blank_c]. cbn [app]. rewrite (extract_word tmp [] a) by assumption. cbn [app]. f_equal. apply (IH a); [easy|assumption].
Qed.
Lemma in_join c l : In c (join (lit ", ") l) -> c = comma_c \/ c = blank_c \/ exists a, In a l /\ In c a.
Proof.
  induction l as [|a l IH]; [intros []|]. destruct l as [|b l]; [cbn [join]; intros H; right; right; exists a; split; [now left|exact H]|].
  change (join (lit ", ") (a :: b :: l)) with (a ++ lit ", " ++ join (lit ", ") (b :: l)). rewrite !in_app_iff. intros [H|[H|H]].
  - right. right. exists a. split; [now left|exact H].
  - cbn in H. destruct H as [<-|[<-|[]]]; [now left|right; now left].
  - destruct (IH H) as [H1|[H1|[x [H1 H2]]]]; [now left|right; now left|]. right. right. exists x. split; [now right|exact H2].
Qed.
Lemma join_clean n l : Forall clean l -> In n [9; 10; 11; 12; 13; 58; 91; 93] -> ~ In (char n) (join (lit ", ") l).
Proof.
  intros HF HI HX. destruct (in_join _ _ HX) as [H|[H|[a [Ha H]]]].
  1, 2: cbn [In] in HI; destruct HI as [<-|[<-|[<-|[<-|[<-|[<-|[<-|[<-|[]]]]]]]]]; discriminate H.
  rewrite Forall_forall in HF. destruct (HF a Ha) as [_ HC]. apply (not_in_clean n a HC); [cbn [In] in *; tauto|exact H].
Qed.
Lemma join_nonempty l : l <> [] -> Forall clean l -> join (lit ", ") l <> [].
Proof. intros HN HF. destruct l as [|a l]; [easy|]. inversion HF as [|? ? [Na _] _]; subst. destruct l; cbn [join]; [exact Na|]. destruct a; easy. Qed.
Lemma split_list_brackets pre l : pre <> [] -> ~ In open_c pre -> l <> [] -> Forall clean l -> split_list (pre ++ brackets l) = Ok l.
Proof.
  intros NP HP NL HF. unfold split_list.
  assert (E : existsb (fun c => is_c c open_c) (pre ++ brackets l) = true) by (apply existsb_exists; exists open_c; split; [apply in_app_iff; right; now left|apply is_c_refl]).
  rewrite E. unfold brackets. cbn [app]. rewrite split_two; [|exact HP| |exact NP|].
  - cbn [get nth_error bind]. rewrite split_last; [|apply (join_clean 93); [assumption|cbn; tauto]|now apply join_nonempty]. cbn [get nth_error bind]. f_equal. now apply extract_list.
  - rewrite in_app_iff. intros [H|H]; [revert H; apply (join_clean 91); [assumption|cbn; tauto]|]. cbn in H. destruct H as [H|[]]. discriminate.
  - destruct (join (lit ", ") l); discriminate.
Qed.
Lemma word_spaces n s : word [] (repeat blank_c n ++ s) = word [] s.
Proof. induction n as [|n IH]; [reflexivity|]. cbn [repeat app word]. exact IH. Qed.
Lemma word_clean cur s : Forall clean_char s -> word cur s = cur ++ s.
Proof. revert cur. induction s as [|c s IH]; intros cur H; cbn [word]; [now rewrite app_nil_r|]. inversion H; subst. rewrite clean_cspace, IH by assumption. now rewrite <- app_assoc. Qed.
Lemma split_list_word n s : clean s -> split_list (repeat blank_c n ++ s) = Ok [s].
Proof.
  intros [_ HC]. unfold split_list. assert (E : existsb (fun c => is_c c open_c) (repeat blank_c n ++ s) = false).
  { destruct (existsb _ _) eqn:E; [|reflexivity]. apply existsb_exists in E. destruct E as [c [HI Hc]]. apply is_c_true in Hc. subst c. apply in_app_iff in HI. destruct HI as [HI|HI]; [apply repeat_spec in HI; discriminate|].
    exfalso. revert HI. apply (not_in_clean 91); [assumption|cbn; tauto]. }
  rewrite E, word_spaces, word_clean by assumption. reflexivity.
Qed.

(** ** Decimal numbers *)
Ltac dig := match goal with |- context [digit ?c] => let d := eval vm_compute in (digit c) in change (digit c) with d end; cbn match.
Lemma digits_uint d acc : digits acc (of_uint d) = Nat.of_uint_acc d acc.
Proof. revert acc. induction d; intros acc; cbn [of_uint digits Nat.of_uint_acc]; [reflexivity|..]; dig; rewrite IHd, Nat.tail_mul_spec; f_equal; lia. Qed.
Lemma stoi_uint d : d <> Decimal.Nil -> stoi (of_uint d) = Ok (Nat.of_uint d).
Proof. intros H. unfold Nat.of_uint. destruct d; [easy|..]; cbn [of_uint stoi]; (change (cspace _) with false); dig; rewrite digits_uint; reflexivity. Qed.
Lemma to_uint_nonnil n : Nat.to_uint n <> Decimal.Nil.
Proof.
  intros H. assert (E : Nat.of_uint (Nat.to_uint n) = n) by apply DecimalNat.Unsigned.of_to. rewrite H in E. cbn in E. subst n. discriminate H.
Qed.
Lemma stoi_show n : stoi (show_nat n) = Ok n.
Proof. unfold show_nat. rewrite stoi_uint by apply to_uint_nonnil. f_equal. apply DecimalNat.Unsigned.of_to. Qed.
Lemma show_nat_clean n : clean (show_nat n).
Proof.
  unfold show_nat. split; [pose proof (to_uint_nonnil n); destruct (Nat.to_uint n); easy|].
  assert (D : forall k, 48 <= k -> k < 58 -> clean_char (char k)).
  { intros k H1 H2. unfold clean_char, char. rewrite Ascii.nat_ascii_embedding by lia. cbn [In]. lia. }
  induction (Nat.to_uint n); constructor; auto; apply D; lia.
Qed.

(** ** Lines *)
Lemma foldM_app {A B} (f : A -> B -> res A) l1 l2 a : foldM f a (l1 ++ l2) = do b <- foldM f a l1; foldM f b l2.
Proof. revert a. induction l1 as [|x l1 IH]; intros a; [reflexivity|]. cbn [app foldM]. destruct (f a x); [apply IH|reflexivity]. Qed.
Lemma name_lit k : name (lit k) = k.
Proof. apply String.string_of_list_ascii_of_string. Qed.
Lemma lit_name t : lit (name t) = t.
Proof. apply String.list_ascii_of_string_of_list_ascii. Qed.
Lemma text_eqb_lit a s : text_eqb a (lit s) = true <-> a = lit s.
Proof. unfold text_eqb. rewrite String.eqb_eq, name_lit. split; [intros <-; now rewrite lit_name|intros ->; apply name_lit]. Qed.

Definition not_special (k : string) : Prop := String.eqb k "n_pair_params" = false /\ String.eqb k "n_type_pairs" = false.
Definition put (st : cstate) (k : string) (toks : list text) : cstate := mk_cstate (dset String.eqb (c_params st) k toks) (c_rows st) (c_pairs st).
(** A line "key: value" at top level, whatever the value *)
Lemma line_split k pad v : clean (lit k) -> ~ In colon_c v -> split colon_c (label k pad ++ [blank_c] ++ v) = [lit k; repeat blank_c (S pad) ++ v].
Proof.
  intros [NK CK] HV. unfold label. rewrite <- !app_assoc. cbn [app]. rewrite split_two; [|apply (not_in_clean 58); [assumption|cbn; tauto]| |exact NK|].
  - f_equal. f_equal. change (repeat blank_c (S pad)) with (blank_c :: repeat blank_c pad). rewrite repeat_cons. now rewrite <- app_assoc.
  - rewrite in_app_iff. cbn [In]. intros [H|[H|H]]; [apply repeat_spec in H; discriminate|discriminate|contradiction].
  - destruct (repeat blank_c pad); discriminate.
Qed.
Lemma top_line st k pad v toks : clean (lit k) -> not_special k -> ~ In colon_c v -> split_list (repeat blank_c (S pad) ++ v) = Ok toks ->
  read_line (st, Top) (label k pad ++ [blank_c] ++ v) = Ok (put st k toks, Top).
Proof.
  intros CK [H1 H2] HV HS. unfold read_line. rewrite line_split by assumption. rewrite word_clean by apply CK. cbn [app]. rewrite name_lit, HS. cbn [bind]. rewrite H1, H2. reflexivity.
Qed.
Lemma top_word st k pad w : clean (lit k) -> not_special k -> clean w -> read_line (st, Top) (label k pad ++ [blank_c] ++ w) = Ok (put st k [w], Top).
Proof. intros CK NS HW. apply top_line; [assumption|assumption|apply (not_in_clean 58); [apply HW|cbn; tauto]|now apply split_list_word]. Qed.
Lemma brackets_colon l : Forall clean l -> ~ In colon_c (brackets l).
Proof. intros HF. unfold brackets. rewrite !in_app_iff. cbn [In]. intros [[H|[]]|[H|[H|[]]]]; try discriminate H. revert H. apply (join_clean 58); [assumption|cbn; tauto]. Qed.
Lemma spaces_open n : ~ In open_c (repeat blank_c n).
Proof. intros H. apply repeat_spec in H. discriminate. Qed.
Lemma top_list st k pad l : clean (lit k) -> not_special k -> l <> [] -> Forall clean l -> read_line (st, Top) (label k pad ++ [blank_c] ++ brackets l) = Ok (put st k l, Top).
Proof. intros CK NS NL HL. apply top_line; [assumption|assumption|now apply brackets_colon|]. apply split_list_brackets; [discriminate|apply spaces_open|assumption|assumption]. Qed.
Lemma top_blank st : read_line (st, Top) [] = Ok (st, Top).
Proof. reflexivity. Qed.
(** The header of the rows and the rows *)
Lemma rows_lines {A} (sh : A -> text) (rest : list text) rows st : Forall (fun r => map sh r <> [] /\ Forall clean (map sh r)) rows ->
  foldM read_line (st, rows_left (length rows)) (map (fun r => lit "- " ++ brackets (map sh r)) rows ++ rest) =
  foldM read_line (mk_cstate (c_params st) (c_rows st ++ map (map sh) rows) (c_pairs st), Top) rest.
Proof.
  revert st. induction rows as [|r rows IH]; intros st HF; [cbn [length map app rows_left]; rewrite app_nil_r; now destruct st|]. inversion HF as [|? ? [HN HC] HF2]; subst.
  cbn [length rows_left map app foldM]. unfold read_line at 1. rewrite split_list_brackets; [|discriminate|cbn; intuition discriminate|assumption|assumption].
  cbn [bind]. rewrite Nat.sub_1_r. cbn [Nat.pred]. rewrite IH by assumption. cbn [c_params c_rows c_pairs]. rewrite <- app_assoc. reflexivity.
Qed.

(** ** Square tables *)
Definition tab {A} (n : nat) (f : nat -> nat -> A) : list (list A) := map (fun i => map (f i) (seq 0 n)) (seq 0 n).
Lemma set_nth_seq {A} (g : nat -> A) a n s i : i < n -> set_nth (map g (seq s n)) i a = Ok (map (fun k => if k =? s + i then a else g k) (seq s n)).
Proof.
  revert s i. induction n as [|n IH]; intros s i H; [lia|]. cbn [seq map set_nth]. destruct i as [|i].
  - rewrite Nat.add_0_r, Nat.eqb_refl. do 2 f_equal. apply map_ext_in. intros k Hk. apply in_seq in Hk. replace (k =? s) with false by lia. reflexivity.
  - rewrite IH by lia. cbn [bind]. do 2 f_equal; [replace (s =? s + S i) with false by lia; reflexivity|]. apply map_ext. intros k. now rewrite Nat.add_succ_r.
Qed.
Lemma set_pair_tab {A} (f : nat -> nat -> A) n i j a : i < n -> j < n -> set_pair (tab n f) i j a = Ok (tab n (fun i' j' => if key_eqb (i', j') (i, j) then a else f i' j')).
Proof.
  intros Hi Hj. unfold set_pair, tab. rewrite (get_Ok _ _ []) by (rewrite map_length, seq_length; exact Hi). cbn [bind].
  rewrite (nth_indep _ [] (map (f 0) (seq 0 n))) by (rewrite map_length, seq_length; exact Hi). rewrite (map_nth (fun i => map (f i) (seq 0 n))), seq_nth by exact Hi. cbn [Nat.add].
  rewrite set_nth_seq by exact Hj. cbn [bind]. rewrite set_nth_seq by exact Hi. f_equal. apply map_ext. intros i'. cbn [Nat.add]. unfold key_eqb. cbn [fst snd]. destruct (Nat.eqb_spec i' i) as [->|Hn]; apply map_ext; intros j'; [|reflexivity].
  cbn [andb]. reflexivity.
Qed.
Lemma tab_repeat {A} (a : A) n : repeat (repeat a n) n = tab n (fun _ _ => a).
Proof. unfold tab. assert (E : forall (B : Type) (b : B) s n, repeat b n = map (fun _ => b) (seq s n)) by (intros B b s m; revert s; induction m as [|m IH]; intros s; [reflexivity|]; cbn [repeat seq map]; f_equal; apply IH). rewrite (E A a 0 n). apply E. Qed.
Lemma mapM_tab {A B} (g : A -> res B) (h : A -> B) n (f : nat -> nat -> A) : (forall i j, i < n -> j < n -> g (f i j) = Ok (h (f i j))) -> mapM (mapM g) (tab n f) = Ok (tab n (fun i j => h (f i j))).
Proof.
  intros H. unfold tab. rewrite (mapM_Ok _ (map h)).
  - rewrite map_map. f_equal. apply map_ext. intros i. now rewrite map_map.
  - intros r Hr. apply in_map_iff in Hr. destruct Hr as [i [<- Hi]]. apply in_seq in Hi. apply mapM_Ok. intros x Hx. apply in_map_iff in Hx. destruct Hx as [j [<- Hj]]. apply in_seq in Hj. apply H; lia.
Qed.
Lemma tab_ext {A} n (f g : nat -> nat -> A) : (forall i j, i < n -> j < n -> f i j = g i j) -> tab n f = tab n g.
Proof. intros H. apply map_ext_in. intros i Hi. apply in_seq in Hi. apply map_ext_in. intros j Hj. apply in_seq in Hj. apply H; lia. Qed.
Lemma key_eqb_true a b : key_eqb a b = true <-> a = b.
Proof. destruct a as [a1 a2], b as [b1 b2]. unfold key_eqb. cbn [fst snd]. rewrite andb_true_iff, !Nat.eqb_eq. split; [intros [-> ->]; reflexivity|intros E; now inversion E]. Qed.

Definition written (f : nat -> nat -> list text) (q : (nat * nat) * list nat) : nat -> nat -> list text := fun i j => if key_eqb (i, j) (fst q) then map show_nat (snd q) else f i j.
Lemma fold_written d f i j : NoDup (map fst d) -> fold_left written d f i j = match dict_get (list nat) d (i, j) with Some l => map show_nat l | None => f i j end.
Proof.
  revert f. induction d as [|[k l] d IH]; intros f HN; [reflexivity|]. inversion HN as [|? ? HK HN2]; subst. cbn [fold_left]. rewrite IH by assumption. unfold dict_get. cbn [find fst]. destruct (key_eqb (i, j) k) eqn:E.
  - apply key_eqb_true in E. subst k. destruct (find _ d) as [q|] eqn:EF; [|unfold written; cbn [fst snd]; now rewrite (proj2 (key_eqb_true _ _) eq_refl)].
    apply find_some in EF. destruct EF as [HI HQ]. apply key_eqb_true in HQ. exfalso. apply HK. rewrite HQ. now apply in_map.
  - unfold written. cbn [fst]. now rewrite E.
Qed.
Lemma pairs_lines n rest d st f : c_pairs st = tab n f -> Forall (fun q => fst (fst q) < n /\ snd (fst q) < n /\ snd q <> []) d ->
  foldM read_line (st, pairs_left (length d)) (flat_map (fun q => [lit "- atom_type_pair:      " ++ brackets (map show_nat [fst (fst q); snd (fst q)]); lit "  pair_params_indices: " ++ brackets (map show_nat (snd q))]) d ++ rest) =
  foldM read_line (mk_cstate (c_params st) (c_rows st) (tab n (fold_left written d f)), Top) rest.
Proof.
  revert st f. induction d as [|[[i j] l] d IH]; intros st f EP HF; [cbn [length flat_map app pairs_left fold_left]; rewrite <- EP; now destruct st|]. inversion HF as [|? ? [Hi [Hj HL]] HF2]; subst. cbn [fst snd] in *.
  cbn [length pairs_left flat_map app foldM]. unfold read_line at 1. cbn [fst snd].
  rewrite split_list_brackets; [|discriminate|cbn; intuition discriminate|discriminate|apply Forall_map, Forall_forall; intros; apply show_nat_clean].
  cbn [map bind get nth_error]. rewrite !stoi_show. cbn [bind]. unfold read_line at 1.
  rewrite split_list_brackets; [|discriminate|cbn; intuition discriminate|destruct l; [easy|discriminate]|apply Forall_map, Forall_forall; intros; apply show_nat_clean].
  cbn [bind]. rewrite EP, set_pair_tab by assumption. cbn [bind]. rewrite Nat.sub_1_r. cbn [Nat.pred]. rewrite (IH _ (written f (i, j, l))) by (cbn [c_pairs]; auto). reflexivity.
Qed.

(** ** Looking up what was written *)
Lemma fget_dset d k v k' : fget (dset String.eqb d k v) k' = if String.eqb k' k then v else fget d k'.
Proof.
  unfold fget, dget. induction d as [|[a b] d IH]; cbn [dset find].
  - cbn [fst]. destruct (String.eqb k' k); reflexivity.
  - destruct (String.eqb_spec k a) as [<-|Hn]; cbn [find fst].
    + destruct (String.eqb k' k); reflexivity.
    + destruct (String.eqb_spec k' a) as [->|Hm]; [|exact IH]. destruct (String.eqb_spec a k) as [E|]; [congruence|reflexivity].
Qed.
Fixpoint cleanb (s : text) : bool := match s with [] => true | c :: t => negb (existsb (Nat.eqb (Ascii.nat_of_ascii c)) [9; 10; 11; 12; 13; 32; 44; 58; 91; 93]) && cleanb t end.
Lemma cleanb_ok s : cleanb s = true -> s <> [] -> clean s.
Proof.
  intros H HN. split; [exact HN|]. clear HN. induction s as [|c s IH]; constructor; cbn [cleanb] in H; apply andb_true_iff in H; destruct H as [H1 H2]; [|now apply IH].
  intros HI. apply negb_true_iff in H1. assert (E : existsb (Nat.eqb (Ascii.nat_of_ascii c)) [9; 10; 11; 12; 13; 32; 44; 58; 91; 93] = true); [|congruence]. apply existsb_exists. eexists. split; [exact HI|apply Nat.eqb_refl].
Qed.
