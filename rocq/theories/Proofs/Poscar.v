(** Lemmas on POSCAR files. *)
From Verif Require Import Base Num Model.Structure Model.Parser Model.PotentialFile Model.Poscar Spec.PotentialFile Spec.Poscar Proofs.PotentialFile.
From Coq Require String Ascii.
Import String.StringSyntax.
Local Open Scope string_scope.
Local Open Scope list_scope.
Local Open Scope nat_scope.

(** ** Lines and words *)
Lemma newline_spec c : is_c c newline = true <-> Ascii.nat_of_ascii c = 10.
Proof.
  unfold is_c. rewrite Ascii.eqb_eq. split; [intros ->; reflexivity|]. intros H.
  rewrite <- (Ascii.ascii_nat_embedding c), H. reflexivity.
Qed.
Lemma read_lines_line cur l s : is_line l -> read_lines_from cur (l ++ newline :: s) = (cur ++ l) :: readlines s.
Proof.
  revert cur. induction l as [|c l IH]; intros cur H; cbn [app read_lines_from].
  - rewrite app_nil_r. reflexivity.
  - inversion H as [|? ? HC HL]. subst. destruct (is_c c newline) eqn:E; [apply newline_spec in E; contradiction|]. rewrite IH by assumption. now rewrite <- app_assoc.
Qed.
Lemma readlines_line l s : is_line l -> readlines (print_line l ++ s) = l :: readlines s.
Proof. intros H. unfold readlines at 1, print_line. rewrite <- app_assoc. apply (read_lines_line [] l s H). Qed.
Lemma py_space_spec c : py_space c = true <-> blank_char c.
Proof. unfold py_space, blank_char. cbn zeta. set (n := Ascii.nat_of_ascii c). clearbody n. cbn [In]. lia. Qed.
Lemma word_line w : is_word w -> is_line w.
Proof. intros [_ H]. eapply Forall_impl; [|exact H]. cbn. intros c HC E. apply HC. unfold blank_char. rewrite E. cbn. tauto. Qed.
Lemma words_from_word cur w s : Forall (fun c => ~ blank_char c) w -> words_from cur (w ++ s) = words_from (cur ++ w) s.
Proof.
  revert cur. induction w as [|c w IH]; intros cur H; cbn [app words_from]; [now rewrite app_nil_r|]. inversion H as [|? ? HC HL]. subst.
  destruct (py_space c) eqn:E; [apply py_space_spec in E; contradiction|]. rewrite IH by assumption. now rewrite <- app_assoc.
Qed.
Lemma words_blank s : words (blank_c :: s) = words s.
Proof. reflexivity. Qed.
Lemma words_word w s : is_word w -> words (w ++ blank_c :: s) = w :: words s.
Proof. intros [H1 H2]. unfold words. rewrite words_from_word by assumption. cbn [app words_from]. change (py_space blank_c) with true. cbn match. destruct w; [easy|reflexivity]. Qed.
Lemma words_last w : is_word w -> words w = [w].
Proof. intros [H1 H2]. unfold words. rewrite <- (app_nil_r w) at 1. rewrite words_from_word by assumption. cbn [app words_from]. destruct w; [easy|reflexivity]. Qed.
Definition entries_text (l : list text) : text := lit " " ++ flat_map (fun x => x ++ lit "  ") l.
Lemma words_entries l : Forall is_word l -> words (entries_text l) = l.
Proof.
  unfold entries_text. change (lit " " ++ ?x) with (blank_c :: x). rewrite words_blank. induction l as [|w l IH]; intros H; [reflexivity|]. inversion H as [|? ? HW HL]. subst. cbn [flat_map].
  rewrite <- app_assoc. change (lit "  " ++ ?x) with (blank_c :: blank_c :: x). rewrite words_word by assumption. rewrite words_blank. f_equal. now apply IH.
Qed.
Lemma is_line_app a b : is_line a -> is_line b -> is_line (a ++ b).
Proof. intros H1 H2. apply Forall_app. now split. Qed.
Lemma entries_line l : Forall is_line l -> is_line (entries_text l).
Proof.
  intros H. apply is_line_app; [repeat constructor; discriminate|]. induction H as [|w l HW HL IH]; [constructor|]. cbn [flat_map]. apply is_line_app; [|exact IH]. apply is_line_app; [exact HW|]. repeat constructor; discriminate.
Qed.

(** ** Numbers *)
Lemma show_nat_word n : is_word (show_nat n).
Proof.
  unfold show_nat. split; [pose proof (to_uint_nonnil n); destruct (Nat.to_uint n); easy|].
  assert (D : forall k, 48 <= k -> k < 58 -> ~ blank_char (char k)).
  { intros k H1 H2. unfold blank_char, char. rewrite Ascii.nat_ascii_embedding by lia. cbn [In]. lia. }
  induction (Nat.to_uint n); constructor; auto; apply D; lia.
Qed.
Lemma uint_digits d : forallb (fun c => match digit c with Some _ => true | None => false end) (of_uint d) = true.
Proof. induction d; cbn [of_uint forallb]; [reflexivity|..]; rewrite IHd; reflexivity. Qed.
Lemma py_int_show n : py_int (show_nat n) = Ok n.
Proof.
  unfold py_int. destruct (show_nat n) as [|c t] eqn:E; [exfalso; apply (proj1 (show_nat_word n)); exact E|]. rewrite <- E. unfold show_nat. rewrite uint_digits, digits_uint. f_equal. apply (DecimalNat.Unsigned.of_to n).
Qed.
Lemma mapM_map {A B C} (f : B -> res C) (g : A -> B) (h : A -> C) l : (forall x, In x l -> f (g x) = Ok (h x)) -> mapM f (map g l) = Ok (map h l).
Proof. induction l as [|a l IH]; intros H; [reflexivity|]. cbn [map mapM]. rewrite H by (now left). cbn [bind]. rewrite IH by (intros; apply H; now right). reflexivity. Qed.
Lemma mapM_py_int ns : mapM py_int (map show_nat ns) = Ok ns.
Proof. rewrite (mapM_map py_int show_nat (fun n => n)) by (intros; apply py_int_show). now rewrite map_id. Qed.

(** ** Blocks *)
Fixpoint heads (els : list string) (idx : nat) (ns : list nat) : list string :=
  match ns with [] => [] | n :: t => (if 0 <? n then nth idx els "Z" else "Z") :: heads els (idx + n) t end.
Fixpoint spread {E} (names : list E) (ns : list nat) : list E :=
  match names, ns with e :: names', n :: t => repeat e n ++ spread names' t | _, _ => [] end.
Lemma heads_length els idx ns : length (heads els idx ns) = length ns.
Proof. revert idx. induction ns as [|n ns IH]; intros idx; cbn; [reflexivity|now rewrite IH]. Qed.
Lemma block_names_heads els idx ns : idx + sum ns <= length els -> block_names els idx ns = Ok (map lit (heads els idx ns)).
Proof.
  revert idx. induction ns as [|n ns IH]; intros idx H; cbn [block_names heads map]; [reflexivity|]. cbn [sum fold_right] in H. fold (sum ns) in H. destruct (Nat.ltb_spec 0 n).
  - rewrite (get_Ok els idx "Z") by lia. cbn [bind]. rewrite IH by lia. reflexivity.
  - assert (n = 0) by lia. subst n. rewrite Nat.add_0_r. rewrite IH by lia. reflexivity.
Qed.
Lemma assign_spec (pre : list text) names ns : length ns <= length names ->
  assign (pre ++ map lit names) (length pre) ns = Ok (spread names ns, block_types (length pre) ns).
Proof.
  revert pre names. induction ns as [|n ns IH]; intros pre names H; [destruct names; reflexivity|]. destruct names as [|e names]; [cbn in H; lia|]. cbn [assign block_types spread].
  assert (E : (match n with 0 => Ok [] | S _ => do x <- get (pre ++ map lit (e :: names)) (length pre); Ok (repeat (PotentialFile.name x) n) end) = Ok (repeat e n)).
  { destruct n; [reflexivity|]. unfold get. rewrite nth_error_app2 by lia. rewrite Nat.sub_diag. cbn [map nth_error bind]. now rewrite name_lit. }
  rewrite E. cbn [bind]. replace (pre ++ map lit (e :: names)) with ((pre ++ [lit e]) ++ map lit names) by (rewrite <- app_assoc; reflexivity).
  replace (S (length pre)) with (length (pre ++ [lit e])) by (rewrite app_length; cbn; lia). rewrite IH by (cbn in H; lia). reflexivity.
Qed.
Lemma sum_firstn_S ns b : b < length ns -> sum (firstn (S b) ns) = sum (firstn b ns) + nth b ns 0.
Proof. revert b. induction ns as [|n ns IH]; intros b H; [cbn in H; lia|]. destruct b; [cbn; lia|]. cbn [length] in H. change (firstn (S (S b)) (n :: ns)) with (n :: firstn (S b) ns). change (firstn (S b) (n :: ns)) with (n :: firstn b ns). change (sum (n :: ?l)) with (n + sum l). cbn [nth]. rewrite IH by lia. lia. Qed.
Lemma in_block_0 n ns k : in_block (n :: ns) k 0 <-> k < n.
Proof. unfold in_block. cbn. lia. Qed.
Lemma in_block_S n ns k b : in_block (n :: ns) k (S b) <-> n <= k /\ in_block ns (k - n) b.
Proof. unfold in_block. cbn [length]. change (firstn (S (S b)) (n :: ns)) with (n :: firstn (S b) ns). change (firstn (S b) (n :: ns)) with (n :: firstn b ns). change (sum (n :: ?l)) with (n + sum l). lia. Qed.
Lemma nth_error_repeat {E} (e : E) n k : k < n -> nth_error (repeat e n) k = Some e.
Proof. revert k. induction n as [|n IH]; intros k H; [lia|]. destruct k; [reflexivity|]. cbn. apply IH. lia. Qed.
Lemma spread_nth {E} (names : list E) ns k b : length names = length ns -> in_block ns k b -> nth_error (spread names ns) k = nth_error names b.
Proof.
  revert names k b. induction ns as [|n ns IH]; intros names k b HL HB; [destruct HB as [H _]; cbn in H; lia|]. destruct names as [|e names]; [discriminate|]. cbn [spread]. destruct b as [|b].
  - apply in_block_0 in HB. rewrite nth_error_app1 by (rewrite repeat_length; lia). apply nth_error_repeat, HB.
  - apply in_block_S in HB. rewrite nth_error_app2, repeat_length by (rewrite repeat_length; lia). cbn [nth_error]. apply IH; [now injection HL|tauto].
Qed.
Lemma spread_length {E} (names : list E) ns : length names = length ns -> length (spread names ns) = sum ns.
Proof. revert names. induction ns as [|n ns IH]; intros [|e names] H; try discriminate; [reflexivity|]. cbn [spread]. rewrite app_length, repeat_length, IH by (now injection H). reflexivity. Qed.
Lemma block_types_spread i ns : block_types i ns = spread (map Z.of_nat (seq i (length ns))) ns.
Proof. revert i. induction ns as [|n ns IH]; intros i; [reflexivity|]. cbn [block_types length seq map spread]. now rewrite IH. Qed.
Lemma block_types_length i ns : length (block_types i ns) = sum ns.
Proof. rewrite block_types_spread. apply spread_length. now rewrite map_length, seq_length. Qed.
Lemma block_types_nth i ns k b : in_block ns k b -> nth_error (block_types i ns) k = Some (Z.of_nat (i + b)).
Proof.
  intros H. rewrite block_types_spread. rewrite (spread_nth _ _ k b) by (try (rewrite map_length, seq_length); auto). destruct H as [H _].
  rewrite nth_error_map. rewrite (nth_error_nth' (seq i (length ns)) 0) by (rewrite seq_length; lia). rewrite seq_nth by lia. reflexivity.
Qed.
Lemma heads_nth els idx ns k b : idx + sum ns <= length els -> in_block ns k b -> nth_error (heads els idx ns) b = nth_error els (idx + sum (firstn b ns)).
Proof.
  revert idx k b. induction ns as [|n ns IH]; intros idx k b HL HB; [destruct HB as [H _]; cbn in H; lia|]. change (sum (n :: ns)) with (n + sum ns) in HL. destruct b as [|b].
  - apply in_block_0 in HB. cbn [heads nth_error firstn sum fold_right]. rewrite Nat.add_0_r. destruct (Nat.ltb_spec 0 n); [|lia]. symmetry. apply nth_error_nth'. lia.
  - apply in_block_S in HB. cbn [heads nth_error]. rewrite (IH (idx + n) (k - n) b) by (try tauto; lia). change (firstn (S b) (n :: ns)) with (n :: firstn b ns). change (sum (n :: ?l)) with (n + sum l). f_equal. lia.
Qed.
Lemma in_block_ex ns k : k < sum ns -> exists b, in_block ns k b.
Proof.
  revert k. induction ns as [|n ns IH]; intros k H; [cbn in H; lia|]. change (sum (n :: ns)) with (n + sum ns) in H. destruct (Nat.ltb_spec k n); [exists 0; now apply in_block_0|].
  destruct (IH (k - n)) as [b Hb]; [lia|]. exists (S b). apply in_block_S. split; [lia|exact Hb].
Qed.
Lemma in_block_fun ns k b b' : in_block ns k b -> in_block ns k b' -> b = b'.
Proof.
  revert k b b'. induction ns as [|n ns IH]; intros k b b' H H'; [destruct H as [H _]; cbn in H; lia|]. destruct b, b'; [reflexivity|..]; try apply in_block_0 in H; try apply in_block_0 in H'; try apply in_block_S in H; try apply in_block_S in H'; try lia.
  f_equal. apply (IH (k - n)); tauto.
Qed.
Lemma in_block_lt ns k b : in_block ns k b -> k < sum ns.
Proof.
  revert k b. induction ns as [|n ns IH]; intros k b H; [destruct H as [H _]; cbn in H; lia|]. change (sum (n :: ns)) with (n + sum ns). destruct b; [apply in_block_0 in H; lia|]. apply in_block_S in H. destruct H as [H1 H2]. apply IH in H2. lia.
Qed.
Lemma in_block_start ns k b : in_block ns k b -> in_block ns (sum (firstn b ns)) b.
Proof. unfold in_block. lia. Qed.
Lemma nth_error_ext_lt {A} (l1 l2 : list A) : length l1 = length l2 -> (forall k, k < length l1 -> nth_error l1 k = nth_error l2 k) -> l1 = l2.
Proof.
  revert l2. induction l1 as [|a l1 IH]; intros [|b l2] HL H; try discriminate; [reflexivity|]. pose proof (H 0 ltac:(cbn; lia)) as H0. cbn in H0. injection H0 as ->. f_equal. apply IH; [now injection HL|]. intros k Hk. apply (H (S k)). cbn. lia.
Qed.
Definition block_elements (els : list string) (ns : list nat) : list string := spread (heads els 0 ns) ns.
Lemma block_elements_nth els ns k b : sum ns <= length els -> in_block ns k b -> nth_error (block_elements els ns) k = nth_error els (sum (firstn b ns)).
Proof. intros HL HB. unfold block_elements. rewrite (spread_nth _ _ k b) by (auto using heads_length). now rewrite (heads_nth _ _ _ k) by assumption. Qed.
Lemma block_elements_length els ns : length (block_elements els ns) = sum ns.
Proof. apply spread_length, heads_length. Qed.
Lemma block_elements_same els ns : length els = sum ns -> (block_elements els ns = els <-> one_element ns els).
Proof.
  intros HL. split.
  - intros E k k' b Hk Hk'. rewrite <- E. rewrite (block_elements_nth els ns k b), (block_elements_nth els ns k' b) by (assumption || lia). reflexivity.
  - intros H. apply nth_error_ext_lt; [rewrite block_elements_length; lia|]. rewrite block_elements_length. intros k Hk. destruct (in_block_ex ns k Hk) as [b Hb].
    rewrite (block_elements_nth els ns k b) by (assumption || lia). apply (H _ _ b); [now apply in_block_start in Hb|exact Hb].
Qed.
