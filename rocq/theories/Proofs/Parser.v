From Verif Require Import Base Model.Parser Spec.Parser.
From Coq Require String Ascii.
From Coq Require Import ZifyBool ZifyNat.
Import String.StringSyntax.

(** ** Letter case *)
Fixpoint no_upper (w : string) : Prop :=
  match w with String.EmptyString => True | String.String c w' => ~ (65 <= Ascii.nat_of_ascii c <= 90) /\ no_upper w' end.
Lemma lower_ascii_is c d : ~ (65 <= Ascii.nat_of_ascii c <= 90) ->
  (lower_ascii d = c <-> d = c \/ 97 <= Ascii.nat_of_ascii c <= 122 /\ Ascii.nat_of_ascii d + 32 = Ascii.nat_of_ascii c).
Proof.
  intros H. unfold lower_ascii. destruct ((65 <=? Ascii.nat_of_ascii d) && (Ascii.nat_of_ascii d <=? 90)) eqn:E.
  - split.
    + intros <-. right. rewrite Ascii.nat_ascii_embedding by lia. lia.
    + intros [->|[H1 H2]]; [lia|]. rewrite H2. apply Ascii.ascii_nat_embedding.
  - split; [now left|]. intros [->|[H1 H2]]; [reflexivity|lia].
Qed.
Lemma lower_is w s : no_upper w -> (lower s = w <-> same_word w s).
Proof.
  revert s. induction w as [|c w IH]; intros [|d s] H; cbn; try (split; [discriminate|contradiction]); [tauto|].
  destruct H as [H1 H2]. split.
  - intros E. injection E as E1 E2. split; [now apply lower_ascii_is|now apply IH].
  - intros [E1 E2]. f_equal; [now apply lower_ascii_is|now apply IH].
Qed.
Lemma str_in_In s l : str_in s l = true <-> In s l.
Proof. unfold str_in. rewrite existsb_exists. split; [intros [x [Hx E]]; apply String.eqb_eq in E; now subst|intros H; exists s; split; [exact H|apply String.eqb_refl]]. Qed.

(** ** Splitting *)
Lemma append_assoc a b c : String.append (String.append a b) c = String.append a (String.append b c).
Proof. induction a as [|x a IH]; cbn; [reflexivity|now rewrite IH]. Qed.
Lemma append_nil a : String.append a String.EmptyString = a.
Proof. induction a as [|x a IH]; cbn; [reflexivity|now rewrite IH]. Qed.
Lemma split_token cur t rest : no_spaces t -> split_from cur (String.append t rest) = split_from (String.append cur t) rest.
Proof.
  revert cur. induction t as [|c t IH]; intros cur H; cbn [String.append]; [now rewrite append_nil|].
  destruct H as [H1 H2]. cbn [split_from]. rewrite H1. rewrite IH by exact H2. now rewrite append_assoc.
Qed.
Lemma split_spaces s rest : spaces s -> split_from String.EmptyString (String.append s rest) = split_from String.EmptyString rest.
Proof. induction s as [|c s IH]; intros H; [reflexivity|]. destruct H as [H1 H2]. cbn. rewrite H1. now apply IH. Qed.
Lemma split_flush cur s rest : cur <> String.EmptyString -> spaces s -> s <> String.EmptyString -> split_from cur (String.append s rest) = cur :: split_from String.EmptyString rest.
Proof.
  intros Hc H Hs. destruct s as [|c s]; [congruence|]. destruct H as [H1 H2]. cbn. rewrite H1. destruct (String.eqb_spec cur String.EmptyString); [congruence|]. f_equal. now apply split_spaces.
Qed.
Lemma split_line (lead : string) (parts : list (string * string)) : spaces lead -> (forall t s, In (t, s) parts -> token t /\ spaces s) ->
  last_free parts -> split (String.append lead (line_of parts)) = map fst parts.
Proof.
  intros HL HP HF. unfold split. rewrite split_spaces by exact HL. clear HL. induction parts as [|[t s] parts IH]; [reflexivity|].
  destruct (HP t s (or_introl eq_refl)) as [[Ht1 Ht2] Hs]. cbn [line_of]. rewrite split_token by exact Ht2. cbn [String.append].
  assert (HP' : forall t s, In (t, s) parts -> token t /\ spaces s) by (intros; apply HP; now right).
  assert (HF' : last_free parts). { intros p q t' s' E. apply (HF ((t, s) :: p) q t' s'). cbn. now rewrite E. }
  destruct (String.eqb_spec s String.EmptyString) as [->|Ne].
  - destruct parts as [|x parts]; [|exfalso; now apply (HF [] (x :: parts) t String.EmptyString)]. cbn. destruct (String.eqb_spec t String.EmptyString); [congruence|reflexivity].
  - rewrite split_flush by assumption. cbn. f_equal. now apply IH.
Qed.

(** ** Dict *)
Section Dict.
  Context {K V : Type} (keq : K -> K -> bool) (keqP : forall a b, keq a b = true <-> a = b).
  Lemma keq_refl a : keq a a = true.
  Proof. now apply keqP. Qed.
  Lemma dget_dset (d : list (K * V)) k v k' : dget keq (dset keq d k v) k' = if keq k' k then Some v else dget keq d k'.
  Proof.
    induction d as [|[a w] d IH]; unfold dget in *; cbn; [destruct (keq k' k); reflexivity|].
    destruct (keq k a) eqn:E.
    - apply keqP in E. subst a. cbn. destruct (keq k' k); reflexivity.
    - cbn. destruct (keq k' a) eqn:E'.
      + apply keqP in E'. subst a. destruct (keq k' k) eqn:E2; [|reflexivity]. apply keqP in E2. subst k'. rewrite keq_refl in E. discriminate.
      + exact IH.
  Qed.
  Lemma dset_keys (d : list (K * V)) k v : map fst (dset keq d k v) = map fst d ++ (if existsb (keq k) (map fst d) then [] else [k]).
  Proof.
    induction d as [|[a w] d IH]; cbn; [reflexivity|]. destruct (keq k a) eqn:E; cbn; [now rewrite app_nil_r|now rewrite IH].
  Qed.
End Dict.
Lemma seqb_iff a b : String.eqb a b = true <-> a = b.
Proof. apply String.eqb_eq. Qed.
Lemma slist_eqb_iff a b : slist_eqb a b = true <-> a = b.
Proof. revert b. induction a as [|x a IH]; intros [|y b]; cbn; try (split; congruence). rewrite andb_true_iff, seqb_iff, IH. split; [intros [-> ->]; reflexivity|intros [= -> ->]; auto]. Qed.

(** ** Reading a file *)
Section Tag.
  Local Open Scope string_scope.
  Definition dist_tag : string := "distance".
End Tag.
(** The plain entry of a line: its tag with at least one value, unless it is a distance or data set line. *)
Definition entry (line : string) : option (string * list string) :=
  match split line with
  | t :: (v :: vs) => if String.eqb dist_tag t || is_dataset_tag t then None else Some (t, v :: vs)
  | _ => None
  end.
Definition distance_line (line : string) : list (list string) :=
  match split line with t :: (v :: vs) => if String.eqb dist_tag t then [v :: vs] else [] | _ => [] end.
Definition dataset_line (line : string) : list (list string) :=
  match split line with t :: (v :: vs) => if negb (String.eqb dist_tag t) && is_dataset_tag t then [t :: v :: vs] else [] | _ => [] end.
Lemma read_line_is p line : read_line p line =
  mk_parsed (match entry line with Some (t, v) => dset String.eqb (p_data p) t v | None => p_data p end) (p_distance p ++ distance_line line) (p_datasets p ++ dataset_line line).
Proof.
  destruct p as [a b c]. unfold read_line, entry, distance_line, dataset_line. fold dist_tag. destruct (split line) as [|t [|v vs]]; [cbn; now rewrite !app_nil_r|cbn; now rewrite !app_nil_r|].
  destruct (String.eqb dist_tag t) eqn:E; cbn; [now rewrite app_nil_r|]. destruct (is_dataset_tag t); cbn; now rewrite ?app_nil_r.
Qed.
Lemma read_lists lines p : p_distance (fold_left read_line lines p) = p_distance p ++ flat_map distance_line lines /\
  p_datasets (fold_left read_line lines p) = p_datasets p ++ flat_map dataset_line lines.
Proof.
  revert p. induction lines as [|l lines IH]; intros p; cbn; [now rewrite !app_nil_r|]. destruct (IH (read_line p l)) as [E1 E2]. rewrite E1, E2, read_line_is. cbn. now rewrite <- !app_assoc.
Qed.
(** The last plain entry of a tag. *)
Fixpoint last_entry (tag : string) (lines : list string) : option (list string) :=
  match lines with
  | [] => None
  | l :: t => match last_entry tag t with
              | Some v => Some v
              | None => match entry l with Some (k, v) => if String.eqb tag k then Some v else None | None => None end
              end
  end.
Lemma read_data lines p tag : dget String.eqb (p_data (fold_left read_line lines p)) tag =
  match last_entry tag lines with Some v => Some v | None => dget String.eqb (p_data p) tag end.
Proof.
  revert p. induction lines as [|l lines IH]; intros p; cbn [fold_left last_entry]; [reflexivity|]. rewrite IH, read_line_is. cbn [p_data]. destruct (last_entry tag lines); [reflexivity|].
  destruct (entry l) as [[k v]|]; [|reflexivity]. rewrite (dget_dset String.eqb seqb_iff). now destruct (String.eqb tag k).
Qed.

Lemma wf_split l : wf_line l -> split (text l) = tokens l.
Proof. intros [H1 [H2 H3]]. now apply split_line. Qed.
Lemma last_entry_hit tag before l after vs : (forall x, In x after -> forall v ws, entry x = Some (tag, v :: ws) -> False) ->
  entry l = Some (tag, vs) -> last_entry tag (before ++ l :: after) = Some vs.
Proof.
  intros HA HL. induction before as [|b before IH]; cbn [app last_entry].
  - assert (N : last_entry tag after = None).
    { clear HL. induction after as [|x after IH]; [reflexivity|]. cbn. rewrite IH by (intros y Hy; apply HA; now right). destruct (entry x) as [[k v]|] eqn:E; [|reflexivity].
      destruct (String.eqb_spec tag k) as [->|]; [|reflexivity]. exfalso. destruct v as [|v ws]; [|apply (HA x (or_introl eq_refl) v ws E)].
      unfold entry in E. destruct (split x) as [|t [|w ws]]; try discriminate. destruct (String.eqb _ _ || _); discriminate. }
    rewrite N, HL, String.eqb_refl. reflexivity.
  - now rewrite IH.
Qed.
Lemma last_entry_none tag lines : (forall x, In x lines -> forall v ws, entry x = Some (tag, v :: ws) -> False) -> last_entry tag lines = None.
Proof.
  intros HA. induction lines as [|x lines IH]; [reflexivity|]. cbn. rewrite IH by (intros y Hy; apply HA; now right). destruct (entry x) as [[k v]|] eqn:E; [|reflexivity].
  destruct (String.eqb_spec tag k) as [->|]; [|reflexivity]. exfalso. destruct v as [|v ws]; [|apply (HA x (or_introl eq_refl) v ws E)].
  unfold entry in E. destruct (split x) as [|t [|w ws]]; try discriminate. destruct (String.eqb _ _ || _); discriminate.
Qed.
(** ** Substrings *)
Lemma prefix_iff p s : String.prefix p s = true <-> exists b, s = String.append p b.
Proof.
  revert s. induction p as [|c p IH]; intros s; [split; [intros _; now exists s|now destruct s]|]. destruct s as [|d s]; [split; [discriminate|intros [b H]; discriminate]|].
  change (String.prefix (String.String c p) (String.String d s)) with (if Ascii.ascii_dec c d then String.prefix p s else false).
  destruct (Ascii.ascii_dec c d) as [->|N].
  - rewrite IH. split; intros [b H]; exists b; [now rewrite H|now injection H].
  - split; [discriminate|]. intros [b [= H _]]. congruence.
Qed.
Lemma contains_iff p s : contains p s = true <-> exists a b, s = String.append a (String.append p b).
Proof.
  induction s as [|c s IH]; cbn -[String.prefix]; rewrite orb_true_iff, prefix_iff.
  - split.
    + intros [[b H]|H]; [now exists String.EmptyString, b|discriminate].
    + intros [[|x a] [b H]]; [left; now exists b|discriminate].
  - rewrite IH. split.
    + intros [[b H]|[a [b H]]]; [now exists String.EmptyString, b|]. exists (String.String c a), b. cbn. now rewrite H.
    + intros [[|x a] [b H]]; [left; now exists b|]. right. injection H as _ H. now exists a, b.
Qed.
(** ** Distances *)
Lemma index_of_inj x y l : In x l -> In y l -> index_of x l = index_of y l -> x = y.
Proof.
  induction l as [|z l IH]; cbn; [tauto|]. destruct (String.eqb_spec x z) as [->|Nx], (String.eqb_spec y z) as [->|Ny]; try reflexivity; try discriminate.
  intros [Hx|Hx] [Hy|Hy] E; try congruence. apply IH; [exact Hx|exact Hy|lia].
Qed.
Lemma sort_pair_sym els a b : In a els -> In b els -> sort_pair els [a; b] = sort_pair els [b; a].
Proof.
  intros Ha Hb. unfold sort_pair. destruct (Nat.ltb_spec (index_of b els) (index_of a els)), (Nat.ltb_spec (index_of a els) (index_of b els)); try reflexivity; try lia.
  rewrite (index_of_inj a b els Ha Hb) by lia. reflexivity.
Qed.
Section Distance.
  Context {T : Type} (to_float : string -> res T).
  Lemma distance_app els d l1 l2 d' : distance_loop to_float els d (l1 ++ l2) = Ok d' -> exists d1, distance_loop to_float els d l1 = Ok d1 /\ distance_loop to_float els d1 l2 = Ok d'.
  Proof.
    revert d. induction l1 as [|x l1 IH]; intros d H; [now exists d|]. cbn in *. destruct (distance_step to_float els d x) as [d1|]; [|discriminate]. cbn in *. now apply IH.
  Qed.
  Lemma distance_keep els d l d' key : distance_loop to_float els d l = Ok d' -> (forall x, In x l -> sort_pair els (firstn 2 x) <> key) -> dget slist_eqb d' key = dget slist_eqb d key.
  Proof.
    revert d. induction l as [|x l IH]; intros d H HN; cbn in H; [congruence|]. unfold distance_step in H. destruct (forallb _ _); cbn [bind] in H; [|discriminate H]. destruct (mapM to_float (skipn 2 x)) as [fs|]; cbn [bind] in H; [|discriminate H].
    rewrite (IH _ H) by (intros; apply HN; now right). rewrite (dget_dset slist_eqb slist_eqb_iff). destruct (slist_eqb key _) eqn:E; [|reflexivity]. apply slist_eqb_iff in E. exfalso. apply (HN x (or_introl eq_refl)). now symmetry.
  Qed.
  Lemma distance_last els l1 x l2 d : distance_loop to_float els [] (l1 ++ x :: l2) = Ok d -> (forall y, In y l2 -> sort_pair els (firstn 2 y) <> sort_pair els (firstn 2 x)) ->
    exists fs, mapM to_float (skipn 2 x) = Ok fs /\ dget slist_eqb d (sort_pair els (firstn 2 x)) = Some fs.
  Proof.
    intros H HN. apply distance_app in H. destruct H as [d1 [_ H]]. cbn in H. unfold distance_step in H at 1. destruct (forallb _ _); cbn [bind] in H; [|discriminate H]. destruct (mapM to_float (skipn 2 x)) as [fs|]; cbn [bind] in H; [|discriminate H].
    exists fs. split; [reflexivity|]. rewrite (distance_keep _ _ _ _ _ H HN). rewrite (dget_dset slist_eqb slist_eqb_iff). now rewrite (proj2 (slist_eqb_iff _ _) eq_refl).
  Qed.
  Lemma distance_unknown els d l x e : In x l -> In e (firstn 2 x) -> ~ In e els -> is_ok (distance_loop to_float els d l) = false.
  Proof.
    revert d. induction l as [|y l IH]; intros d Hx He Hn; [destruct Hx|]. cbn [distance_loop]. unfold distance_step at 1. destruct (forallb _ _) eqn:E; [|reflexivity]. destruct (mapM to_float (skipn 2 y)); cbn [bind]; [|reflexivity].
    destruct Hx as [->|Hx]; [|now apply IH]. exfalso. rewrite forallb_forall in E. specialize (E e He). apply str_in_In in E. contradiction.
  Qed.
End Distance.
