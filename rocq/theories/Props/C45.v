(** C45: tags of an input file. *)
From Verif Require Import Base Model.Parser Spec.Parser Proofs.Parser.
Import String.StringSyntax.
Local Open Scope string_scope.
Local Open Scope list_scope.

(** [a] occurs in [s]. *)
Definition substring (a s : string) : Prop := exists x y, s = String.append x (String.append a y).
(** Tags kept in the dictionary of parameters. *)
Definition plain (tag : string) : Prop := tag <> "distance" /\ (substring "data" tag -> substring "dataset_type" tag).
Definition dataset_tag (tag : string) : Prop := tag <> "distance" /\ substring "data" tag /\ ~ substring "dataset_type" tag.
Definition file (lines : list line) : parsed := read_file (map text lines).

Lemma plain_not_dataset tag : plain tag -> is_dataset_tag tag = false.
Proof.
  intros [_ H]. unfold is_dataset_tag. destruct (contains "data" tag) eqn:E1; [|reflexivity]. destruct (contains "dataset_type" tag) eqn:E2; [reflexivity|].
  apply contains_iff in E1. apply H in E1. apply contains_iff in E1. congruence.
Qed.
Lemma entry_plain l tag v vs : wf_line l -> plain tag -> tokens l = tag :: v :: vs -> entry (text l) = Some (tag, v :: vs).
Proof.
  intros HW HP E. unfold entry. rewrite wf_split, E by exact HW. rewrite plain_not_dataset by exact HP. destruct (String.eqb_spec dist_tag tag) as [Et|]; [|reflexivity]. destruct HP as [HP _]. exfalso. now apply HP.
Qed.
Lemma entry_tokens l tag vs : wf_line l -> entry (text l) = Some (tag, vs) -> tokens l = tag :: vs.
Proof. intros HW. unfold entry. rewrite wf_split by exact HW. destruct (tokens l) as [|t [|v w]]; try discriminate. destruct (_ || _); congruence. Qed.

(** The values of a tag are those of its last line, cut to the requested size and converted; white space does not matter. *)
Theorem C45_values {T} (conv : string -> res T) (before after : list line) (l : line) (tag : string) (vs : list string) size default :
  (forall x, In x (before ++ l :: after) -> wf_line x) -> plain tag -> tokens l = tag :: vs -> vs <> [] ->
  (forall x w ws, In x after -> tokens x <> tag :: w :: ws) ->
  get_params conv (file (before ++ l :: after)) tag size default = mapM conv (firstn size vs).
Proof.
  intros HW HP HT HN HA. unfold get_params, file, read_file. rewrite read_data, map_app. cbn [map].
  rewrite (last_entry_hit tag _ _ _ vs); [reflexivity| |].
  - intros x Hx v ws E. apply in_map_iff in Hx. destruct Hx as [y [<- Hy]]. apply entry_tokens in E; [|apply HW, in_or_app; right; now right]. now apply (HA y v ws).
  - destruct vs as [|v vs]; [congruence|]. apply entry_plain; [apply HW, in_or_app; right; now left|exact HP|exact HT].
Qed.
Print Assumptions C45_values.
(** A tag without a line gives the default, or KeyError if it is required. *)
Theorem C45_absent {T} (conv : string -> res T) (lines : list line) (tag : string) size default :
  (forall x, In x lines -> wf_line x) -> (forall x w ws, In x lines -> tokens x <> tag :: w :: ws) ->
  get_params conv (file lines) tag size default = default.
Proof.
  intros HW HA. unfold get_params, file, read_file. rewrite read_data, last_entry_none; [reflexivity|].
  intros x Hx v ws E. apply in_map_iff in Hx. destruct Hx as [y [<- Hy]]. apply entry_tokens in E; [|now apply HW]. now apply (HA y v ws).
Qed.
Print Assumptions C45_absent.
(** A single value is read from the first word after the tag. *)
Theorem C45_single {T} (conv : string -> res T) (before after : list line) (l : line) (tag v : string) (vs : list string) default :
  (forall x, In x (before ++ l :: after) -> wf_line x) -> plain tag -> tokens l = tag :: v :: vs ->
  (forall x w ws, In x after -> tokens x <> tag :: w :: ws) ->
  get_param conv (file (before ++ l :: after)) tag default = conv v.
Proof.
  intros HW HP HT HA. unfold get_param, file, read_file. rewrite read_data, map_app. cbn [map].
  rewrite (last_entry_hit tag _ _ _ (v :: vs)).
  - cbn. destruct (conv v); reflexivity.
  - intros x Hx w ws E. apply in_map_iff in Hx. destruct Hx as [y [<- Hy]]. apply entry_tokens in E; [|apply HW, in_or_app; right; now right]. now apply (HA y w ws).
  - apply entry_plain; [apply HW, in_or_app; right; now left|exact HP|exact HT].
Qed.
Print Assumptions C45_single.
(** Data set lines are kept in the order of the file: exactly those of two or more words whose tag contains "data" but not
    "dataset_type". *)
Inductive dataset_lines : list line -> list (list string) -> Prop :=
| ds_nil : dataset_lines [] []
| ds_take l ls t v vs r : tokens l = t :: v :: vs -> dataset_tag t -> dataset_lines ls r -> dataset_lines (l :: ls) ((t :: v :: vs) :: r)
| ds_skip l ls r : (forall t v vs, tokens l = t :: v :: vs -> ~ dataset_tag t) -> dataset_lines ls r -> dataset_lines (l :: ls) r.
Theorem C45_datasets (lines : list line) : (forall x, In x lines -> wf_line x) -> dataset_lines lines (p_datasets (file lines)).
Proof.
  intros HW. unfold file, read_file. rewrite (proj2 (read_lists _ _)). cbn [p_datasets app].
  assert (TD : forall t, negb (String.eqb dist_tag t) && is_dataset_tag t = true <-> dataset_tag t).
  { intros t. unfold is_dataset_tag, dataset_tag. rewrite !andb_true_iff, !negb_true_iff, contains_iff. split.
    - intros [H1 [H2 H3]]. apply String.eqb_neq in H1. split; [intros ->; now apply H1|]. split; [exact H2|]. intros H. apply contains_iff in H. congruence.
    - intros [H1 [H2 H3]]. split; [apply String.eqb_neq; intros <-; now apply H1|]. split; [exact H2|]. destruct (contains "dataset_type" t) eqn:E; [|reflexivity]. exfalso. apply H3. now apply contains_iff. }
  induction lines as [|l lines IH]; [constructor|]. cbn [map flat_map]. unfold dataset_line at 1. rewrite wf_split by (apply HW; now left).
  assert (IH' := IH (fun x Hx => HW x (or_intror Hx))). destruct (tokens l) as [|t [|v vs]] eqn:E.
  - apply ds_skip; [intros; congruence|exact IH'].
  - apply ds_skip; [intros; congruence|exact IH'].
  - destruct (negb (String.eqb dist_tag t) && is_dataset_tag t) eqn:D.
    + cbn [app]. apply ds_take; [exact E|now apply TD|exact IH'].
    + apply ds_skip; [|exact IH']. intros t' v' vs' E' HD. rewrite E' in E. injection E as -> -> ->. apply TD in HD. congruence.
Qed.
Print Assumptions C45_datasets.
(** Distances: the last line of an unordered pair counts, under the pair sorted by the order of the elements; a pair with an
    unknown element raises. *)
Theorem C45_distance {T} (to_float : string -> res T) (els : list string) (d : list (list string * list T)) l1 (a b a' b' : string) vs l2 :
  distance_loop to_float els [] (l1 ++ (a :: b :: vs) :: l2) = Ok d ->
  (forall y, In y l2 -> firstn 2 y <> [a; b] /\ firstn 2 y <> [b; a]) -> In a els -> In b els ->
  (a', b') = (a, b) \/ (a', b') = (b, a) ->
  exists fs, mapM to_float vs = Ok fs /\ dget slist_eqb d (sort_pair els [a'; b']) = Some fs.
Proof.
  intros H HN Ha Hb HE.
  assert (ES : sort_pair els [a'; b'] = sort_pair els [a; b]) by (destruct HE as [E|E]; injection E as -> ->; [reflexivity|now apply sort_pair_sym]). rewrite ES.
  apply (distance_last to_float els l1 (a :: b :: vs) l2 d H). intros y Hy E. destruct (HN y Hy) as [N1 N2]. change (firstn 2 (a :: b :: vs)) with [a; b] in E.
  assert (SP : forall u v : string, sort_pair els [u; v] = [u; v] \/ sort_pair els [u; v] = [v; u]) by (intros u v; unfold sort_pair; destruct (_ <? _); auto).
  destruct (firstn 2 y) as [|p [|q [|r w]]] eqn:F.
  - destruct (SP a b) as [S|S]; rewrite S in E; cbn [sort_pair] in E; congruence.
  - destruct (SP a b) as [S|S]; rewrite S in E; cbn [sort_pair] in E; congruence.
  - destruct (SP a b) as [S|S]; rewrite S in E; destruct (SP p q) as [S'|S']; rewrite S' in E; injection E as -> ->; auto.
  - pose proof (firstn_le_length 2 y) as L. rewrite F in L. cbn in L. lia.
Qed.
Print Assumptions C45_distance.
Theorem C45_distance_unknown {T} (to_float : string -> res T) els d l x e : In x l -> In e (firstn 2 x) -> ~ In e els -> is_ok (distance_loop to_float els d l) = false.
Proof. apply distance_unknown. Qed.
Print Assumptions C45_distance_unknown.
(** Stress is never requested without force. *)
Theorem C45_force_tags p : forall f s, force_tags p = Ok (f, s) -> f = false -> s = false.
Proof.
  intros f s. unfold force_tags. destruct (get_param _ _ _ _) as [b|]; cbn; [|discriminate]. destruct b; [destruct (get_param _ _ _ _); cbn; [intros [= <- <-]; discriminate|discriminate]|intros [= <- <-]; reflexivity].
Qed.
Print Assumptions C45_force_tags.

(** Missing values are not rejected: three are asked for, two are returned. Unknown tags are accepted silently. *)
Definition sp := " ".
Definition a_line (l : list string) : line := mk_line "" (map (fun t => (t, sp)) l).
Definition a_file := [a_line ["elements"; "Mg"; "O"]; a_line ["gaussian_params1"; "0.5"; "1.5"]; a_line ["data"; "a"; "b"]; a_line ["unknown_tag"; "7"]].
Lemma a_line_wf l : (forall t, In t l -> token t) -> wf_line (a_line l).
Proof.
  intros H. split; [exact I|]. split; cbn [parts a_line].
  - intros t s Hin. apply in_map_iff in Hin. destruct Hin as [w [E Hw]]. injection E as <- <-. split; [now apply H|repeat split].
  - intros p q t s E _ ->. assert (Hin : In (t, "") (map (fun t => (t, sp)) l)) by (rewrite E; apply in_or_app; right; now left). apply in_map_iff in Hin. destruct Hin as [w [Ew _]]. discriminate Ew.
Qed.
Lemma a_file_wf : forall x, In x a_file -> wf_line x.
Proof. intros x H. repeat (destruct H as [<-|H]; [apply a_line_wf; intros t Ht; repeat (destruct Ht as [<-|Ht]; [split; [discriminate|repeat split]|]); destruct Ht|]). destruct H. Qed.
Theorem C45_truncated_refuted : (forall x, In x a_file -> wf_line x) /\ get_params Ok (file a_file) "gaussian_params1" 3 required = Ok ["0.5"; "1.5"].
Proof. split; [exact a_file_wf|reflexivity]. Qed.
Print Assumptions C45_truncated_refuted.
Example C45_example : get_params Ok (file a_file) "elements" 2 required = Ok ["Mg"; "O"] /\ get_param Ok (file a_file) "cutoff" (Ok "6.0") = Ok "6.0" /\
  p_datasets (file a_file) = [["data"; "a"; "b"]] /\ get_param Ok (file a_file) "missing" required = Err KeyError.
Proof. repeat split. Qed.
Example C45_plain : plain "elements" /\ dataset_tag "train_data".
Proof.
  assert (C : forall a s, substring a s <-> contains a s = true) by (intros; symmetry; apply contains_iff).
  split; [split; [discriminate|]|split; [discriminate|split]]; rewrite !C; vm_compute; congruence.
Qed.
Example C45_distance_example : distance_loop Ok ["Mg"; "O"] [] [["O"; "Mg"; "1.0"]; ["Mg"; "Mg"; "3.0"]; ["Mg"; "O"; "2.0"; "2.5"]] =
  Ok [(["Mg"; "O"], ["2.0"; "2.5"]); (["Mg"; "Mg"], ["3.0"])] /\ distance_loop Ok ["Mg"; "O"] [] [["O"; "Al"; "1.0"]] = Err RuntimeError.
Proof. split; reflexivity. Qed.
