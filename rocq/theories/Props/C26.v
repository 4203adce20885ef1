(** C26: tables of Gaussian parameters. *)
From Coq Require Import Reals Lra.
From Verif Require Import Base Num NumR Model.Structure Model.Properties Model.HybridTypes Model.GridOptimal Model.GaussParams Proofs.Structure Proofs.GridOptimal Proofs.Properties Proofs.HybridTypes Proofs.GaussParams.
From Coq Require String.
Import String.StringSyntax.
Local Open Scope string_scope.
Local Open Scope list_scope.
Local Open Scope nat_scope.

(** The i-th of n equidistant points *)
Definition point (a b : R) (n i : nat) : R := if n =? 1 then a else (a + INR i * ((b - a) / INR (n - 1)))%R.
(** Explicit parameters: every combination, then the constant function *)
Theorem C26_explicit (a1 b1 a2 b2 : R) (n1 n2 : nat) cutoff : exists l, gaussian_params (a1, b1, Z.of_nat n1) (a2, b2, Z.of_nat n2) None cutoff = Ok (l ++ [(0, 0)%R]) /\ length l = n1 * n2 /\
  forall i j, i < n1 -> j < n2 -> nth_error l (i * n2 + j) = Some (point a1 b1 n1 i, point a2 b2 n2 j).
Proof.
  unfold gaussian_params. cbn [fst snd]. destruct (linspace_ok a1 b1 n1) as [g1 [E1 [L1 H1]]]. destruct (linspace_ok a2 b2 n2) as [g2 [E2 [L2 H2]]]. rewrite E1. cbn [bind]. rewrite E2. cbn [bind]. eexists. split; [reflexivity|]. split; [rewrite prod_length; congruence|].
  intros i j Hi Hj. rewrite <- L2 at 1. apply prod_nth; [now apply H1|now apply H2].
Qed.
(** A number of functions and a cutoff: that many functions, equidistant, none narrower than 1 *)
Theorem C26_auto (p1 p2 : R * R * Z) (n : nat) (c : R) : 3 <= n -> exists l, gaussian_params p1 p2 (Some (Z.of_nat n)) (Some c) = Ok (l ++ [(0, 0)%R]) /\ length l = n - 1 /\
  forall i, i < n - 1 -> nth_error l i = Some (Rmax 1 ((c - 1) / INR (n - 2)), INR i * ((c - 1) / INR (n - 2)))%R.
Proof.
  intros HN. unfold gaussian_params. replace (Z.of_nat n - 1)%Z with (Z.of_nat (n - 1)) by lia. destruct (linspace_ok 0%R 1%R (n - 1)) as [l [E [L H]]]. replace (@n0 R R_num) with 0%R by reflexivity. replace (@n1 R R_num) with 1%R by reflexivity. rewrite E. cbn [bind].
  assert (HG : forall i, i < n - 1 -> nth_error (map (fun x => nmul x (nsub c 1%R)) l) i = Some (INR i * ((c - 1) / INR (n - 2)))%R).
  { intros i Hi. erewrite map_nth_error; [|exact (H i Hi)]. f_equal. destruct (Nat.eqb_spec (n - 1) 1); [lia|]. replace (n - 1 - 1) with (n - 2) by lia. cbn. assert (INR (n - 2) <> 0)%R by (apply not_0_INR; lia). field. exact H0. }
  unfold get. rewrite (HG 1) by lia. cbn [bind]. rewrite (HG 0) by lia. cbn [bind]. eexists. split; [reflexivity|]. rewrite !map_length. split; [exact L|].
  intros i Hi. erewrite map_nth_error; [|exact (HG i Hi)]. f_equal. f_equal. unfold nmax. replace (nsub (INR 1 * ((c - 1) / INR (n - 2))) (INR 0 * ((c - 1) / INR (n - 2))))%R with ((c - 1) / INR (n - 2))%R by (cbn; ring).
  unfold Rmax. destruct (nltb 1%R _) eqn:EL; [apply Rltb_true in EL|apply Rltb_false in EL]; destruct (Rle_dec 1 ((c - 1) / INR (n - 2))) as [D|D]; try reflexivity; try lra.
Qed.
(** One or two automatic functions, negative numbers and a missing cutoff fail. *)
Theorem C26_auto_short (p1 p2 : R * R * Z) (c : R) (n : Z) : gaussian_params p1 p2 (Some 1%Z) (Some c) = Err IndexError /\ gaussian_params p1 p2 (Some 2%Z) (Some c) = Err IndexError /\
  ((n < 1)%Z -> gaussian_params p1 p2 (Some n) (Some c) = Err ValueError) /\ gaussian_params p1 p2 (Some n) None = Err RuntimeError.
Proof.
  split; [reflexivity|]. split; [reflexivity|]. split; [|reflexivity]. intros H. unfold gaussian_params, linspace. replace (n - 1 <? 0)%Z with true by (symmetry; apply Z.ltb_lt; lia). reflexivity.
Qed.

(** A dict of distances: keys are pairs of known elements, no unordered pair occurs twice. *)
Notation distances := (list (list string * option (list R))).
Definition lists (d : distances) (a b : string) (l : list R) : Prop := In ([a; b], Some l) d \/ In ([b; a], Some l) d.
Definition proper (els : list string) (d : distances) : Prop :=
  (forall q, In q d -> exists a b l, q = ([a; b], Some l) /\ In a els /\ In b els) /\
  (forall i j a b l l', nth_error d i = Some ([a; b], Some l) -> (nth_error d j = Some ([a; b], Some l') \/ nth_error d j = Some ([b; a], Some l')) -> i = j).
(** Function k is active for a list of distances: one of them lies within its width. *)
Definition within (params : list (R * R)) (l : list R) (k : nat) : Prop := exists dis w c, In dis l /\ nth_error params k = Some (w, c) /\ (w = 0 \/ c - 1 / w < dis < c + 1 / w)%R.

Lemma where_removelast {A} (p : A -> bool) (l : list A) z k : In k (where_ p (removelast (l ++ [z]))) <-> exists a, nth_error l k = Some a /\ p a = true.
Proof. rewrite removelast_app by discriminate. cbn [removelast]. rewrite app_nil_r. apply where_In. Qed.
Lemma active_ok dis w c : active dis (w, c) = true <-> (w = 0 \/ c - 1 / w < dis < c + 1 / w)%R.
Proof.
  unfold active. cbn [fst snd]. replace (@n0 R R_num) with 0%R by reflexivity. replace (@n1 R R_num) with 1%R by reflexivity. destruct (nltb w 0%R) eqn:E1; cbn [negb andb].
  - apply Rltb_true in E1. rewrite andb_true_iff. split; [intros [H1 H2]; apply Rltb_true in H1; apply Rltb_true in H2; right; split; assumption|intros [H|[H1 H2]]; [lra|split; apply Rltb_true; assumption]].
  - apply Rltb_false in E1. destruct (nltb 0%R w) eqn:E2; cbn [negb].
    + apply Rltb_true in E2. rewrite andb_true_iff. split; [intros [H1 H2]; apply Rltb_true in H1; apply Rltb_true in H2; right; split; assumption|intros [H|[H1 H2]]; [lra|split; apply Rltb_true; assumption]].
    + apply Rltb_false in E2. split; [intros _; left; lra|reflexivity].
Qed.
Lemma matches_ok ps z l k : In k (matches (ps ++ [z]) l) <-> k = length ps \/ within ps l k.
Proof.
  unfold matches. rewrite nunique_In. cbn [In]. rewrite app_length. cbn [length]. replace (length ps + 1 - 1) with (length ps) by lia. rewrite in_concat. split.
  - intros [H|[w [Hw Hk]]]; [left; congruence|right]. apply in_map_iff in Hw. destruct Hw as [dis [<- Hd]]. apply where_removelast in Hk. destruct Hk as [[w c] [Hk HA]]. apply active_ok in HA. exists dis, w, c. auto.
  - intros [->|[dis [w [c [Hd [Hk HA]]]]]]; [now left|]. right. exists (where_ (active dis) (removelast (ps ++ [z]))). split; [apply in_map_iff; exists dis; split; [reflexivity|exact Hd]|]. apply where_removelast. exists (w, c). split; [exact Hk|]. now apply active_ok.
Qed.
Lemma check_ok els d : proper els d -> exists d1, check_distance d = Ok d1 /\ (forall q, In q d1 -> In (fst (fst q)) els /\ In (snd (fst q)) els) /\ (forall a b l, nth_error d1 a = Some (b, l) <-> nth_error d a = Some ([fst b; snd b], Some l)).
Proof.
  intros [H _]. unfold check_distance. induction d as [|q d IH]; [exists []; split; [reflexivity|]; split; [intros q []|intros [|a] b l; split; discriminate]|]. cbn [mapM]. destruct (H q (or_introl eq_refl)) as [a [b [l [-> [Ha Hb]]]]]. cbn [fst snd bind].
  destruct IH as [d1 [E [H1 H2]]]; [intros; apply H; now right|]. rewrite E. cbn [bind]. eexists. split; [reflexivity|]. split; [intros q [<-|Hq]; [split; assumption|now apply H1]|]. intros [|k] [x y] m; cbn [nth_error fst snd]; [|apply H2]. split; intros [= -> -> ->]; reflexivity.
Qed.
Lemma lookup_ok els d d1 d2 a b : NoDup els -> proper els d -> (forall q, In q d1 -> In (fst (fst q)) els /\ In (snd (fst q)) els) -> (forall a b l, nth_error d1 a = Some (b, l) <-> nth_error d a = Some ([fst b; snd b], Some l)) ->
  (forall k, dget pair_eqb d2 k = match find (fun q => pair_eqb k (norm els (fst q))) (rev d1) with Some q => Some (snd q) | None => dget (B:=list R) pair_eqb [] k end) ->
  In a els -> In b els -> position a els <= position b els -> forall l, dget pair_eqb d2 (a, b) = Some l <-> lists d a b l.
Proof.
  intros HN [_ HU] HK HD HG Ha Hb Hab l. rewrite HG. assert (EN : dget (B:=list R) pair_eqb [] (a, b) = None) by reflexivity. rewrite EN.
  assert (HF : forall k, norm els k = (a, b) <-> k = (a, b) \/ (k = (b, a) /\ In a els)).
  { intros [x y]. unfold norm. cbn [fst snd]. destruct (Nat.leb_spec (position x els) (position y els)).
    - split; [now left|]. intros [E|[E _]]; [exact E|]. injection E as -> ->. assert (a = b) by (apply (position_inj els); auto; lia). subst. reflexivity.
    - split; [intros [= -> ->]; right; auto|]. intros [E|[E _]]; injection E as -> ->; [lia|reflexivity]. }
  assert (HL : forall k m, In (k, m) d1 -> (k = (a, b) \/ k = (b, a)) -> lists d a b m).
  { intros k m Hk Hor. apply In_nth_error in Hk. destruct Hk as [i Hi]. apply HD in Hi. destruct Hor as [-> | ->]; cbn [fst snd] in Hi; apply nth_error_In in Hi; [now left|now right]. }
  split.
  - destruct (find _ (rev d1)) as [[k m]|] eqn:EF; [|discriminate]. intros [= <-]. apply find_some in EF. destruct EF as [Hq Eq]. apply in_rev in Hq. apply pair_eqb_eq in Eq. cbn [fst] in Eq. cbn [snd]. symmetry in Eq. apply HF in Eq. apply (HL k m Hq). tauto.
  - intros HLl. destruct (find _ (rev d1)) as [[k m]|] eqn:EF.
    + apply find_some in EF. destruct EF as [Hq Eq]. apply in_rev in Hq. apply pair_eqb_eq in Eq. cbn [fst snd] in *. symmetry in Eq. apply HF in Eq. assert (Hk : k = (a, b) \/ k = (b, a)) by tauto. apply In_nth_error in Hq. destruct Hq as [i Hi]. pose proof (proj1 (HD i k m) Hi) as Hi2.
      assert (HJ : exists j, nth_error d j = Some ([a; b], Some l) \/ nth_error d j = Some ([b; a], Some l)) by (destruct HLl as [HLl|HLl]; apply In_nth_error in HLl; destruct HLl as [j Hj]; exists j; tauto). destruct HJ as [j Hj].
      assert (EIJ : i = j) by (destruct Hk as [-> | ->]; cbn [fst snd] in Hi2; [exact (HU i j a b m l Hi2 Hj)|]; apply (HU i j b a m l Hi2); tauto). subst j.
      f_equal. destruct Hj as [Hj|Hj]; rewrite Hj in Hi2; injection Hi2; congruence.
    + exfalso. assert (HI : exists k, In (k, l) d1 /\ (k = (a, b) \/ k = (b, a))).
      { destruct HLl as [HLl|HLl]; apply In_nth_error in HLl; destruct HLl as [j Hj]; [exists (a, b)|exists (b, a)]; (split; [|tauto]); apply (nth_error_In d1 j); apply HD; exact Hj. }
      destruct HI as [k [Hk Ho]]. apply in_rev in Hk. pose proof (find_none _ _ EF _ Hk) as HX. cbn [fst] in HX. assert (ET : pair_eqb (a, b) (norm els k) = true); [|congruence]. apply pair_eqb_eq. symmetry. apply HF. tauto.
Qed.
Lemma table_ok (params : list (R * R)) els d : NoDup els -> table params els d = map (fun k => ((position (fst k) els, position (snd k) els), match dget pair_eqb d k with None => seq 0 (length params) | Some ds => matches params ds end)) (combinations els).
Proof.
  intros HN. unfold table.
  assert (EA : forall k, In k (combinations els) -> atomtype els (fst k) = position (fst k) els /\ atomtype els (snd k) = position (snd k) els).
  { intros [a b] Hk. apply comb_In in Hk. destruct Hk as [i [j [_ [Hi Hj]]]]. cbn [fst snd]. rewrite (atomtype_ok els i a HN Hi), (atomtype_ok els j b HN Hj), (position_at els i a HN Hi), (position_at els j b HN Hj). auto. }
  rewrite (fold_dset (nat * nat) (list nat) key_eqb key_eqb_eq (fun k => (atomtype els (fst k), atomtype els (snd k))) (fun k => match dget pair_eqb d k with None => seq 0 (length params) | Some ds => matches params ds end)).
  - cbn [app]. apply map_ext_in. intros k Hk. destruct (EA k Hk) as [-> ->]. reflexivity.
  - rewrite (map_ext_in _ (fun k => (position (fst k) els, position (snd k) els))) by (intros k Hk; destruct (EA k Hk) as [-> ->]; reflexivity).
    assert (HI : forall k k', In k (combinations els) -> In k' (combinations els) -> (position (fst k) els, position (snd k) els) = (position (fst k') els, position (snd k') els) -> k = k').
    { intros [a b] [a' b'] H H'. apply comb_In in H, H'. destruct H as [i [j [_ [Hi Hj]]]], H' as [i' [j' [_ [Hi' Hj']]]]. cbn [fst snd]. intros [= E1 E2]. f_equal; [apply (position_inj els)|apply (position_inj els)]; auto; eapply nth_error_In; eauto. }
    pose proof (comb_nodup els HN) as HC. revert HI. clear - HC. induction HC as [|k ks Hk HC IH]; intros HI; cbn [map]; [constructor|]. constructor; [|apply IH; intros; apply HI; auto; now right].
    intros Hin. apply in_map_iff in Hin. destruct Hin as [k' [E Hk']]. apply HI in E; [subst; contradiction|now right|now left].
  - intros k _ [].
Qed.
Definition row_ok (ps : list (R * R)) (els : list string) (d : distances) (row : (nat * nat) * list nat) : Prop :=
  let '((i, j), v) := row in exists a b, nth_error els i = Some a /\ nth_error els j = Some b /\ StronglySorted lt v /\ In (length ps) v /\
    (forall k, In k v -> k <= length ps) /\ (forall l, lists d a b l -> forall k, In k v <-> k = length ps \/ within ps l k) /\ ((forall l, ~ lists d a b l) -> v = seq 0 (S (length ps))).

(** One row for every pair of types i <= j; the rows are ascending, in range and contain the constant function (the last one); the other functions are
    those within reach of a given distance of the pair of elements, or all if no distances are given for it. *)
Theorem C26_active ps z els (d : option distances) : NoDup els -> match d with Some d => proper els d | None => True end ->
  exists rows, active_params (ps ++ [z]) els d = Ok (rows, match d with Some _ => true | None => false end) /\ NoDup (map fst rows) /\ (forall i j, In (i, j) (map fst rows) <-> i <= j < length els) /\
    Forall (row_ok ps els (match d with Some d => d | None => [] end)) rows.
Proof.
  intros HN HD.
  assert (G : forall d2 dd, (forall a b, In a els -> In b els -> position a els <= position b els -> forall l, dget pair_eqb d2 (a, b) = Some l <-> lists dd a b l) ->
    let rows := table (ps ++ [z]) els d2 in NoDup (map fst rows) /\ (forall i j, In (i, j) (map fst rows) <-> i <= j < length els) /\ Forall (row_ok ps els dd) rows).
  { intros d2 dd HG. cbn zeta. rewrite table_ok by exact HN. rewrite map_map. cbn [fst]. split; [|split].
    - pose proof (table_ok (ps ++ [z]) els [] HN) as HT. assert (HI : forall k k', In k (combinations els) -> In k' (combinations els) -> (position (fst k) els, position (snd k) els) = (position (fst k') els, position (snd k') els) -> k = k').
      { intros [a b] [a' b'] H H'. apply comb_In in H, H'. destruct H as [i [j [_ [Hi Hj]]]], H' as [i' [j' [_ [Hi' Hj']]]]. cbn [fst snd]. intros [= E1 E2]. f_equal; [apply (position_inj els)|apply (position_inj els)]; auto; eapply nth_error_In; eauto. }
      clear HT. pose proof (comb_nodup els HN) as HC. revert HI. clear - HC. induction HC as [|k ks Hk HC IH]; intros HI; cbn [map]; [constructor|]. constructor; [|apply IH; intros; apply HI; auto; now right].
      intros Hin. apply in_map_iff in Hin. destruct Hin as [k' [E Hk']]. apply HI in E; [subst; contradiction|now right|now left].
    - intros i j. rewrite in_map_iff. split.
      + intros [[a b] [[= <- <-] Hk]]. apply comb_In in Hk. destruct Hk as [i [j [Hij [Hi Hj]]]]. cbn [fst snd]. rewrite (position_at els i a HN Hi), (position_at els j b HN Hj). split; [exact Hij|]. apply nth_error_Some. congruence.
      + intros [Hij Hj]. destruct (nth_error els i) as [a|] eqn:Ei; [|apply nth_error_None in Ei; lia]. destruct (nth_error els j) as [b|] eqn:Ej; [|apply nth_error_None in Ej; lia]. exists (a, b). cbn [fst snd]. rewrite (position_at els i a HN Ei), (position_at els j b HN Ej). split; [reflexivity|]. apply comb_In. exists i, j. auto.
    - apply Forall_map. apply Forall_forall. intros [a b] Hk. cbn [fst snd row_ok]. apply comb_In in Hk. destruct Hk as [i [j [Hij [Hi Hj]]]]. assert (Pi := position_at els i a HN Hi). assert (Pj := position_at els j b HN Hj).
      assert (Ha : In a els) by (eapply nth_error_In; eauto). assert (Hb : In b els) by (eapply nth_error_In; eauto). specialize (HG a b Ha Hb ltac:(lia)). exists a, b. rewrite Pi, Pj. split; [exact Hi|]. split; [exact Hj|].
      destruct (dget pair_eqb d2 (a, b)) as [ds|].
      + split; [apply nunique_sorted|]. split; [apply matches_ok; now left|]. split; [|split].
        * intros k Hk. apply matches_ok in Hk. destruct Hk as [->|[dis [w [c [_ [Hk _]]]]]]; [lia|]. apply Nat.lt_le_incl, nth_error_Some. congruence.
        * intros l Hl k. assert (El : ds = l) by (apply HG in Hl; congruence). rewrite <- El. apply matches_ok.
        * intros HX. exfalso. apply (HX ds). now apply HG.
      + rewrite app_length. cbn [length]. rewrite Nat.add_1_r. split; [apply StronglySorted_seq|]. split; [apply in_seq; lia|]. split; [intros k Hk; apply in_seq in Hk; lia|]. split; [|reflexivity]. intros l Hl. apply HG in Hl. discriminate. }
  destruct d as [d|].
  - destruct (check_ok els d HD) as [d1 [E1 [H1 H2]]]. destruct (replace_ok els d1 [] H1) as [d2 [E2 H3]]. unfold active_params. rewrite E1. cbn [bind]. rewrite E2. cbn [bind]. eexists. split; [reflexivity|]. apply G. intros a b Ha Hb Hab l. eapply lookup_ok; eauto.
  - eexists. split; [reflexivity|]. apply G. intros a b _ _ _ l. split; [discriminate|intros [[]|[]]].
Qed.
(** Distances given for both orders of a pair: only the later ones are used. *)
Theorem C26_orders_refuted : exists els d rows l, NoDup els /\ lists d "Mg" "O" l /\ within [(1, 2); (1, 5)]%R l 0 /\ active_params [(1, 2); (1, 5); (0, 0)]%R els (Some d) = Ok (rows, true) /\ nth_error rows 1 = Some ((0, 1), [1; 2]).
Proof.
  exists ["Mg"; "O"], [(["Mg"; "O"], Some [2%R]); (["O"; "Mg"], Some [5%R])]. do 2 eexists. split; [repeat constructor; cbn; intuition discriminate|]. split; [left; left; reflexivity|]. split; [exists 2%R, 1%R, 2%R; split; [now left|]; split; [reflexivity|]; right; lra|].
  assert (EM : matches [(1, 2); (1, 5); (0, 0)]%R [5%R] = [1; 2]).
  { unfold matches. cbn [length Nat.sub map concat removelast where_ where_from app]. assert (E1 : active 5%R (1, 2)%R = false) by (destruct (active 5%R (1, 2)%R) eqn:E; [apply active_ok in E; lra|reflexivity]). assert (E2 : active 5%R (1, 5)%R = true) by (apply active_ok; right; lra).
    unfold where_. cbn [where_from]. rewrite E1, E2. reflexivity. }
  split; [unfold active_params; cbn [check_distance mapM fst snd bind]; unfold check_distance; cbn [mapM fst snd bind]; cbn [replace_keys]; reflexivity|]. cbn [table]. unfold table. cbn -[matches]. rewrite EM. reflexivity.
Qed.
(** A key that is not a pair, or distances that are not an array, are refused. *)
Theorem C26_refused ps els (d : distances) :
  (exists q, In q d /\ (length (fst q) <> 2 \/ snd q = None)) ->
  active_params ps els (Some d) = Err RuntimeError.
Proof.
  intros [q [Hq Hb]]. unfold active_params. assert (E : check_distance d = Err RuntimeError); [|rewrite E; reflexivity].
  unfold check_distance. induction d as [|r d IH]; [destruct Hq|]. cbn [mapM]. destruct Hq as [-> | Hq].
  - destruct q as [k v]. cbn [fst snd] in *. destruct k as [|a [|b [|c k]]]; try reflexivity.
    destruct v as [l|]; [|reflexivity]. exfalso. destruct Hb as [Hb|Hb]; [apply Hb; reflexivity|discriminate].
  - rewrite (IH Hq). destruct (fst r) as [|a [|b [|c k]]]; try reflexivity. destruct (snd r); reflexivity.
Qed.
Print Assumptions C26_refused.
Example C26_example : proper ["Mg"; "O"] [(["O"; "Mg"], Some [2%R; 3%R])] /\ NoDup ["Mg"; "O"].
Proof.
  split; [|repeat constructor; cbn; intuition discriminate]. split.
  - intros q [<-|[]]. exists "O", "Mg", [2%R; 3%R]. cbn. tauto.
  - intros [|[|i]] [|[|j]] a b l l' H H'; try reflexivity; try (exfalso; cbn in H; destruct i; discriminate); try discriminate H; cbn in H'; destruct H' as [H'|H']; try discriminate; destruct j; discriminate.
Qed.
Print Assumptions C26_explicit.
Print Assumptions C26_auto.
Print Assumptions C26_auto_short.
Print Assumptions C26_active.
Print Assumptions C26_orders_refuted.
