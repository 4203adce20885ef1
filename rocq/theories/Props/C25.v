(** C25: parameters of models with spin-doubled types. *)
From Verif Require Import Base Model.SpinParams Proofs.SpinParams.

Section C25.
  Variables (El E W : Type).
  Notation params := (params El E W).
  Notation post_init := (post_init El E W).
  Definition active (sp : list bool) : nat := length (filter (fun b => b) sp).
  (** A dict of pairs (i, j) with i <= j *)
  Definition well_keyed (d : list ((nat * nat) * W)) : Prop := NoDup (map fst d) /\ forall k v, In (k, v) d -> fst k <= snd k.

  (** With some spin-active element, there is a non-decreasing map from new to old types: spin-active types have two new types and others one; elements,
      energies, spin flags and pair parameters (for every ordered pair) are those of the old types. *)
  Theorem C25_doubling (p p' : params) m sp en : post_init p = Ok (p', m) -> p_spins _ _ _ p = Some sp -> p_energy _ _ _ p = Some en -> active sp <> 0 ->
    exists old : nat -> nat, exists en' sp',
      p_n_type _ _ _ p' = p_n_type _ _ _ p + active sp /\ p_energy _ _ _ p' = Some en' /\ p_spins _ _ _ p' = Some sp' /\
      length (p_elements _ _ _ p') = p_n_type _ _ _ p' /\ length en' = p_n_type _ _ _ p' /\ length sp' = p_n_type _ _ _ p' /\
      (forall t, t < p_n_type _ _ _ p' -> old t < p_n_type _ _ _ p /\ nth_error (p_elements _ _ _ p') t = nth_error (p_elements _ _ _ p) (old t) /\ nth_error en' t = nth_error en (old t) /\ nth_error sp' t = nth_error sp (old t)) /\
      (forall t u, t <= u -> u < p_n_type _ _ _ p' -> old t <= old u) /\
      (forall i s, nth_error sp i = Some s -> length (filter (fun t => old t =? i) (seq 0 (p_n_type _ _ _ p'))) = if s then 2 else 1) /\
      (forall d, p_pairs _ _ _ p = Some d -> well_keyed d -> exists d', p_pairs _ _ _ p' = Some d' /\
        forall t u, dict_get W d' (t, u) = if (t <=? u) && (u <? p_n_type _ _ _ p') then dict_get W d (old t, old u) else None).
  Proof.
    intros HP HS HE HA. unfold SpinParams.post_init in HP. destruct (check_errors El E W p) as [[]|] eqn:EC; [|discriminate]. cbn [bind] in HP.
    unfold check_errors in EC. rewrite HS, HE in EC. unfold py_assert in EC. destruct (Nat.eqb_spec (length (p_elements El E W p)) (p_n_type El E W p)) as [L1|]; [|discriminate]. cbn [bind] in EC. destruct (Nat.eqb_spec (length en) (p_n_type El E W p)) as [L2|]; [|discriminate]. cbn [bind] in EC. destruct (Nat.eqb_spec (length sp) (p_n_type El E W p)) as [L3|]; [|discriminate]. clear EC.
    unfold set_spins in HP. rewrite HS in HP. fold (active sp) in HP. destruct (Nat.eqb_spec (active sp) 0); [contradiction|]. rewrite HE in HP.
    destruct (spread El E (p_elements El E W p) en sp 0) as [[[[els' en'] sp'] m'] n'] eqn:ES. injection HP as <- <-. destruct (spread_ok El E (p_elements El E W p) en sp 0 els' en' sp' m' n' ltac:(lia) ltac:(lia) ES) as [K1 [K2 [K3 [K4 [K5 K6]]]]]. cbn [Nat.add] in K1. subst n'.
    cbn [p_n_type p_energy p_spins p_elements p_pairs]. exists (origin sp), en', sp'. split; [unfold doubled, active; lia|]. split; [reflexivity|]. split; [reflexivity|]. split; [exact K2|]. split; [exact K3|]. split; [exact K4|].
    split; [intros t Ht; split; [rewrite <- L3; now apply origin_lt|now apply K5]|]. split; [intros; now apply origin_mono|]. split; [apply origin_count|].
    intros d Hd [H1 H2]. rewrite Hd. eexists. split; [reflexivity|]. apply revise_get; auto.
    - intros i t. rewrite K6, Nat.sub_0_r. split; intros [? ?]; (split; [lia|assumption]).
    - apply origin_mono.
    - intros [[a b] v] Hq. exact (H2 (a, b) v Hq).
  Qed.
  (** Without spin-active elements nothing changes. *)
  Theorem C25_unchanged (p p' : params) m : post_init p = Ok (p', m) -> (p_spins _ _ _ p = None \/ exists sp, p_spins _ _ _ p = Some sp /\ ~ In true sp) -> p' = p.
  Proof.
    intros HP H. unfold SpinParams.post_init in HP. destruct (check_errors El E W p); [|discriminate]. cbn [bind] in HP. unfold set_spins in HP. destruct H as [H|[sp [H HN]]]; rewrite H in HP; [congruence|].
    assert (EF : filter (fun b => b) sp = []). { destruct (filter _ sp) as [|b l] eqn:EE; [reflexivity|]. assert (Hb : In b (filter (fun b => b) sp)) by (rewrite EE; now left). apply filter_In in Hb. destruct Hb as [Hb ->]. contradiction. }
    rewrite EF in HP. cbn in HP. congruence.
  Qed.
  (** Spins without atomic energies are not possible. *)
  Theorem C25_energy (p : params) sp : p_spins _ _ _ p = Some sp -> In true sp -> p_energy _ _ _ p = None -> length (p_elements _ _ _ p) = p_n_type _ _ _ p -> length sp = p_n_type _ _ _ p -> post_init p = Err TypeError.
  Proof.
    intros HS HI HE L1 L2. unfold SpinParams.post_init, check_errors, set_spins. rewrite HS, HE, L1, L2, Nat.eqb_refl. cbn [py_assert bind].
    destruct (filter (fun b => b) sp) as [|b l] eqn:EF; [|reflexivity]. exfalso. assert (H : In true (filter (fun b => b) sp)) by (apply filter_In; auto). rewrite EF in H. destruct H.
  Qed.
End C25.
(** The table is revised in the model object itself: parameters built a second time from the same model object (whose table is the revised one) get wrong pairs. *)
Theorem C25_shared_refuted : exists p p' m p'' m' d', post_init nat nat nat p = Ok (p', m) /\ p_pairs _ _ _ p = Some [((0, 0), 7); ((0, 1), 8); ((1, 1), 9)] /\
  post_init nat nat nat (mk_params _ _ _ (p_n_type _ _ _ p) (p_elements _ _ _ p) (p_energy _ _ _ p) (p_spins _ _ _ p) (p_pairs _ _ _ p')) = Ok (p'', m') /\
  p_pairs _ _ _ p'' = Some d' /\ dict_get nat d' (2, 2) = Some 7.
Proof.
  exists (mk_params nat nat nat 2 [26; 8] (Some [1; 2]) (Some [true; false]) (Some [((0, 0), 7); ((0, 1), 8); ((1, 1), 9)])). do 5 eexists. split; [vm_compute; reflexivity|]. split; [reflexivity|]. split; [vm_compute; reflexivity|]. split; [reflexivity|]. vm_compute. reflexivity.
Qed.
Example C25_example : exists p', post_init nat nat nat (mk_params nat nat nat 2 [26; 8] (Some [1; 2]) (Some [true; false]) (Some [((0, 0), 7); ((0, 1), 8); ((1, 1), 9)])) = Ok (p', Some [[0; 1]; [2]]) /\
  p_n_type _ _ _ p' = 3 /\ p_elements _ _ _ p' = [26; 26; 8] /\ p_pairs _ _ _ p' = Some [((0, 0), 7); ((0, 1), 7); ((1, 1), 7); ((0, 2), 8); ((1, 2), 8); ((2, 2), 9)] /\
  well_keyed nat [((0, 0), 7); ((0, 1), 8); ((1, 1), 9)] /\ active [true; false] <> 0.
Proof.
  eexists. split; [vm_compute; reflexivity|]. split; [reflexivity|]. split; [reflexivity|]. split; [reflexivity|]. split; [|discriminate]. split; [repeat constructor; cbn; intuition discriminate|].
  intros k v [[= <- <-]|[[= <- <-]|[[= <- <-]|[]]]]; cbn; lia.
Qed.
Print Assumptions C25_doubling.
Print Assumptions C25_unchanged.
Print Assumptions C25_energy.
Print Assumptions C25_shared_refuted.
