(** Local numbers of order parameters and the features of a gtinv model. *)
From Verif Require Import Base Num Complex Spec.Poly Spec.ModelParams Spec.Gtinv Model.Cxx Model.Mapping Model.ModelParams Model.Features
  Model.Compute Proofs.Cxx Proofs.Mapping Proofs.ModelParams Proofs.FeatureVals.

Section Index.
  Variables (nt n_fn maxl : nat) (cond : nat -> nat -> list nat).
  Hypothesis Hcond : cond_ok n_fn cond.
  Let tpn := tp_to_n nt cond.
  Let M := mapping_gtinv nt n_fn maxl cond.
  Let T n := nth n (n_to_tp n_fn tpn) [].

  Lemma tpn_row_nodup tp : NoDup (nth tp tpn []).
  Proof.
    unfold tpn, tp_to_n. destruct (Nat.lt_ge_cases tp (length (tp_to_types nt))) as [H|H].
    - rewrite (nth_map_lt _ _ _ [] (0, 0)) by exact H. apply Hcond.
    - rewrite nth_overflow by (now rewrite map_length). constructor.
  Qed.
  Lemma tpn_loop_nodup : NoDup (tpn_loop tpn).
  Proof.
    unfold tpn_loop. rewrite <- flat_map_concat_map. apply NoDup_flat_map.
    - apply (NoDup_map_inv fst). rewrite combine_fst by apply seq_length. apply seq_NoDup.
    - intros [tp l] H. cbn [fst snd]. apply NoDup_map_inj_in; [congruence|].
      destruct (combine_seq_In tpn 0 tp l [] H) as [_ E]. rewrite <- E. apply tpn_row_nodup.
    - intros [tp l] [tp' l'] [a b] H H' Ha Hb. cbn [fst snd] in *.
      apply in_map_iff in Ha, Hb. destruct Ha as [x [Ea _]], Hb as [y [Eb _]].
      assert (tp = tp') by congruence. subst tp'.
      destruct (combine_seq_In tpn 0 tp l [] H) as [_ E], (combine_seq_In tpn 0 tp l' [] H') as [_ E']. congruence.
  Qed.
  Lemma T_nodup n : NoDup (T n).
  Proof.
    unfold T. destruct (Nat.lt_ge_cases n n_fn) as [H|H].
    - unfold n_to_tp. rewrite group_nth by exact H. apply NoDup_map_inj_in.
      + intros [a b] [a' b'] Hx Hy E. apply filter_In in Hx, Hy. cbn in *. destruct Hx as [_ Hx], Hy as [_ Hy].
        apply Nat.eqb_eq in Hx, Hy. congruence.
      + apply NoDup_filter, tpn_loop_nodup.
    - rewrite nth_overflow; [constructor|]. unfold n_to_tp. now rewrite group_length.
  Qed.
  Lemma nlmtp_loop_nodup : NoDup (nlmtp_loop n_fn maxl tpn).
  Proof.
    unfold nlmtp_loop. apply NoDup_flat_map; [apply seq_NoDup| |].
    - intros n _. apply NoDup_flat_map; [apply seq_NoDup| |].
      + intros lm _. apply NoDup_map_inj_in; [congruence|]. apply T_nodup.
      + intros x y z _ _ Hx Hy. apply in_map_iff in Hx, Hy. destruct Hx as [? [<- _]], Hy as [? [E _]]. congruence.
    - intros x y z _ _ Hx Hy. apply in_flat_map in Hx, Hy. destruct Hx as [? [_ Hx]], Hy as [? [_ Hy]].
      apply in_map_iff in Hx, Hy. destruct Hx as [? [<- _]], Hy as [? [E _]]. congruence.
  Qed.

  (** Global number of (n, lm, tp). *)
  Lemma global_at n lm tp : n < n_fn -> lm < length (lm_attrs maxl) -> tp < length (tp_to_types nt) -> In n (nth tp tpn []) ->
    exists j, j < length (T n) /\ nth j (T n) 0 = tp /\
      forall lm', lm' < length (lm_attrs maxl) ->
        let g := off (nrow n_fn maxl tpn) n + (lm' * length (T n) + j) in
        um_get [n; lm'; tp] (gm_global M) = g /\ exists c, nth_error (gm_all M) g = Some (key_attr n_fn maxl tpn g c (n, lm', tp)).
  Proof.
    intros Hn Hlm Htp Hin.
    assert (HT : In tp (T n)) by (unfold T; apply n_to_tp_In; [exact Hn|]; unfold tpn; rewrite tp_to_n_length; auto).
    destruct (In_nth _ _ 0 HT) as [j [Hj Ej]]. exists j. split; [exact Hj|]. split; [exact Ej|].
    intros lm' Hlm' g.
    assert (Hat : nth_error (nlmtp_loop n_fn maxl tpn) g = Some (n, lm', tp)).
    { destruct (key_at n_fn maxl tpn n lm' j (0, 0, 0) Hn Hlm' Hj) as [K1 K2]. fold T in K1, K2.
      rewrite (nth_error_nth' _ (0, 0, 0)) by exact K1. f_equal. unfold g, T. rewrite K2. f_equal. exact Ej. }
    destruct (global_fold n_fn maxl tpn (nlmtp_loop n_fn maxl tpn)) as [_ [G2 [G3 _]]].
    assert (EM : gm_global M = nlmtp_to_global n_fn maxl tpn /\ gm_all M = nlmtp_attrs n_fn maxl tpn).
    { unfold M, mapping_gtinv. fold tpn. destruct (nlmtp_local nt (nlmtp_attrs n_fn maxl tpn)) as [[v c] m]. split; reflexivity. }
    destruct EM as [-> ->]. split.
    - apply G3; [apply nlmtp_loop_nodup|exact Hat].
    - apply G2, Hat.
  Qed.

  Let loc t := nth t (gm_loc M) [].
  Let at_ t h := nth h (loc t) a_dflt.
  (** Local number of (n, lm, tp) for type [t]. *)
  Definition lid (t n lm tp : nat) : nat := um_get [um_get [n; lm; tp] (gm_global M); t] (gm_iloc M).
  Lemma lid_spec t n l i tp : t < nt -> n < n_fn -> l <= maxl -> l * l <= i <= l * l + 2 * l -> tp < length (tp_to_types nt) ->
    In n (nth tp tpn []) -> touch nt t tp = true ->
    let h := lid t n i tp in
    let a := at_ t h in
    h < length (loc t) /\ a_tp a = tp /\ a_n a = n /\ a_lm a = lm_attr l (Z.of_nat i - Z.of_nat (l * l + l)) /\
    a_gid a = um_get [n; i; tp] (gm_global M) /\
    um_get [n; conj_lm l i; tp] (gm_global M) = global_conj (gm_all M) (um_get [n; i; tp] (gm_global M)) /\
    a_icj a = lid t n (conj_lm l i) tp.
  Proof.
    intros Ht Hn Hl Hi Htp Hin Hto h a.
    assert (Hlm : forall k, k <= 2 * l -> l * l + k < length (lm_attrs maxl)) by (intros k Hk; rewrite lm_attrs_length; nia).
    assert (Hlmi : i < length (lm_attrs maxl)) by (replace i with (l * l + (i - l * l)) by lia; apply Hlm; lia).
    set (i' := conj_lm l i). assert (Hi' : l * l <= i' <= l * l + 2 * l) by (unfold i', conj_lm; lia).
    assert (Hlmi' : i' < length (lm_attrs maxl)) by (replace i' with (l * l + (i' - l * l)) by lia; apply Hlm; lia).
    destruct (global_at n i tp Hn Hlmi Htp Hin) as [j [Hj [Ej G]]].
    destruct (G i Hlmi) as [E1 [c Ec]]. destruct (G i' Hlmi') as [E2 [c' Ec']]. clear G.
    set (g := _ + (i * _ + j)) in *. set (g' := _ + (i' * _ + j)) in *.
    pose proof (mapping_gtinv_ok nt n_fn maxl cond) as OK. fold M in OK.
    assert (Elm : nth i (lm_attrs maxl) (lm_attr 0 0) = lm_attr l (Z.of_nat i - Z.of_nat (l * l + l))).
    { replace i with (l * l + (i - l * l)) at 1 by lia. rewrite lm_attrs_nth by lia. f_equal. lia. }
    destruct (go_glob _ _ _ _ _ OK t g _ Ht Ec Hto) as [h0 [a0 [A1 [A2 [A3 A4]]]]].
    assert (Eh : h = h0) by (unfold h, lid; now rewrite E1).
    assert (Ea : a = a0) by (unfold a, at_, loc; rewrite Eh; apply (nth_error_nth _ _ _ A1)).
    rewrite <- Eh, <- Ea in *. clear h0 a0 Eh Ea.
    unfold gcore in A2. cbn [key_attr a_n a_n_id a_lm a_tp a_gid a_gcj] in A2. injection A2 as B1 B2 B3 B4 B5 B6.
    assert (Eg' : Z.of_nat g' = (Z.of_nat g - 2 * (Z.of_nat i - Z.of_nat (l * l + l)) * Z.of_nat (length (T n)))%Z).
    { unfold g', g. assert (Z.of_nat i' = 2 * Z.of_nat (l * l + l) - Z.of_nat i)%Z by (unfold i', conj_lm; lia). nia. }
    split; [unfold loc; apply nth_error_Some; rewrite A1; discriminate|]. split; [congruence|]. split; [congruence|]. split; [congruence|].
    split; [rewrite E1; congruence|]. split.
    - rewrite E1, E2. unfold global_conj. rewrite (nth_error_nth _ _ _ Ec). cbn [key_attr a_gcj]. rewrite Elm. cbn [lm_attr lm_m]. fold (T n). rewrite <- Eg'. lia.
    - destruct (go_conj _ _ _ _ _ OK t h a Ht A1) as [a' [C1 [C2 [C3 [C4 [C5 [C6 [C7 [C8 [C9 C10]]]]]]]]]].
      destruct (go_loc _ _ _ _ _ OK t _ a' Ht C1) as [_ [D2 _]].
      unfold lid. rewrite E2. rewrite <- D2. f_equal. f_equal.
      apply Nat2Z.inj. rewrite C10, B6, Elm. cbn [lm_attr lm_m]. fold (T n). rewrite Eg'. reflexivity.
  Qed.
End Index.
