(** Total force. *)
From Verif Require Import Base Num Complex Model.Cxx Model.Mapping Model.ModelParams Model.Features Model.Potential
  Model.Neighbor Model.Compute Model.Eval Spec.Neighbor Proofs.Cxx Proofs.Sums Proofs.FeatureVals Proofs.NeighborList.
From Coq Require Import Ring.

Section ForceSum.
  Context {F : Type} {N : Num F} {NO : NumOrd F} {L : RingLaws F}.
  Local Open Scope num_scope.
  Add Ring Fring : (ring_laws (F:=F)).
  Variable tol : F.
  Variable B : basis F.
  Variable types : nat -> nat.

  Lemma cancel {T} {NT : Num T} {LT : RingLaws T} n i j (x : T) : i < n -> j < n ->
    nsumf (fun k => nsumf (fun e : nat * T => if fst e =? k then snd e else 0) [(i, x); (j, - x)]) (seq 0 n) = 0.
  Proof.
    intros Hi Hj. rewrite (nsumf_ext' _ (fun k => (if i =? k then x else 0) + (if j =? k then - x else 0))).
    2:{ intros k. rewrite !nsumf_cons, nsumf_nil. cbn [fst snd]. rewrite (Radd_comm (ring_laws (F:=T)) (if j =? k then _ else _)). now rewrite (Radd_0_l (ring_laws (F:=T))). }
    rewrite nsumf_add, (nsumf_delta n (fun _ => x) i Hi), (nsumf_delta n (fun _ => - x) j Hj). apply (Ropp_def (ring_laws (F:=T))).
  Qed.

  Theorem forces_zero (A : api F) rows c : half_list rows ->
    nsumf (forces tol B A types (length rows) (csr_of rows) c) (seq 0 (length rows)) = 0.
  Proof.
    intros HR. unfold forces. rewrite (nsumf_ext' _ (fun k => nsumf (fun p => nsumf (fun e : nat * F => if fst e =? k then snd e else 0)
      (let '(i, j, d, f) := p in [(i, snd f c); (j, - snd f c)])) (pairs tol B A types (length rows) (csr_of rows)))).
    2:{ intros k. rewrite accum_spec, nsumf_flat_map. reflexivity. }
    rewrite nsumf_swap. rewrite (nsumf_ext _ (fun _ => 0)); [apply nsumf_zero|]. intros [[[i j] d] f] Hp.
    unfold pairs in Hp. apply in_flat_map in Hp. destruct Hp as [i' [Hi Hp]]. apply in_seq in Hi. unfold row_loop in Hp. rewrite row_csr in Hp by lia.
    apply in_flat_map in Hp. destruct Hp as [[j' d'] [Hj Hp]]. destruct (inside _ _); [|destruct Hp]. destruct Hp as [E|[]]. injection E as <- <- _ _. cbn [fst].
    apply cancel; [lia|]. apply (HR i' j' d'); [lia|exact Hj].
  Qed.

  Lemma re_sum_cx {X} (f : X -> Cx F) l : re (nsumf f l) = nsumf (fun x => re (f x)) l.
  Proof. induction l as [|x l IH]; [reflexivity|]. rewrite !nsumf_cons, <- IH. reflexivity. Qed.

  Variable fp : fparams F.
  Variable n : nat.
  Lemma row_updates_zero {T} {NT : Num T} {LT : RingLaws T} h atom1 (l : list (nat * nat * T)) : atom1 < n -> (forall e, In e l -> snd (fst e) < n) ->
    nsumf (row_updates h atom1 l) (seq 0 n) = 0.
  Proof.
    intros Ha Hl. unfold row_updates.
    rewrite (nsumf_ext' _ (fun k => nsumf (fun p : nat * nat * T => nsumf (fun e : nat * T => if fst e =? k then snd e else 0)
      (let '(idx, j, v) := p in if idx =? h then [(atom1, v); (j, - v)] else [])) l)).
    2:{ intros k. rewrite accum_spec, nsumf_flat_map. reflexivity. }
    rewrite nsumf_swap. rewrite (nsumf_ext _ (fun _ => 0)); [apply nsumf_zero|]. intros [[idx j] v] Hp. specialize (Hl _ Hp). cbn in Hl.
    destruct (idx =? h); [now apply cancel|]. apply nsumf_zero.
  Qed.
  Lemma fill_sum t (l : list nat) : forall v : nat -> nat -> Cx F, (forall h, nsumf (fun k => v k h) l = 0) -> forall h, nsumf (fun k => fill_conj fp t (v k) h) l = 0.
  Proof.
    unfold fill_conj. induction (all_attrs fp t) as [|a l' IH]; intros v Hv h; cbn [fold_left]; [apply Hv|].
    apply (IH (fun k => if lm_conj (a_lm a) then vset (v k) (a_il a) (cscale (sgn (lm_cc (a_lm a))) (conj (v k (a_icj a)))) else v k)).
    intros h'. destruct (lm_conj (a_lm a)); [|apply Hv]. unfold vset. destruct (h' =? a_il a); [|apply Hv].
    specialize (Hv (a_icj a)). apply cx_eq; cbn [re im fst snd].
    - rewrite re_sum_cx. rewrite (nsumf_ext' _ (fun k => sgn (lm_cc (a_lm a)) * re (v k (a_icj a)))) by (intros; cbn; reflexivity).
      rewrite nsumf_scale_l, <- re_sum_cx, Hv. cbn. ring.
    - assert (E : forall f : nat -> Cx F, im (nsumf f l) = nsumf (fun x => im (f x)) l).
      { intros f. clear. induction l as [|x l IH]; [reflexivity|]. rewrite !nsumf_cons, <- IH. reflexivity. }
      rewrite E. rewrite (nsumf_ext' _ (fun k => (- sgn (lm_cc (a_lm a))) * im (v k (a_icj a)))) by (intros; cbn; ring).
      rewrite nsumf_scale_l, <- E, Hv. cbn. ring.
  Qed.
  Lemma deriv_sum f a (d : nat -> nat -> Cx F) l i : (forall h, nsumf (fun k => d k h) l = 0) ->
    nsumf (fun k => nth i (compute_features_deriv f a (d k)) 0) l = 0.
  Proof.
    intros Hd. unfold compute_features_deriv. destruct (le_lt_dec (length (f_mapped_d f)) i) as [Hi|Hi].
    { rewrite (nsumf_ext' _ (fun _ => 0)); [apply nsumf_zero|]. intros k. apply nth_overflow. now rewrite map_length. }
    rewrite (nsumf_ext' _ (fun k => nsumf (fun t => prod_real (cscale (dt_coeff t) (nth (dt_prod t) (compute_products (f_dprod f) a) (0, 0))) (d k (dt_head t))) (nth i (f_mapped_d f) []))).
    2:{ intros k. rewrite (nth_mapd _ _ _ []) by exact Hi. rewrite fold_sum. apply add0l. }
    rewrite nsumf_swap. rewrite (nsumf_ext' _ (fun _ => 0)); [apply nsumf_zero|]. intros t. set (z := cscale _ _). unfold prod_real.
    rewrite nsumf_sub, !nsumf_scale_l. specialize (Hd (dt_head t)).
    assert (E : forall f : nat -> Cx F, im (nsumf f l) = nsumf (fun x => im (f x)) l).
    { intros g. clear. induction l as [|x l IH]; [reflexivity|]. rewrite !nsumf_cons, <- IH. reflexivity. }
    rewrite <- re_sum_cx, <- E, Hd. cbn. ring.
  Qed.
  Lemma order_d_sum (v : nat -> F) (d : nat -> nat -> F) l ids : (forall i, nsumf (fun k => d k i) l = 0) -> nsumf (fun k => order_d v (d k) ids) l = 0.
  Proof.
    intros Hd. destruct ids as [|a [|b [|c [|]]]]; cbn [order_d]; try apply nsumf_zero.
    - apply Hd.
    - rewrite nsumf_add, !nsumf_scale_l, !Hd. ring.
    - rewrite !nsumf_add, !nsumf_scale_l, !Hd. ring.
  Qed.

  Variable neigh : nat -> list (nat * v3 F).
  Hypothesis Hn : forall i j d, i < n -> In (j, d) (neigh i) -> j < n.
  Lemma loop_lt {A} t attrs (p : nat -> F -> A -> bool) i e : i < n -> In e (pair_loop fp types t attrs p (neigh i)) -> snd (fst (fst e)) < n.
  Proof.
    intros Hi H. unfold pair_loop in H. apply in_flat_map in H. destruct H as [[j d] [Hj H]]. destruct (inside fp d); [|destruct H].
    apply in_map_iff in H. destruct H as [a [<- _]]. cbn. exact (Hn i j d Hi Hj).
  Qed.
  Lemma df_sum i h c : i < n -> c < 3 -> nsumf (fun k => df tol B fp types (types i) i (neigh i) (3 * k + c) h) (seq 0 n) = 0.
  Proof.
    intros Hi Hc. unfold df.
    assert (Ek : forall k, ((3 * k + c) / 3 = k /\ (3 * k + c) mod 3 = c)%nat).
    { intros k. split; [symmetry; apply (Nat.div_unique _ 3 k c); lia|symmetry; apply (Nat.mod_unique _ 3 k c); lia]. }
    destruct (fp_gtinv fp).
    - rewrite (nsumf_ext' _ (fun k => nth h (compute_features_deriv (ft fp (types i)) (anlmtp_d0 tol B fp types (types i) (neigh i)) (anlmtp_df tol B fp types c (types i) i (neigh i) k)) 0)).
      2:{ intros k. destruct (Ek k) as [-> ->]. reflexivity. }
      apply deriv_sum. intros h'. unfold anlmtp_df.
      apply (fill_sum (types i) (seq 0 n) (fun k h => row_updates h i (map (fun e => let '(a, j, d, tp) := e in (a_il a, j, gt_val_d B fp c tp (a_n_id a) (lm_key (a_lm a)) d)) (gt_loop tol B fp types (types i) (neigh i))) k)).
      intros h0. apply row_updates_zero; [exact Hi|]. intros e He. apply in_map_iff in He. destruct He as [[[[a j] d] tp] [<- He]]. cbn. unfold gt_loop in He. exact (loop_lt _ _ _ i _ Hi He).
    - rewrite (nsumf_ext' _ (fun k => pair_dn_f B fp types c (types i) i (neigh i) h k)).
      2:{ intros k. destruct (Ek k) as [-> ->]. reflexivity. }
      unfold pair_dn_f. apply row_updates_zero; [exact Hi|]. intros e He. apply in_map_iff in He. destruct He as [[[[a j] d] tp] [<- He]]. cbn. unfold lp_loop in He. exact (loop_lt _ _ _ i _ Hi He).
  Qed.
  Theorem force_features_zero c g : c < 3 -> nsumf (fun k => xf_sum tol B fp types n neigh (3 * k + c) g) (seq 0 n) = 0.
  Proof.
    intros Hc. unfold xf_sum. cbv zeta.
    rewrite (nsumf_ext' _ (fun k => nsumf (fun i => nsumf (fun x => if pt_gid x =? g then order_d (de tol B fp types true (types i) (neigh i)) (df tol B fp types (types i) i (neigh i) (3 * k + c)) (pt_ids x) else 0)
       (all_terms fp (types i))) (seq 0 n))).
    2:{ intros k. rewrite accum_spec, nsumf_flat_map. apply nsumf_ext'. intros i. now rewrite nsumf_map. }
    rewrite nsumf_swap. rewrite (nsumf_ext _ (fun _ => 0)); [apply nsumf_zero|]. intros i Hi. apply in_seq in Hi.
    rewrite nsumf_swap. rewrite (nsumf_ext' _ (fun _ => 0)); [apply nsumf_zero|]. intros x.
    destruct (pt_gid x =? g); [|apply nsumf_zero]. apply order_d_sum. intros h. apply df_sum; [lia|exact Hc].
  Qed.
End ForceSum.
