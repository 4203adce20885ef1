(** C85: force constants from a potential, over all histories of the object. *)
From Coq Require Import Reals Lra.
From Verif Require Import Base Num NumR Model.Structure Model.Readers Proofs.Readers Model.ForceConstants.
Local Open Scope nat_scope.

(** Arrays with the last two axes exchanged *)
Definition swapped {F} (a b : arr (F:=F)) : Prop :=
  exists n p q, a_shape a = [n; p; q] /\ a_shape b = [n; q; p] /\ forall k i j, a_at b k i j = a_at a k j i.
Lemma transpose_swapped {F} (a b : arr (F:=F)) : transpose a = Ok b -> swapped a b.
Proof.
  unfold transpose. destruct (a_shape a) as [|n [|p [|q [|]]]] eqn:E; try discriminate. intros H. exists n, p, q.
  assert (b = mk_arr [n; q; p] (fun k i j => a_at a k j i)) by congruence. subst. repeat split. exact E.
Qed.

Section C85.
  Context {F : Type} {N : Num F} {NO : NumOrd F}.
  Variables (St FC C : Type) (size : St -> nat) (displace : St -> mat3 (F:=F) -> St) (eval : St -> res (mat3 (F:=F))).
  Variable symfc : C -> St -> arr (F:=F) -> arr (F:=F) -> list nat -> res (nat -> FC).
  Notation fc := (fc (F:=F) St FC C).
  Notation op := (op (F:=F) St C).
  Notation step := (step St FC C size displace eval symfc).
  Notation run := (run St FC C size displace eval symfc).
  Notation run_fc := (run_fc St FC C symfc).
  Notation history := (history St FC C size displace eval symfc).
  Notation s_disps := (s_disps St FC C). Notation s_forces := (s_forces St FC C). Notation s_cell := (s_cell St FC C).
  Notation s_cutoff := (s_cutoff St FC C). Notation s_structures := (s_structures St FC C).
  Notation s_fc2 := (s_fc2 St FC C). Notation s_fc3 := (s_fc3 St FC C). Notation s_fc4 := (s_fc4 St FC C).
  Definition held (s : fc) (o : nat) : option FC := match o with 2 => s_fc2 s | 3 => s_fc3 s | 4 => s_fc4 s | _ => None end.
  Definition kept_order (o : nat) : Prop := o = 2 \/ o = 3 \/ o = 4.
  Definition same_data (s s' : fc) : Prop :=
    s_cell s' = s_cell s /\ s_cutoff s' = s_cutoff s /\ s_disps s' = s_disps s /\ s_structures s' = s_structures s /\ s_forces s' = s_forces s.

  Lemma assign_spec orders g : forall s, same_data s (assign St FC C orders g s) /\
    forall o, kept_order o -> held (assign St FC C orders g s) o = if in_dec Nat.eq_dec o orders then Some (g o) else held s o.
  Proof using.
    clear. unfold assign. induction orders as [|q orders IH] using rev_ind; intros s.
    - cbn [fold_left]. split; [repeat split|]. intros o _. destruct (in_dec Nat.eq_dec o []) as [[]|]; reflexivity.
    - rewrite fold_left_app. cbn [fold_left]. destruct (IH s) as [(A1 & A2 & A3 & A4 & A5) B]. set (s' := fold_left _ orders s) in *. clearbody s'. split.
      + unfold same_data. destruct q as [|[|[|[|[|q]]]]]; cbn; auto 10.
      + intros o K. specialize (B o K).
        assert (D : forall P : Prop, (P <-> q = o \/ In o orders) -> (In o (orders ++ [q]) <-> P)) by (intros P HP; rewrite HP, in_app_iff; cbn; tauto).
        destruct (in_dec Nat.eq_dec o (orders ++ [q])) as [I|I]; destruct (in_dec Nat.eq_dec o orders) as [J|J].
        * destruct K as [-> | [-> | ->]]; destruct q as [|[|[|[|[|q]]]]]; exact B || reflexivity.
        * apply in_app_iff in I. destruct I as [I|[->|[]]]; [contradiction|]. destruct K as [-> | [-> | ->]]; reflexivity.
        * elim I. apply in_app_iff. now left.
        * assert (q <> o) by (intros ->; apply I; apply in_app_iff; right; now left).
          destruct K as [-> | [-> | ->]]; destruct q as [|[|[|[|[|q]]]]]; congruence || exact B.
  Qed.

  (** What a run uses: the displacements and forces that the object holds at that moment *)
  Definition computed (s : fc) (orders : list nat) (g : nat -> FC) : Prop :=
    exists d f d' f', s_disps s = Some d /\ s_forces s = Some f /\ swapped d d' /\ swapped f f' /\ symfc (s_cutoff s) (s_cell s) d' f' orders = Ok g.
  Lemma run_fc_spec orders s : 
    (exists g s', run_fc orders s = (s', Ok tt) /\ computed s orders g /\ same_data s s' /\
       forall o, kept_order o -> held s' o = if in_dec Nat.eq_dec o orders then Some (g o) else held s o) \/
    (exists e, run_fc orders s = (s, Err e)).
  Proof using.
    unfold ForceConstants.run_fc. destruct (s_forces s) as [f|] eqn:E1; [|right; eexists; reflexivity]. cbn [some bind].
    destruct (transpose f) as [f'|e] eqn:E2; [|right; eexists; reflexivity]. cbn [bind].
    destruct (s_disps s) as [d|] eqn:E3; [|right; eexists; reflexivity]. cbn [some bind].
    destruct (transpose d) as [d'|e] eqn:E4; [|right; eexists; reflexivity]. cbn [bind].
    destruct (symfc (s_cutoff s) (s_cell s) d' f' orders) as [g|e] eqn:E5; [|right; eexists; reflexivity].
    left. destruct (assign_spec orders g s) as [A B]. exists g, (assign St FC C orders g s). split; [reflexivity|]. split; [|split; [exact A|exact B]].
    exists d, f, d', f'. split; [exact E3|]. split; [exact E1|]. split; [exact (transpose_swapped _ _ E4)|]. split; [exact (transpose_swapped _ _ E2)|exact E5].
  Qed.
  Definition orders_of (q : op) : list nat := match q with RunFC _ _ os => os | Run _ _ _ _ os _ => os | _ => [] end.
  Lemma held_disps s d l o : held (with_disps St FC C s d l) o = held s o.
  Proof using. reflexivity. Qed.
  Lemma set_disps_held d s o : held (fst (set_disps St FC C size displace d s)) o = held s o.
  Proof using. unfold set_disps. destruct (check_shape _ _ _ _ s d); [|reflexivity]. destruct (structures_of _ _ _ _); reflexivity. Qed.
  Lemma set_forces_held f s o : held (fst (set_forces St FC C size f s)) o = held s o.
  Proof using. unfold set_forces. destruct (check_shape _ _ _ _ s f); reflexivity. Qed.

  (** One call: force constants of an order change only in a call that succeeds and asks for the order; they then come from the
      arrays held after the call. *)
  Theorem C85_step s q o : kept_order o -> let '(s', r) := step s q in
    (held s' o = held s o /\ (In o (orders_of q) -> exists e, r = Err e)) \/
    (In o (orders_of q) /\ (exists l, r = Ok l) /\ exists g, held s' o = Some (g o) /\ computed s' (orders_of q) g).
  Proof.
    intros K.
    assert (RF : forall s0 orders, let '(s', r) := run_fc orders s0 in
      (held s' o = held s0 o /\ (In o orders -> exists e, r = Err e)) \/ (In o orders /\ r = Ok tt /\ exists g, held s' o = Some (g o) /\ computed s' orders g)).
    { intros s0 orders. destruct (run_fc_spec orders s0) as [(g & s' & -> & (d & f & d' & f' & C1 & C2 & C3 & C4 & C5) & (A1 & A2 & A3 & A4 & A5) & B)|[e ->]].
      - rewrite (B o K). destruct (in_dec Nat.eq_dec o orders) as [I|I]; [right|left; split; [reflexivity|contradiction]]. split; [exact I|]. split; [reflexivity|]. exists g. split; [reflexivity|].
        exists d, f, d', f'. rewrite A1, A2, A3, A5. auto 10.
      - left. split; [reflexivity|]. intros _. now exists e. }
    destruct q; cbn [ForceConstants.step orders_of].
    - unfold andthen. pose proof (set_disps_held d s o) as H. destruct (set_disps _ _ _ _ _ d s) as [s' [u|e]]; cbn [fst] in H; left; (split; [exact H|intros []]).
    - unfold andthen. pose proof (set_forces_held f s o) as H. destruct (set_forces _ _ _ _ f s) as [s' [u|e]]; cbn [fst] in H; left; (split; [exact H|intros []]).
    - left. split; [reflexivity|intros []].
    - left. split; [reflexivity|intros []].
    - unfold andthen, sample. destruct (bind _ _) as [[d l]|e]; left; (split; [reflexivity|intros []]).
    - specialize (RF s orders). unfold andthen. destruct (run_fc orders s) as [s' [u|e]]; [|exact RF || (left; split; [|intros _; now exists e]; destruct RF as [[H _]|(_ & H & _)]; [exact H|discriminate])].
      destruct RF as [[H1 H2]|(H1 & _ & H2)]; [left; split; [exact H1|intros I; destruct (H2 I); discriminate]|right; split; [exact H1|split; [now eexists|exact H2]]].
    - unfold ForceConstants.run. set (r1 := match disps with Some d => _ | None => _ end). assert (H1 : held (fst r1) o = held s o) by (unfold r1; destruct disps; [apply set_disps_held|reflexivity]).
      destruct r1 as [s1 [u1|e1]]; cbn [andthen fst] in *; [|left; split; [exact H1|intros _; now exists e1]].
      set (r2 := match forces with Some f => _ | None => _ end).
      assert (H2 : held (fst r2) o = held s1 o) by (unfold r2; destruct forces; [apply set_forces_held|destruct (compute_forces _ _ _ _ _ s1); [apply set_forces_held|reflexivity]]).
      destruct r2 as [s2 [u2|e2]]; cbn [andthen fst] in *; [|left; split; [congruence|intros _; now exists e2]].
      specialize (RF s2 orders). destruct (run_fc orders s2) as [s3 [u3|e3]]; cbn [andthen].
      + destruct RF as [[H3 H4]|(H3 & _ & H4)]; [left; split; [congruence|intros I; destruct (H4 I); discriminate]|right; split; [exact H3|split; [now eexists|exact H4]]].
      + left. split; [destruct RF as [[H3 _]|(_ & H3 & _)]; [congruence|discriminate]|intros _; now exists e3].
  Qed.
  (** A history: what is held comes from the last call that succeeded for the order, and from the arrays held then. *)
  Theorem C85_history supercell yaml cutoff s ops o x : new_fc St FC C supercell yaml cutoff = Ok s -> kept_order o -> held (history s ops) o = Some x ->
    exists before q after, ops = before ++ q :: after /\ In o (orders_of q) /\
      (exists l, snd (step (history s before) q) = Ok l) /\
      (exists g, computed (history s (before ++ [q])) (orders_of q) g /\ x = g o) /\
      (forall after1 p after2, after = after1 ++ p :: after2 -> In o (orders_of p) -> exists e, snd (step (history s (before ++ q :: after1)) p) = Err e).
  Proof.
    intros HN K. assert (H0 : held s o = None).
    { unfold new_fc in HN. destruct supercell as [c|]; [assert (s = mk_fc St FC C c cutoff None (Unset St) None None None None) by congruence; subst; destruct K as [->|[->| ->]]; reflexivity|].
      destruct yaml as [[[[c d] l]|]|]; try discriminate. cbn in HN. assert (s = mk_fc St FC C c cutoff None (Given St (Some l)) None None None None) by congruence. subst. destruct K as [->|[->| ->]]; reflexivity. }
    revert x. induction ops as [|q ops IH] using rev_ind; intros x Hx; [cbn in Hx; congruence|].
    assert (HS : history s (ops ++ [q]) = fst (step (history s ops) q)) by (unfold ForceConstants.history; now rewrite fold_left_app).
    pose proof (C85_step (history s ops) q o K) as T. destruct (step (history s ops) q) as [s' r] eqn:E. cbn [fst] in HS.
    destruct T as [[T1 T2]|(T1 & T2 & g & T3 & T4)].
    - rewrite HS, T1 in Hx. destruct (IH x Hx) as (before & p & after & A1 & A2 & A3 & A4 & A5). exists before, p, (after ++ [q]). subst ops.
      split; [now rewrite <- app_assoc|]. split; [exact A2|]. split; [exact A3|]. split; [exact A4|].
      intros after1 p' after2 Ea Io. destruct after2 as [|z after2] using rev_ind.
      + apply app_inj_tail in Ea. destruct Ea as [-> ->]. change (before ++ p :: after1) with (before ++ p :: after1). rewrite E. now apply T2.
      + clear IHafter2. rewrite app_comm_cons, app_assoc in Ea. apply app_inj_tail in Ea. destruct Ea as [Ea _]. exact (A5 after1 p' after2 Ea Io).
    - exists ops, q, []. split; [reflexivity|]. split; [exact T1|]. split; [rewrite E; exact T2|]. split.
      + exists g. rewrite HS. split; [exact T4|]. rewrite HS in Hx. congruence.
      + intros after1 p after2 Ea. destruct after1; discriminate.
  Qed.

  Lemma stack_map m (h : nat -> mat3 (F:=F)) n : 0 < n ->
    exists f, stack (map (fun k => (m, h k)) (seq 0 n)) = Ok f /\ a_shape f = [n; 3; m] /\ forall k i j, k < n -> a_at f k i j = h k i j.
  Proof using.
    intros Hn. set (l := map (fun k => (m, h k)) (seq 0 n)).
    assert (AL : forallb (fun q => fst q =? m) l = true) by (unfold l; induction (seq 0 n) as [|k ks IH]; [reflexivity|]; cbn [map forallb fst]; now rewrite Nat.eqb_refl, IH).
    assert (HD : exists x l', l = (m, x) :: l') by (unfold l; destruct n as [|n']; [lia|]; cbn [seq map]; eauto).
    assert (EL : length l = n) by (unfold l; now rewrite map_length, seq_length).
    assert (EN : forall k, k < n -> nth_error l k = Some (m, h k)) by (intros k Hk; unfold l; rewrite nth_error_map, (nth_error_nth' _ 0) by (now rewrite seq_length); now rewrite seq_nth).
    destruct HD as (x & l' & HD). unfold stack. rewrite HD. rewrite <- HD, AL, EL. eexists. split; [reflexivity|]. split; [reflexivity|].
    intros k i j Hk. cbn [a_at]. now rewrite (EN k Hk).
  Qed.
  (** *** A run with the potential: displaced cells, residual forces subtracted *)
  Theorem C85_run s d orders write n r0 fs : a_shape d = [n; 3; size (s_cell s)] -> 0 < n ->
    (forall k, k < n -> size (displace (s_cell s) (a_at d k)) = size (s_cell s)) ->
    eval (s_cell s) = Ok r0 -> (forall k, k < n -> eval (displace (s_cell s) (a_at d k)) = Ok (fs k)) ->
    exists s' f d' f', s_disps s' = Some d /\ s_forces s' = Some f /\ swapped d d' /\ swapped f f' /\ a_shape f = [n; 3; size (s_cell s)] /\
      (forall k i j, k < n -> a_at f k i j = (fs k i j - r0 i j)%F) /\
      fst (run (Some d) None orders write s) = s' /\
      match symfc (s_cutoff s) (s_cell s) d' f' orders with
      | Ok g => snd (run (Some d) None orders write s) = Ok (if write then save_fc St FC C s' else []) /\
                forall o, kept_order o -> held s' o = if in_dec Nat.eq_dec o orders then Some (g o) else held s o
      | Err e => snd (run (Some d) None orders write s) = Err e /\ forall o, held s' o = held s o
      end.
  Proof.
    intros HS Hn Hz HR HF. unfold ForceConstants.run, set_disps, check_shape, dim. rewrite HS. cbn [get nth_error bind]. cbn [Nat.eqb negb bind]. rewrite Nat.eqb_refl. cbn [negb bind].
    unfold structures_of, dim. rewrite HS. cbn [get nth_error bind Nat.eqb py_assert]. cbn [andthen].
    set (l := map (fun k => displace (s_cell s) (fun i j => a_at d k i j)) (seq 0 n)).
    set (s1 := with_disps St FC C s (Some d) (Given St (Some l))).
    assert (CF : exists f, compute_forces St FC C size eval s1 = Ok f /\ a_shape f = [n; 3; size (s_cell s)] /\ forall k i j, k < n -> a_at f k i j = (fs k i j - r0 i j)%F).
    { unfold compute_forces. change (ForceConstants.s_structures St FC C s1) with (Given St (Some l)). cbv iota beta.
      assert (M1 : mapM eval l = Ok (map fs (seq 0 n))).
      { unfold l. assert (G : forall ks, (forall k, In k ks -> k < n) -> mapM eval (map (fun k => displace (s_cell s) (fun i j => a_at d k i j)) ks) = Ok (map fs ks)).
        { induction ks as [|k ks IH]; intros H; [reflexivity|]. cbn [map mapM]. change (fun i j : nat => a_at d k i j) with (a_at d k). rewrite (HF k) by (apply H; now left). cbn [bind]. rewrite IH by (intros; apply H; now right). reflexivity. }
        apply G. intros k Hk. apply in_seq in Hk. lia. }
      rewrite M1. cbn [bind]. change (ForceConstants.s_cell St FC C s1) with (s_cell s). rewrite HR. cbn [bind].
      assert (M2 : mapM (fun q => do g <- subtract (size (fst q)) (snd q) (size (s_cell s)) r0; Ok (size (fst q), g)) (combine l (map fs (seq 0 n))) =
                   Ok (map (fun k => (size (s_cell s), fun i j => (fs k i j - r0 i j)%F)) (seq 0 n))).
      { unfold l. assert (G : forall ks, (forall k, In k ks -> k < n) -> mapM (fun q => do g <- subtract (size (fst q)) (snd q) (size (s_cell s)) r0; Ok (size (fst q), g))
            (combine (map (fun k => displace (s_cell s) (fun i j => a_at d k i j)) ks) (map fs ks)) = Ok (map (fun k => (size (s_cell s), fun i j => (fs k i j - r0 i j)%F)) ks)).
        { induction ks as [|k ks IH]; intros H; [reflexivity|]. cbn [map combine mapM fst snd]. change (fun i j : nat => a_at d k i j) with (a_at d k).
          rewrite (Hz k) by (apply H; now left). unfold subtract at 1. rewrite Nat.eqb_refl. cbn [bind]. rewrite IH by (intros; apply H; now right). reflexivity. }
        apply G. intros k Hk. apply in_seq in Hk. lia. }
      rewrite M2. cbn [bind]. destruct n as [|n']; [lia|].
      apply (stack_map (size (s_cell s)) (fun k i j => (fs k i j - r0 i j)%F) (S n') Hn). }
    destruct CF as (f & CF1 & CF2 & CF3). rewrite CF1. unfold set_forces, check_shape, dim. rewrite CF2. cbn [get nth_error bind Nat.eqb negb]. cbn [ForceConstants.s_cell s1 with_disps]. rewrite Nat.eqb_refl. cbn [negb andthen].
    set (s2 := with_forces St FC C s1 (Some f)).
    assert (T1 : transpose f = Ok (mk_arr [n; size (s_cell s); 3] (fun k i j => a_at f k j i))) by (unfold transpose; now rewrite CF2).
    assert (T2 : transpose d = Ok (mk_arr [n; size (s_cell s); 3] (fun k i j => a_at d k j i))) by (unfold transpose; now rewrite HS).
    assert (RF : run_fc orders s2 = match symfc (s_cutoff s) (s_cell s) (mk_arr [n; size (s_cell s); 3] (fun k i j => a_at d k j i)) (mk_arr [n; size (s_cell s); 3] (fun k i j => a_at f k j i)) orders with Ok g => (assign St FC C orders g s2, Ok tt) | Err e => (s2, Err e) end).
    { unfold ForceConstants.run_fc. cbn [ForceConstants.s_forces s2 with_forces some bind]. rewrite T1. cbn [bind]. change (ForceConstants.s_disps St FC C s2) with (Some d). cbn [some bind]. rewrite T2. reflexivity. }
    fold s1 s2. rewrite RF.
    pose proof (transpose_swapped _ _ T1) as W1. pose proof (transpose_swapped _ _ T2) as W2.
    set (d' := mk_arr [n; size (s_cell s); 3] (fun k i j => a_at d k j i)) in *. set (f' := mk_arr [n; size (s_cell s); 3] (fun k i j => a_at f k j i)) in *.
    destruct (symfc (s_cutoff s) (s_cell s) d' f' orders) as [g|e] eqn:EG; cbn [andthen fst snd].
    - destruct (assign_spec orders g s2) as [(A1 & A2 & A3 & A4 & A5) B]. exists (assign St FC C orders g s2), f, d', f'. rewrite A3, A5, EG.
      split; [reflexivity|]. split; [reflexivity|]. split; [exact W2|]. split; [exact W1|]. split; [exact CF2|]. split; [exact CF3|]. split; [reflexivity|]. split; [reflexivity|].
      intros o K. rewrite (B o K). reflexivity.
    - exists s2, f, d', f'. rewrite EG. split; [reflexivity|]. split; [reflexivity|]. split; [exact W2|]. split; [exact W1|]. split; [exact CF2|]. split; [exact CF3|]. split; [reflexivity|].
      split; [reflexivity|]. reflexivity.
  Qed.

  (** Sampling and then running is running with the displacements sampled. *)
  Theorem C85_sample_run raws mag pm s s' d orders write : raws <> [] -> sample St FC C size displace raws mag pm s = (s', Ok tt) -> s_disps s' = Some d ->
    run None None orders write s' = run (Some d) None orders write s.
  Proof.
    intros HN HS HD. unfold sample in HS.
    destruct (stack (map (fun m => (size (s_cell s), m)) (sample_disps raws mag pm))) as [d0|] eqn:E1; [|discriminate]. cbn [bind] in HS.
    destruct (structures_of St displace (s_cell s) d0) as [l|] eqn:E2; [|discriminate]. cbn [bind] in HS.
    assert (s' = with_disps St FC C s (Some d0) (Given St (Some l))) by congruence. subst s'. cbn in HD. assert (d0 = d) by congruence. subst d0.
    assert (SH : exists n, a_shape d = [n; 3; size (s_cell s)]).
    { unfold stack in E1. destruct raws as [|m raws]; [contradiction|]. cbn [sample_disps flat_map map app] in E1.
      match type of E1 with (if ?b then _ else _) = _ => destruct b; [|discriminate] end.
      match type of E1 with Ok ?x = _ => assert (x = d) as <- by congruence end. cbn [a_shape]. now eexists. }
    destruct SH as [n SH]. unfold ForceConstants.run, set_disps, check_shape, dim. rewrite SH. cbn [get nth_error bind]. cbn [Nat.eqb negb bind]. rewrite Nat.eqb_refl. cbn [negb bind]. now rewrite E2.
  Qed.

  (** *** Refusals and missing data *)
  Theorem C85_shape s (d : arr (F:=F)) n p q : a_shape d = [n; p; q] -> p <> 3 \/ q <> size (s_cell s) ->
    set_disps St FC C size displace d s = (s, Err RuntimeError) /\ set_forces St FC C size d s = (s, Err RuntimeError).
  Proof.
    intros HS H. unfold set_disps, set_forces, check_shape, dim. rewrite HS. cbn [get nth_error bind].
    destruct (Nat.eqb_spec p 3) as [->|Hp]; [|now split]. cbn [negb get nth_error bind]. destruct (Nat.eqb_spec q (size (s_cell s))) as [->|Hq]; [destruct H; congruence|]. now split.
  Qed.
  (** The checks that look for data do not stop the run: python's own error comes later. *)
  Theorem C85_missing s orders : s_forces s = None \/ (exists f n p q, s_forces s = Some f /\ a_shape f = [n; p; q] /\ s_disps s = None) -> run_fc orders s = (s, Err AttributeError).
  Proof.
    unfold ForceConstants.run_fc. intros [->|(f & n & p & q & -> & HS & ->)]; [reflexivity|]. cbn [some bind]. unfold transpose. now rewrite HS.
  Qed.
  (** An object made from a supercell cannot run before it has structures; *)
  Theorem C85_unsampled cell yaml cutoff s orders write : new_fc St FC C (Some cell) yaml cutoff = Ok s -> run None None orders write s = (s, Err AttributeError).
  Proof. intros H. cbn in H. assert (s = mk_fc St FC C cell cutoff None (Unset St) None None None None) by congruence. now subst. Qed.
  Theorem C85_refused s cutoff orders write : new_fc (F:=F) St FC C None None cutoff = Err RuntimeError /\
    (s_structures s = Given St None -> run None None orders write s = (s, Err RuntimeError)) /\
    (forall r0, s_structures s = Given St (Some []) -> eval (s_cell s) = Ok r0 -> run None None orders write s = (s, Err IndexError)) /\
    (forall f, s_forces s = Some f -> length (a_shape f) <> 3 -> run_fc orders s = (s, Err ValueError)).
  Proof.
    split; [reflexivity|]. split; [|split].
    - intros H. unfold ForceConstants.run. cbn [andthen]. unfold compute_forces. now rewrite H.
    - intros r0 H HR. unfold ForceConstants.run. cbn [andthen]. unfold compute_forces. rewrite H. cbn [mapM bind]. rewrite HR. reflexivity.
    - intros f H HL. unfold ForceConstants.run_fc. rewrite H. cbn [some bind]. unfold transpose. destruct (a_shape f) as [|n [|p [|q [|]]]]; try reflexivity. now elim HL.
  Qed.
  (** Structures with another number of atoms than the cell are refused; a cell of one atom only by the check of the forces. *)
  Theorem C85_foreign s l fs r0 orders write : s_structures s = Given St (Some l) -> mapM eval l = Ok fs -> eval (s_cell s) = Ok r0 -> (exists x, In x l /\ size x <> size (s_cell s)) ->
    (size (s_cell s) <> 1 -> run None None orders write s = (s, Err ValueError)) /\
    (size (s_cell s) = 1 -> (forall x y, In x l -> In y l -> size x = size y) -> run None None orders write s = (s, Err RuntimeError)) /\
    (size (s_cell s) = 1 -> (exists x y, In x l /\ In y l /\ size x <> size y) -> run None None orders write s = (s, Err ValueError)).
  Proof.
    intros HS HF HR (x0 & Hx0 & HN). assert (LF : length l = length fs). { clear - HF. revert fs HF. induction l as [|a l IH]; intros fs H; cbn [mapM] in H; [now injection H as <-|]. destruct (eval a); [|discriminate]. cbn [bind] in H. destruct (mapM eval l) as [t|]; [|discriminate]. cbn [bind] in H. injection H as <-. cbn. f_equal. now apply IH. }
    set (sub := fun q : St * mat3 (F:=F) => do g <- subtract (size (fst q)) (snd q) (size (s_cell s)) r0; Ok (size (fst q), g)).
    assert (HC : forall e, (do gs <- mapM sub (combine l fs); stack gs) = Err e -> run None None orders write s = (s, Err e)).
    { intros e H. unfold ForceConstants.run. cbn [andthen]. unfold compute_forces. rewrite HS, HF. cbn [bind]. rewrite HR. cbn [bind]. fold sub. now rewrite H. }
    assert (HO : size (s_cell s) = 1 -> exists gs, mapM sub (combine l fs) = Ok gs /\ map fst gs = map size l).
    { intros H1. clear - LF H1. revert fs LF. induction l as [|a l IH]; intros [|f fs] L; try discriminate; [exists []; now split|]. cbn [combine mapM]. destruct (IH fs) as (gs & G1 & G2); [now injection L|].
      unfold sub at 1. cbn [fst snd]. unfold subtract. rewrite H1. destruct (Nat.eqb_spec 1 (size a)) as [E|E]; [|cbn [Nat.eqb]]; cbn [bind]; rewrite G1; eexists; (split; [reflexivity|cbn [map fst]; now rewrite G2]). }
    split; [|split].
    - intros H1. apply HC. assert (M : mapM sub (combine l fs) = Err ValueError); [|now rewrite M]. clear - LF Hx0 HN H1. revert fs LF Hx0. induction l as [|a l IH]; intros [|f fs] L Hx; try discriminate; [destruct Hx|]. cbn [combine mapM].
      unfold sub at 1. cbn [fst snd]. unfold subtract. destruct (Nat.eqb_spec (size (s_cell s)) (size a)) as [E|E].
      + cbn [bind]. destruct Hx as [->|Hx]; [congruence|]. rewrite (IH fs); [reflexivity|now injection L|exact Hx].
      + destruct (Nat.eqb_spec (size (s_cell s)) 1); [contradiction|reflexivity].
    - intros H1 HA. destruct (HO H1) as (gs & G1 & G2). unfold ForceConstants.run. cbn [andthen]. unfold compute_forces. rewrite HS, HF. cbn [bind]. rewrite HR. cbn [bind]. fold sub. rewrite G1. cbn [bind].
      destruct l as [|a l]; [destruct Hx0|]. destruct gs as [|[n g] gs]; [discriminate|]. assert (n = size a) by (cbn in G2; congruence). subst n.
      assert (AL : forallb (fun q => fst q =? size a) ((size a, g) :: gs) = true).
      { apply forallb_forall. intros q Hq. apply Nat.eqb_eq. apply (in_map fst) in Hq. rewrite G2 in Hq. apply in_map_iff in Hq. destruct Hq as (z & <- & Hz). apply HA; [exact Hz|now left]. }
      unfold stack. rewrite AL. unfold set_forces, check_shape, dim. cbn [a_shape get nth_error bind Nat.eqb negb]. rewrite <- (HA x0 a Hx0 ltac:(now left)).
      destruct (Nat.eqb_spec (size x0) (size (s_cell s))) as [E|E]; [contradiction|reflexivity].
    - intros H1 (x & y & Hx & Hy & Hxy). apply HC. destruct (HO H1) as (gs & G1 & G2). rewrite G1. cbn [bind].
      destruct l as [|a l]; [destruct Hx|]. destruct gs as [|[n g] gs]; [discriminate|]. assert (n = size a) by (cbn in G2; congruence). subst n.
      assert (AL : forallb (fun q => fst q =? size a) ((size a, g) :: gs) = false).
      { destruct (forallb _ _) eqn:Q; [|reflexivity]. exfalso. apply Hxy. rewrite forallb_forall in Q. assert (K : forall u, In u (a :: l) -> size u = size a); [|now rewrite (K x Hx), (K y Hy)].
        intros u Hu. apply (in_map size) in Hu. rewrite <- G2 in Hu. apply in_map_iff in Hu. destruct Hu as (q & Eq & Hq). specialize (Q q Hq). apply Nat.eqb_eq in Q. congruence. }
      unfold stack. now rewrite AL.
  Qed.
  (** and one made from a file has lost the displacements in the file: it cannot run without being given others. *)
  Theorem C85_file_refuted cell d l cutoff s : new_fc St FC C None (Some (Ok (cell, d, l))) cutoff = Ok s ->
    s_disps s = None /\ s_structures s = Given St (Some l) /\
    forall forces orders write, exists e, snd (run None forces orders write s) = Err e.
  Proof.
    intros H. cbn in H. assert (s = mk_fc St FC C cell cutoff None (Given St (Some l)) None None None None) by congruence. subst. split; [reflexivity|]. split; [reflexivity|].
    intros forces orders write. unfold ForceConstants.run. cbn [andthen]. set (s := mk_fc _ _ _ _ _ _ _ _ _ _ _).
    assert (RF : forall f, exists e, snd (andthen (set_forces St FC C size f s) (fun s0 _ => andthen (run_fc orders s0) (fun s1 _ => (s1, Ok (if write then save_fc St FC C s1 else []))))) = Err e).
    { intros f. unfold set_forces. destruct (check_shape _ _ _ _ s f) as [|e]; cbn [andthen]; [|eexists; reflexivity].
      unfold ForceConstants.run_fc. cbn [ForceConstants.s_forces with_forces some bind]. destruct (transpose f) as [f'|e]; cbn [bind ForceConstants.s_disps with_forces s some andthen]; eexists; reflexivity. }
    destruct forces as [f|]; [apply RF|]. destruct (compute_forces _ _ _ _ _ s) as [f|e]; [apply RF|eexists; reflexivity].
  Qed.

  (** *** The calculator object *)
  Variable make_supercell : option St -> res St.
  Notation init_fc := (init_fc (F:=F) St FC C make_supercell).
  Notation api_run := (api_run_fc St FC C size displace eval symfc).
  (** Displacements and forces given to it are not used: whatever they are, the result is the same. *)
  Theorem C85_given_refuted k d f d' f' raws mag pm orders : api_run (Some d) (Some f) raws mag pm orders k = api_run (Some d') (Some f') raws mag pm orders k.
  Proof. reflexivity. Qed.
  Theorem C85_given_one k d f raws mag pm orders :
    api_run (Some d) None raws mag pm orders k = api_run None None raws mag pm orders k /\ api_run None (Some f) raws mag pm orders k = api_run None None raws mag pm orders k.
  Proof. split; reflexivity. Qed.
  (** After initialisation they make the run fail, where it would sample if they were not given. *)
  Theorem C85_given_fails unitcell cutoff k k' d f raws mag pm orders : init_fc unitcell cutoff k = (k', Ok tt) ->
    api_run (Some d) (Some f) raws mag pm orders k' = (k', Err AttributeError).
  Proof.
    intros H. assert (E : exists sup, k_fc St FC C k' = Some (mk_fc St FC C sup cutoff None (Unset St) None None None None)).
    { unfold ForceConstants.init_fc in H. destruct (match k_structures _ _ _ _ with Some [] => _ | Some (x :: _) => _ | None => _ end) as [first|e]; [|discriminate].
      destruct (make_supercell first) as [sup|e]; [|discriminate]. cbn [bind new_fc] in H. exists sup. apply (f_equal fst) in H. cbn [fst] in H. rewrite <- H. reflexivity. }
    destruct E as [sup E]. unfold api_run_fc. rewrite E. destruct k' as [l u c]. cbn [ForceConstants.k_fc] in E. now rewrite E.
  Qed.
  Theorem C85_uninitialised k d f raws mag pm orders : k_fc St FC C k = None -> api_run d f raws mag pm orders k = (k, Err RuntimeError) /\ api_save_fc St FC C k = Err AttributeError.
  Proof. intros H. unfold api_run_fc, api_save_fc. now rewrite H. Qed.
  (** Initialisation takes the cell given, else the first of the structures held. *)
  Theorem C85_init unitcell cutoff k sup : let chosen := match unitcell with Some u => Some u | None => match k_structures St FC C k with Some (x :: _) => Some x | _ => None end end in
    (unitcell = None -> k_structures St FC C k <> Some []) -> make_supercell chosen = Ok sup ->
    exists k' s, init_fc unitcell cutoff k = (k', Ok tt) /\ k_fc St FC C k' = Some s /\ k_unitcell St FC C k' = chosen /\ s_cell s = sup /\ s_cutoff s = cutoff /\ s_disps s = None /\ (forall o, held s o = None).
  Proof.
    intros chosen H1 H2. unfold ForceConstants.init_fc. destruct unitcell as [u|].
    - cbn [k_structures]. unfold chosen in H2. rewrite H2. cbn [bind new_fc]. do 2 eexists. split; [reflexivity|]. repeat split. intros [|[|[|[|[|]]]]]; reflexivity.
    - unfold chosen in *. destruct (k_structures St FC C k) as [[|x l]|] eqn:E; [now elim H1| |].
      + rewrite H2. cbn [bind new_fc]. do 2 eexists. split; [reflexivity|]. repeat split. intros [|[|[|[|[|]]]]]; reflexivity.
      + rewrite H2. cbn [bind new_fc]. do 2 eexists. split; [reflexivity|]. repeat split. intros [|[|[|[|[|]]]]]; reflexivity.
  Qed.
End C85.

(** *** Sampled displacements *)
Section Sampled.
  Local Open Scope R_scope.
  Variables (St FC C : Type) (size : St -> nat) (displace : St -> mat3 (F:=R) -> St).
  Notation disps_in s raws mag pm := (ForceConstants.s_disps St FC C (fst (sample (N:=R_num) (NO:=R_ord) St FC C size displace raws mag pm s))).
  Definition norm2 (m : nat -> nat -> R) (j : nat) : R := m 0%nat j * m 0%nat j + m 1%nat j * m 1%nat j + m 2%nat j * m 2%nat j.
  Lemma norm_pos (m : nat -> nat -> R) j : (exists i, (i < 3)%nat /\ m i j <> 0) -> 0 < norm2 m j.
  Proof using.
    clear. intros (i & Hi & H). unfold norm2. pose proof (Rle_0_sqr (m 0%nat j)). pose proof (Rle_0_sqr (m 1%nat j)). pose proof (Rle_0_sqr (m 2%nat j)). unfold Rsqr in *.
    destruct i as [|[|[|i]]]; [| | |lia]; pose proof (Rsqr_pos_lt _ H); unfold Rsqr in *; lra.
  Qed.
  Lemma column_norm_R (m : nat -> nat -> R) j : column_norm (N:=R_num) (NO:=R_ord) m j = sqrt (norm2 m j).
  Proof using. clear. unfold column_norm, norm2. cbn. f_equal. ring. Qed.
  Lemma flat_nth {A B} (f : A -> list B) (c : nat) (l : list A) k r x : (forall a, length (f a) = c) -> (r < c)%nat -> nth_error l k = Some x ->
    nth_error (flat_map f l) (c * k + r) = nth_error (f x) r.
  Proof using.
    clear. intros HC Hr. revert k. induction l as [|a l IH]; intros [|k] H; try discriminate; cbn [flat_map nth_error] in *.
    - assert (a = x) by congruence. subst. rewrite nth_error_app1 by (rewrite HC; lia). f_equal. lia.
    - rewrite nth_error_app2 by (rewrite HC; lia). rewrite HC. replace (c * S k + r - c)%nat with (c * k + r)%nat by lia. now apply IH.
  Qed.
  Lemma flat_length {A B} (f : A -> list B) (c : nat) (l : list A) : (forall a, length (f a) = c) -> length (flat_map f l) = (c * length l)%nat.
  Proof using. clear. intros HC. induction l as [|a l IH]; cbn [flat_map length]; [lia|]. rewrite app_length, HC, IH. lia. Qed.
  (** Each sampled displacement points where the drawn vector points and has the length asked for; with both signs, the second of
      each pair undoes the first. *)
  Theorem C85_sampled (s : ForceConstants.fc (F:=R) St FC C) raws mag (pm : bool) : raws <> [] -> let c := (if pm then 2 else 1)%nat in
    exists d, disps_in s raws mag pm = Some d /\ a_shape d = [(c * length raws)%nat; 3%nat; size (ForceConstants.s_cell St FC C s)] /\
      forall k m, nth_error raws k = Some m -> forall j, (exists i, (i < 3)%nat /\ m i j <> 0) ->
        (forall i, a_at d (c * k) i j = mag / sqrt (norm2 m j) * m i j) /\
        norm2 (a_at d (c * k)) j = mag * mag /\
        (pm = true -> forall i, a_at d (c * k + 1) i j = - a_at d (c * k) i j).
  Proof.
    intros HN c. set (dl := sample_disps (N:=R_num) (NO:=R_ord) raws mag pm). set (l := map (fun m => (size (ForceConstants.s_cell St FC C s), m)) dl).
    assert (HL : length dl = (c * length raws)%nat).
    { unfold dl, sample_disps. apply flat_length. intros m. unfold c. destruct pm; reflexivity. }
    assert (HH : exists x l', l = (size (ForceConstants.s_cell St FC C s), x) :: l').
    { unfold l, dl. destruct raws as [|m raws]; [contradiction|]. cbn [sample_disps flat_map app map]. eauto. }
    assert (AL : forallb (fun q => (fst q =? size (ForceConstants.s_cell St FC C s))%nat) l = true).
    { unfold l. clear. induction dl as [|x dl IH]; [reflexivity|]. cbn [map forallb fst]. now rewrite Nat.eqb_refl, IH. }
    set (d := mk_arr [length l; 3%nat; size (ForceConstants.s_cell St FC C s)] (fun k i j => match nth_error l k with Some (_, m) => m i j | None => 0 end)).
    assert (ST : stack (N:=R_num) l = Ok d). { destruct HH as (x & l' & HH). unfold stack. rewrite HH. rewrite <- HH, AL. reflexivity. }
    exists d. split; [|split].
    - unfold sample. fold dl. fold l. rewrite ST. reflexivity.
    - cbn [a_shape d]. unfold l. now rewrite map_length, HL.
    - intros k m Hk j Hj. pose proof (norm_pos m j Hj) as HP. pose proof (sqrt_lt_R0 _ HP) as HQ. pose proof (sqrt_sqrt _ (Rlt_le _ _ HP)) as HS.
      assert (A0 : forall i, a_at d (c * k) i j = mag / sqrt (norm2 m j) * m i j).
      { intros i. cbn [a_at d]. unfold l. rewrite nth_error_map. replace (c * k)%nat with (c * k + 0)%nat by lia. unfold dl, sample_disps.
        rewrite (flat_nth _ c raws k 0 m); [| intros; unfold c; destruct pm; reflexivity | unfold c; destruct pm; lia | exact Hk].
        cbn [nth_error option_map]. unfold normalized. rewrite column_norm_R. cbn. field. lra. }
      split; [exact A0|]. split.
      + unfold norm2 at 1. rewrite !A0.
        transitivity (mag * mag * (norm2 m j) / (sqrt (norm2 m j) * sqrt (norm2 m j))).
        * unfold norm2 at 7. field. lra.
        * rewrite HS. field. lra.
      + intros -> i. rewrite A0. cbn [a_at d]. unfold l. rewrite nth_error_map. unfold dl, sample_disps.
        rewrite (flat_nth _ c raws k 1 m); [| intros; reflexivity | unfold c; lia | exact Hk].
        cbn [nth_error option_map]. unfold normalized. rewrite column_norm_R. cbn. field. lra.
  Qed.
  Theorem C85_sampled_none (s : ForceConstants.fc St FC C) mag pm : sample (N:=R_num) (NO:=R_ord) St FC C size displace [] mag pm s = (s, Err IndexError).
  Proof. reflexivity. Qed.
End Sampled.

(** *** A harmonic potential: whatever forces are left in the cell, the data are harmonic *)
Section Harmonic.
  Local Open Scope R_scope.
  Variables (St FC C : Type) (size : St -> nat) (displace : St -> mat3 (F:=R) -> St) (eval : St -> res (mat3 (F:=R))).
  Variable symfc : C -> St -> arr (F:=R) -> arr (F:=R) -> list nat -> res (nat -> FC).
  Definition product (n : nat) (phi : nat -> nat -> nat -> nat -> R) (u : nat -> nat -> R) (i j : nat) : R :=
    sumn (N:=R_num) n (fun j' => sumn (N:=R_num) 3 (fun i' => phi i j i' j' * u i' j')).
  Theorem C85_harmonic s d orders write n phi F0 r0 fs :
    let cell := ForceConstants.s_cell St FC C s in
    a_shape d = [n; 3%nat; size cell] -> (0 < n)%nat -> (forall k, (k < n)%nat -> size (displace cell (a_at d k)) = size cell) ->
    eval cell = Ok r0 -> (forall i j, r0 i j = F0 i j) ->
    (forall k, (k < n)%nat -> eval (displace cell (a_at d k)) = Ok (fs k) /\ forall i j, fs k i j = F0 i j - product (size cell) phi (a_at d k) i j) ->
    exists f, ForceConstants.s_forces St FC C (fst (run (N:=R_num) St FC C size displace eval symfc (Some d) None orders write s)) = Some f /\
      forall k i j, (k < n)%nat -> a_at f k i j = - product (size cell) phi (a_at d k) i j.
  Proof.
    intros cell H1 H2 H3 H4 H5 H6.
    destruct (C85_run St FC C size displace eval symfc s d orders write n r0 fs H1 H2 H3 H4 (fun k Hk => proj1 (H6 k Hk))) as (s' & f & d' & f' & A1 & A2 & A3 & A4 & A5 & A6 & A7 & _).
    exists f. rewrite A7. split; [exact A2|]. intros k i j Hk. rewrite (A6 k i j Hk), H5, (proj2 (H6 k Hk)). cbn. ring.
  Qed.
End Harmonic.

(** *** Examples: one atom on springs of strength 1, with forces 5 left in the cell; the solver keeps the first numbers it is given *)
From Coq Require Import QArith Qcanon.
Local Open Scope nat_scope.
Definition q (z : Z) : Qc := Q2Qc (inject_Z z).
Definition St0 : Type := nat -> nat -> Qc.
Definition size0 (_ : St0) : nat := 1.
Definition displace0 (_ : St0) (u : mat3 (F:=Qc)) : St0 := u.
Definition eval0 (u : St0) : res (mat3 (F:=Qc)) := Ok (fun i j => (q 5 - u i j)%Qc).
Definition symfc0 (_ : unit) (_ : St0) (d f : arr (F:=Qc)) (_ : list nat) : res (nat -> list Q) :=
  Ok (fun o => [inject_Z (Z.of_nat o); Qcanon.this (a_at d 0 0 0); Qcanon.this (a_at f 0 0 0)]).
Definition at0 (z : Z) : arr (F:=Qc) := mk_arr [1; 3; 1] (fun _ _ _ => q z).
Definition s0 : ForceConstants.fc (F:=Qc) St0 (list Q) unit := mk_fc St0 (list Q) unit (fun _ _ => q 0) tt None (Unset St0) None None None None.
Notation run0 := (run (N:=Qc_num) St0 (list Q) unit size0 displace0 eval0 symfc0).
Notation history0 := (history (N:=Qc_num) (NO:=Qc_ord) St0 (list Q) unit size0 displace0 eval0 symfc0).
Example ex_run : snd (run0 (Some (at0 2)) None [2; 3; 4] true s0) = Ok [(2, [2; 2; -2]%Q); (3, [3; 2; -2]%Q)].
Proof. vm_compute. reflexivity. Qed.
Example ex_shape : snd (run0 (Some (mk_arr [1; 1; 3] (fun _ _ _ => q 2))) None [2] true s0) = Err RuntimeError.
Proof. reflexivity. Qed.
Example ex_unsampled : snd (run0 None None [2] true s0) = Err AttributeError.
Proof. reflexivity. Qed.
(** Third-order force constants of an earlier run are written with the second-order ones of a later run. *)
Theorem C85_stale_refuted : ~ forall ops d orders l, snd (run0 (Some d) None orders true (history0 s0 ops)) = Ok l -> forall o x, In (o, x) l -> In o orders.
Proof.
  intros H. specialize (H [Run St0 unit (Some (at0 2)) None [2; 3] false] (at0 3) [2] [(2, [2; 3; -3]%Q); (3, [3; 2; -2]%Q)]).
  specialize (H ltac:(vm_compute; reflexivity) 3 _ (or_intror (or_introl eq_refl))). destruct H as [H|[]]. discriminate.
Qed.
(** Forces of other displacements are used without complaint. *)
Theorem C85_mixed_refuted : ~ forall ops o x, held St0 (list Q) unit (history0 s0 ops) o = Some x -> exists u, x = [inject_Z (Z.of_nat o); u; Qopp u].
Proof.
  intros H. specialize (H [Run St0 unit (Some (at0 2)) None [2] false; SetDisps St0 unit (at0 3); RunFC St0 unit [2]] 2 [2; 3; -2]%Q ltac:(vm_compute; reflexivity)).
  destruct H as [u H]. assert (u = 3%Q) by congruence. subst. discriminate.
Qed.
(** Fourth-order force constants are computed and never written. *)
Theorem C85_fourth St FC C (s : ForceConstants.fc (F:=Qc) St FC C) o x : In (o, x) (save_fc St FC C s) <-> (o = 2 /\ ForceConstants.s_fc2 St FC C s = Some x) \/ (o = 3 /\ ForceConstants.s_fc3 St FC C s = Some x).
Proof.
  unfold save_fc. rewrite in_app_iff. destruct (ForceConstants.s_fc2 St FC C s) as [a|]; destruct (ForceConstants.s_fc3 St FC C s) as [b|]; cbn [In];
    (split; [intros H; repeat (destruct H as [H|H]); try contradiction; (left; split; congruence) || (right; split; congruence) |
             intros [[-> H]|[-> H]]; try discriminate; (left; left; congruence) || (right; left; congruence)]).
Qed.
Notation api0 := (api_run_fc (N:=Qc_num) (NO:=Qc_ord) St0 (list Q) unit size0 displace0 eval0 symfc0).
Definition k0 := fst (init_fc (F:=Qc) St0 (list Q) unit (fun u => match u with Some u => Ok u | None => Err AttributeError end) (Some (fun _ _ => q 0)) tt (mk_calc St0 (list Q) unit None None None)).
Example ex_api_given : snd (api0 (Some (at0 2)) (Some (at0 1)) [] (q 1) true [2] k0) = Err AttributeError.
Proof. reflexivity. Qed.
Example ex_api_sampled : snd (api0 None None [fun i j => match i with 0 => q 1 | _ => q 0 end] (q 1) true [2] k0) = Ok tt.
Proof. vm_compute. reflexivity. Qed.

Print Assumptions C85_step.
Print Assumptions C85_history.
Print Assumptions C85_run.
Print Assumptions C85_sample_run.
Print Assumptions C85_shape.
Print Assumptions C85_missing.
Print Assumptions C85_unsampled.
Print Assumptions C85_refused.
Print Assumptions C85_foreign.
Print Assumptions C85_file_refuted.
Print Assumptions C85_given_refuted.
Print Assumptions C85_given_one.
Print Assumptions C85_given_fails.
Print Assumptions C85_uninitialised.
Print Assumptions C85_init.
Print Assumptions C85_sampled.
Print Assumptions C85_sampled_none.
Print Assumptions C85_harmonic.
Print Assumptions C85_stale_refuted.
Print Assumptions C85_mixed_refuted.
Print Assumptions C85_fourth.
