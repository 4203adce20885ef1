(** C81: formation energies and stable compounds. *)
From Verif Require Import Base Num NumR Model.Structure Model.Composition Proofs.Composition Model.Hull Proofs.Hull.
From Verif Require Props.C41.
From Coq Require Import Reals Lra Classical_Prop QArith Qcanon.
Local Close Scope Qc_scope.
Local Close Scope Q_scope.
From Coq Require String.
Local Open Scope R_scope.

(** ConvexHull (at least two dimensions): positions of the extreme points, each at least once; RuntimeError (QhullError) exactly if all points are on a hyperplane. *)
Definition hull_ok (hull : list (list R) -> res (list nat)) : Prop :=
  (forall pts v i, hull pts = Ok v -> In i v -> (i < length pts)%nat) /\
  forall k pts, (2 <= k)%nat -> (forall p, In p pts -> length p = k) ->
  match hull pts with
  | Ok v => ~ flat k pts /\ (forall i, In i v -> exists p, nth_error pts i = Some p /\ extreme pts p) /\ (forall p, extreme pts p -> exists i, In i v /\ nth_error pts i = Some p)
  | Err e => e = RuntimeError /\ flat k pts
  end.
(** No mixture of rows with the same composition has a lower energy. *)
Definition stable (rows : list (row (F := R))) (r : row (F := R)) : Prop := forall e, conv (map full rows) (fst r ++ [e]) -> snd r <= e.

Lemma isclose_zero atol rtol a : isclose atol rtol a 0 = true <-> Rabs a <= atol.
Proof.
  unfold isclose. cbn. unfold Rltb. rewrite Rabs_R0, Rmult_0_r, Rplus_0_r, Rminus_0_r. destruct (Rlt_dec atol (Rabs a)); cbn; split; intros; try discriminate; try lra; reflexivity.
Qed.
Lemma row_close_energy atol rtol r els k : row_close atol rtol r (target els k) = true -> Rabs (snd r) <= atol.
Proof. intros H. apply andb_prop in H. destruct H as [_ H]. now apply isclose_zero in H. Qed.
Lemma target_unit els k : target (F := R) els k = (unit_comp (length els) k, 0).
Proof. reflexivity. Qed.
Lemma unit_inj n k k' : (k < n)%nat -> unit_comp n k = unit_comp n k' -> k = k'.
Proof. intros H E. pose proof (unit_nth n k k H) as A. rewrite E, unit_nth in A by exact H. rewrite Nat.eqb_refl in A. destruct (Nat.eqb_spec k k'); [assumption|lra]. Qed.

Lemma pure_comp n k (x : list R) : (k < n)%nat -> length x = n -> Forall (fun a => 0 <= a) x -> total x = 1 -> nth k x 0 <= 1 /\ (nth k x 0 = 1 -> x = unit_comp n k).
Proof.
  intros Hk Lx Px Tx. assert (G : forall x, Forall (fun a => 0 <= a) x -> forall k, (k < length x)%nat -> nth k x 0 <= total x /\ (nth k x 0 = total x -> forall j, (j < length x)%nat -> j <> k -> nth j x 0 = 0)).
        { clear. induction 1 as [|a x Ha P IH]; intros k Hk; cbn in Hk; [lia|]. cbn beta in Ha. pose proof (total_nonneg x P) as T0. destruct k as [|k]; cbn.
          - split; [lra|]. intros E [|j] Hj Dj; [lia|]. assert (Z : total x = 0) by lra. cbn in Hj. destruct (IH j ltac:(lia)) as [B _]. rewrite Forall_forall in P. assert (Lj : (j < length x)%nat) by lia. pose proof (P _ (nth_In x 0 Lj)). cbn beta in *. lra.
          - destruct (IH k ltac:(lia)) as [B1 B2]. split; [lra|]. intros E [|j] Hj Dj; [lra|]. apply B2; [lra|cbn in Hj; lia|lia]. }
        destruct (G x Px k ltac:(lia)) as [B1 B2]. rewrite Tx in B1, B2. split; [exact B1|]. intros E. apply (nth_ext _ _ 0 0); [unfold unit_comp; now rewrite map_length, seq_length|]. intros j Hj. rewrite Lx in Hj. rewrite unit_nth by exact Hj.
        destruct (Nat.eqb_spec j k) as [->|Dj]; [exact E|]. apply B2; [exact E|lia|exact Dj].
Qed.

Section C81.
  Variables (atol rtol : R) (els : list string) (hull : list (list R) -> res (list nat)).
  Let n := length els.
  Hypothesis H_hull : hull_ok hull.
  Hypothesis H_n : (2 <= n)%nat.
  Hypothesis H_atol : 0 <= atol.
  Variables (s s' : state (F := R)) (data : list (row (F := R))) (tol : R) (out : list (row (F := R))).
  Hypothesis H_data : s_data s = Some data.
  Hypothesis H_good : forall r, In r data -> good n r.
  Hypothesis H_tol : 0 < tol.
  (** Rows that pass for an end member have its composition, and an energy below the tolerance. *)
  Hypothesis H_close : forall r k, In r data -> (k < n)%nat -> row_close atol rtol r (target els k) = true -> fst r = unit_comp n k /\ snd r < tol.
  Hypothesis H_run : convex_hull atol rtol els hull s tol = Ok (s', out).
  (** All rows that are looked at: those given and the end members that are missing. *)
  Let all := append_ends atol rtol els data.
  Let D := filter (fun r : row (F := R) => Rltb (snd r) tol) all.

  Lemma all_good r : In r all -> good n r.
  Proof.
    intros H. apply in_app_iff in H. destruct H as [H|H]; [now apply H_good|]. apply in_map_iff in H. destruct H as [k [<- H]]. apply filter_In in H. destruct H as [H _]. apply in_seq in H.
    rewrite target_unit. apply unit_good. unfold n_el in H. fold n in H. lia.
  Qed.
  Lemma D_good r : In r D -> good n r.
  Proof. intros H. apply filter_In in H. now apply all_good. Qed.
  Lemma D_iff r : In r D <-> In r all /\ snd r < tol.
  Proof. unfold D. rewrite filter_In. unfold Rltb. destruct (Rlt_dec (snd r) tol); intuition; try discriminate; lra. Qed.
  (** A row for each end member. *)
  Lemma end_row k : (k < n)%nat -> exists e, In (unit_comp n k, e) D /\ - atol <= e < tol.
  Proof.
    intros H. destruct (existsb (fun r => row_close atol rtol r (target els k)) data) eqn:E.
    - apply existsb_exists in E. destruct E as [r [Hr C]]. destruct (H_close r k Hr H C) as [E1 E2]. exists (snd r). rewrite <- E1, <- surjective_pairing.
      pose proof (row_close_energy atol rtol r els k C) as A. assert (A' : - atol <= snd r) by (unfold Rabs in A; destruct (Rcase_abs (snd r)); lra). split; [|lra]. apply D_iff. split; [|exact E2]. apply in_app_iff. now left.
    - exists 0. split; [|lra]. apply D_iff. split; [|exact H_tol]. apply in_app_iff. right. change (unit_comp n k, 0) with (target (F := R) els k). apply in_map. apply filter_In. split; [apply in_seq; unfold n_el; fold n; lia|]. now rewrite E.
  Qed.
  Lemma end_rows : exists ev, forall k, (k < n)%nat -> In (unit_comp n k, ev k) D /\ - atol <= ev k < tol.
  Proof.
    assert (G : forall m, (m <= n)%nat -> exists ev : nat -> R, forall k, (k < m)%nat -> In (unit_comp n k, ev k) D /\ - atol <= ev k < tol).
    { induction m as [|m IH]; intros Hm; [exists (fun _ => 0); intros; lia|]. destruct (IH ltac:(lia)) as [ev E]. destruct (end_row m ltac:(lia)) as [e He].
      exists (fun k => if (k =? m)%nat then e else ev k). intros k Hk. destruct (Nat.eqb_spec k m) as [->|Dk]; [exact He|]. apply E. lia. }
    destruct (G n (le_n n)) as [ev E]. now exists ev.
  Qed.
  (** Upper mixtures. *)
  Lemma upper x : good n (x, 0) -> exists u, - atol <= u < tol /\ conv (map full D) (x ++ [u]).
  Proof.
    intros G. destruct end_rows as [ev E]. exists (scal x (map ev (seq 0 n))). split; [|apply ends_mix; [intros k Hk; now apply E|exact G]].
    destruct G as [L [P T]]. cbn in *. split.
    - apply scal_bound; auto; [|now rewrite map_length, seq_length]. intros y Hy. apply in_map_iff in Hy. destruct Hy as [k [<- Hk]]. apply in_seq in Hk. apply E. lia.
    - apply scal_bound_lt; auto; [|now rewrite map_length, seq_length]. intros y Hy. apply in_map_iff in Hy. destruct Hy as [k [<- Hk]]. apply in_seq in Hk. apply E. lia.
  Qed.
  Lemma all_above r : In r all -> above D (fst r) (snd r).
  Proof.
    intros H. destruct (Rlt_or_le (snd r) tol) as [L|L].
    - exists (snd r). split; [lra|]. apply conv_in. apply (in_map full). apply D_iff. now split.
    - destruct (upper (fst r)) as [u [Hu C]]; [apply (all_good r H)|]. exists u. split; [lra|exact C].
  Qed.
  Lemma proj_map l : (forall r, In r l -> good n r) -> map project l = @map point point (@tl R) (@map _ point full l).
  Proof. intros G. rewrite map_map. apply map_ext_in. intros r Hr. apply project_full. destruct (G r Hr) as [L _]. lia. Qed.
  Lemma tl_lin t (a b : point) : length a = S n -> length b = S n -> tl (mix t a b) = mix t (tl a) (tl b).
  Proof. intros La Lb. destruct (tl_mix t a b); [assumption|congruence]. Qed.
  Lemma proj_length p : In p (map project D) -> length p = n.
  Proof. intros H. apply in_map_iff in H. destruct H as [r [<- H]]. apply D_good in H. destruct H as [L _]. unfold project. rewrite app_length. cbn. destruct (fst r); cbn in *; lia. Qed.
  (** Out: rows of D; if there are more than the end members, the extreme ones. *)
  Lemma run_spec : (forall r, In r out -> In r D /\ ((n < length D)%nat -> extreme (map project D) (project r))) /\
    (forall r, In r D -> (length D <= n)%nat \/ extreme (map project D) (project r) -> exists r', In r' out /\ project r' = project r).
  Proof.
    destruct (hull_out atol rtol els hull s s' tol out H_run) as [d0 [E [_ [_ [_ [_ [sel [P0 [H1 H2]]]]]]]]]. pose proof (in_range_perm sel (lexsort sel) ([], 0) (lexsort_perm sel)) as P. rewrite <- P0 in P. rewrite H_data in E. injection E as <-. fold all in H1, H2. fold D in H1, H2. fold n in H1, H2.
    destruct (le_lt_dec (length D) n) as [Le|Lt].
    - rewrite (H2 Le) in P. split.
      + intros r Hr. split; [now apply (Permutation_in r P)|lia].
      + intros r Hr _. exists r. split; [now apply (Permutation_in r (Permutation_sym P))|reflexivity].
    - destruct (H1 Lt) as [v [Ev Fv]]. pose proof (proj2 H_hull n (map project D) H_n proj_length) as HH. rewrite Ev in HH. destruct HH as [_ [Hx Hy]]. split.
      + intros r Hr. apply (Permutation_in r P) in Hr. assert (X : exists i, In i v /\ nth_error D i = Some r).
        { clear - Fv Hr. induction Fv as [|i x v sel Hi F IH]; [easy|]. destruct Hr as [->|Hr]; [exists i; split; [now left|exact Hi]|]. destruct (IH Hr) as [j [Hj Ej]]. exists j. split; [now right|exact Ej]. }
        destruct X as [i [Hi Ei]]. split; [now apply nth_error_In in Ei|]. intros _. destruct (Hx i Hi) as [p [Ep X]]. rewrite (map_nth_error project i D Ei) in Ep. injection Ep as <-. exact X.
      + intros r Hr [C|X]; [lia|]. destruct (Hy _ X) as [i [Hi Ei]].
        assert (Y : exists r', In r' sel /\ nth_error D i = Some r').
        { clear - Fv Hi. induction Fv as [|j x v sel Hj F IH]; [easy|]. destruct Hi as [->|Hi]; [exists x; split; [now left|exact Hj]|]. destruct (IH Hi) as [r' [A B]]. exists r'. split; [now right|exact B]. }
        destruct Y as [r' [Hr' Er']]. exists r'. split; [now apply (Permutation_in r' (Permutation_sym P))|]. rewrite (map_nth_error project i D Er') in Ei. now injection Ei.
  Qed.
  (** Only rows that are there, below the tolerance. *)
  Theorem C81_rows r : In r out -> In r all /\ snd r < tol.
  Proof. intros H. apply D_iff. now apply run_spec. Qed.

  (** Every row, reported or not, is at or above a mixture of reported rows. *)
  Theorem C81_complete r : In r all -> exists e, e <= snd r /\ conv (map full out) (fst r ++ [e]).
  Proof.
    assert (OG : forall q, In q out -> good n q) by (intros q Hq; apply all_good; now apply C81_rows).
    assert (IN : forall q, In q D -> conv (map full out) (full q)).
    { destruct run_spec as [R1 R2]. intros q Hq.
      assert (PO : conv (map project out) (project q)).
      { destruct (le_lt_dec (length D) n) as [Le|Lt].
        - destruct (R2 q Hq (or_introl Le)) as [q' [Hq' E]]. apply conv_in. apply in_map_iff. now exists q'.
        - destruct (minkowski n (map project D) proj_length) as [E [E1 E2]]. generalize (E2 (project q) (in_map project D q Hq)). apply conv_mono. intros p Hp.
          specialize (E1 p Hp). assert (Ip := proj1 E1). apply in_map_iff in Ip. destruct Ip as [d [<- Hd]]. destruct (R2 d Hd (or_intror E1)) as [q' [Hq' Eq]]. apply conv_in. apply in_map_iff. now exists q'. }
      rewrite (proj_map out OG) in PO. destruct (conv_lift (@tl R) (map full out) (S n) (project q)) as [m [Cm Em]]; [| |exact PO|].
      - intros p Hp. apply in_map_iff in Hp. destruct Hp as [r0 [<- Hr0]]. apply full_length. now apply OG.
      - intros t a b. apply tl_lin.
      - destruct (conv_rows n out m OG Cm) as [x [e [-> [Lx [_ Tx]]]]]. cbn in *. destruct (D_good q Hq) as [Lq [_ Tq]]. rewrite project_full in Em by lia.
        destruct (determined n x e (fst q) (snd q)) as [-> ->]; [lia|exact Lx|exact Lq|congruence|exact Em|]. exact Cm. }
    intros Hr. destruct (all_above r Hr) as [e [Le C]]. exists e. split; [exact Le|]. revert C. apply conv_mono. intros p Hp. apply in_map_iff in Hp. destruct Hp as [q [<- Hq]]. now apply IN.
  Qed.
  (** More rows than end members as soon as there is one below them. *)
  Lemma many r : In r D -> snd r < - atol -> (n < length D)%nat.
  Proof.
    intros Hr Hs. destruct end_rows as [ev E]. set (l := r :: map (fun k => (unit_comp n k, ev k)) (seq 0 n)).
    assert (ND : NoDup l).
    { constructor.
      - intros H. apply in_map_iff in H. destruct H as [k [<- Hk]]. apply in_seq in Hk. cbn in Hs. destruct (E k ltac:(lia)) as [_ B]. lra.
      - assert (G : forall m a, (a + m <= n)%nat -> NoDup (map (fun k => (unit_comp n k, ev k)) (seq a m))).
        { induction m as [|m IH]; intros a B; cbn; constructor; [|apply IH; lia]. intros H. apply in_map_iff in H. destruct H as [k [Ek Hk]]. apply in_seq in Hk. injection Ek as Ek _. apply unit_inj in Ek; lia. }
        apply G. lia. }
    assert (I : incl l D). { intros q [<-|Hq]; [exact Hr|]. apply in_map_iff in Hq. destruct Hq as [k [<- Hk]]. apply in_seq in Hk. apply E. lia. }
    pose proof (NoDup_incl_length ND I) as B. unfold l in B. cbn in B. rewrite map_length, seq_length in B. lia.
  Qed.
  (** Reported rows below the end members are stable against every mixture. *)
  Theorem C81_stable r : In r out -> snd r < - atol -> stable all r.
  Proof.
    intros Hr Hs e C. destruct (Rle_or_lt (snd r) e) as [|Lt]; [assumption|exfalso].
    destruct (proj1 run_spec r Hr) as [HD X]. specialize (X (many r HD Hs)). destruct X as [_ X].
    destruct (above_conv n D all (fst r) e D_good (fun q Hq => conj (all_good q Hq) (all_above q Hq)) C) as [e0 [L0 C0]].
    destruct (upper (fst r)) as [u [[Hu _] Cu]]; [apply (D_good r HD)|].
    assert (LD : forall p, In p (map full D) -> length p = S n). { intros p Hp. apply in_map_iff in Hp. destruct Hp as [q [<- Hq]]. apply full_length. now apply D_good. }
    pose proof (conv_map (@tl R) (map full D) (S n) _ LD tl_lin C0) as A. pose proof (conv_map (@tl R) (map full D) (S n) _ LD tl_lin Cu) as B. rewrite <- (proj_map D D_good) in A, B.
    set (t := (u - snd r) / (u - e0)). assert (Ht : 0 < t < 1).
    { unfold t. assert (0 < u - e0) by lra. split; [apply Rdiv_lt_0_compat; lra|]. apply Rmult_lt_reg_r with (u - e0); [lra|]. unfold Rdiv. rewrite Rmult_assoc, Rinv_l by lra. lra. }
    destruct (D_good r HD) as [Lr _].
    destruct (X t _ _ Ht A B) as [E _].
    - rewrite <- tl_lin by (rewrite app_length, Lr; cbn; lia). rewrite project_full by lia. f_equal. unfold full. rewrite mix_app by reflexivity. rewrite mix_same. f_equal. cbn. f_equal. unfold t. field. lra.
    - rewrite project_full in E by lia. unfold full in E. destruct (determined n (fst r) e0 (fst r) (snd r)) as [_ E']; auto; [lia|]. lra.
  Qed.
  (** An end member is stable exactly if no row of its composition is lower. *)
  Theorem C81_pure r k : In r all -> (k < n)%nat -> fst r = unit_comp n k -> (stable all r <-> forall q, In q all -> fst q = unit_comp n k -> snd r <= snd q).
  Proof.
    intros Hr Hk Er. split.
    - intros S q Hq Eq. apply S. rewrite Er, <- Eq. apply conv_in. apply in_map_iff. now exists q.
    - intros H e C. rewrite Er in C.
      assert (K : exists x e', unit_comp n k ++ [e] = x ++ [e'] /\ good n (x, e') /\ (nth k x 0 = 1 -> snd r <= e')).
      { apply (C (fun p => exists x e', p = x ++ [e'] /\ good n (x, e') /\ (nth k x 0 = 1 -> snd r <= e'))).
        - intros t a b T [x [f [-> [[Lx [Px Tx]] Hx]]]] [y [g [-> [[Ly [Py Ty]] Hy]]]]. cbn in *. exists (mix t x y), (t * f + (1 - t) * g). rewrite mix_app by congruence. split; [reflexivity|]. split.
          + split; [now apply mix_length|]. split; [now apply mix_nonneg|]. cbn. rewrite total_mix by congruence. rewrite Tx, Ty. ring.
          + rewrite mix_nth by congruence. intros E1. destruct (pure_comp n k x Hk Lx Px Tx) as [Bx _]. destruct (pure_comp n k y Hk Ly Py Ty) as [By _].
            destruct (Req_dec t 0) as [->|T0]; [assert (nth k y 0 = 1) by lra; specialize (Hy ltac:(assumption)); lra|]. destruct (Req_dec t 1) as [->|T1]; [assert (nth k x 0 = 1) by lra; specialize (Hx ltac:(assumption)); lra|].
            assert (nth k x 0 = 1) by nra. assert (nth k y 0 = 1) by nra. specialize (Hx ltac:(assumption)). specialize (Hy ltac:(assumption)). nra.
        - intros p Hp. apply in_map_iff in Hp. destruct Hp as [q [<- Hq]]. exists (fst q), (snd q). split; [reflexivity|]. pose proof (all_good q Hq) as G. split; [rewrite <- surjective_pairing; exact G|]. intros E1. apply H; [exact Hq|]. destruct G as [Lq [Pq Tq]]. now apply pure_comp. }
      destruct K as [x [e' [E [_ K]]]]. apply app_inj_tail in E. destruct E as [<- <-]. apply K. rewrite unit_nth by exact Hk. now rewrite Nat.eqb_refl.
  Qed.
  (** Rows are ordered by the last composition, then the others backwards, then the energy. *)
  Theorem C81_order : StronglySorted (fun r q => lex_ltb (sort_key q) (sort_key r) = false) out.
  Proof.
    destruct (hull_out atol rtol els hull s s' tol out H_run) as [d0 [_ [_ [_ [_ [_ [sel [P0 _]]]]]]]].
    pose proof (in_range_perm sel (lexsort sel) ([], 0) (lexsort_perm sel)) as P. rewrite <- P0 in P.
    assert (L : forall r, In r sel -> length (fst r) = n). { intros r Hr. apply (Permutation_in r (Permutation_sym P)) in Hr. apply (all_good r). now apply C81_rows. }
    pose proof (lexsort_sorted n sel L) as S. rewrite P0. clear - S. induction S as [|i l Sl IH Fl]; cbn; constructor; [exact IH|]. apply Forall_forall. intros q Hq. apply in_map_iff in Hq. destruct Hq as [j [<- Hj]]. rewrite Forall_forall in Fl. now apply Fl.
  Qed.
  (** If rows that pass for end members have exactly zero energy, reported rows of zero energy are end members. *)
  Theorem C81_zero r : (forall q k, In q data -> (k < n)%nat -> row_close atol rtol q (target els k) = true -> snd q = 0) -> In r out -> snd r = 0 -> exists k, (k < n)%nat /\ fst r = unit_comp n k.
  Proof.
    intros EX Hr Z. destruct (proj1 run_spec r Hr) as [HD X].
    assert (ER : forall k, (k < n)%nat -> In (unit_comp n k, 0) D).
    { intros k Hk. apply D_iff. split; [|exact H_tol]. apply in_app_iff. destruct (existsb (fun r => row_close atol rtol r (target els k)) data) eqn:E.
      - left. apply existsb_exists in E. destruct E as [q [Hq C]]. rewrite <- (proj1 (H_close q k Hq Hk C)), <- (EX q k Hq Hk C), <- surjective_pairing. exact Hq.
      - right. change (unit_comp n k, 0) with (target (F := R) els k). apply in_map. apply filter_In. split; [apply in_seq; unfold n_el; fold n; lia|]. now rewrite E. }
    set (l := map (fun k => (unit_comp n k, 0)) (seq 0 n)).
    assert (ND : NoDup l).
    { assert (G : forall m a, (a + m <= n)%nat -> NoDup (map (fun k => (unit_comp n k, 0)) (seq a m))).
      { induction m as [|m IH]; intros a B; cbn; constructor; [|apply IH; lia]. intros H. apply in_map_iff in H. destruct H as [k [Ek Hk]]. apply in_seq in Hk. injection Ek as Ek. apply unit_inj in Ek; lia. }
      apply G. lia. }
    assert (I : incl l D). { intros q Hq. apply in_map_iff in Hq. destruct Hq as [k [<- Hk]]. apply in_seq in Hk. apply ER. lia. }
    destruct (le_lt_dec (length D) n) as [Le|Lt].
    - assert (I' : incl D l) by (apply NoDup_length_incl; [exact ND|unfold l; rewrite map_length, seq_length; exact Le|exact I]).
      apply I' in HD. apply in_map_iff in HD. destruct HD as [k [<- Hk]]. apply in_seq in Hk. exists k. split; [lia|reflexivity].
    - specialize (X Lt). destruct X as [_ X]. destruct (D_good r HD) as [Lr [Pr Tr]]. set (x := fst r) in *.
      assert (EP : exists k, (k < n)%nat /\ 0 < nth k x 0).
      { rewrite <- Lr. clear - Pr Tr. assert (T : 0 < total x) by lra. clear Tr. induction Pr as [|a x Ha P IH]; cbn in T; [lra|]. cbn beta in Ha. destruct (Rle_lt_or_eq_dec _ _ Ha) as [A|A]; [exists 0%nat; cbn; split; [lia|exact A]|]. destruct (IH ltac:(lra)) as [k [Hk B]]. exists (S k). cbn. split; [lia|exact B]. }
      destruct EP as [k [Hk Pk]]. destruct (pure_comp n k x Hk Lr Pr Tr) as [B1 B2]. destruct (Rle_lt_or_eq_dec _ _ B1) as [Lt1|E1]; [|exists k; auto].
      exfalso. set (t := nth k x 0) in *. set (y := mix (/ (1 - t)) x (unit_comp n k)).
      destruct (unit_good n k 0 Hk) as [Lu [Pu Tu]]. cbn in Lu, Pu, Tu. assert (Ly : length y = n) by now apply mix_length.
      assert (Gy : good n (y, 0)).
      { split; [exact Ly|]. split; [|cbn; unfold y; rewrite total_mix by congruence; rewrite Tr, Tu; ring]. cbn. apply Forall_forall. intros a Ha. destruct (In_nth y a 0 Ha) as [j [Hj <-]]. rewrite Ly in Hj. unfold y. rewrite mix_nth by congruence. rewrite unit_nth by exact Hj.
        assert (0 < / (1 - t)) by (apply Rinv_0_lt_compat; lra). destruct (Nat.eqb_spec j k) as [->|_].
        - fold t. replace (/ (1 - t) * t + (1 - / (1 - t)) * 1) with 0 by (field; lra). lra.
        - assert (0 <= nth j x 0) by (rewrite Forall_forall in Pr; apply Pr, nth_In; lia). rewrite Rmult_0_r, Rplus_0_r. apply Rmult_le_pos; lra. }
      assert (Cy : conv (map full D) (y ++ [0])).
      { pose proof (ends_mix n D (fun _ => 0) y ER Gy) as C. replace (scal y (map (fun _ => 0) (seq 0 n))) with 0 in C; [exact C|]. clear. generalize (seq 0 n) as q. induction y as [|a y0 IH]; intros [|i q]; cbn; auto. rewrite <- IH. ring. }
      assert (Cu : conv (map full D) (unit_comp n k ++ [0])) by (apply conv_in; change (unit_comp n k ++ [0]) with (full (unit_comp n k, 0)); apply in_map, ER, Hk).
      assert (LD : forall p, In p (map full D) -> length p = S n). { intros p Hp. apply in_map_iff in Hp. destruct Hp as [q [<- Hq]]. apply full_length. now apply D_good. }
      pose proof (conv_map (@tl R) (map full D) (S n) _ LD tl_lin Cu) as A. pose proof (conv_map (@tl R) (map full D) (S n) _ LD tl_lin Cy) as B. rewrite <- (proj_map D D_good) in A, B.
      destruct (X t _ _ (conj Pk Lt1) A B) as [E _].
      + rewrite <- tl_lin by (rewrite app_length; cbn; lia). rewrite project_full by (fold x; lia). f_equal. unfold full. fold x. rewrite mix_app by congruence. f_equal.
        * apply (nth_ext _ _ 0 0); [rewrite (mix_length t _ _ n); congruence|]. intros j Hj. rewrite mix_nth by congruence. unfold y. rewrite mix_nth by congruence. field. lra.
        * cbn. rewrite Z. f_equal. ring.
      + rewrite project_full in E by (fold x; lia). unfold full in E. fold x in E. destruct (determined n (unit_comp n k) 0 x (snd r)) as [E' _]; auto; [lia|congruence|]. unfold t in Lt1. rewrite <- E', unit_nth, Nat.eqb_refl in Lt1 by exact Hk. lra.
  Qed.
  (** Asking again gives the same. *)
  Theorem C81_again : 0 <= rtol -> (s_names s = None) -> exists s'', convex_hull atol rtol els hull s' tol = Ok (s'', out) /\ s_data s'' = s_data s'.
  Proof.
    intros HR EN. destruct (hull_out atol rtol els hull s s' tol out H_run) as [d0 [E [E' [_ [E3 _]]]]]. rewrite H_data in E. injection E as <-. rewrite EN in E3. cbn in E3.
    assert (SELF : forall t, row_close atol rtol t t = true).
    { intros [x e]. unfold row_close. cbn. assert (C : forall a, isclose atol rtol a a = true). { intros a. unfold isclose. cbn. unfold Rltb. replace (a - a) with 0 by ring. rewrite Rabs_R0. destruct (Rlt_dec _ 0) as [C|]; [|reflexivity]. pose proof (Rabs_pos a). nra. }
      rewrite C, Bool.andb_true_r. clear - C. induction x; cbn; [reflexivity|]. rewrite C. exact IHx. }
    assert (M : missing atol rtol els all = []).
    { unfold missing. assert (A : forall l, (forall i, In i l -> existsb (fun r => row_close atol rtol r (target els i)) all = true) -> filter (fun i => negb (existsb (fun r => row_close atol rtol r (target els i)) all)) l = []).
      { induction l as [|i l IH]; intros H; cbn; [reflexivity|]. rewrite (H i) by now left. cbn. apply IH. intros; apply H; now right. }
      apply A. intros i Hi. apply existsb_exists. destruct (existsb (fun r => row_close atol rtol r (target els i)) data) eqn:EE.
      - apply existsb_exists in EE. destruct EE as [r [Hr C]]. exists r. split; [apply in_app_iff; now left|exact C].
      - exists (target els i). split; [|apply SELF]. apply in_app_iff. right. apply in_map. apply filter_In. split; [exact Hi|]. now rewrite EE. }
    pose proof H_run as R0. unfold convex_hull in R0 |- *. rewrite H_data, EN in R0. rewrite E', E3. cbn [append_names option_map] in *.
    assert (AA : append_ends atol rtol els all = all) by (unfold append_ends at 1; rewrite M; cbn; apply app_nil_r). fold all in R0 |- *. rewrite AA.
    match type of R0 with (do dn <- ?a; _) = _ => destruct a as [[D0 nm0]|]; [|discriminate] end. cbn [bind fst snd] in *.
    match type of R0 with (do dn <- ?a; _) = _ => destruct a as [[D1 nm1]|]; [|discriminate] end. cbn [bind fst snd] in *.
    match type of R0 with (do dn <- ?a; _) = _ => destruct a as [[D2 nm2]|]; [|discriminate] end. cbn [bind fst snd] in *. injection R0 as _ <-. eexists. split; reflexivity.
  Qed.
End C81.
(** Names, where they are in step, stay with their rows. *)
Theorem C81_names atol rtol els hull (s s' : state (F := R)) data tol out : s_data s = Some data -> s_names s = Some (map Id (seq 0 (length data))) -> convex_hull atol rtol els hull s tol = Ok (s', out) ->
  exists l, s_names_convex s' = Some l /\ Forall2 (fun nm r => match nm with Id i => nth_error data i = Some r | End k => exists i, k = S i /\ r = (unit_comp (length els) i, 0) end) l out.
Proof.
  intros E EN H. refine (hull_names atol rtol els hull _ s s' data _ tol out E EN _ _ H).
  - assert (G : forall pre l, Forall2 (fun nm r => match nm with Id i => nth_error (pre ++ l) i = Some r | End k => exists i, k = S i /\ r = (unit_comp (length els) i, 0) end) (map Id (seq (length pre) (length l))) l).
    { intros pre l. revert pre. induction l as [|r l IH]; intros pre; cbn; constructor; [rewrite nth_error_app2, Nat.sub_diag by lia; reflexivity|]. specialize (IH (pre ++ [r])). rewrite <- app_assoc, app_length in IH. cbn in IH. rewrite Nat.add_1_r in IH. exact IH. }
    exact (G [] data).
  - intros i Hi. exists i. split; [reflexivity|]. apply target_unit.
Qed.
(** It succeeds as soon as something is stable; otherwise it may raise RuntimeError. *)
Theorem C81_error atol rtol els hull (s : state (F := R)) data tol e : hull_ok hull -> (2 <= length els)%nat -> 0 <= atol -> s_data s = Some data -> (forall r, In r data -> good (length els) r) -> 0 < tol ->
  (forall r k, In r data -> (k < length els)%nat -> row_close atol rtol r (target els k) = true -> fst r = unit_comp (length els) k /\ snd r < tol) ->
  (forall l, s_names s = Some l -> length l = length data) ->
  convex_hull atol rtol els hull s tol = Err e -> e = RuntimeError /\ forall r, In r data -> - atol <= snd r.
Proof.
  intros HH Hn Ha HD HG Ht HC HN HE. set (n := length els) in *. set (all := append_ends atol rtol els data). set (D := filter (fun r : row (F := R) => Rltb (snd r) tol) all).
  pose proof (hull_total atol rtol els hull s data tol HD HN (proj1 HH)) as T. cbn zeta in T. fold all in T. fold D in T. destruct (length els <? length D)%nat; [|destruct T as [? [? T]]; congruence].
  assert (DG : forall r, In r D -> good n r) by (apply (D_good atol rtol els Hn data tol HG HC)).
  assert (PL : forall p, In p (map project D) -> length p = n) by (apply (proj_length atol rtol els Hn data tol HG HC)).
  pose proof (proj2 HH n (map project D) Hn PL) as K. destruct (hull (map project D)) as [v|e0]; [destruct T as [? [? T]]; congruence|]. rewrite T in HE. injection HE as ->. destruct K as [-> [w [c [Lw [[a [Ia Na]] F]]]]]. split; [reflexivity|].
  intros r Hr. destruct (Rle_or_lt (- atol) (snd r)) as [|Lt]; [assumption|exfalso].
  assert (RD : In r D). { apply (D_iff atol rtol els data tol). split; [apply in_app_iff; now left|lra]. }
  destruct (upper atol rtol els Hn Ha data tol Ht HC (fst r)) as [u [[Hu _] Cu]]; [apply (HG r Hr)|]. fold all in Cu. fold D in Cu.
  assert (LD : forall p, In p (map full D) -> length p = S n). { intros p Hp. apply in_map_iff in Hp. destruct Hp as [q [<- Hq]]. apply full_length. now apply DG. }
  pose proof (conv_map (@tl R) (map full D) (S n) _ LD (tl_lin els) Cu) as A. rewrite <- (proj_map atol rtol els Hn data tol HG HC D DG) in A.
  assert (WA := conv_scal (map project D) w c n _ Lw (fun q Hq => conj (PL q Hq) (F q Hq)) A). assert (WR := F _ (in_map project D r RD)).
  destruct (HG r Hr) as [Lr _]. rewrite project_full in WR by lia. unfold full in WR. destruct (fst r) as [|x0 x]; [cbn in Lr; lia|]. cbn [app tl length] in *.
  destruct (@exists_last _ w ltac:(destruct w; cbn in Lw; [lia|discriminate])) as [w' [we ->]]. rewrite app_length in Lw. cbn in Lw.
  assert (SA : forall p e, length p = length w' -> scal (w' ++ [we]) (p ++ [e]) = scal w' p + we * e). { clear. induction w' as [|b w' IH]; intros [|q p] e H; cbn in *; try congruence; [ring|]. rewrite IH by congruence. ring. }
  rewrite SA in WA, WR by lia. assert (WE : we = 0) by nra. subst we.
  assert (UK : forall k, (k < n)%nat -> scal w' (tl (unit_comp n k)) = c).
  { intros k Hk. destruct (end_row atol rtol els Hn Ha data tol Ht HC k Hk) as [ek [Ik _]]. fold all in Ik. fold D in Ik. pose proof (F _ (in_map project D _ Ik)) as W. unfold project in W. cbn [fst snd] in W. fold n in W. rewrite SA in W; [lra|]. unfold unit_comp. destruct n as [|m]; [lia|]. cbn. rewrite map_length, seq_length. lia. }
  assert (TU : forall k, tl (unit_comp n k) = map (fun i => if (i =? k)%nat then 1 else 0) (seq 1 (n - 1))). { intros k. unfold unit_comp. destruct n as [|m]; [reflexivity|]. cbn. now rewrite Nat.sub_0_r. }
  assert (UV : forall k, scal w' (tl (unit_comp n k)) = if (1 <=? k)%nat then if (k <? 1 + (n - 1))%nat then nth (k - 1) w' 0 else 0 else 0).
  { intros k. rewrite TU, (map_ext _ (fun i => if (k =? i)%nat then 1 else 0)) by (intros i; now rewrite Nat.eqb_sym). apply scal_unit. lia. }
  assert (C0 : c = 0). { rewrite <- (UK 0%nat) by lia. now rewrite UV. }
  assert (W0 : forall b, In b w' -> b = 0). { intros b Hb. destruct (In_nth w' b 0 Hb) as [j [Hj <-]]. specialize (UK (S j) ltac:(lia)). rewrite UV in UK. cbn [Nat.leb] in UK. destruct (Nat.ltb_spec (S j) (1 + (n - 1))); [|lia]. rewrite C0 in UK. replace (S j - 1)%nat with j in UK by lia. exact UK. }
  apply in_app_iff in Ia. destruct Ia as [Ia|[Ia|[]]]; [now apply Na, W0|congruence].
Qed.

(** *** Rows from structures *)
Section Compute.
  Context {P A V : Type}.
  Notation structure := (structure P A V).
  Variables (atol rtol : R) (pinv : mat R -> mat R) (els : list string) (prop : option (list structure -> res (list R))).
  Let n := length els.
  Hypothesis tols : 0 <= atol /\ 0 <= rtol.
  (** End members with counts [ends] and energies [e]. *)
  Variables (ends : mat R) (e : vec R).
  Hypothesis penrose : forall i k, (i < n)%nat -> (k < n)%nat -> sumn n (fun a => sumn n (fun b => ends a i * pinv (fun i k => ends k i) a b * ends k b)) = ends k i.
  Hypothesis independent : forall x : vec R, (forall i, (i < n)%nat -> sumn n (fun k => x k * ends k i) = 0) -> forall k, (k < n)%nat -> x k = 0.
  Definition row_of (x : vec R) (energy : R) : row (F := R) := (map (fun k => x k / sumn n x) (seq 0 n), (energy - sumn n (fun k => x k * e k)) / sumn n x).
  (** Structures that consist of x st k formula units of end member k. *)
  Theorem C81_compute (s : state (F := R)) (x : structure -> vec R) sts ens named : s_comp s = Some (n, with_energies' ends pinv e) ->
    (forall st, In st sts -> mixture' n n ends (x st) (counts (get_n_atoms els st))) -> length ens = length sts ->
    exists s', compute atol rtol els prop s sts (Some ens) named = Ok (s', map (fun '(st, E) => row_of (x st) E) (combine sts ens)) /\
      s_data s' = Some (map (fun '(st, E) => row_of (x st) E) (combine sts ens)) /\ s_names s' = if named then s_names s else Some (map Id (seq 0 (length sts))).
  Proof.
    intros EC M L. unfold compute. rewrite EC, L, Nat.eqb_refl. cbn [negb bind]. unfold n_el. fold n. rewrite Nat.eqb_refl. cbn [negb].
    set (ns := map (fun st => counts (get_n_atoms els st)) sts). set (c := with_energies' ends pinv e).
    assert (F : formation_energies n n atol rtol c ens ns = Ok (map (fun '(st, E) => snd (row_of (x st) E)) (combine sts ens))).
    { rewrite formation_arrays by (unfold ns; now rewrite map_length). cbn [energies_end c with_energies']. unfold ns, c. clear EC. revert ens L. induction sts as [|st sts IH]; intros [|E ens] L; cbn in L; try discriminate; [reflexivity|]. cbn [map combine mapM].
      rewrite (formation_mixture n n atol rtol ends pinv tols penrose independent e (x st) _ E (M st (or_introl eq_refl))). cbn [bind]. rewrite IH; [reflexivity|intros; apply M; now right|congruence]. }
    rewrite F. cbn [bind]. unfold get_compositions.
    assert (AC : forallb (fun n0 => allclose n atol rtol (matvec n (proj n c) n0) n0) ns = true).
    { apply forallb_forall. intros v Hv. apply in_map_iff in Hv. destruct Hv as [st [<- Hst]]. apply (mixture_close n n atol rtol ends pinv tols penrose independent e (x st)). now apply M. }
    rewrite AC. cbn [negb bind].
    assert (RW : combine (map (fun cp : vec R * vec R => map (fst cp) (seq 0 n)) (map (fun n0 => let partition := matvec n (axis_inv c) n0 in (fun k => ndiv (partition k) (sumn n partition), partition)) ns)) (map (fun '(st, E) => snd (row_of (x st) E)) (combine sts ens)) = map (fun '(st, E) => row_of (x st) E) (combine sts ens)).
    { unfold ns. clear F AC EC ns. revert ens L. induction sts as [|st sts IH]; intros [|E ens] L; cbn in L; try discriminate; [reflexivity|]. cbn [map combine]. apply (f_equal2 cons); [|apply IH; [intros; apply M; now right|congruence]].
      unfold row_of at 2. f_equal. cbn [fst]. pose proof (M st (or_introl eq_refl)) as Ms. apply map_ext_in. intros k Hk. apply in_seq in Hk.
      pose proof (part_mixture n n ends pinv penrose independent (x st) _ k Ms ltac:(lia)) as Pk. pose proof (part_sum n n ends pinv penrose independent (x st) _ Ms) as Sk.
      cbn [ndiv R_num]. unfold matvec, dot. cbn [nmul R_num]. unfold c. cbn [axis_inv with_energies']. unfold init. cbn [axis_inv]. rewrite Sk, Pk. reflexivity. }
    match goal with |- context [@combine ?X ?Y (map ?f ?a) (map ?g ?b)] => replace (@combine X Y (map f a) (map g b)) with (map (fun '(st, E) => row_of (x st) E) (combine sts ens)) by (symmetry; exact RW) end. cbv zeta. eexists. split; [reflexivity|]. cbn [s_data s_names]. split; [reflexivity|]. destruct named; [reflexivity|]. rewrite map_length, combine_length, L, Nat.min_id. reflexivity.
  Qed.
End Compute.
  Lemma total_map (f : nat -> R) m : total (map f (seq 0 m)) = sumn m f.
  Proof. induction m as [|m IH]; [reflexivity|]. rewrite seq_S, map_app. cbn [map]. rewrite total_app, IH, sumn_S. reflexivity. Qed.
  (** They meet the conditions of the theorems above. *)
  Theorem C81_good els e x E (n := length els) : (forall k, (k < n)%nat -> 0 <= x k) -> 0 < sumn n x -> good n (row_of els e x E).
  Proof.
    intros H S. unfold row_of. fold n. split; [cbn; now rewrite map_length, seq_length|]. split.
    - apply Forall_forall. intros a Ha. apply in_map_iff in Ha. destruct Ha as [k [<- Hk]]. apply in_seq in Hk. apply Rmult_le_pos; [apply H; lia|left; now apply Rinv_0_lt_compat].
    - cbn. rewrite total_map. unfold Rdiv. rewrite (sumnR_scale_r n (/ sumn n x) x). apply Rinv_r. lra.
  Qed.

(** *** Elements as end members *)
Definition delta : mat R := fun k i => if (k =? i)%nat then 1 else 0.
Lemma delta_sum_r n (x : vec R) i : (i < n)%nat -> sumn n (fun k => x k * delta k i) = x i.
Proof. intros H. rewrite (sumn_ext n _ (fun k => (if Nat.eqb k i then 1 else 0) * x k)); [now apply sumnR_delta|]. intros k _. unfold delta. cbn. ring. Qed.
Lemma sumn_counts l n : length l = n -> sumn n (counts (F := R) l) = INR (list_sum l).
Proof.
  intros <-. rewrite <- total_map. assert (G : forall l pre, total (map (counts (F := R) (pre ++ l)) (seq (length pre) (length l))) = INR (list_sum l)).
  { clear. induction l as [|a l IH]; intros pre; [reflexivity|]. cbn [length seq map total]. specialize (IH (pre ++ [a])). rewrite <- app_assoc, app_length in IH. cbn [app length] in IH. rewrite Nat.add_1_r in IH. rewrite IH. unfold counts at 1. rewrite app_nth2, Nat.sub_diag by lia. cbn [nth]. rewrite nnat_INR. cbn [list_sum fold_right]. rewrite plus_INR. reflexivity. }
  exact (G l []).
Qed.
Section Elements.
  Context {P A V : Type}.
  Notation structure := (structure P A V).
  Variables (atol rtol : R) (pinv : mat R -> mat R) (els : list string) (prop : option (list structure -> res (list R))).
  Let n := length els.
  Hypothesis tols : 0 <= atol /\ 0 <= rtol.
  (** The pseudo-inverse of the unit matrix. *)
  Hypothesis pinv_unit : forall i k, (i < n)%nat -> (k < n)%nat -> pinv (fun i k => delta k i) i k = delta i k.
  (** One row per structure: fractions of atoms, and energy per atom less those of the elements. *)
  Theorem C81_elements es sts ens : length es = n -> length ens = length sts ->
    exists s s', define_end_members pinv els prop start None (Some es) = Ok s /\ compute atol rtol els prop s sts (Some ens) false = Ok (s', map (fun '(st, E) => row_of els (vec_of es) (counts (get_n_atoms els st)) E) (combine sts ens)) /\
      s_data s' = Some (map (fun '(st, E) => row_of els (vec_of es) (counts (get_n_atoms els st)) E) (combine sts ens)) /\ s_names s' = Some (map Id (seq 0 (length sts))).
  Proof.
    intros Le L. unfold define_end_members, initialize, set_energies. rewrite Nat.eqb_refl. cbn [negb bind].
    match goal with |- exists s s', Ok ?q = Ok s /\ _ => exists q; set (s0 := q) end.
    edestruct (C81_compute atol rtol pinv els prop tols delta (vec_of es)) with (s := s0) (x := fun st : structure => counts (F := R) (get_n_atoms els st)) (sts := sts) (ens := ens) (named := false) as [s' [E1 [E2 E3]]].
    - fold n. intros i k Hi Hk. rewrite (sumn_ext _ _ (fun a => pinv (fun i0 k0 => delta k0 i0) a k * delta a i)).
      + rewrite (delta_sum_r n (fun a => pinv (fun i0 k0 => delta k0 i0) a k) i) by exact Hi. rewrite pinv_unit by assumption. unfold delta. now rewrite Nat.eqb_sym.
      + intros a Ha. rewrite (sumn_ext _ _ (fun b => (delta a i * pinv (fun i0 k0 => delta k0 i0) a b) * delta b k)).
        * rewrite (delta_sum_r n (fun b => delta a i * pinv (fun i0 k0 => delta k0 i0) a b) k) by exact Hk. ring.
        * intros b _. unfold delta at 3. rewrite Nat.eqb_sym. reflexivity.
    - fold n. intros y H k Hk. specialize (H k Hk). now rewrite delta_sum_r in H.
    - exact (f_equal Some (f_equal2 pair Le eq_refl)).
    - intros st _ i Hi. symmetry. now apply delta_sum_r.
    - exact L.
    - exists s'. split; [reflexivity|]. split; [exact E1|]. split; [exact E2|exact E3].
  Qed.
  (** With fewer atoms than the inverse tolerance, only a pure row passes for an end member. *)
  Theorem C81_unit_row e l E k : length l = n -> (0 < list_sum l)%nat -> INR (list_sum l) * (atol + rtol) < 1 -> (k < n)%nat ->
    row_close atol rtol (row_of els e (counts l) E) (target els k) = true -> fst (row_of els e (counts l) E) = unit_comp n k.
  Proof.
    intros Ll Pl B Hk C. apply andb_prop in C. destruct C as [C _]. rewrite target_unit in C. cbn [fst] in C. fold n in C.
    pose proof (sumn_counts l n Ll) as SC. assert (PN : 0 < INR (list_sum l)) by (apply (lt_INR 0); exact Pl). set (N := INR (list_sum l)) in *.
    destruct (C81_good els e (counts l) E) as [G1 [G2 G3]]; [intros j Hj; unfold counts; rewrite nnat_INR; apply pos_INR|fold n; rewrite SC; exact PN|]. fold n in G1.
    destruct (pure_comp n k _ Hk G1 G2 G3) as [_ U]. apply U.
    assert (NK : nth k (fst (row_of els e (counts l) E)) 0 = INR (nth k l 0%nat) / N). { unfold row_of. cbn [fst]. fold n. rewrite (map_nth_in _ _ _ _ 0%nat) by now rewrite seq_length. rewrite seq_nth by exact Hk. rewrite SC. unfold counts. now rewrite nnat_INR. }
    rewrite forallb_forall in C. specialize (C (nth k (fst (row_of els e (counts l) E)) 0, nth k (unit_comp n k) 0)).
    rewrite <- combine_nth in C by (rewrite G1; unfold unit_comp; now rewrite map_length, seq_length). specialize (C ltac:(apply nth_In; rewrite combine_length, G1; unfold unit_comp; rewrite map_length, seq_length, Nat.min_id; exact Hk)).
    rewrite combine_nth in C by (rewrite G1; unfold unit_comp; now rewrite map_length, seq_length). rewrite unit_nth, Nat.eqb_refl in C by exact Hk.
    destruct (pure_comp n k _ Hk G1 G2 G3) as [LE _]. rewrite NK in *. unfold isclose in C. cbn in C. unfold Rltb in C. rewrite Rabs_R1, Rmult_1_r in C. destruct (Rlt_dec (atol + rtol) (Rabs (INR (nth k l 0%nat) / N - 1))) as [|C']; [discriminate|].
    assert (B2 : 1 - INR (nth k l 0%nat) / N <= atol + rtol). { rewrite Rabs_minus_sym in C'. rewrite Rabs_right in C' by lra. lra. }
    assert (B3 : N - INR (nth k l 0%nat) < 1). { apply Rle_lt_trans with (N * (atol + rtol)); [|exact B]. replace (N - INR (nth k l 0%nat)) with (N * (1 - INR (nth k l 0%nat) / N)) by (field; lra). apply Rmult_le_compat_l; lra. }
    assert (B4 : (list_sum l <= nth k l 0)%nat). { apply Nat.lt_succ_r. apply INR_lt. rewrite S_INR. fold N. lra. }
    assert (B5 : INR (nth k l 0%nat) <= N). { apply Rmult_le_reg_r with (/ N); [now apply Rinv_0_lt_compat|]. rewrite Rinv_r by lra. exact LE. }
    apply le_INR in B4. fold N in B4. replace (INR (nth k l 0%nat)) with N by lra. field. lra.
  Qed.
End Elements.

(** *** End members of lowest energy *)
Section Ends.
  Context {P A V : Type}.
  Notation structure := (structure P A V).
  Definition eligible (ele : string) (st : structure) : Prop := (length (n_atoms st) <= 1)%nat /\ exists l, elements st = ele :: l.
  Definition per_atom (st : structure) (E : R) : R := E / INR (length (elements st)).
  Let step (ele : string) := fun (m : R * option structure) '(st, ene) =>
    if (1 <? length (n_atoms st))%nat || negb (match elements st with e :: _ => String.eqb e ele | [] => false end) then m
    else let per := ndiv ene (nnat (length (elements st))) in if nltb per (fst m) then (per, Some st) else m.
  Lemma step_spec ele m st E : (eligible ele st /\ step ele m (st, E) = (if Rltb (per_atom st E) (fst m) then (per_atom st E, Some st) else m)) \/ (~ eligible ele st /\ step ele m (st, E) = m).
  Proof.
    unfold step. destruct (Nat.ltb_spec 1 (length (n_atoms st))); cbn [orb]; [right; split; [intros [C _]; lia|reflexivity]|].
    destruct (elements st) as [|e l] eqn:EE; cbn [negb]; [right; split; [intros [_ [l C]]; congruence|reflexivity]|]. destruct (String.eqb_spec e ele) as [->|D]; cbn [negb].
    - left. split; [split; [lia|eauto]|]. unfold per_atom. rewrite EE, nnat_INR. reflexivity.
    - right. split; [intros [_ [l' C]]; congruence|reflexivity].
  Qed.
  Lemma fold_step ele l : forall m0 : R * option structure, let m := fold_left (step ele) l m0 in
    (fst m <= fst m0) /\ (forall st E, In (st, E) l -> eligible ele st -> fst m <= per_atom st E) /\
    (m = m0 \/ exists st E, In (st, E) l /\ eligible ele st /\ m = (per_atom st E, Some st) /\ per_atom st E < fst m0).
  Proof.
    induction l as [|[st E] l IH]; intros m0; cbn [fold_left]; [split; [lra|split; [intros ? ? []|now left]]|].
    cbv zeta. specialize (IH (step ele m0 (st, E))). cbv zeta in IH. set (m := fold_left _ l _) in *. destruct IH as [I1 [I2 I3]].
    assert (S1 : fst (step ele m0 (st, E)) <= fst m0 /\ (eligible ele st -> fst (step ele m0 (st, E)) <= per_atom st E) /\ (step ele m0 (st, E) = m0 \/ (eligible ele st /\ step ele m0 (st, E) = (per_atom st E, Some st) /\ per_atom st E < fst m0))).
    { destruct (step_spec ele m0 st E) as [[El ->]|[Ne ->]].
      - unfold Rltb. destruct (Rlt_dec (per_atom st E) (fst m0)); cbn [fst]; [split; [lra|split; [lra|right; auto]]|split; [lra|split; [lra|now left]]].
      - split; [lra|split; [tauto|now left]]. }
    destruct S1 as [S1 [S2 S3]]. split; [lra|]. split.
    - intros st' E' [[= <- <-]|H] El; [specialize (S2 El); lra|now apply I2].
    - destruct I3 as [->|[st' [E' [H1 [H2 [H3 H4]]]]]].
      + destruct S3 as [->|[El [-> S3]]]; [now left|]. right. exists st, E. split; [now left|]. auto.
      + right. exists st', E'. split; [now right|]. split; [exact H2|]. split; [exact H3|lra].
  Qed.
  (** The structure of lowest energy per atom among those of one block of atoms of the element. *)
  Theorem C81_endmember big ele (sts : list structure) ens :
    match find_one big ele sts ens with
    | Ok (st, e) => exists E, In (st, E) (combine sts ens) /\ eligible ele st /\ e = per_atom st E /\ e < big /\ forall st' E', In (st', E') (combine sts ens) -> eligible ele st' -> e <= per_atom st' E'
    | Err x => x = RuntimeError /\ forall st' E', In (st', E') (combine sts ens) -> eligible ele st' -> big <= per_atom st' E'
    end.
  Proof.
    unfold find_one. change (fun (m : R * option structure) '(st, ene) => _) with (step ele). destruct (fold_step ele (combine sts ens) (big, None)) as [F1 [F2 F3]]. cbv zeta in *. set (m := fold_left _ _ _) in *. cbn [fst] in *.
    destruct F3 as [E|[st [E [H1 [H2 [H3 H4]]]]]]; [rewrite E|rewrite H3].
    - split; [reflexivity|]. intros st' E' H El. specialize (F2 st' E' H El). rewrite E in F2. exact F2.
    - exists E. split; [exact H1|]. split; [exact H2|]. split; [reflexivity|]. split; [exact H4|]. intros st' E' H El. specialize (F2 st' E' H El). rewrite H3 in F2. exact F2.
  Qed.
  (** With an energy of element k that is not above that of a structure of it, its row has no negative energy. *)
  Theorem C81_pure_row els es k ele (st : structure) N E : NoDup els -> nth_error els k = Some ele -> length es = length els -> elements st = repeat ele N -> (0 < N)%nat ->
    snd (row_of els (vec_of es) (counts (get_n_atoms els st)) E) = per_atom st E - nth k es 0 /\ fst (row_of els (vec_of es) (counts (get_n_atoms els st)) E) = unit_comp (length els) k.
  Proof.
    intros ND Ek Le EE HN. assert (Hk : (k < length els)%nat) by (apply nth_error_Some; congruence). assert (PN : 0 < INR N) by (apply (lt_INR 0); exact HN). set (n := length els) in *.
    assert (CV : forall j, (j < n)%nat -> counts (F := R) (get_n_atoms els st) j = INR N * (if (j =? k)%nat then 1 else 0)).
    { intros j Hj. unfold counts, get_n_atoms. rewrite nnat_INR. destruct (nth_error els j) as [ej|] eqn:Ej; [|apply nth_error_None in Ej; fold n in Ej; lia].
      rewrite (nth_error_nth _ j 0%nat (map_nth_error _ j els Ej)). rewrite EE. destruct (Nat.eqb_spec j k) as [->|D].
      - assert (ej = ele) by congruence. subst ej. rewrite count_occ_repeat_eq by reflexivity. ring.
      - assert (D' : ele <> ej). { intros ->. apply D. eapply NoDup_nth_error; [exact ND|exact Hj|congruence]. } rewrite count_occ_repeat_neq by (intros C; apply D'; congruence). cbn. ring. }
    assert (SC : sumn n (counts (F := R) (get_n_atoms els st)) = INR N).
    { rewrite (sumn_ext n _ (fun j => (if Nat.eqb j k then 1 else 0) * INR N)) by (intros j Hj; rewrite CV by exact Hj; cbn; ring). exact (sumnR_delta n k (fun _ => INR N) Hk). }
    unfold row_of. fold n. rewrite SC. cbn [fst snd]. split.
    - rewrite (sumn_ext n _ (fun j => (if Nat.eqb j k then 1 else 0) * (INR N * vec_of es j))) by (intros j Hj; rewrite CV by exact Hj; cbn; ring). rewrite (sumnR_delta n k (fun j => INR N * vec_of es j) Hk). unfold per_atom. rewrite EE, repeat_length. unfold vec_of. cbn. field. lra.
    - unfold unit_comp. apply map_ext_in. intros j Hj. apply in_seq in Hj. rewrite CV by lia. destruct (j =? k)%nat; field; lra.
  Qed.
End Ends.

(** *** What does not hold, and an example *)
Import String.StringSyntax.
Local Open Scope string_scope.
Local Open Scope list_scope.
Module Ex.
  Definition ag_au : list string := ["Ag"; "Au"].
  Definition ten8 : R := / 100000000.
  Definition ten5 : R := / 100000.
  Definition with_data (d : list (row (F := R))) : state (F := R) := {| s_comp := None; s_data := Some d; s_names := None; s_convex := None; s_names_convex := None |}.
  Definition run hull d := convex_hull ten8 ten5 ag_au hull (with_data d) ten8.
End Ex.
Import Ex.
(** Vertices in the plane. *)
Lemma extreme_plane pts (p w w' : point) : (forall q, In q pts -> length q = 2%nat) -> In p pts -> length w = 2%nat -> length w' = 2%nat ->
  (forall q, In q pts -> scal w q <= scal w p) -> (forall q, In q pts -> scal w' q <= scal w' p) -> nth 0 w 0 * nth 1 w' 0 - nth 1 w 0 * nth 0 w' 0 <> 0 -> extreme pts p.
Proof.
  intros L Ip Lw Lw' H H' Dt. split; [exact Ip|]. intros t a b T Ca Cb E.
  assert (La : length a = 2%nat) by (eapply conv_length; eauto). assert (Lb : length b = 2%nat) by (eapply conv_length; eauto). pose proof (L p Ip) as Lp.
  assert (LE : forall v, length v = 2%nat -> (forall q, In q pts -> scal v q <= scal v p) -> forall x, conv pts x -> scal v x <= scal v p).
  { intros v Lv Hv x Cx. apply (Cx (fun x => length x = 2%nat /\ scal v x <= scal v p)).
    - intros u c d Hu [Lc Hc] [Ld Hd]. split; [now apply mix_length|]. rewrite scal_mix by congruence. nra.
    - intros q Hq. split; [now apply L|now apply Hv]. }
  assert (EQ : forall v, length v = 2%nat -> (forall q, In q pts -> scal v q <= scal v p) -> scal v a = scal v p /\ scal v b = scal v p).
  { intros v Lv Hv. pose proof (LE v Lv Hv a Ca). pose proof (LE v Lv Hv b Cb). assert (S : scal v p = t * scal v a + (1 - t) * scal v b) by (rewrite E at 1; apply scal_mix; congruence). split; nra. }
  destruct (EQ w Lw H) as [A1 B1]. destruct (EQ w' Lw' H') as [A2 B2].
  destruct w as [|w1 [|w2 [|]]], w' as [|v1 [|v2 [|]]], p as [|p1 [|p2 [|]]], a as [|a1 [|a2 [|]]], b as [|b1 [|b2 [|]]]; try discriminate. cbn in *. rewrite !Rplus_0_r in *.
  assert (K : forall x y, w1 * x + w2 * y = w1 * p1 + w2 * p2 -> v1 * x + v2 * y = v1 * p1 + v2 * p2 -> x = p1 /\ y = p2).
  { intros x y E1 E2. assert (F1 : w1 * (x - p1) = - (w2 * (y - p2))) by lra. assert (F2 : v1 * (x - p1) = - (v2 * (y - p2))) by lra.
    assert (X : (w1 * v2 - w2 * v1) * (x - p1) = 0) by (replace ((w1 * v2 - w2 * v1) * (x - p1)) with (v2 * (w1 * (x - p1)) - w2 * (v1 * (x - p1))) by ring; rewrite F1, F2; ring).
    assert (G1 : w2 * (y - p2) = - (w1 * (x - p1))) by lra. assert (G2 : v2 * (y - p2) = - (v1 * (x - p1))) by lra.
    assert (Y : (w1 * v2 - w2 * v1) * (y - p2) = 0) by (replace ((w1 * v2 - w2 * v1) * (y - p2)) with (w1 * (v2 * (y - p2)) - v1 * (w2 * (y - p2))) by ring; rewrite G1, G2; ring).
    apply Rmult_integral in X, Y. split; lra. }
  destruct (K a1 a2 A1 A2) as [-> ->]. destruct (K b1 b2 B1 B2) as [-> ->]. now split.
Qed.
Ltac decide_r := cbn; unfold Rltb, ten8, ten5, Rabs; repeat (match goal with |- context [Rcase_abs ?a] => destruct (Rcase_abs a) end; try lra); repeat (match goal with |- context [Rlt_dec ?a ?b] => destruct (Rlt_dec a b) end; cbn; try lra); try reflexivity.
Ltac decide_a := unfold append_ends, missing; cbn [filter seq ag_au length existsb map app]; unfold row_close, isclose, target; decide_r.
(** A run of three rows with all three vertices. *)
Lemma run_three hull d r1 r2 r3 : hull_ok hull -> append_ends ten8 ten5 ag_au d = [r1; r2; r3] -> snd r1 < ten8 -> snd r2 < ten8 -> snd r3 < ten8 -> (forall r, In r [r1; r2; r3] -> length (fst r) = 2%nat) -> ~ flat 2 (map project [r1; r2; r3]) ->
  exists s' out, run hull d = Ok (s', out) /\ forall r, In r [r1; r2; r3] -> extreme (map project [r1; r2; r3]) (project r) -> (forall r', In r' [r1; r2; r3] -> project r' = project r -> r' = r) -> In r out.
Proof.
  intros HH EA H1 H2 H3 L NF. assert (FD : filter (fun r : row (F := R) => Rltb (snd r) ten8) [r1; r2; r3] = [r1; r2; r3]).
  { cbn. unfold Rltb. destruct (Rlt_dec (snd r1) ten8), (Rlt_dec (snd r2) ten8), (Rlt_dec (snd r3) ten8); try contradiction. reflexivity. }
  pose proof (hull_total ten8 ten5 ag_au hull (with_data d) d ten8 eq_refl ltac:(discriminate) (proj1 HH)) as T. cbv zeta in T. rewrite EA, FD in T. cbn [length ag_au Nat.ltb Nat.leb] in T.
  assert (PL : forall p, In p (map project [r1; r2; r3]) -> length p = 2%nat). { intros p Hp. apply in_map_iff in Hp. destruct Hp as [r [<- Hr]]. specialize (L r Hr). unfold project. rewrite app_length. destruct (fst r) as [|? [|]]; cbn in *; try lia. }
  pose proof (proj2 HH 2%nat _ (le_n 2) PL) as K. destruct (hull (map project [r1; r2; r3])) as [v|x] eqn:EH; [|destruct K as [_ K]; contradiction]. destruct T as [s' [out ER]]. exists s', out. split; [exact ER|].
  intros r Hr X U. destruct (hull_out ten8 ten5 ag_au hull _ s' ten8 out ER) as [d0 [E [_ [_ [_ [_ [sel [P0 [O1 _]]]]]]]]]. injection E as <-. rewrite EA, FD in O1. specialize (O1 ltac:(cbn; lia)). destruct O1 as [v' [EH' Fv]]. rewrite EH in EH'. injection EH' as <-.
  pose proof (in_range_perm sel (lexsort sel) ([], 0) (lexsort_perm sel)) as P. rewrite <- P0 in P. destruct K as [_ [_ K]]. destruct (K _ X) as [i [Hi Ei]].
  assert (Y : exists r', In r' sel /\ nth_error [r1; r2; r3] i = Some r'). { clear - Fv Hi. induction Fv as [|j x v sel Hj F IH]; [easy|]. destruct Hi as [->|Hi]; [exists x; split; [now left|exact Hj]|]. destruct (IH Hi) as [r' [A B]]. exists r'. split; [now right|exact B]. }
  destruct Y as [r' [Hr' Er']]. rewrite (map_nth_error project i _ Er') in Ei. injection Ei as Ei. rewrite (U r' (nth_error_In _ _ Er') Ei) in Hr'. now apply (Permutation_in r (Permutation_sym P)).
Qed.
(** "Reported rows are stable": a compound half a tolerance above its elements is reported. *)
Theorem C81_positive_refuted hull : hull_ok hull -> exists r s' out, run hull [r] = Ok (s', out) /\ In r out /\ ~ stable (append_ends ten8 ten5 ag_au [r]) r.
Proof.
  intros HH. set (r := ([1 / 2; 1 / 2], ten8 / 2) : row (F := R)).
  assert (EA : append_ends ten8 ten5 ag_au [r] = [r; ([1; 0], 0); ([0; 1], 0)]). { unfold r. decide_a. }
  assert (T8 : 0 < ten8) by (unfold ten8; lra). exists r. destruct (run_three hull [r] _ _ _ HH EA) as [s' [out [ER IN]]]; cbn [snd]; try (unfold r; cbn; lra).
  - intros q Hq. cbn in Hq. destruct Hq as [<-|[<-|[<-|[]]]]; reflexivity.
  - intros [w [c [Lw [[a [Ia Na]] F]]]]. destruct w as [|w1 [|w2 [|]]]; try discriminate. pose proof (F _ (or_introl eq_refl)) as F1. pose proof (F _ (or_intror (or_introl eq_refl))) as F2. pose proof (F _ (or_intror (or_intror (or_introl eq_refl)))) as F3. cbn in F1, F2, F3.
    assert (c = 0) by lra. assert (w1 = 0) by lra. subst. assert (HW : w2 * (ten8 / 2) = 0) by lra. apply Rmult_integral in HW. cbn in Ia. destruct Ia as [<-|[<-|[]]]; lra.
  - exists s', out. split; [exact ER|]. split.
    + apply IN; [now left| |].
      * apply (extreme_plane _ _ [- ten8; 1] [ten8; 1]); try reflexivity; try (now left).
        -- intros q Hq. cbn in Hq. destruct Hq as [<-|[<-|[<-|[]]]]; reflexivity.
        -- intros q Hq. cbn in Hq. destruct Hq as [<-|[<-|[<-|[]]]]; cbn; lra.
        -- intros q Hq. cbn in Hq. destruct Hq as [<-|[<-|[<-|[]]]]; cbn; lra.
        -- cbn. lra.
      * intros q Hq E. cbn in Hq. destruct Hq as [<-|[<-|[<-|[]]]]; [reflexivity| |]; cbn in E; injection E; intros; lra.
    + intros S. rewrite EA in S. specialize (S 0). cbn [fst r] in S. assert (C : conv (map full [r; ([1; 0], 0); ([0; 1], 0)]) ([1 / 2; 1 / 2] ++ [0])).
      { replace ([1 / 2; 1 / 2] ++ [0]) with (mix (1 / 2) [1; 0; 0] [0; 1; 0]) by (cbn; repeat (f_equal; try lra)). apply conv_convex; [lra| |]; apply conv_in; cbn; auto. }
      specialize (S C). cbn in S. lra.
Qed.
(** "Reported end members are stable": a lower form of gold leaves gold at zero on the hull. *)
Theorem C81_end_refuted hull : hull_ok hull -> exists r q s' out, run hull [r] = Ok (s', out) /\ In q out /\ ~ stable (append_ends ten8 ten5 ag_au [r]) q.
Proof.
  intros HH. set (r := ([0; 1], -1) : row (F := R)). set (q := ([0; 1], 0) : row (F := R)).
  assert (EA : append_ends ten8 ten5 ag_au [r] = [r; ([1; 0], 0); q]). { unfold r, q. decide_a. }
  assert (T8 : 0 < ten8) by (unfold ten8; lra). exists r, q. destruct (run_three hull [r] _ _ _ HH EA) as [s' [out [ER IN]]]; cbn [snd]; try (unfold r, q; cbn; lra).
  - intros x Hx. cbn in Hx. destruct Hx as [<-|[<-|[<-|[]]]]; reflexivity.
  - intros [w [c [Lw [[a [Ia Na]] F]]]]. destruct w as [|w1 [|w2 [|]]]; try discriminate. pose proof (F _ (or_introl eq_refl)) as F1. pose proof (F _ (or_intror (or_introl eq_refl))) as F2. pose proof (F _ (or_intror (or_intror (or_introl eq_refl)))) as F3. cbn in F1, F2, F3.
    cbn in Ia. destruct Ia as [<-|[<-|[]]]; lra.
  - exists s', out. split; [exact ER|]. split.
    + apply IN; [cbn; auto| |].
      * apply (extreme_plane _ _ [1; 0] [0; 1]); try reflexivity; try (cbn; now auto).
        -- intros x Hx. cbn in Hx. destruct Hx as [<-|[<-|[<-|[]]]]; reflexivity.
        -- intros x Hx. cbn in Hx. destruct Hx as [<-|[<-|[<-|[]]]]; cbn; lra.
        -- intros x Hx. cbn in Hx. destruct Hx as [<-|[<-|[<-|[]]]]; cbn; lra.
        -- cbn. lra.
      * intros x Hx E. cbn in Hx. destruct Hx as [<-|[<-|[<-|[]]]]; [| |reflexivity]; cbn in E; injection E; intros; lra.
    + intros S. rewrite EA in S. specialize (S (-1)). assert (C : conv (map full [r; ([1; 0], 0); q]) (fst q ++ [-1])) by (apply conv_in; now left). specialize (S C). cbn in S. lra.
Qed.
(** "There is always a hull": two forms of silver at zero and nothing stable raise. *)
Theorem C81_flat_refuted hull : hull_ok hull -> run hull [([1; 0], 0); ([1; 0], 0); ([0; 1], 0)] = Err RuntimeError.
Proof.
  intros HH. set (d := [([1; 0], 0); ([1; 0], 0); ([0; 1], 0)] : list (row (F := R))).
  assert (EA : append_ends ten8 ten5 ag_au d = d). { unfold d. decide_a. }
  assert (FD : filter (fun r : row (F := R) => Rltb (snd r) ten8) d = d). { unfold d. cbn. decide_r. }
  pose proof (hull_total ten8 ten5 ag_au hull (with_data d) d ten8 eq_refl ltac:(discriminate) (proj1 HH)) as T. cbv zeta in T. rewrite EA, FD in T. cbn [length ag_au Nat.ltb Nat.leb d] in T. fold d in T.
  pose proof (proj2 HH 2%nat (map project d) (le_n 2)) as K. destruct (hull (map project d)) as [v|x].
  - exfalso. destruct K as [NF _]; [intros p Hp; cbn in Hp; destruct Hp as [<-|[<-|[<-|[]]]]; reflexivity|]. apply NF. exists [0; 1], 0. split; [reflexivity|]. split; [exists 1; split; [cbn; auto|lra]|]. intros p Hp. cbn in Hp. destruct Hp as [<-|[<-|[<-|[]]]]; cbn; ring.
  - destruct K as [-> _]; [intros p Hp; cbn in Hp; destruct Hp as [<-|[<-|[<-|[]]]]; reflexivity|]. exact T.
Qed.
(** "Every element is reported": a row that passes for the end member at the tolerance is then left out. *)
Theorem C81_lost_refuted hull : exists s', run hull [([1; 0], ten8)] = Ok (s', [([0; 1], 0)]).
Proof.
  assert (EA : append_ends ten8 ten5 ag_au [([1; 0], ten8)] = [([1; 0], ten8); ([0; 1], 0)]). { decide_a. }
  unfold run, convex_hull, with_data. cbn [s_data s_names append_names option_map]. rewrite EA.
  assert (NG : negative ten8 [([1; 0], ten8); ([0; 1], 0)] = [1%nat]). { unfold negative. cbn. decide_r. }
  rewrite NG. cbn. eexists. reflexivity.
Qed.
(** "Compositions are those of the structures": atoms of other elements are not counted. *)
Theorem C81_foreign_refuted (P A V : Type) (p : P) (a : A) (v : V) (es : list R) E : let st := mk_structure a [p; p] [1; 1]%nat ["Ag"; "Cu"] [0; 1]%Z v None in
  fst (row_of ag_au (vec_of es) (counts (get_n_atoms ag_au st)) E) = [1; 0].
Proof. cbn. unfold counts. cbn. repeat (f_equal; try field). Qed.
(** "Names are those given, or those of the structures": given names are dropped and older ones kept. *)
Theorem C81_given_names_refuted (P A V : Type) (st : structure P A V) (pinv : mat R -> mat R) : (forall i k, (i < 2)%nat -> (k < 2)%nat -> pinv (fun i k => delta k i) i k = delta i k) ->
  exists s1 s2 s3 r2 r3, define_end_members (P := P) (A := A) (V := V) pinv ag_au None start None (Some [0; 0]) = Ok s1 /\
    compute ten8 ten5 ag_au None s1 [st; st] (Some [1; 1]) false = Ok (s2, r2) /\ compute ten8 ten5 ag_au None s2 [st] (Some [1]) true = Ok (s3, r3) /\ length r3 = 1%nat /\ s_names s3 = Some [Id 0; Id 1].
Proof.
  intros PU. assert (T : 0 <= ten8 /\ 0 <= ten5) by (unfold ten8, ten5; lra).
  destruct (C81_elements (P := P) (A := A) (V := V) ten8 ten5 pinv ag_au None T PU [0; 0] [st; st] [1; 1] eq_refl eq_refl) as [s1 [s2 [E1 [E2 [E3 E4]]]]].
  assert (C2 : s_comp s2 = s_comp s1).
  { unfold compute in E2. destruct (s_comp s1) as [[ne c]|] eqn:EC; [|discriminate]. cbn [length Nat.eqb negb bind] in E2. destruct (negb _); [discriminate|]. destruct (formation_energies _ _ _ _ _ _ _); [|discriminate]. cbn [bind] in E2. destruct (get_compositions _ _ _ _ _ _); [|discriminate]. cbn [bind] in E2. injection E2 as <- _. reflexivity. }
  assert (C1 : s_comp s1 = Some (2%nat, with_energies' delta pinv (vec_of [0; 0]))). { unfold define_end_members, initialize, set_energies in E1. cbn in E1. injection E1 as <-. reflexivity. }
  destruct (C81_compute ten8 ten5 pinv ag_au (None : option (list (structure P A V) -> _)) T delta (vec_of [0; 0])) with (s := s2) (x := fun st : structure P A V => counts (F := R) (get_n_atoms ag_au st)) (sts := [st]) (ens := [1]) (named := true) as [s3 [F1 [_ F3]]].
  - cbn [length ag_au]. intros i k Hi Hk. destruct i as [|[|i]]; try lia; destruct k as [|[|k]]; try lia; cbn; unfold delta in PU; cbn in PU; unfold delta; cbn; rewrite ?(PU 0%nat 0%nat), ?(PU 0%nat 1%nat), ?(PU 1%nat 0%nat), ?(PU 1%nat 1%nat) by lia; cbn; ring.
  - cbn [length ag_au]. intros y H k Hk. specialize (H k Hk). now rewrite delta_sum_r in H.
  - rewrite C2. exact C1.
  - intros q _ i Hi. symmetry. now apply delta_sum_r.
  - reflexivity.
  - do 5 eexists. split; [exact E1|]. split; [exact E2|]. split; [exact F1|]. split; [reflexivity|]. rewrite F3, E4. reflexivity.
Qed.
(** What is asked of ConvexHull can be met at any points. *)
Theorem C81_hull_met k pts : (forall p : point, In p pts -> length p = k) -> exists r : res (list nat),
  match r with
  | Ok v => ~ flat k pts /\ (forall i, In i v -> exists p, nth_error pts i = Some p /\ extreme pts p) /\ (forall p, extreme pts p -> exists i, In i v /\ nth_error pts i = Some p)
  | Err e => e = RuntimeError /\ flat k pts
  end.
Proof.
  intros L. destruct (classic (flat k pts)) as [Fl|Fl]; [exists (Err RuntimeError); now split|].
  assert (G : forall m, exists v, forall i, In i v <-> (i < m)%nat /\ exists p, nth_error pts i = Some p /\ extreme pts p).
  { induction m as [|m [v IH]]; [exists []; intros i; split; [easy|lia]|]. destruct (classic (exists p, nth_error pts m = Some p /\ extreme pts p)) as [Y|N].
    - exists (m :: v). intros i. cbn. rewrite IH. split; [intros [<-|[A B]]; split; auto; lia|]. intros [A B]. destruct (Nat.eq_dec i m) as [->|D]; [now left|right]. split; [lia|exact B].
    - exists v. intros i. rewrite IH. split; [intros [A B]; split; [lia|exact B]|]. intros [A B]. split; [|exact B]. destruct (Nat.eq_dec i m) as [->|D]; [contradiction|lia]. }
  destruct (G (length pts)) as [v Hv]. exists (Ok v). split; [exact Fl|]. split.
  - intros i Hi. now apply Hv in Hi.
  - intros p X. destruct (In_nth_error pts p (proj1 X)) as [i Hi]. exists i. split; [|exact Hi]. apply Hv. split; [now apply nth_error_Some; rewrite Hi|]. exists p. now split.
Qed.
(** A compound one below its elements is reported with both of them. *)
Example C81_ex hull : hull_ok hull -> let r := ([1 / 2; 1 / 2], -1) : row (F := R) in
  good 2 r /\ (forall k, (k < 2)%nat -> row_close ten8 ten5 r (target ag_au k) = true -> fst r = unit_comp 2 k /\ snd r < ten8) /\
  exists s' out, run hull [r] = Ok (s', out) /\ In r out /\ In ([1; 0], 0) out /\ In ([0; 1], 0) out /\ stable [r; ([1; 0], 0); ([0; 1], 0)] r.
Proof.
  intros HH r. assert (G : good 2 r) by (repeat split; cbn; [|lra]; repeat constructor; lra).
  assert (EA : append_ends ten8 ten5 ag_au [r] = [r; ([1; 0], 0); ([0; 1], 0)]). { unfold r. decide_a. }
  assert (HC : forall k, (k < 2)%nat -> row_close ten8 ten5 r (target ag_au k) = true -> fst r = unit_comp 2 k /\ snd r < ten8).
  { intros k Hk H. apply row_close_energy in H. unfold r, ten8 in H. cbn in H. unfold Rabs in H. destruct (Rcase_abs (-1)); lra. }
  split; [exact G|]. split; [exact HC|].
  assert (T8 : 0 < ten8) by (unfold ten8; lra). destruct (run_three hull [r] _ _ _ HH EA) as [s' [out [ER IN]]]; cbn [snd]; try (unfold r; cbn; lra).
  - intros q Hq. cbn in Hq. destruct Hq as [<-|[<-|[<-|[]]]]; reflexivity.
  - intros [w [c [Lw [[a [Ia Na]] F]]]]. destruct w as [|w1 [|w2 [|]]]; try discriminate. pose proof (F _ (or_introl eq_refl)) as F1. pose proof (F _ (or_intror (or_introl eq_refl))) as F2. pose proof (F _ (or_intror (or_intror (or_introl eq_refl)))) as F3. cbn in F1, F2, F3.
    cbn in Ia. destruct Ia as [<-|[<-|[]]]; lra.
  - exists s', out. split; [exact ER|].
    assert (XR : In r out).
    { apply IN; [now left| |].
      - apply (extreme_plane _ _ [1; -1] [-1; -1]); try reflexivity; try (now left).
        + intros q Hq. cbn in Hq. destruct Hq as [<-|[<-|[<-|[]]]]; reflexivity.
        + intros q Hq. cbn in Hq. destruct Hq as [<-|[<-|[<-|[]]]]; cbn; lra.
        + intros q Hq. cbn in Hq. destruct Hq as [<-|[<-|[<-|[]]]]; cbn; lra.
        + cbn. lra.
      - intros q Hq E. cbn in Hq. destruct Hq as [<-|[<-|[<-|[]]]]; [reflexivity| |]; cbn in E; injection E; intros; lra. }
    split; [exact XR|]. split; [|split].
    + apply IN; [cbn; auto| |].
      * apply (extreme_plane _ _ [-1; 0] [0; 1]); try reflexivity; try (cbn; now auto).
        -- intros x Hx. cbn in Hx. destruct Hx as [<-|[<-|[<-|[]]]]; reflexivity.
        -- intros x Hx. cbn in Hx. destruct Hx as [<-|[<-|[<-|[]]]]; cbn; lra.
        -- intros x Hx. cbn in Hx. destruct Hx as [<-|[<-|[<-|[]]]]; cbn; lra.
        -- cbn. lra.
      * intros x Hx E. cbn in Hx. destruct Hx as [<-|[<-|[<-|[]]]]; [|reflexivity|]; cbn in E; injection E; intros; lra.
    + apply IN; [cbn; auto| |].
      * apply (extreme_plane _ _ [1; 0] [0; 1]); try reflexivity; try (cbn; now auto).
        -- intros x Hx. cbn in Hx. destruct Hx as [<-|[<-|[<-|[]]]]; reflexivity.
        -- intros x Hx. cbn in Hx. destruct Hx as [<-|[<-|[<-|[]]]]; cbn; lra.
        -- intros x Hx. cbn in Hx. destruct Hx as [<-|[<-|[<-|[]]]]; cbn; lra.
        -- cbn. lra.
      * intros x Hx E. cbn in Hx. destruct Hx as [<-|[<-|[<-|[]]]]; [| |reflexivity]; cbn in E; injection E; intros; lra.
    + rewrite <- EA. refine (C81_stable ten8 ten5 ag_au hull HH (le_n 2) _ (with_data [r]) s' [r] ten8 out eq_refl _ _ _ ER r XR _); try (cbn; unfold ten8; lra).
      * intros q [<-|[]]. exact G.
      * intros q k [<-|[]]. apply HC.
Qed.
(** The lowest pure structure is the end member; one in two blocks is passed over. *)
Definition pure_ex (ns : list nat) (l : list string) : structure unit unit unit := mk_structure tt (map (fun _ => tt) l) ns l [] tt None.
Example C81_ends_ex : exists e, find_one (F := Qc) (Q2Qc 100) "Ag" [pure_ex [1%nat] ["Ag"]; pure_ex [2%nat] ["Ag"; "Ag"]; pure_ex [1%nat; 1%nat] ["Ag"; "Ag"]; pure_ex [1%nat] ["Au"]]
  [Q2Qc (-1); Q2Qc (-4); Q2Qc (-9); Q2Qc (-7)] = Ok (pure_ex [2%nat] ["Ag"; "Ag"], e) /\ Qcanon.this e = (-2 # 1)%Q.
Proof. eexists. split; vm_compute; reflexivity. Qed.

Print Assumptions C81_rows.
Print Assumptions C81_complete.
Print Assumptions C81_stable.
Print Assumptions C81_pure.
Print Assumptions C81_order.
Print Assumptions C81_zero.
Print Assumptions C81_again.
Print Assumptions C81_names.
Print Assumptions C81_error.
Print Assumptions C81_compute.
Print Assumptions C81_good.
Print Assumptions C81_elements.
Print Assumptions C81_unit_row.
Print Assumptions C81_endmember.
Print Assumptions C81_pure_row.
Print Assumptions C81_positive_refuted.
Print Assumptions C81_end_refuted.
Print Assumptions C81_flat_refuted.
Print Assumptions C81_lost_refuted.
Print Assumptions C81_foreign_refuted.
Print Assumptions C81_given_names_refuted.
Print Assumptions C81_hull_met.
