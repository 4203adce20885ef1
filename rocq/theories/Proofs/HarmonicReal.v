(** Lemmas on the sampling of displaced supercells. *)
From Verif Require Import Base Num Model.FC2 Model.HarmonicReal Spec.HarmonicReal.
From Coq Require Import Field Permutation.

Section Algebra.
  Context {F : Type} {N : Num F} {NO : NumOrd F} {L : FieldLaws F} {C : Char0 F}.
  Local Open Scope num_scope.
  Add Field Ffield : (field_laws (F := F)).
  Lemma sumn_scale n c (f : nat -> F) : sumn n (fun i => c * f i) = c * sumn n f.
  Proof. apply nsumf_scale_l. Qed.
  Lemma sumn_scale_r n c (f : nat -> F) : sumn n (fun i => f i * c) = sumn n f * c.
  Proof. apply nsumf_scale_r. Qed.
  Lemma sumn_add n (f g : nat -> F) : sumn n (fun i => f i + g i) = sumn n f + sumn n g.
  Proof. apply nsumf_add. Qed.
  Lemma sumn_0 n : sumn n (fun _ => n0) = n0 :> F.
  Proof. apply nsumf_zero. Qed.
  Lemma sumn_delta n k (f : nat -> F) : (k < n)%nat -> sumn n (fun l => delta k l * f l) = f k.
  Proof.
    induction n as [|n IH]; [lia|]. intros H. rewrite sumn_S. unfold delta at 2. destruct (Nat.eqb_spec k n) as [->|H'].
    - rewrite (sumn_ext n _ (fun _ => n0)); [rewrite sumn_0; ring|]. intros i Hi. unfold delta. replace (n =? i)%nat with false by (symmetry; apply Nat.eqb_neq; lia). ring.
    - rewrite IH by lia. ring.
  Qed.
  Variable n3 : nat.
  Variable masses : nat -> F.
  Lemma flat_disp v q k : flat (to_disp n3 masses v q) k = masses_sqrt masses k * matvec n3 v q k.
  Proof. unfold flat, to_disp. replace (3 * (k / 3) + k mod 3)%nat with k by (rewrite <- Nat.div_mod; lia). reflexivity. Qed.
  Lemma energy_form fc (d : vec F) : h_energy (eval_properties_fc2 n3 fc d) = nhalf * sumn n3 (fun r => sumn n3 (fun c => d r * fc r c * d c)).
  Proof.
    cbn [eval_properties_fc2 h_energy]. f_equal. unfold dot, matvec, dot. apply sumn_ext. intros r _. rewrite <- sumn_scale. apply sumn_ext. intros c _. ring.
  Qed.
  (** The harmonic energy in normal coordinates *)
  Lemma energy_normal fc w v q : eigen n3 (dyn masses fc) w v ->
    h_energy (eval_properties_fc2 n3 (fc_matrix fc) (flat (to_disp n3 masses v q))) = nhalf * sumn n3 (fun k => w k * (q k * q k)).
  Proof.
    intros [HO HE]. rewrite energy_form. f_equal.
    transitivity (sumn n3 (fun r => matvec n3 v q r * sumn n3 (fun c => dyn masses fc r c * matvec n3 v q c))).
    { apply sumn_ext. intros r _. rewrite <- sumn_scale. apply sumn_ext. intros c _. rewrite !flat_disp. unfold dyn. ring. }
    transitivity (sumn n3 (fun r => sumn n3 (fun l => matvec n3 v q r * (w l * v r l * q l)))).
    { apply sumn_ext. intros r Hr. rewrite sumn_scale. f_equal. unfold matvec at 1, dot at 1.
      transitivity (sumn n3 (fun c => sumn n3 (fun l => dyn masses fc r c * v c l * q l))); [apply sumn_ext; intros c _; rewrite <- sumn_scale; apply sumn_ext; intros; ring|].
      rewrite sumn_swap. apply sumn_ext. intros l Hl. rewrite sumn_scale_r. now rewrite HE. }
    rewrite sumn_swap. apply sumn_ext. intros l Hl.
    transitivity (sumn n3 (fun k => delta k l * (q k * (w l * q l)))).
    { transitivity (sumn n3 (fun r => sumn n3 (fun k => v r k * v r l * (q k * (w l * q l))))).
      - apply sumn_ext. intros r _. unfold matvec, dot. rewrite <- sumn_scale_r. apply sumn_ext. intros; ring.
      - rewrite sumn_swap. apply sumn_ext. intros k Hk. rewrite sumn_scale_r, HO by assumption. reflexivity. }
    transitivity (sumn n3 (fun k => delta l k * (q k * (w l * q l)))); [apply sumn_ext; intros k _; unfold delta; now rewrite Nat.eqb_sym|].
    rewrite (sumn_delta n3 l (fun k => q k * (w l * q l))) by assumption. ring.
  Qed.
  Lemma av_sumn Ex (f : nat -> vec F -> F) n : average_over Ex -> Ex (fun q => sumn n (fun k => f k q)) = sumn n (fun k => Ex (f k)).
  Proof.
    intros [HX HA HS]. induction n as [|n IH].
    - unfold sumn. cbn. rewrite (HX _ (fun q => n0 * n0)) by (intros; cbn; ring). rewrite HS. ring.
    - rewrite (HX _ (fun q => sumn n (fun k => f k q) + f n q)) by (intros; now rewrite sumn_S). rewrite HA, IH, sumn_S. reflexivity.
  Qed.
  Lemma covariance Ex a v r c : average_over Ex -> uncorrelated n3 Ex a ->
    Ex (fun q => flat (to_disp n3 masses v q) r * flat (to_disp n3 masses v q) c) = masses_sqrt masses r * masses_sqrt masses c * sumn n3 (fun k => v r k * a k * v c k).
  Proof.
    intros HA HU. destruct HA as [HX HP HS] eqn:E. clear E.
    rewrite (HX _ (fun q => masses_sqrt masses r * masses_sqrt masses c * sumn n3 (fun k => sumn n3 (fun l => v r k * v c l * (q k * q l))))).
    - rewrite HS. f_equal. rewrite (av_sumn Ex (fun k q => sumn n3 (fun l => v r k * v c l * (q k * q l)))) by (constructor; assumption). apply sumn_ext. intros k Hk.
      rewrite (av_sumn Ex (fun l q => v r k * v c l * (q k * q l))) by (constructor; assumption).
      transitivity (sumn n3 (fun l => delta k l * (v r k * a k * v c l))); [|rewrite (sumn_delta n3 k (fun l => v r k * a k * v c l)) by assumption; reflexivity].
      apply sumn_ext. intros l Hl. rewrite HS, HU by assumption. unfold delta. destruct (Nat.eqb_spec k l); ring.
    - intros q. rewrite !flat_disp. unfold matvec, dot.
      transitivity (masses_sqrt masses r * masses_sqrt masses c * (sumn n3 (fun k => v r k * q k) * sumn n3 (fun l => v c l * q l))); [ring|]. f_equal.
      rewrite <- sumn_scale_r. apply sumn_ext. intros k _. rewrite <- sumn_scale. apply sumn_ext. intros; ring.
  Qed.
  Lemma energy_average Ex a fc w v : average_over Ex -> uncorrelated n3 Ex a -> eigen n3 (dyn masses fc) w v ->
    Ex (fun q => h_energy (eval_properties_fc2 n3 (fc_matrix fc) (flat (to_disp n3 masses v q)))) = nhalf * sumn n3 (fun k => w k * a k).
  Proof.
    intros HA HU HE. destruct HA as [HX HP HS] eqn:E. clear E. rewrite (HX _ (fun q => nhalf * sumn n3 (fun k => w k * (q k * q k)))) by (intros; now apply energy_normal).
    rewrite HS. f_equal. rewrite (av_sumn Ex (fun k q => w k * (q k * q k))) by (constructor; assumption). apply sumn_ext. intros k Hk. rewrite HS, HU, Nat.eqb_refl by assumption. reflexivity.
  Qed.
  Lemma mean_sub {B} (f g : B -> F) l : l <> [] -> mean (map (fun x => f x - g x) l) = mean (map f l) - mean (map g l).
  Proof.
    intros H. unfold mean. rewrite !map_length. fold (nsumf (fun x => f x - g x) l) (nsumf f l) (nsumf g l). rewrite nsumf_sub. field. destruct l; [contradiction|]. cbn [length]. apply char0.
  Qed.
  Lemma mean_const {B} (c : F) (l : list B) : l <> [] -> mean (map (fun _ => c) l) = c.
  Proof. intros H. unfold mean. rewrite !map_length. fold (nsumf (fun _ : B => c) l). rewrite nsumf_const. field. destruct l; [contradiction|]. cbn [length]. apply char0. Qed.
  Lemma mean_scale {B} (f : B -> F) c l : l <> [] -> mean (map (fun x => f x * c) l) = mean (map f l) * c.
  Proof. intros H. unfold mean. rewrite !map_length. fold (nsumf (fun x => f x * c) l) (nsumf f l). rewrite nsumf_scale_r. field. destruct l; [contradiction|]. cbn [length]. apply char0. Qed.
  Lemma mean_combine {B} (f g : B -> F) c l : l <> [] -> mean (map (fun p => (fst p - snd p) * c) (combine (map f l) (map g l))) = mean (map f l) * c - mean (map g l) * c.
  Proof.
    intros H. assert (G : combine (map f l) (map g l) = map (fun x => (f x, g x)) l) by (clear; induction l as [|x l IH]; [reflexivity|cbn; now rewrite IH]).
    rewrite G, map_map. cbn [fst snd]. rewrite (mean_scale (fun x => f x - g x)), mean_sub by exact H. ring.
  Qed.
End Algebra.

(** ** Outliers *)
Section Outliers.
  Context {F : Type} {N : Num F} {NO : NumOrd F}.
  Local Open Scope num_scope.
  Variable order : list nat -> list nat.
  Hypothesis order_perm : forall l, Permutation (order l) l.
  Variable low : F.
  Lemma nth_seq_filter {B} (p : B -> bool) (d : B) l : forall k l0, length l0 = k ->
    map (fun i => nth i (l0 ++ l) d) (filter (fun i => p (nth i (l0 ++ l) d)) (seq k (length l))) = filter p l.
  Proof.
    induction l as [|a l IH]; intros k l0 Hk; [reflexivity|]. cbn [length seq filter]. rewrite app_nth2, Hk, Nat.sub_diag by lia. cbn [nth].
    specialize (IH (S k) (l0 ++ [a])). rewrite <- app_assoc in IH. cbn [app] in IH. rewrite app_length in IH. cbn in IH. specialize (IH ltac:(lia)).
    destruct (p a); cbn [map]; [|exact IH]. rewrite app_nth2, Hk, Nat.sub_diag by lia. cbn [nth]. f_equal. exact IH.
  Qed.
  Definition trusted (es : list F) : list F := filter (fun e => nltb low e) es.
  Definition keeps (es : list F) (i : nat) : Prop :=
    (i < length es)%nat /\ nltb low (nth i es n0) = true /\ nltb (nabs (nth i es n0 - mean (trusted es))) ((n1 + n1) * nabs (mean (trusted es))) = true.
  Lemma kept_spec es : NoDup (kept order low es) /\ forall i, In i (kept order low es) <-> keeps es i.
  Proof.
    unfold kept, keeps. set (ids1 := filter (fun i => nltb low (nth i es n0)) (seq 0 (length es))).
    assert (T : map (fun i => nth i es n0) ids1 = trusted es) by exact (nth_seq_filter (fun e => nltb low e) n0 es 0 [] eq_refl).
    assert (N1 : NoDup ids1) by (apply NoDup_filter, seq_NoDup).
    assert (I1 : forall i, In i ids1 <-> (i < length es)%nat /\ nltb low (nth i es n0) = true) by (intros i; unfold ids1; rewrite filter_In, in_seq; intuition lia).
    destruct ids1 as [|i0 ids1'] eqn:E.
    - split; [constructor|]. intros i. split; [intros []|]. intros (H1 & H2 & _). exact (proj2 (I1 i) (Logic.conj H1 H2)).
    - rewrite <- E in *. rewrite T. split.
      + eapply Permutation_NoDup; [symmetry; apply order_perm|]. now apply NoDup_filter.
      + intros i. rewrite (Permutation_in' eq_refl (order_perm _)). rewrite filter_In, I1, existsb_exists. split.
        * intros ((H1 & H2) & x & Hx & Hi). apply Nat.eqb_eq in Hi. subst x. apply filter_In in Hx. tauto.
        * intros (H1 & H2 & H3). split; [auto|]. exists i. rewrite Nat.eqb_refl, filter_In, in_seq. repeat split; auto; lia.
  Qed.
End Outliers.

Section Run.
  Context {F : Type} {N : Num F} {NO : NumOrd F} {St : Type}.
  Local Open Scope num_scope.
  Lemma get_map {A B} (f : A -> B) (l : list A) (d : A) ids : (forall i, In i ids -> i < length l)%nat -> mapM (get (map f l)) ids = Ok (map (fun i => f (nth i l d)) ids).
  Proof.
    induction ids as [|i ids IH]; intros H; [reflexivity|]. cbn [mapM map]. unfold get at 1. rewrite nth_error_map, (nth_error_nth' l d) by (apply H; now left). cbn [option_map bind]. rewrite IH by (intros; apply H; now right). reflexivity.
  Qed.
  Lemma map_combine_seq {A B} (f : nat -> A -> B) (d : A) (l : list A) : map (fun p => f (fst p) (snd p)) (combine (seq 0 (length l)) l) = map (fun i => f i (nth i l d)) (seq 0 (length l)).
  Proof.
    assert (G : forall k l0, length l0 = k -> map (fun p => f (fst p) (snd p)) (combine (seq k (length l)) l) = map (fun i => f i (nth i (l0 ++ l) d)) (seq k (length l))); [|exact (G 0%nat [] eq_refl)].
    induction l as [|a l IH]; intros k l0 Hk; [reflexivity|]. cbn [length seq combine map fst snd]. rewrite app_nth2, Hk, Nat.sub_diag by lia. cbn [nth]. f_equal. rewrite (IH (S k) (l0 ++ [a])) by (rewrite app_length; cbn; lia). apply map_ext. intros i. now rewrite <- app_assoc.
  Qed.
  Lemma nth_map_seq {A} (f : nat -> A) n i d : (i < n)%nat -> nth i (map f (seq 0 n)) d = f i.
  Proof. intros H. rewrite (nth_indep _ d (f 0%nat)) by now rewrite map_length, seq_length. rewrite map_nth, seq_nth by assumption. reflexivity. Qed.

  Variables (n3 : nat) (masses : nat -> F) (eigh : mat F -> vec F * mat F) (const_sq : F) (place : nat -> disp (F := F) -> St) (eval : St -> F * disp (F := F) * list F) (e0 : F) (f0 : disp (F := F)) (s0 : list F).
  Variables (order : list nat -> list nat) (low : F).
  Hypothesis order_perm : forall l, Permutation (order l) l.
  (** The i-th sample *)
  Definition u_at (fc : nat -> nat -> nat -> nat -> F) (qs : list (vec F)) (i : nat) : disp := to_disp n3 masses (snd (eigh (dyn masses fc))) (nth i qs (fun _ => n0)).
  Definition st_at fc qs i : St := place i (u_at fc qs i).
  Definition e_at fc qs i : F := fst (fst (eval (st_at fc qs i))) - e0.
  Definition f_at fc qs i : disp := snd (fst (eval (st_at fc qs i))).
  Definition s_at fc qs i : list F := snd (eval (st_at fc qs i)).
  Definition h_at fc qs i : harmonic := eval_properties_fc2 n3 (fc_matrix fc) (flat (u_at fc qs i)).
  Definition result_of fc qs (ids : list nat) : sampled :=
    mk_sampled (map (u_at fc qs) ids) (map (st_at fc qs) ids) (map (f_at fc qs) ids) (map (s_at fc qs) ids) (map (e_at fc qs) ids) (map (fun i => h_energy (h_at fc qs i)) ids)
      (fun i a => meanf (fun f => f i a) (map (f_at fc qs) ids) - meanf (fun h => h_forces h i a) (map (h_at fc qs) ids) - f0 i a)
      (fun k => meanf (fun s => nth k s n0) (map (s_at fc qs) ids) - meanf (fun h => nth k (h_stress h) n0) (map (h_at fc qs) ids) - nth k s0 n0).
  Lemma run_eq b temp fc qs : run n3 masses eigh const_sq place eval e0 f0 s0 order low b temp fc qs =
    match kept order low (map (e_at fc qs) (seq 0 (length qs))) with [] => Err IndexError | ids => Ok (result_of fc qs ids) end.
  Proof.
    unfold run. unfold solve_eigen. destruct (eigh (dyn masses fc)) as [sq vecs] eqn:EV. cbn [eigenvectors].
    rewrite (map_combine_seq place (to_disp n3 masses vecs (fun _ => n0))). rewrite map_length.
    assert (S1 : map (fun i => place i (nth i (map (to_disp n3 masses vecs) qs) (to_disp n3 masses vecs (fun _ => n0)))) (seq 0 (length qs)) = map (st_at fc qs) (seq 0 (length qs))).
    { apply map_ext. intros i. unfold st_at, u_at. rewrite EV. cbn [snd]. now rewrite map_nth. }
    rewrite S1. rewrite !map_map. change (fun x => fst (fst (eval (st_at fc qs x))) - e0) with (e_at fc qs). change (fun x => snd (fst (eval (st_at fc qs x)))) with (f_at fc qs). change (fun x => snd (eval (st_at fc qs x))) with (s_at fc qs).
    pose proof (kept_spec order order_perm low (map (e_at fc qs) (seq 0 (length qs)))) as [_ KI]. set (ids := kept order low (map (e_at fc qs) (seq 0 (length qs)))) in *. clearbody ids.
    assert (B : forall i, In i ids -> (i < length qs)%nat). { intros i Hi. apply KI in Hi. destruct Hi as (H & _). now rewrite map_length, seq_length in H. }
    destruct ids as [|i0 ids']; [reflexivity|]. set (ids := i0 :: ids') in *. unfold take. cbn iota. fold ids.
    change (match ids with [] => Err IndexError | _ :: _ => mapM (get (map (to_disp n3 masses vecs) qs)) ids end) with (mapM (get (map (to_disp n3 masses vecs) qs)) ids).
    rewrite (get_map (to_disp n3 masses vecs) qs (fun _ => n0)) by exact B. cbn [bind].
    assert (G : forall B (g : nat -> B), mapM (get (map g (seq 0 (length qs)))) ids = Ok (map g ids)).
    { intros X g. rewrite (get_map g (seq 0 (length qs)) 0%nat) by (rewrite seq_length; exact B). f_equal. apply map_ext_in. intros i Hi. rewrite seq_nth by now apply B. reflexivity. }
    rewrite G. cbn [bind]. unfold ids at 2. fold ids. rewrite !G. cbn [bind]. unfold result_of.
    assert (U : map (fun i => to_disp n3 masses vecs (nth i qs (fun _ => n0))) ids = map (u_at fc qs) ids) by (unfold u_at; rewrite EV; reflexivity). rewrite U, !map_map. reflexivity.
  Qed.
End Run.
