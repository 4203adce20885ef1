(** Coupled amplitudes, their sums and the loops of the projector. *)
From Coq Require Import Reals Lra Permutation.
From Verif Require Import Base Num NumR Model.Projector.
Local Open Scope Z_scope.

(** *** Ranges and tuples *)
Lemma in_zrange x a b : In x (zrange a b) <-> a <= x <= b.
Proof.
  unfold zrange. rewrite in_map_iff. split.
  - intros [k [<- Hk]]. apply in_seq in Hk. lia.
  - intros H. exists (Z.to_nat (x - a)). split; [lia|]. apply in_seq. lia.
Qed.
Lemma NoDup_map_inj {A B} (f : A -> B) l : (forall a b, f a = f b -> a = b) -> NoDup l -> NoDup (map f l).
Proof. intros H. induction 1 as [|a l Ha N IH]; cbn; constructor; [|exact IH]. intros C. apply in_map_iff in C. destruct C as [b [E Hb]]. apply H in E. congruence. Qed.
Lemma NoDup_zrange a b : NoDup (zrange a b).
Proof. apply NoDup_map_inj; [intros x y; lia|apply seq_NoDup]. Qed.
Definition within (l m : Z) : Prop := - l <= m <= l.
Lemma in_tuples ls : forall ms, In ms (tuples ls) <-> Forall2 within ls ms.
Proof.
  induction ls as [|l ls IH]; intros ms; cbn.
  - split; [intros [<-|[]]; constructor|]. intros H. inversion H. now left.
  - rewrite in_flat_map. split.
    + intros [m [Hm H]]. apply in_map_iff in H. destruct H as [t [<- Ht]]. constructor; [now apply in_zrange in Hm|now apply IH].
    + intros H. inversion H as [|? m ? t Hm Ht]; subst. exists m. split; [now apply in_zrange|]. apply in_map, IH, Ht.
Qed.
Lemma NoDup_flat {A B} (f : A -> list B) l : NoDup l -> (forall a, In a l -> NoDup (f a)) -> (forall a b x, In a l -> In b l -> In x (f a) -> In x (f b) -> a = b) -> NoDup (flat_map f l).
Proof.
  induction 1 as [|a l Ha N IH]; intros H1 H2; cbn; [constructor|]. assert (NA : NoDup (f a)) by (apply H1; now left). assert (NF : NoDup (flat_map f l)) by (apply IH; [intros; apply H1; now right|intros; eapply H2; eauto; now right]).
  assert (D : forall x, In x (f a) -> ~ In x (flat_map f l)). { intros x Hx C. apply in_flat_map in C. destruct C as [b [Hb Hx']]. assert (a = b) by (apply (H2 a b x); [now left|now right|exact Hx|exact Hx']). congruence. }
  clear - NA NF D. induction NA as [|x t Hx NA IH]; cbn; [exact NF|]. constructor; [|apply IH; intros y Hy; apply D; now right]. rewrite in_app_iff. intros [C|C]; [contradiction|]. apply (D x); [now left|exact C].
Qed.
Lemma NoDup_tuples ls : NoDup (tuples ls).
Proof.
  induction ls as [|l ls IH]; cbn; [repeat constructor; easy|]. apply NoDup_flat; [apply NoDup_zrange| |].
  - intros m _. apply NoDup_map_inj; [congruence|exact IH].
  - intros a b x _ _ Ha Hb. apply in_map_iff in Ha, Hb. destruct Ha as [t [<- _]], Hb as [t' [E _]]. congruence.
Qed.
Lemma zsum_app a b : zsum (a ++ b) = zsum a + zsum b.
Proof. induction a as [|x a IH]; cbn; lia. Qed.
Lemma zsum_neg l : zsum (neg l) = - zsum l.
Proof. induction l as [|x l IH]; [reflexivity|]. unfold neg in *. cbn [map zsum]. rewrite IH. lia. Qed.
Lemma in_states ls ms : In ms (states ls) <-> Forall2 within (removelast ls) ms /\ Z.abs (zsum ms) <= last ls 0.
Proof. unfold states, check_sum. rewrite filter_In, in_tuples, Z.leb_le, Z.abs_opp. reflexivity. Qed.
Lemma NoDup_states ls : NoDup (states ls).
Proof. apply NoDup_filter, NoDup_tuples. Qed.
Lemma within_neg ls ms : Forall2 within ls ms -> Forall2 within ls (neg ms).
Proof. induction 1 as [|l m ls ms H F IH]; cbn; constructor; [unfold within in *; lia|exact IH]. Qed.
Lemma neg_neg l : neg (neg l) = l.
Proof. unfold neg. rewrite map_map. rewrite <- (map_id l) at 2. apply map_ext. intros. lia. Qed.
Lemma states_neg ls ms : In ms (states ls) -> In (neg ms) (states ls).
Proof. rewrite !in_states, zsum_neg. intros [H1 H2]. split; [now apply within_neg|lia]. Qed.
Lemma find_pos_In x l : In x l -> exists i, find_pos x l = Some i /\ nth_error l i = Some x.
Proof.
  induction l as [|y l IH]; intros H; [easy|]. cbn. destruct (list_eq_dec Z.eq_dec x y) as [->|D]; [exists 0%nat; now split|]. destruct H as [->|H]; [congruence|]. destruct (IH H) as [i [-> E]]. exists (S i). now split.
Qed.
Lemma map_m_spec ls ms : In ms (states ls) -> nth_error (states ls) (map_m ls ms) = Some ms.
Proof. intros H. unfold map_m. destruct (find_pos_In _ _ H) as [i [-> E]]. exact E. Qed.
Lemma map_m_inj ls ms ms' : In ms (states ls) -> In ms' (states ls) -> map_m ls ms = map_m ls ms' -> ms = ms'.
Proof. intros H H' E. apply map_m_spec in H, H'. rewrite E in H. congruence. Qed.
Lemma map_m_nth ls i ms : nth_error (states ls) i = Some ms -> map_m ls ms = i.
Proof.
  intros H. assert (I : In ms (states ls)) by (eapply nth_error_In; eauto). pose proof (map_m_spec ls ms I) as E. rewrite <- H in E. eapply NoDup_nth_error; [apply (NoDup_states ls)| |exact E]. apply nth_error_Some. congruence.
Qed.
Lemma half_states ls : Forall (fun l => 0 <= l) ls -> (2 <= length ls)%nat -> forall ms, In ms (half ls) <-> In ms (states ls) /\ 0 <= hd 0 ms.
Proof.
  intros P HL ms. rewrite in_states. unfold half. destruct (removelast ls) as [|l1 t] eqn:ER.
  - exfalso. destruct ls as [|a [|b ls]]; cbn in *; try lia; discriminate.
  - rewrite filter_In, in_flat_map. unfold check_sum. rewrite Z.leb_le, Z.abs_opp. split.
    + intros [[m [Hm H]] C]. apply in_map_iff in H. destruct H as [t' [<- Ht]]. apply in_zrange in Hm. apply in_tuples in Ht. cbn [hd]. split; [|lia]. split; [constructor; [unfold within; lia|exact Ht]|exact C].
    + intros [[H C] H0]. inversion H as [|? m ? t' Hm Ht]; subst. cbn [hd] in H0. split; [|exact C]. exists m. split; [apply in_zrange; unfold within in Hm; lia|]. now apply in_map, in_tuples.
Qed.

(** *** Sums over lists *)
Local Open Scope R_scope.
Fixpoint rsum {A} (f : A -> R) (l : list A) : R := match l with [] => 0 | x :: t => f x + rsum f t end.
Lemma rsum_ext {A} (f g : A -> R) l : (forall x, In x l -> f x = g x) -> rsum f l = rsum g l.
Proof. induction l as [|x l IH]; cbn; intros H; [reflexivity|]. rewrite H by now left. rewrite IH; [reflexivity|]. intros. apply H. now right. Qed.
Lemma rsum_app {A} (f : A -> R) a b : rsum f (a ++ b) = rsum f a + rsum f b.
Proof. induction a as [|x a IH]; cbn; [ring|]. rewrite IH. ring. Qed.
Lemma rsum_plus {A} (f g : A -> R) l : rsum (fun x => f x + g x) l = rsum f l + rsum g l.
Proof. induction l as [|x l IH]; cbn; [ring|]. rewrite IH. ring. Qed.
Lemma rsum_scal {A} c (f : A -> R) l : rsum (fun x => c * f x) l = c * rsum f l.
Proof. induction l as [|x l IH]; cbn; [ring|]. rewrite IH. ring. Qed.
Lemma rsum_scal_r {A} c (f : A -> R) l : rsum (fun x => f x * c) l = rsum f l * c.
Proof. induction l as [|x l IH]; cbn; [ring|]. rewrite IH. ring. Qed.
Lemma rsum_zero {A} (f : A -> R) l : (forall x, In x l -> f x = 0) -> rsum f l = 0.
Proof. induction l as [|x l IH]; cbn; intros H; [reflexivity|]. rewrite H by now left. rewrite IH; [ring|]. intros. apply H. now right. Qed.
Lemma rsum_swap {A B} (f : A -> B -> R) l m : rsum (fun a => rsum (f a) m) l = rsum (fun b => rsum (fun a => f a b) l) m.
Proof. induction l as [|x l IH]; cbn; [symmetry; now apply rsum_zero|]. rewrite IH, <- rsum_plus. reflexivity. Qed.
Lemma rsum_map {A B} (g : A -> B) (f : B -> R) l : rsum f (map g l) = rsum (fun x => f (g x)) l.
Proof. induction l as [|x l IH]; cbn; [reflexivity|]. now rewrite IH. Qed.
Lemma rsum_flat {A B} (g : A -> list B) (f : B -> R) l : rsum f (flat_map g l) = rsum (fun x => rsum f (g x)) l.
Proof. induction l as [|x l IH]; cbn; [reflexivity|]. now rewrite rsum_app, IH. Qed.
Lemma rsum_filter {A} (p : A -> bool) (f : A -> R) l : rsum f (filter p l) = rsum (fun x => if p x then f x else 0) l.
Proof. induction l as [|x l IH]; cbn; [reflexivity|]. destruct (p x); cbn; rewrite IH; ring. Qed.
Lemma rsum_one {A} (f : A -> R) l x : NoDup l -> In x l -> (forall y, In y l -> y <> x -> f y = 0) -> rsum f l = f x.
Proof.
  induction 1 as [|a l Ha N IH]; intros Hx H; [easy|]. cbn. destruct Hx as [->|Hx].
  - rewrite (rsum_zero f l); [ring|]. intros y Hy. apply H; [now right|]. congruence.
  - rewrite (H a); [|now left|congruence]. rewrite IH; [ring|exact Hx|]. intros y Hy. apply H. now right.
Qed.
Lemma rsum_const {A} (c : R) (l : list A) : rsum (fun _ => c) l = INR (length l) * c.
Proof. induction l as [|x l IH]; [cbn; ring|]. cbn [rsum length]. rewrite IH, S_INR. ring. Qed.
Lemma rsum_seq {A} (f : A -> R) d l : rsum f l = rsum (fun i => f (nth i l d)) (seq 0 (length l)).
Proof.
  induction l as [|x l IH]; cbn [length seq rsum nth]; [reflexivity|]. rewrite IH. f_equal. rewrite <- seq_shift, rsum_map. reflexivity.
Qed.
Lemma rsum_sumn n (f : nat -> R) : sumn n f = rsum f (seq 0 n).
Proof. unfold sumn. induction (seq 0 n) as [|x l IH]; [reflexivity|]. rewrite nsumf_cons, IH. reflexivity. Qed.

(** *** Signs *)
Lemma sgn_add a b : sgn (F := R) (a + b) = sgn a * sgn b.
Proof. unfold sgn. rewrite Z.even_add. cbn. destruct (Z.even a), (Z.even b); cbn; ring. Qed.
Lemma sgn_opp a : sgn (F := R) (- a) = sgn a.
Proof. unfold sgn. now rewrite Z.even_opp. Qed.
Lemma sgn_abs a : sgn (F := R) (Z.abs a) = sgn a.
Proof. unfold sgn. destruct (Z.abs_spec a) as [[_ ->]|[_ ->]]; [reflexivity|]. now rewrite Z.even_opp. Qed.
Lemma sgn_sq a : sgn (F := R) a * sgn a = 1.
Proof. unfold sgn. cbn. destruct (Z.even a); ring. Qed.
Lemma sgn_1 : sgn (F := R) 1 = -1.
Proof. reflexivity. Qed.
Lemma nz_IZR k : (0 <= k)%Z -> nz (F := R) k = IZR k.
Proof. intros H. unfold nz. rewrite nnat_INR, INR_IZR_INZ, Z2Nat.id by exact H. reflexivity. Qed.

(** *** Amplitudes of coupled states *)
Definition triangle (l q q' : Z) : Prop := (Z.abs (l - q) <= q' <= l + q)%Z.
Fixpoint paths (q : Z) (ls : list Z) (t : Z) : list (list Z) :=
  match ls with
  | [] => if (q =? t)%Z then [[]] else []
  | l :: ls' => flat_map (fun q' => map (cons q') (paths q' ls' t)) (zrange (Z.abs (l - q)) (l + q))
  end.
Definition seq_of (x : list Z) : Z * list Z := match x with a :: b :: t => (b, a :: t) | [a] => (a, []) | [] => (0%Z, []) end.
Definition paths_of (ls : list Z) : list (list Z) := let (q, l) := seq_of (removelast ls) in paths q l (last ls 0%Z).
(** The couplings on a path, and those on any path of l. *)
Fixpoint steps (q : Z) (ls qs : list Z) : list (Z * Z * Z) := match ls, qs with l :: ls', q' :: qs' => (l, q, q') :: steps q' ls' qs' | _, _ => [] end.
Definition couples (q : Z) (ls : list Z) (t l a b : Z) : Prop := exists qs, In qs (paths q ls t) /\ In (l, a, b) (steps q ls qs).
Definition used (ls : list Z) (l a b : Z) : Prop := let (q, r) := seq_of (removelast ls) in couples q r (last ls 0%Z) l a b.
Lemma in_paths_cons q l ls t qs : In qs (paths q (l :: ls) t) <-> exists q' r, qs = q' :: r /\ triangle l q q' /\ In r (paths q' ls t).
Proof.
  cbn [paths]. rewrite in_flat_map. split.
  - intros [q' [Hq H]]. apply in_map_iff in H. destruct H as [r [<- Hr]]. apply in_zrange in Hq. now exists q', r.
  - intros [q' [r [-> [T Hr]]]]. exists q'. split; [now apply in_zrange|]. now apply in_map.
Qed.
Lemma in_paths_nil q t qs : In qs (paths q [] t) <-> q = t /\ qs = [].
Proof. cbn. destruct (Z.eqb_spec q t); cbn; intuition congruence. Qed.
Lemma couples_head q l ls t q' r : triangle l q q' -> In r (paths q' ls t) -> couples q (l :: ls) t l q q'.
Proof. intros T I. exists (q' :: r). split; [apply in_paths_cons; eauto|]. now left. Qed.
Lemma couples_tail q l ls t q' a b c : triangle l q q' -> couples q' ls t a b c -> couples q (l :: ls) t a b c.
Proof. intros T [r [I J]]. exists (q' :: r). split; [apply in_paths_cons; eauto|]. now right. Qed.
Lemma NoDup_paths ls : forall q t, NoDup (paths q ls t).
Proof.
  induction ls as [|l ls IH]; intros q t; cbn [paths]; [destruct (q =? t)%Z; repeat constructor; easy|]. apply NoDup_flat; [apply NoDup_zrange| |].
  - intros q' _. apply NoDup_map_inj; [congruence|apply IH].
  - intros a b x _ _ Ha Hb. apply in_map_iff in Ha, Hb. destruct Ha as [u [<- _]], Hb as [u' [E _]]. congruence.
Qed.
Section Amp.
  Variable tj : Z -> Z -> Z -> Z -> Z -> Z -> R.
  Notation cg := (cg tj).
  Definition cgr (l q q' m s : Z) : R := if (Z.abs (s + m) <=? q')%Z then cg l q q' m s (s + m) else 0.
  Fixpoint amp (q s : Z) (ls ms qs : list Z) : R :=
    match ls, ms, qs with
    | l :: ls', m :: ms', q' :: qs' => cgr l q q' m s * amp q' (s + m) ls' ms' qs'
    | [], [], [] => 1
    | _, _, _ => 0
    end.
  Definition amps (ls ms qs : list Z) : R := let (q, l) := seq_of (removelast ls) in let (s, m) := seq_of ms in amp q s l m qs.
  Definition coupled (ls ms ms' : list Z) : R := rsum (fun qs => amps ls ms qs * amps ls ms' qs) (paths_of ls).

  Hypothesis H_tri : forall l q q' m1 m2 m3, ~ triangle l q q' -> tj l q q' m1 m2 m3 = 0.
  Lemma cg_tri l q q' m1 m2 m3 : ~ triangle l q q' -> cg l q q' m1 m2 m3 = 0.
  Proof. intros H. unfold Model.Projector.cg. rewrite H_tri by exact H. cbn. ring. Qed.
  Lemma dget_val (d : dict (F := R)) k v : (forall e, In e d -> fst e = k -> snd e = v) -> (exists e, In e d /\ fst e = k) -> dget d k = v.
  Proof.
    intros H [e [He Ee]]. unfold dget. destruct (find _ (rev d)) as [e'|] eqn:EF.
    - apply find_some in EF. destruct EF as [I E]. apply in_rev in I. destruct (list_eq_dec Z.eq_dec (fst e') k); [|discriminate]. now apply H.
    - apply (find_none _ _) with (x := e) in EF; [|now apply in_rev; rewrite rev_involutive]. destruct (list_eq_dec Z.eq_dec (fst e) k); [discriminate|contradiction].
  Qed.
  Lemma in_level l st lqa s lqb m : In (lqa, s, lqb, m) (level l st) <-> In (lqa, s) st /\ triangle l lqa lqb /\ within l m /\ (Z.abs (s + m) <= lqb)%Z.
  Proof.
    unfold level. rewrite in_flat_map. split.
    - intros [[a b] [I H]]. apply in_flat_map in H. destruct H as [c [Hc H]]. apply in_flat_map in H. destruct H as [n [Hn H]]. apply in_zrange in Hc, Hn. destruct (Z.ltb_spec c (Z.abs (b + n))); [easy|]. destruct H as [[= <- <- <- <-]|[]]. unfold triangle, within. repeat split; auto; lia.
    - intros [I [T [W A]]]. exists (lqa, s). split; [exact I|]. apply in_flat_map. exists lqb. split; [now apply in_zrange|]. apply in_flat_map. exists m. split; [now apply in_zrange|]. destruct (Z.ltb_spec lqb (Z.abs (s + m))); [lia|now left].
  Qed.
  Lemma get_inter l st lqa s lqb m : In (lqa, s) st -> triangle l lqa lqb -> within l m -> (Z.abs (s + m) <= lqb)%Z -> dget (cleb_inter tj l st) [lqa; lqb; m; s] = cg l lqa lqb m s (s + m).
  Proof.
    intros I T W A. apply dget_val.
    - intros e He Ek. unfold cleb_inter in He. apply in_map_iff in He. destruct He as [[[[a b] c] n] [<- _]]. cbn in *. injection Ek as -> -> -> ->. reflexivity.
    - exists ([lqa; lqb; m; s], cg l lqa lqb m s (s + m)). split; [|reflexivity]. unfold cleb_inter. apply in_map_iff. exists (lqa, s, lqb, m). split; [reflexivity|]. now apply in_level.
  Qed.
  Lemma get_last l lf st lq s m : In (lq, s) st -> within l m -> (Z.abs (s + m) <= lf)%Z -> dget (cleb_last tj l lf st) [lq; m; s] = cg l lq lf m s (s + m).
  Proof.
    intros I W A. apply dget_val.
    - intros e He Ek. unfold cleb_last in He. apply in_flat_map in He. destruct He as [[a b] [_ He]]. apply in_flat_map in He. destruct He as [n [_ He]]. destruct (lf <? Z.abs (b + n))%Z; [easy|]. destruct He as [<-|[]]. cbn in *. injection Ek as -> -> ->. reflexivity.
    - exists ([lq; m; s], cg l lq lf m s (s + m)). split; [|reflexivity]. unfold cleb_last. apply in_flat_map. exists (lq, s). split; [exact I|]. apply in_flat_map. exists m. split; [now apply in_zrange|]. destruct (Z.ltb_spec lf (Z.abs (s + m))); [lia|now left].
  Qed.
  Lemma prod_last_sum d (prods : list (Z * R)) s m s' m' : prod_last d prods s m s' m' = rsum (fun x => snd x * dget d [fst x; m; s] * dget d [fst x; m'; s']) prods.
  Proof.
    unfold prod_last. assert (G : forall c, fold_left (fun num '(lq, p) => (num + p * dget d [lq; m; s] * dget d [lq; m'; s'])%F) prods c = c + rsum (fun x => snd x * dget d [fst x; m; s] * dget d [fst x; m'; s']) prods).
    { induction prods as [|[a b] prods IH]; intros c; cbn [fold_left rsum]; [ring|]. rewrite IH. cbn [fst snd nadd nmul R_num]. ring. }
    rewrite G. cbn [n0 R_num]. ring.
  Qed.
  Lemma paths_last q l t : rsum (fun qs => 1) (paths q [l] t) = if (Z.abs (l - q) <=? t)%Z && (t <=? l + q)%Z then 1 else 0.
  Proof.
    cbn [paths]. rewrite rsum_flat. destruct (Z.leb_spec (Z.abs (l - q)) t), (Z.leb_spec t (l + q)); cbn [andb].
    - rewrite (rsum_one _ _ t); [rewrite Z.eqb_refl; cbn; ring|apply NoDup_zrange|apply in_zrange; lia|]. intros y _ D. destruct (Z.eqb_spec y t); [contradiction|reflexivity].
    - apply rsum_zero. intros y Hy. apply in_zrange in Hy. destruct (Z.eqb_spec y t); [lia|reflexivity].
    - apply rsum_zero. intros y Hy. apply in_zrange in Hy. destruct (Z.eqb_spec y t); [lia|reflexivity].
    - apply rsum_zero. intros y Hy. apply in_zrange in Hy. destruct (Z.eqb_spec y t); [lia|reflexivity].
  Qed.
  Lemma amp_last q l t s m s' m' : (Z.abs (s + m) <= t)%Z -> (Z.abs (s' + m') <= t)%Z ->
    rsum (fun qs => amp q s [l] [m] qs * amp q s' [l] [m'] qs) (paths q [l] t) = cg l q t m s (s + m) * cg l q t m' s' (s' + m').
  Proof.
    intros A A'. cbn [paths]. rewrite rsum_flat. assert (E : forall q', In q' (zrange (Z.abs (l - q)) (l + q)) -> rsum (fun qs => amp q s [l] [m] qs * amp q s' [l] [m'] qs) (map (cons q') (if (q' =? t)%Z then [[]] else [])) = if (q' =? t)%Z then cg l q t m s (s + m) * cg l q t m' s' (s' + m') else 0).
    { intros q' _. destruct (Z.eqb_spec q' t) as [->|D]; [|reflexivity]. cbn [map rsum amp]. unfold cgr. destruct (Z.leb_spec (Z.abs (s + m)) t); [|lia]. destruct (Z.leb_spec (Z.abs (s' + m')) t); [|lia]. ring. }
    rewrite (rsum_ext _ _ _ E). clear E. destruct (Z.le_gt_cases (Z.abs (l - q)) t) as [T1|T1]; [destruct (Z.le_gt_cases t (l + q)) as [T2|T2]|].
    - rewrite (rsum_one _ _ t); [now rewrite Z.eqb_refl|apply NoDup_zrange|apply in_zrange; lia|]. intros y _ D. destruct (Z.eqb_spec y t); [contradiction|reflexivity].
    - rewrite rsum_zero; [rewrite (cg_tri l q t) by (unfold triangle; lia); ring|]. intros y Hy. apply in_zrange in Hy. destruct (Z.eqb_spec y t); [lia|reflexivity].
    - rewrite rsum_zero; [rewrite (cg_tri l q t) by (unfold triangle; lia); ring|]. intros y Hy. apply in_zrange in Hy. destruct (Z.eqb_spec y t); [lia|reflexivity].
  Qed.
  Lemma products_sum mid ll lf : forall st prods s s' ms ms', (forall x, In x prods -> In (fst x, s) st /\ In (fst x, s') st) -> Forall2 within (mid ++ [ll]) ms -> Forall2 within (mid ++ [ll]) ms' ->
    (Z.abs (s + zsum ms) <= lf)%Z -> (Z.abs (s' + zsum ms') <= lf)%Z ->
    products tj mid ll lf st prods s s' ms ms' = rsum (fun x => snd x * rsum (fun qs => amp (fst x) s (mid ++ [ll]) ms qs * amp (fst x) s' (mid ++ [ll]) ms' qs) (paths (fst x) (mid ++ [ll]) lf)) prods.
  Proof.
    induction mid as [|l mid IH]; intros st prods s s' ms ms' HI W W' A A'; cbn [app] in *; inversion W as [|? m ? t Hm Ht]; subst; inversion W' as [|? m' ? t' Hm' Ht']; subst.
    - inversion Ht; subst. inversion Ht'; subst. cbn [zsum] in A, A'. rewrite !Z.add_0_r in A, A'. cbn [products]. rewrite prod_last_sum. apply rsum_ext. intros x Hx. destruct (HI x Hx) as [I1 I2]. rewrite amp_last by assumption.
      rewrite (get_last ll lf st (fst x) s m) by assumption. rewrite (get_last ll lf st (fst x) s' m') by assumption. ring.
    - cbn [products]. cbn [zsum] in A, A'. rewrite IH; try assumption; try (now rewrite <- Z.add_assoc).
      + unfold prod_inter. rewrite rsum_flat. apply rsum_ext. intros [q p] Hx. destruct (HI _ Hx) as [I1 I2]. cbn [fst snd] in *. rewrite rsum_flat. cbn [paths]. rewrite rsum_flat, <- rsum_scal.
        apply rsum_ext. intros q2 Hq. apply in_zrange in Hq. rewrite rsum_map. cbn [amp].
        destruct (Z.ltb_spec q2 (Z.abs (s + m))) as [L1|L1]; cbn [orb rsum].
        { rewrite rsum_zero; [ring|]. intros qs _. unfold cgr. destruct (Z.leb_spec (Z.abs (s + m)) q2); [lia|ring]. }
        destruct (Z.ltb_spec q2 (Z.abs (s' + m'))) as [L2|L2]; cbn [rsum].
        { rewrite rsum_zero; [ring|]. intros qs _. unfold cgr. destruct (Z.leb_spec (Z.abs (s' + m')) q2); [lia|ring]. }
        cbn [fst snd]. rewrite (get_inter l st q s q2 m) by (assumption || (unfold triangle; lia)). rewrite (get_inter l st q s' q2 m') by (assumption || (unfold triangle; lia)).
        rewrite (rsum_ext (fun x => cgr l q q2 m s * amp q2 (s + m) (mid ++ [ll]) t x * (cgr l q q2 m' s' * amp q2 (s' + m') (mid ++ [ll]) t' x)) (fun x => (cg l q q2 m s (s + m) * cg l q q2 m' s' (s' + m')) * (amp q2 (s + m) (mid ++ [ll]) t x * amp q2 (s' + m') (mid ++ [ll]) t' x))).
        { rewrite rsum_scal. cbn [nmul R_num]. ring. }
        intros qs _. unfold cgr. destruct (Z.leb_spec (Z.abs (s + m)) q2); [|lia]. destruct (Z.leb_spec (Z.abs (s' + m')) q2); [|lia]. ring.
      + intros x Hx. unfold prod_inter in Hx. apply in_flat_map in Hx. destruct Hx as [[q p] [Hp Hx]]. apply in_flat_map in Hx. destruct Hx as [q2 [Hq Hx]]. apply in_zrange in Hq. destruct (Z.ltb_spec q2 (Z.abs (s + m))); [easy|]. destruct (Z.ltb_spec q2 (Z.abs (s' + m'))); [easy|]. cbn [orb] in Hx. destruct Hx as [<-|[]]. cbn [fst]. destruct (HI _ Hp) as [I1 I2]. cbn [fst] in *.
        unfold level_next. split; apply in_map_iff; [exists (q, s, q2, m)|exists (q, s', q2, m')]; (split; [reflexivity|]); apply in_level; unfold triangle, within in *; repeat split; auto; lia.
  Qed.
  Lemma get_first l1 l2 lq m1 m2 : triangle l1 l2 lq -> (0 <= m1 <= l1)%Z -> within l2 m2 -> (Z.abs (m1 + m2) <= lq)%Z -> In (lq, m1, m2) (level1 l1 l2).
  Proof.
    intros T W1 W2 A. unfold level1. apply in_flat_map. exists lq. split; [now apply in_zrange|]. apply in_flat_map. exists m1. split; [now apply in_zrange|]. apply in_flat_map. exists m2. split; [now apply in_zrange|]. destruct (Z.ltb_spec lq (Z.abs (m1 + m2))); [lia|now left].
  Qed.
  Lemma dget_first l1 l2 lq m1 m2 : In (lq, m1, m2) (level1 l1 l2) -> dget (cleb_first tj l1 l2) [lq; m1; m2] = cg l1 l2 lq m1 m2 (m1 + m2).
  Proof.
    intros I. apply dget_val.
    - intros e He Ek. unfold cleb_first in He. apply in_map_iff in He. destruct He as [[[a b] c] [<- _]]. cbn in *. injection Ek as -> -> ->. reflexivity.
    - exists ([lq; m1; m2], cg l1 l2 lq m1 m2 (m1 + m2)). split; [|reflexivity]. unfold cleb_first. apply in_map_iff. now exists (lq, m1, m2).
  Qed.
  Lemma split_last2 {A} (x y : A) t : exists mid ll lf, x :: y :: t = (mid ++ [ll]) ++ [lf].
  Proof using. clear.
    destruct (exists_last (l := x :: y :: t)) as [r [lf E]]; [discriminate|]. destruct r as [|r0 r']; [discriminate|]. destruct (exists_last (l := r0 :: r')) as [mid [ll E']]; [discriminate|]. exists mid, ll, lf. now rewrite E, E'.
  Qed.
  Lemma F2_cons {A B} (P : A -> B -> Prop) a l ms : Forall2 P (a :: l) ms -> exists m t, ms = m :: t /\ P a m /\ Forall2 P l t.
  Proof using. clear. intros H. inversion H; subst. eauto. Qed.
  Lemma number_sum ls ms ms' : Forall (fun l => 0 <= l)%Z ls -> (3 <= length ls)%nat -> In ms (half ls) -> In ms' (half ls) -> number tj ls ms ms' = coupled ls ms ms'.
  Proof.
    intros P HL Hm Hm'. apply half_states in Hm, Hm'; [|exact P|lia|exact P|lia]. destruct Hm as [Hm H0], Hm' as [Hm' H0']. apply in_states in Hm, Hm'. destruct Hm as [W A], Hm' as [W' A'].
    destruct ls as [|l1 [|l2 [|x [|y t]]]]; cbn [length] in HL; try lia.
    - cbn [removelast last] in *. inversion W as [|? m1 ? t1 W1 Wt]; subst. inversion Wt as [|? m2 ? t2 W2 Wt2]; subst. inversion Wt2; subst. inversion W' as [|? m1' ? t1' W1' Wt']; subst. inversion Wt' as [|? m2' ? t2' W2' Wt2']; subst. inversion Wt2'; subst.
      cbn [number hd zsum] in *. unfold coupled, paths_of, amps. cbn [removelast last seq_of]. rewrite amp_last by lia. rewrite !(Z.add_comm m2), !(Z.add_comm m2').
      assert (G : forall a b, (0 <= a <= l1)%Z -> within l2 b -> (Z.abs (a + b) <= x)%Z -> dget (flat_map (fun m1 => flat_map (fun m2 => if (x <? Z.abs (m1 + m2))%Z then [] else [([m1; m2], cg l1 l2 x m1 m2 (m1 + m2))]) (m_range l2)) (zrange 0 l1)) [a; b] = cg l1 l2 x a b (a + b)).
      { intros a b Wa Wb Ab. apply dget_val.
        - intros e He Ek. apply in_flat_map in He. destruct He as [a0 [_ He]]. apply in_flat_map in He. destruct He as [b0 [_ He]]. destruct (x <? Z.abs (a0 + b0))%Z; [easy|]. destruct He as [<-|[]]. cbn [fst snd] in *. injection Ek as -> ->. reflexivity.
        - exists ([a; b], cg l1 l2 x a b (a + b)). split; [|reflexivity]. apply in_flat_map. exists a. split; [now apply in_zrange|]. apply in_flat_map. exists b. split; [now apply in_zrange|]. destruct (Z.ltb_spec x (Z.abs (a + b))); [lia|now left]. }
      cbv zeta. unfold within in *. rewrite (G m1 m2), (G m1' m2') by (unfold within; lia). reflexivity.
    - destruct (split_last2 x y t) as [mid [ll [lf E]]]. assert (ER : removelast (l1 :: l2 :: x :: y :: t) = l1 :: l2 :: mid ++ [ll]). { rewrite E. change (l1 :: l2 :: (mid ++ [ll]) ++ [lf]) with ((l1 :: l2 :: mid ++ [ll]) ++ [lf]). apply removelast_last. }
      assert (EL : last (l1 :: l2 :: x :: y :: t) 0%Z = lf). { rewrite E. change (l1 :: l2 :: (mid ++ [ll]) ++ [lf]) with ((l1 :: l2 :: mid ++ [ll]) ++ [lf]). apply last_last. }
      unfold coupled, paths_of, amps. rewrite ER in *. rewrite EL in *.
      destruct (F2_cons _ _ _ _ W) as [m1 [t1 [-> [W1 Wt]]]]. destruct (F2_cons _ _ _ _ Wt) as [m2 [t2 [-> [W2 Wt2]]]]. destruct (F2_cons _ _ _ _ W') as [m1' [t1' [-> [W1' Wt']]]]. destruct (F2_cons _ _ _ _ Wt') as [m2' [t2' [-> [W2' Wt2']]]].
      cbn [hd] in *. unfold within in W1, W1'. cbn [number seq_of]. rewrite E, removelast_last, last_last, removelast_last, last_last. cbn [zsum] in A, A'.
      rewrite (products_sum mid ll); [| |assumption|assumption|now rewrite <- Z.add_assoc|now rewrite <- Z.add_assoc].
      + unfold prod_first. rewrite rsum_flat. cbn [paths]. rewrite rsum_flat. apply rsum_ext. intros q2 Hq. apply in_zrange in Hq. rewrite rsum_map. cbn [amp].
        destruct (Z.ltb_spec q2 (Z.abs (m1 + m2))) as [L1|L1]; cbn [orb rsum].
        { symmetry. apply rsum_zero. intros qs _. unfold cgr. destruct (Z.leb_spec (Z.abs (m2 + m1)) q2); [lia|ring]. }
        destruct (Z.ltb_spec q2 (Z.abs (m1' + m2'))) as [L2|L2]; cbn [rsum].
        { symmetry. apply rsum_zero. intros qs _. unfold cgr. destruct (Z.leb_spec (Z.abs (m2' + m1')) q2); [lia|ring]. }
        cbn [fst snd]. rewrite (dget_first l1 l2 q2 m1 m2) by (apply get_first; (assumption || (unfold triangle; lia))). rewrite (dget_first l1 l2 q2 m1' m2') by (apply get_first; (assumption || (unfold triangle; lia))).
        rewrite Rplus_0_r, <- rsum_scal. apply rsum_ext. intros qs _. unfold cgr. rewrite !(Z.add_comm m2), !(Z.add_comm m2'). destruct (Z.leb_spec (Z.abs (m1 + m2)) q2); [|lia]. destruct (Z.leb_spec (Z.abs (m1' + m2')) q2); [|lia]. cbn [nmul R_num]. ring.
      + intros x0 Hx. unfold prod_first in Hx. apply in_flat_map in Hx. destruct Hx as [q2 [Hq Hx]]. apply in_zrange in Hq. destruct (Z.ltb_spec q2 (Z.abs (m1 + m2))); [easy|]. destruct (Z.ltb_spec q2 (Z.abs (m1' + m2'))); [easy|]. cbn [orb] in Hx. destruct Hx as [<-|[]]. cbn [fst].
        split; apply in_map_iff; [exists (q2, m1, m2)|exists (q2, m1', m2')]; (split; [reflexivity|]); apply get_first; (assumption || (unfold triangle; lia)).
  Qed.
  (** *** Parity *)
  Lemma sgn_even2 a b : Z.even (a - b) = true -> sgn (F := R) a = sgn b.
  Proof using. clear. unfold sgn. rewrite Z.even_sub. destruct (Z.even a), (Z.even b); cbn; congruence. Qed.
  Lemma even_double k : Z.even (2 * k) = true.
  Proof using. clear. now rewrite Z.even_mul. Qed.
  Lemma cgr_neg l q q' m s : (forall m1 m2 m3, tj l q q' (- m1) (- m2) (- m3) = sgn (l + q + q') * tj l q q' m1 m2 m3) -> cgr l q q' (- m) (- s) = sgn (l + q + q') * cgr l q q' m s.
  Proof.
    intros H. unfold cgr. replace (- s + - m)%Z with (- (s + m))%Z by lia. rewrite Z.abs_opp. destruct (Z.abs (s + m) <=? q')%Z; [|ring]. unfold Model.Projector.cg. rewrite H. rewrite (sgn_even2 (l - q + - (s + m)) (l - q + (s + m))).
    - cbn [nmul R_num]. ring.
    - replace (l - q + - (s + m) - (l - q + (s + m)))%Z with (2 * - (s + m))%Z by lia. apply even_double.
  Qed.
  Definition parity (l a b : Z) : Prop := forall m1 m2 m3, tj l a b (- m1) (- m2) (- m3) = sgn (l + a + b) * tj l a b m1 m2 m3.
  Lemma amp_neg ls : forall q t qs s ms, (forall l a b, couples q ls t l a b -> parity l a b) -> In qs (paths q ls t) -> amp q (- s) ls (neg ms) qs = sgn (q + zsum ls + t) * amp q s ls ms qs.
  Proof.
    induction ls as [|l ls IH]; intros q t qs s ms H I.
    - apply in_paths_nil in I. destruct I as [-> ->]. cbn [zsum]. rewrite (sgn_even2 _ 0) by (replace (t + 0 + t - 0)%Z with (2 * t)%Z by lia; apply even_double). destruct ms; cbn; ring.
    - pose proof I as I0. apply in_paths_cons in I. destruct I as [q' [r [-> [T I]]]]. destruct ms as [|m ms]; [cbn; ring|]. cbn [neg map amp]. rewrite cgr_neg by (apply H; eapply couples_head; eauto). replace (- s + - m)%Z with (- (s + m))%Z by lia. fold (neg ms). rewrite (IH q' t r) by (auto; intros; apply H; eapply couples_tail; eauto).
      replace (sgn (F := R) (q + zsum (l :: ls) + t)) with (sgn (F := R) (l + q + q') * sgn (q' + zsum ls + t)); [ring|]. rewrite <- sgn_add. apply sgn_even2. cbn [zsum]. replace (l + q + q' + (q' + zsum ls + t) - (q + (l + zsum ls) + t))%Z with (2 * q')%Z by lia. apply even_double.
  Qed.
  Definition all_parity (ls : list Z) : Prop := forall l a b, used ls l a b -> parity l a b.
  Lemma removelast_zsum ls : ls <> [] -> zsum ls = (zsum (removelast ls) + last ls 0)%Z.
  Proof using. clear. intros H. rewrite (app_removelast_last 0%Z H) at 1. rewrite zsum_app. cbn. lia. Qed.
  Lemma seq_of_neg ms : seq_of (neg ms) = let (s, m) := seq_of ms in ((- s)%Z, neg m).
  Proof using. clear. destruct ms as [|a [|b t]]; reflexivity. Qed.
  Lemma seq_of_zsum ls q r : seq_of ls = (q, r) -> zsum ls = (q + zsum r)%Z.
  Proof using. clear. destruct ls as [|a [|b t]]; cbn; intros [= <- <-]; cbn; lia. Qed.
  Lemma amps_neg ls ms qs : ls <> [] -> all_parity ls -> Z.even (zsum ls) = true -> In qs (paths_of ls) -> amps ls (neg ms) qs = amps ls ms qs.
  Proof.
    intros N H E I. unfold all_parity, used, paths_of, amps in *. rewrite (removelast_zsum ls N) in E. rewrite seq_of_neg. destruct (seq_of (removelast ls)) as [q r] eqn:ES. apply seq_of_zsum in ES. rewrite ES in E. destruct (seq_of ms) as [s m]. rewrite (amp_neg r q (last ls 0%Z)) by assumption. unfold sgn. rewrite E. cbn [n1 R_num]. ring.
  Qed.
  Definition value (ls ms ms' : list Z) : R := coupled ls ms ms' * factor (last ls 0%Z) ms ms'.
  Lemma factor_sgn lf ms ms' : (0 <= lf)%Z -> factor (F := R) lf ms ms' = sgn (zsum ms) * sgn (zsum ms') / IZR (2 * lf + 1).
  Proof using. clear.
    intros H. unfold factor. rewrite nz_IZR by lia. rewrite sgn_abs, <- sgn_add. rewrite (sgn_even2 _ (zsum ms + zsum ms')); [reflexivity|]. replace (- zsum ms - - zsum ms' - (zsum ms + zsum ms'))%Z with (2 * - zsum ms)%Z by lia. apply even_double.
  Qed.
  Lemma last_nonneg ls : Forall (fun l => 0 <= l)%Z ls -> (0 <= last ls 0)%Z.
  Proof using. clear. induction 1 as [|x l H F IH]; cbn; [lia|]. destruct l; [exact H|exact IH]. Qed.
  Section Even.
    Variable ls : list Z.
    Hypotheses (HN : Forall (fun l => 0 <= l)%Z ls) (HL : (2 <= length ls)%nat) (HE : Z.even (zsum ls) = true) (HP : all_parity ls).
    Lemma ls_nil : ls <> [].
    Proof. intros C. rewrite C in HL. cbn in HL. lia. Qed.
    Lemma value_sym ms ms' : value ls ms ms' = value ls ms' ms.
    Proof. unfold value, coupled. rewrite !factor_sgn by now apply last_nonneg. rewrite (rsum_ext (fun qs => amps ls ms qs * amps ls ms' qs) (fun qs => amps ls ms' qs * amps ls ms qs)) by (intros; ring). unfold Rdiv. ring. Qed.
    Lemma value_neg_r ms ms' : value ls ms (neg ms') = value ls ms ms'.
    Proof. unfold value, coupled. rewrite !factor_sgn by now apply last_nonneg. rewrite zsum_neg, sgn_opp. f_equal. apply rsum_ext. intros qs I. rewrite amps_neg by (assumption || apply ls_nil). reflexivity. Qed.
    Lemma value_neg_l ms ms' : value ls (neg ms) ms' = value ls ms ms'.
    Proof. now rewrite value_sym, value_neg_r, value_sym. Qed.
    Definition holds (w : write (F := R)) : Prop := exists ms ms', In ms (states ls) /\ In ms' (states ls) /\ w = (map_m ls ms, map_m ls ms', value ls ms ms').
    Definition covers (ws : list (write (F := R))) : Prop := forall ms ms', In ms (states ls) -> In ms' (states ls) -> In (map_m ls ms, map_m ls ms', value ls ms ms') ws.
    Lemma writes_hold ws : build tj ls = Ok ws -> (forall w, In w ws -> holds w) /\ covers ws.
    Proof.
      unfold build. rewrite Z.even_opp, HE. cbn [negb]. intros E.
      assert (HB : (length ls = 2%nat /\ ws = writes_2 ls) \/ ((3 <= length ls)%nat /\ ws = writes_n tj ls)).
      { destruct (length ls) as [|[|[|[|[|[|[|[|[|n]]]]]]]]]; try discriminate E; assert (W : forall x y : list (write (F := R)), Ok x = Ok y -> y = x) by congruence; apply W in E; [left; now split|right; split; [lia|exact E] ..]. }
      clear E. destruct HB as [[H2 ->]|[H3 ->]].
      - assert (EL : exists l1 l2, ls = [l1; l2]) by (clear - H2; destruct ls as [|l1 [|l2 [|x t]]]; cbn in H2; try lia; eauto). destruct EL as [l1 [l2 EL]]. assert (V : forall ms ms', In ms (states ls) -> In ms' (states ls) -> value ls ms ms' = if (l1 =? l2)%Z then factor l2 ms ms' else 0).
        { intros ms ms' I I'. rewrite EL in I, I' |- *. apply in_states in I, I'. cbn [removelast last] in I, I'. destruct I as [W A], I' as [W' A']. inversion W as [|? m1 ? t1 W1 Wt]; subst. inversion Wt; subst. inversion W' as [|? m1' ? t1' W1' Wt']; subst. inversion Wt'; subst. unfold value, coupled, paths_of, amps. cbn [removelast last seq_of paths]. destruct (l1 =? l2)%Z; cbn [rsum amp]; ring. }
        assert (EW : writes_2 (F := R) ls = flat_map (fun ms => flat_map (fun ms' => if (map_m ls ms' <? map_m ls ms)%nat then [] else (map_m ls ms, map_m ls ms', if (l1 =? l2)%Z then factor l2 ms ms' else 0) :: if (map_m ls ms =? map_m ls ms')%nat then [] else [(map_m ls ms', map_m ls ms, if (l1 =? l2)%Z then factor l2 ms ms' else 0)]) (states ls)) (states ls)) by (unfold writes_2; rewrite EL; reflexivity).
        rewrite EW. clear EW. split.
        + intros w Hw. apply in_flat_map in Hw. destruct Hw as [ms [I Hw]]. apply in_flat_map in Hw. destruct Hw as [ms' [I' Hw]]. destruct (map_m ls ms' <? map_m ls ms)%nat; [easy|]. destruct Hw as [<-|Hw].
          * exists ms, ms'. rewrite V by assumption. auto.
          * destruct (map_m ls ms =? map_m ls ms')%nat; [easy|]. destruct Hw as [<-|[]]. exists ms', ms. rewrite value_sym, V by assumption. auto.
        + intros ms ms' I I'. destruct (Nat.le_gt_cases (map_m ls ms) (map_m ls ms')) as [C|C].
          * apply in_flat_map. exists ms. split; [exact I|]. apply in_flat_map. exists ms'. split; [exact I'|]. destruct (Nat.ltb_spec (map_m ls ms') (map_m ls ms)); [lia|]. rewrite V by assumption. now left.
          * apply in_flat_map. exists ms'. split; [exact I'|]. apply in_flat_map. exists ms. split; [exact I|]. destruct (Nat.ltb_spec (map_m ls ms) (map_m ls ms')); [lia|]. right. destruct (Nat.eqb_spec (map_m ls ms') (map_m ls ms)); [lia|]. rewrite value_sym, V by assumption. now left.
      - assert (V : forall ms ms', In ms (half ls) -> In ms' (half ls) -> (number tj ls ms ms' * factor (last ls 0%Z) ms ms')%F = value ls ms ms') by (intros ms ms' I I'; unfold value; rewrite number_sum by assumption; reflexivity).
        assert (HS : forall ms, In ms (half ls) -> In ms (states ls)) by (intros ms I; now apply half_states in I).
        unfold writes_n. split.
        + intros w Hw. apply in_flat_map in Hw. destruct Hw as [ms [I Hw]]. apply in_flat_map in Hw. destruct Hw as [ms' [I' Hw]]. destruct (map_m ls ms' <? map_m ls ms)%nat; [easy|]. rewrite V in Hw by assumption. apply HS in I, I'. pose proof (states_neg _ _ I) as NI. pose proof (states_neg _ _ I') as NI'. unfold assign_core in Hw. apply in_app_iff in Hw. destruct Hw as [Hw|Hw].
          * destruct Hw as [<-|[<-|[<-|[<-|[]]]]]; [exists ms, ms'|exists ms, (neg ms')|exists (neg ms), ms'|exists (neg ms), (neg ms')]; rewrite ?value_neg_l, ?value_neg_r; auto.
          * destruct (map_m ls ms =? map_m ls ms')%nat; [easy|]. destruct Hw as [<-|[<-|[<-|[<-|[]]]]]; [exists ms', ms|exists ms', (neg ms)|exists (neg ms'), ms|exists (neg ms'), (neg ms)]; rewrite ?value_neg_l, ?value_neg_r, (value_sym ms ms'); auto.
        + intros ms ms' I I'. assert (HH : forall x, In x (states ls) -> exists h, In h (half ls) /\ (x = h \/ x = neg h)).
          { intros x Ix. destruct (Z.le_gt_cases 0 (hd 0%Z x)) as [C|C]; [exists x; split; [apply half_states; auto|now left]|]. exists (neg x). split; [|right; now rewrite neg_neg]. apply half_states; try assumption. split; [now apply states_neg|]. destruct x; cbn in *; lia. }
          destruct (HH ms I) as [h [Ih Eh]], (HH ms' I') as [h' [Ih' Eh']]. replace (value ls ms ms') with (value ls h h') by (destruct Eh as [->| ->], Eh' as [->| ->]; now rewrite ?value_neg_l, ?value_neg_r). clear I I'.
          destruct (Nat.le_gt_cases (map_m ls h) (map_m ls h')) as [C|C].
          * apply in_flat_map. exists h. split; [exact Ih|]. apply in_flat_map. exists h'. split; [exact Ih'|]. destruct (Nat.ltb_spec (map_m ls h') (map_m ls h)); [lia|]. rewrite V by assumption. unfold assign_core. apply in_app_iff. left. destruct Eh as [->| ->], Eh' as [->| ->]; cbn; auto.
          * apply in_flat_map. exists h'. split; [exact Ih'|]. apply in_flat_map. exists h. split; [exact Ih|]. destruct (Nat.ltb_spec (map_m ls h) (map_m ls h')); [lia|]. rewrite V, value_sym by assumption. unfold assign_core. apply in_app_iff. right. destruct (Nat.eqb_spec (map_m ls h') (map_m ls h)); [lia|]. destruct Eh as [->| ->], Eh' as [->| ->]; cbn; auto.
    Qed.
    Lemma core_in (ws : list (write (F := R))) i j v : (forall w, In w ws -> fst w = (i, j) -> snd w = v) -> (exists w, In w ws /\ fst w = (i, j)) -> core ws i j = v.
    Proof using. clear.
      unfold core. generalize (0%F : R). induction ws as [|[[a b] x] ws IH]; intros c H E; [now destruct E as [w [[] _]]|]. cbn [fold_left].
      assert (D : {exists w, In w ws /\ fst w = (i, j)} + {forall w, In w ws -> fst w <> (i, j)}).
      { clear. induction ws as [|[p y] ws IH]; [right; intros w []|]. destruct IH as [IH|IH]; [left; destruct IH as [w [Iw Ew]]; exists w; split; [now right|exact Ew]|]. destruct p as [a b]. destruct (Nat.eq_dec a i) as [->|D1]; [destruct (Nat.eq_dec b j) as [->|D2]|]; [left; exists (i, j, y); split; [now left|reflexivity]|right|right]; intros w [<-|Iw]; try (now apply IH); cbn; congruence. }
      destruct D as [D|D]; [apply IH; [intros w Hw; apply H; now right|exact D]|].
      assert (N : forall c', fold_left (fun c '(a, b, v) => if (a =? i)%nat && (b =? j)%nat then v else c) ws c' = c').
      { clear - D. induction ws as [|[[a b] y] ws IH]; intros c'; [reflexivity|]. cbn [fold_left]. destruct (Nat.eqb_spec a i) as [->|D1]; [destruct (Nat.eqb_spec b j) as [->|D2]|]; cbn [andb]; [exfalso; apply (D (i, j, y)); [now left|reflexivity]| |]; apply IH; intros w Hw; apply D; now right. }
      rewrite N. destruct E as [w [[<-|Iw] Ew]]; [|exfalso; now apply (D w)]. cbn in Ew. assert (a = i /\ b = j) as [-> ->] by (split; congruence). rewrite !Nat.eqb_refl. cbn [andb]. apply (H (i, j, x)); [now left|reflexivity].
    Qed.
    Lemma core_out (ws : list (write (F := R))) i j : (forall w, In w ws -> fst w <> (i, j)) -> core ws i j = 0.
    Proof using. clear.
      unfold core. intros D. change 0 with (0%F : R). generalize (0%F : R) as c. induction ws as [|[[a b] y] ws IH]; intros c'; [reflexivity|]. cbn [fold_left]. destruct (Nat.eqb_spec a i) as [->|D1]; [destruct (Nat.eqb_spec b j) as [->|D2]|]; cbn [andb]; [exfalso; apply (D (i, j, y)); [now left|reflexivity]| |]; apply IH; intros w Hw; apply D; now right.
    Qed.
    Lemma core_value ws ws' : build tj ls = Ok ws -> Permutation ws ws' -> forall i j,
      core ws' i j = match nth_error (states ls) i, nth_error (states ls) j with Some ms, Some ms' => value ls ms ms' | _, _ => 0 end.
    Proof.
      intros E P i j. destruct (writes_hold ws E) as [HH HC]. assert (HH' : forall w, In w ws' -> holds w) by (intros w Iw; apply HH; eapply Permutation_in; [symmetry; exact P|exact Iw]).
      assert (OUT : nth_error (states ls) i = None \/ nth_error (states ls) j = None -> core ws' i j = 0).
      { intros N. apply core_out. intros w Iw C. destruct (HH' w Iw) as [ms [ms' [I [I' ->]]]]. cbn [fst] in C. apply map_m_spec in I, I'. assert (map_m ls ms = i /\ map_m ls ms' = j) as [<- <-] by (split; congruence). destruct N; congruence. }
      destruct (nth_error (states ls) i) as [ms|] eqn:Ei; [|apply OUT; now left]. destruct (nth_error (states ls) j) as [ms'|] eqn:Ej; [|apply OUT; now right]. clear OUT.
      pose proof (map_m_nth _ _ _ Ei) as Mi. pose proof (map_m_nth _ _ _ Ej) as Mj. pose proof (nth_error_In _ _ Ei) as Ii. pose proof (nth_error_In _ _ Ej) as Ij. apply core_in.
      - intros w Iw Ew. destruct (HH' w Iw) as [n [n' [I [I' ->]]]]. cbn [fst snd] in *. assert (map_m ls n = map_m ls ms /\ map_m ls n' = map_m ls ms') as [E1 E2] by (split; congruence). apply map_m_inj in E1, E2; try assumption. congruence.
      - exists (i, j, value ls ms ms'). split; [|reflexivity]. eapply Permutation_in; [exact P|]. rewrite <- Mi, <- Mj. now apply HC.
    Qed.
  End Even.
End Amp.

(** *** Orthonormal amplitudes *)
Section Orth.
  Variable tj : Z -> Z -> Z -> Z -> Z -> Z -> R.
  Notation cg := (cg tj).
  Notation cgr := (cgr tj).
  Notation amp := (amp tj).
  Notation amps := (amps tj).
  Definition unitary (l q q1 q2 : Z) : Prop := forall t, (Z.abs t <= q1)%Z -> (Z.abs t <= q2)%Z ->
    rsum (fun m => if (Z.abs (t - m) <=? q)%Z then cg l q q1 m (t - m) t * cg l q q2 m (t - m) t else 0) (m_range l) = if (q1 =? q2)%Z then 1 else 0.
  Lemma rsum_shift_eq (f : Z -> R) l q m : (Z.abs m <= l)%Z -> (0 <= q)%Z ->
    rsum f (m_range q) = rsum (fun t => if (Z.abs (t - m) <=? q)%Z then f (t - m)%Z else 0) (m_range (l + q)).
  Proof using. clear.
    intros Hm Hq. rewrite (rsum_ext f (fun s => rsum (fun t => if (t =? s + m)%Z then f (t - m)%Z else 0) (m_range (l + q)))).
    - rewrite rsum_swap. apply rsum_ext. intros t Ht. destruct (Z.leb_spec (Z.abs (t - m)) q).
      + rewrite (rsum_one _ _ (t - m)%Z); [destruct (Z.eqb_spec t (t - m + m)); [reflexivity|lia]|apply NoDup_zrange|apply in_zrange; lia|]. intros y _ D. destruct (Z.eqb_spec t (y + m)); [lia|reflexivity].
      + apply rsum_zero. intros s Hs. apply in_zrange in Hs. destruct (Z.eqb_spec t (s + m)); [lia|reflexivity].
    - intros s Hs. apply in_zrange in Hs. rewrite (rsum_one _ _ (s + m)%Z); [rewrite Z.eqb_refl; f_equal; lia|apply NoDup_zrange|apply in_zrange; lia|]. intros y _ D. destruct (Z.eqb_spec y (s + m)); [contradiction|reflexivity].
  Qed.
  Lemma rsum_range_sub (f : Z -> R) a b : (0 <= a <= b)%Z -> rsum (fun t => if (Z.abs t <=? a)%Z then f t else 0) (m_range b) = rsum f (m_range a).
  Proof using. clear.
    intros H. replace b with (b - a + a)%Z by lia. rewrite (rsum_shift_eq f (b - a) a 0) by lia. apply rsum_ext. intros t _. now rewrite Z.sub_0_r.
  Qed.
  Definition at_ (k : Z) (x : R) (b : Z) : R := if (k =? b)%Z then x else 0.
  Definition coupled_sum (q : Z) (ls : list Z) (t : Z) (qs qs' : list Z) : R :=
    rsum (fun s => rsum (fun ms => if (s + zsum ms =? t)%Z then amp q s ls ms qs * amp q s ls ms qs' else 0) (tuples ls)) (m_range q).
  Lemma coupled_orth ls : forall q f t qs qs', Forall (fun l => 0 <= l)%Z ls -> (0 <= q)%Z ->
    (forall l a b c, couples q ls f l a b -> couples q ls f l a c -> unitary l a b c) -> In qs (paths q ls f) -> In qs' (paths q ls f) -> (Z.abs t <= f)%Z ->
    coupled_sum q ls t qs qs' = if list_eq_dec Z.eq_dec qs qs' then 1 else 0.
  Proof.
    induction ls as [|l ls IH]; intros q f t qs qs' HN Hq HU I I' Ht.
    - apply in_paths_nil in I, I'. destruct I as [-> ->], I' as [_ ->]. unfold coupled_sum. destruct (list_eq_dec Z.eq_dec (@nil Z) []) as [_|D]; [|congruence]. rewrite (rsum_one _ _ t); [cbn; rewrite Z.add_0_r, Z.eqb_refl; ring|apply NoDup_zrange|apply in_zrange; lia|]. intros y _ D. cbn. destruct (Z.eqb_spec (y + 0) t); [lia|ring].
    - apply in_paths_cons in I, I'. destruct I as [q1 [r [-> [T I]]]], I' as [q2 [r' [-> [T' I']]]]. inversion HN as [|? ? Hl HN']; subst. unfold triangle in T, T'.
      assert (U : unitary l q q1 q2) by (apply HU; eapply couples_head; unfold triangle; eauto).
      set (g := fun u => rsum (fun ms => if (u + zsum ms =? t)%Z then amp q1 u ls ms r * amp q2 u ls ms r' else 0) (tuples ls)).
      assert (E1 : coupled_sum q (l :: ls) t (q1 :: r) (q2 :: r') = rsum (fun m => rsum (fun s => (cgr l q q1 m s * cgr l q q2 m s) * g (s + m)%Z) (m_range q)) (m_range l)).
      { unfold coupled_sum. rewrite rsum_swap. cbn [tuples]. rewrite rsum_flat. apply rsum_ext. intros m _. rewrite rsum_map, rsum_swap. apply rsum_ext. intros s _. unfold g. rewrite <- rsum_scal. apply rsum_ext. intros ms _. cbn [amp zsum Proofs.Projector.amp]. rewrite Z.add_assoc. destruct (s + m + zsum ms =? t)%Z; ring. }
      rewrite E1. clear E1. rewrite (rsum_ext _ (fun m => rsum (fun u => if (Z.abs (u - m) <=? q)%Z then cgr l q q1 m (u - m) * cgr l q q2 m (u - m) * g u else 0) (m_range (l + q)))).
      2:{ intros m Hm. apply in_zrange in Hm. rewrite (rsum_shift_eq _ l q m) by lia. apply rsum_ext. intros u _. destruct (Z.abs (u - m) <=? q)%Z; [|reflexivity]. now replace (u - m + m)%Z with u by lia. }
      rewrite rsum_swap. rewrite (rsum_ext _ (fun u => if (Z.abs u <=? q1)%Z && (Z.abs u <=? q2)%Z then (if (q1 =? q2)%Z then 1 else 0) * g u else 0)).
      2:{ intros u _. destruct (Z.leb_spec (Z.abs u) q1) as [L1|L1]; [destruct (Z.leb_spec (Z.abs u) q2) as [L2|L2]|]; cbn [andb].
        - rewrite <- (U u L1 L2), <- rsum_scal_r. apply rsum_ext. intros m _. unfold Proofs.Projector.cgr. replace (u - m + m)%Z with u by lia. destruct (Z.leb_spec (Z.abs u) q1); [|lia]. destruct (Z.leb_spec (Z.abs u) q2); [|lia]. destruct (Z.abs (u - m) <=? q)%Z; ring.
        - apply rsum_zero. intros m _. unfold Proofs.Projector.cgr. replace (u - m + m)%Z with u by lia. destruct (Z.leb_spec (Z.abs u) q2); [lia|]. destruct (Z.abs (u - m) <=? q)%Z; ring.
        - apply rsum_zero. intros m _. unfold Proofs.Projector.cgr. replace (u - m + m)%Z with u by lia. destruct (Z.leb_spec (Z.abs u) q1); [lia|]. destruct (Z.abs (u - m) <=? q)%Z; ring. }
      destruct (Z.eqb_spec q1 q2) as [->|D].
      + rewrite (rsum_ext _ (fun u => if (Z.abs u <=? q2)%Z then g u else 0)) by (intros u _; destruct (Z.abs u <=? q2)%Z; cbn [andb]; ring). rewrite rsum_range_sub by lia. change (rsum g (m_range q2)) with (coupled_sum q2 ls t r r'). rewrite (IH q2 f); try assumption; try lia.
        * destruct (list_eq_dec Z.eq_dec r r') as [->|D], (list_eq_dec Z.eq_dec (q2 :: _) (q2 :: r')) as [E|E]; congruence.
        * intros. apply HU; eapply couples_tail; unfold triangle; eauto.
      + rewrite rsum_zero by (intros u _; destruct ((Z.abs u <=? q1)%Z && (Z.abs u <=? q2)%Z); ring). destruct (list_eq_dec Z.eq_dec (q1 :: r) (q2 :: r')) as [E|E]; [congruence|reflexivity].
  Qed.
  Definition all_unitary (ls : list Z) : Prop := forall l a b c, used ls l a b -> used ls l a c -> unitary l a b c.
  Lemma seq_sum ls (f : list Z -> R) : (2 <= length ls)%nat -> let (q, r) := seq_of (removelast ls) in
    rsum f (tuples (removelast ls)) = rsum (fun s => rsum (fun ms => f (match ms with [] => [s] | a :: t => a :: s :: t end)) (tuples r)) (m_range q).
  Proof using. clear.
    intros HL. destruct (removelast ls) as [|a [|b t]] eqn:E.
    - exfalso. destruct ls as [|? [|? ?]]; cbn in *; try lia; discriminate.
    - cbn [seq_of tuples]. rewrite rsum_flat. apply rsum_ext. intros m _. cbn. ring.
    - cbn [seq_of]. cbn [tuples]. rewrite rsum_flat. rewrite (rsum_ext (fun s => rsum _ (flat_map _ _)) (fun s => rsum (fun m => rsum (fun ms => f (m :: s :: ms)) (tuples t)) (m_range a))).
      + rewrite rsum_swap. apply rsum_ext. intros m _. rewrite rsum_map, rsum_flat. apply rsum_ext. intros s _. now rewrite rsum_map.
      + intros s _. rewrite rsum_flat. apply rsum_ext. intros m _. now rewrite rsum_map.
  Qed.
  Lemma tuples_length ls : forall ms, In ms (tuples ls) -> length ms = length ls.
  Proof using. clear. intros ms H. apply in_tuples in H. symmetry. eapply Forall2_length; eauto. Qed.
  Lemma seq_of_merge ls q r s ms : seq_of ls = (q, r) -> ls <> [] -> length ms = length r -> seq_of (match ms with [] => [s] | a :: t => a :: s :: t end) = (s, ms) /\ zsum (match ms with [] => [s] | a :: t => a :: s :: t end) = (s + zsum ms)%Z.
  Proof using. clear. destruct ls as [|a [|b t]]; cbn; intros [= <- <-] N L; try congruence; destruct ms as [|x ms]; try discriminate L; cbn; split; try reflexivity; lia. Qed.
  Lemma Forall_seq ls q r : Forall (fun l => 0 <= l)%Z ls -> seq_of (removelast ls) = (q, r) -> (0 <= q)%Z /\ Forall (fun l => 0 <= l)%Z r.
  Proof using. clear.
    intros H E. assert (G : Forall (fun l => 0 <= l)%Z (removelast ls)). { clear E. induction H as [|x l Hx H IH]; cbn; [constructor|]. destruct l; [constructor|constructor; [exact Hx|exact IH]]. }
    destruct (removelast ls) as [|a [|b t]]; cbn in E; assert (EQ : (q, r) = (q, r)) by reflexivity; injection E as <- <-; inversion G as [|? ? Ha G']; subst; try (split; [lia|constructor]); inversion G' as [|? ? Hb G'']; subst; split; auto.
  Qed.
  Lemma amps_orth ls qs qs' : Forall (fun l => 0 <= l)%Z ls -> (2 <= length ls)%nat -> all_unitary ls -> In qs (paths_of ls) -> In qs' (paths_of ls) ->
    rsum (fun ms => amps ls ms qs * amps ls ms qs') (states ls) = if list_eq_dec Z.eq_dec qs qs' then IZR (2 * last ls 0%Z + 1) else 0.
  Proof.
    intros HN HL HU I I'. unfold states. rewrite rsum_filter. pose proof (last_nonneg _ HN) as HF. set (f := last ls 0%Z) in *.
    assert (NE : removelast ls <> []) by (destruct ls as [|? [|? ?]]; cbn in *; try lia; discriminate).
    transitivity (rsum (fun t => rsum (fun ms => if (zsum ms =? t)%Z then amps ls ms qs * amps ls ms qs' else 0) (tuples (removelast ls))) (m_range f)).
    - rewrite rsum_swap. apply rsum_ext. intros ms _. unfold check_sum. rewrite Z.abs_opp. destruct (Z.leb_spec (Z.abs (zsum ms)) f) as [C|C].
      + rewrite (rsum_one _ _ (zsum ms)); [now rewrite Z.eqb_refl|apply NoDup_zrange|apply in_zrange; lia|]. intros y _ D. destruct (Z.eqb_spec (zsum ms) y); [congruence|reflexivity].
      + symmetry. apply rsum_zero. intros y Hy. apply in_zrange in Hy. destruct (Z.eqb_spec (zsum ms) y); [lia|reflexivity].
    - rewrite (rsum_ext _ (fun _ => if list_eq_dec Z.eq_dec qs qs' then 1 else 0)).
      + rewrite rsum_const. unfold m_range, zrange. rewrite map_length, seq_length, INR_IZR_INZ, Z2Nat.id by lia. replace (f - - f + 1)%Z with (2 * f + 1)%Z by lia. destruct (list_eq_dec Z.eq_dec qs qs'); ring.
      + intros t Ht. apply in_zrange in Ht. pose proof (seq_sum ls (fun ms => if (zsum ms =? t)%Z then amps ls ms qs * amps ls ms qs' else 0) HL) as ES. unfold paths_of, all_unitary, used, Proofs.Projector.amps in *. destruct (seq_of (removelast ls)) as [q r] eqn:E. rewrite ES. clear ES. destruct (Forall_seq _ _ _ HN E) as [Hq Hr].
        rewrite <- (coupled_orth r q f t qs qs'); try assumption; [|lia]. unfold coupled_sum. apply rsum_ext. intros s _. apply rsum_ext. intros ms Ims. destruct (seq_of_merge _ _ _ s ms E NE (tuples_length _ _ Ims)) as [-> ->]. reflexivity.
  Qed.
  Lemma value_mul ls ms ms' : Forall (fun l => 0 <= l)%Z ls -> (2 <= length ls)%nat -> all_unitary ls ->
    rsum (fun x => value tj ls ms x * value tj ls x ms') (states ls) = value tj ls ms ms'.
  Proof.
    intros HN HL HU. pose proof (last_nonneg _ HN) as HF. assert (NZ : IZR (2 * last ls 0%Z + 1) <> 0) by (apply not_0_IZR; lia).
    unfold value, coupled. set (f := last ls 0%Z) in *.
    rewrite (rsum_ext _ (fun x => rsum (fun qs => rsum (fun qs' => (sgn (zsum ms) * sgn (zsum ms') / IZR (2 * f + 1) / IZR (2 * f + 1) * (amps ls ms qs * amps ls ms' qs')) * (amps ls x qs * amps ls x qs')) (paths_of ls)) (paths_of ls))).
    - rewrite rsum_swap. rewrite factor_sgn by exact HF. rewrite <- rsum_scal_r. apply rsum_ext. intros qs I. rewrite rsum_swap. rewrite (rsum_ext _ (fun qs' => sgn (zsum ms) * sgn (zsum ms') / IZR (2 * f + 1) / IZR (2 * f + 1) * (amps ls ms qs * amps ls ms' qs') * (if list_eq_dec Z.eq_dec qs qs' then IZR (2 * f + 1) else 0))).
      + rewrite (rsum_one _ _ qs); [|unfold paths_of; destruct (seq_of (removelast ls)); apply NoDup_paths|exact I|].
        * destruct (list_eq_dec Z.eq_dec qs qs); [|congruence]. field. exact NZ.
        * intros y _ D. destruct (list_eq_dec Z.eq_dec qs y); [congruence|ring].
      + intros qs' I'. rewrite rsum_scal. rewrite amps_orth by assumption. reflexivity.
    - intros x _. rewrite !factor_sgn by exact HF. symmetry.
      rewrite (rsum_ext _ (fun qs => (sgn (zsum ms) * sgn (zsum ms') / IZR (2 * f + 1) / IZR (2 * f + 1) * (amps ls ms qs * amps ls x qs)) * rsum (fun qs' => amps ls x qs' * amps ls ms' qs') (paths_of ls))).
      2:{ intros qs _. rewrite <- rsum_scal. apply rsum_ext. intros qs' _. ring. }
      rewrite rsum_scal_r, rsum_scal. pose proof (sgn_sq (zsum x)) as S1. unfold Rdiv. set (P1 := rsum (fun qs => amps ls ms qs * amps ls x qs) (paths_of ls)). set (P2 := rsum (fun qs' => amps ls x qs' * amps ls ms' qs') (paths_of ls)).
      transitivity (sgn (zsum ms) * (sgn (F := R) (zsum x) * sgn (zsum x)) * sgn (zsum ms') * / IZR (2 * f + 1) * / IZR (2 * f + 1) * P1 * P2); [rewrite S1; ring|ring].
  Qed.
  Lemma value_trace ls : Forall (fun l => 0 <= l)%Z ls -> (2 <= length ls)%nat -> all_unitary ls ->
    rsum (fun x => value tj ls x x) (states ls) = INR (length (paths_of ls)).
  Proof.
    intros HN HL HU. pose proof (last_nonneg _ HN) as HF. assert (NZ : IZR (2 * last ls 0%Z + 1) <> 0) by (apply not_0_IZR; lia).
    unfold value, coupled. set (f := last ls 0%Z) in *. rewrite (rsum_ext _ (fun x => rsum (fun qs => amps ls x qs * amps ls x qs) (paths_of ls) * / IZR (2 * f + 1))).
    - rewrite rsum_scal_r, rsum_swap. rewrite (rsum_ext _ (fun _ => IZR (2 * f + 1))).
      + rewrite rsum_const. field. exact NZ.
      + intros qs I. rewrite amps_orth by assumption. destruct (list_eq_dec Z.eq_dec qs qs); [reflexivity|congruence].
    - intros x _. rewrite factor_sgn by exact HF. rewrite sgn_sq. unfold Rdiv. ring.
  Qed.
End Orth.

(** *** Ladder operators *)
Definition raising (l m : Z) : R := sqrt (IZR (l * (l + 1) - m * (m + 1))).
Lemma raising_low l : raising l (- l - 1) = 0.
Proof. unfold raising. replace (l * (l + 1) - (- l - 1) * (- l - 1 + 1))%Z with 0%Z by ring. apply sqrt_0. Qed.
Lemma raising_neg l m : raising l (- m - 1) = raising l m.
Proof. unfold raising. f_equal. f_equal. ring. Qed.
(** The action of J+ and J- on tensors as functions of m. *)
Fixpoint raise (ls : list Z) (f : list Z -> R) (ms : list Z) : R :=
  match ls, ms with l :: ls', m :: ms' => raising l (m - 1) * f ((m - 1)%Z :: ms') + raise ls' (fun t => f (m :: t)) ms' | _, _ => 0 end.
Fixpoint lower (ls : list Z) (f : list Z -> R) (ms : list Z) : R :=
  match ls, ms with l :: ls', m :: ms' => raising l m * f ((m + 1)%Z :: ms') + lower ls' (fun t => f (m :: t)) ms' | _, _ => 0 end.
Lemma raise_ext ls : forall f g ms, (forall x, length x = length ms -> zsum x = (zsum ms - 1)%Z -> f x = g x) -> raise ls f ms = raise ls g ms.
Proof.
  induction ls as [|l ls IH]; intros f g [|m ms] H; try reflexivity. cbn [raise]. rewrite (H ((m - 1)%Z :: ms)) by (cbn; lia || reflexivity). f_equal. apply IH. intros x L Z. apply H; cbn in *; lia.
Qed.
Lemma raise_scal ls : forall c f ms, raise ls (fun x => c * f x) ms = c * raise ls f ms.
Proof. induction ls as [|l ls IH]; intros c f [|m ms]; cbn [raise]; try ring. rewrite (IH c (fun t => f (m :: t))). ring. Qed.
Lemma raise_sum {A} (l0 : list A) ls : forall (f : A -> list Z -> R) ms, raise ls (fun x => rsum (fun a => f a x) l0) ms = rsum (fun a => raise ls (f a) ms) l0.
Proof.
  induction ls as [|l ls IH]; intros f [|m ms]; cbn [raise]; try (symmetry; now apply rsum_zero). rewrite (IH (fun a t => f a (m :: t))). rewrite <- rsum_scal, <- rsum_plus. reflexivity.
Qed.
Lemma raise_app ls : forall lf f ms m, length ms = length ls -> raise (ls ++ [lf]) f (ms ++ [m]) = raise ls (fun x => f (x ++ [m])) ms + raising lf (m - 1) * f (ms ++ [(m - 1)%Z]).
Proof. induction ls as [|l ls IH]; intros lf f [|x ms] m L; try discriminate L; cbn [raise app]; [ring|]. rewrite (IH lf (fun t => f (x :: t))) by (cbn in L; lia). ring. Qed.
Lemma lower_raise ls : forall f ms, lower ls f ms = raise ls (fun x => f (neg x)) (neg ms).
Proof.
  induction ls as [|l ls IH]; intros f [|m ms]; try reflexivity. cbn [lower raise neg map]. rewrite IH. replace (- m - 1)%Z with (- m - 1)%Z by reflexivity. rewrite raising_neg. fold (neg ms). rewrite neg_neg. cbn [map]. replace (- (- m - 1))%Z with (m + 1)%Z by lia. f_equal. apply raise_ext. intros x _ _. cbn [map]. now replace (- - m)%Z with m by lia.
Qed.
Section Ladder.
  Variable tj : Z -> Z -> Z -> Z -> Z -> Z -> R.
  Notation cg := (cg tj).
  Notation cgr := (cgr tj).
  Notation amp := (amp tj).
  Notation amps := (amps tj).
  Definition invariant3 (a b c : Z) : Prop := forall m1 m2 m3, within a m1 -> within b m2 -> within c m3 -> (m1 + m2 + m3 = 1)%Z ->
    raising a (m1 - 1) * tj a b c (m1 - 1) m2 m3 + raising b (m2 - 1) * tj a b c m1 (m2 - 1) m3 + raising c (m3 - 1) * tj a b c m1 m2 (m3 - 1) = 0.
  Lemma sgn_succ k : sgn (F := R) (k + 1) = - sgn k.
  Proof using. clear. rewrite sgn_add. cbn. ring. Qed.
  Lemma cgr_ladder l q q' m s : invariant3 l q q' -> within l m -> within q s ->
    raising q (s - 1) * cgr l q q' m (s - 1) + raising l (m - 1) * cgr l q q' (m - 1) s = raising q' (s + m - 1) * cgr l q q' m s.
  Proof.
    intros H Wm Ws. unfold Proofs.Projector.cgr. replace (s - 1 + m)%Z with (s + m - 1)%Z by lia. replace (s + (m - 1))%Z with (s + m - 1)%Z by lia.
    destruct (Z.leb_spec (Z.abs (s + m - 1)) q') as [A|A].
    - specialize (H m s (1 - (s + m))%Z Wm Ws). assert (W3 : within q' (1 - (s + m))) by (unfold within; lia). specialize (H W3 ltac:(lia)).
      replace (1 - (s + m) - 1)%Z with (- (s + m))%Z in H by lia. replace (1 - (s + m))%Z with (- (s + m - 1))%Z in H by lia.
      unfold Model.Projector.cg. cbn [nmul R_num nsqrt R_ord]. replace (l - q + (s + m))%Z with (l - q + (s + m - 1) + 1)%Z by lia. rewrite sgn_succ. set (w := sqrt _). set (g := sgn _).
      assert (E : raising q (s - 1) * tj l q q' m (s - 1) (- (s + m - 1)) + raising l (m - 1) * tj l q q' (m - 1) s (- (s + m - 1)) = - (raising q' (- (s + m)) * tj l q q' m s (- (s + m)))) by lra.
      replace (raising q (s - 1) * (tj l q q' m (s - 1) (- (s + m - 1)) * w * g) + raising l (m - 1) * (tj l q q' (m - 1) s (- (s + m - 1)) * w * g)) with ((raising q (s - 1) * tj l q q' m (s - 1) (- (s + m - 1)) + raising l (m - 1) * tj l q q' (m - 1) s (- (s + m - 1))) * w * g) by ring.
      rewrite E. replace (raising q' (- (s + m))) with (raising q' (s + m - 1)) by (rewrite <- raising_neg; f_equal; lia).
      destruct (Z.leb_spec (Z.abs (s + m)) q') as [B|B]; [ring|].
      assert (s + m - 1 = q' \/ s + m = - q' - 1)%Z as [C|C] by lia.
      + rewrite C. rewrite <- (raising_neg q' q'), raising_low. ring.
      + replace (s + m - 1)%Z with (- (q' + 1) - 1)%Z by lia. exfalso. lia.
    - destruct (Z.leb_spec (Z.abs (s + m)) q') as [B|B]; [|ring]. replace (s + m - 1)%Z with (- q' - 1)%Z by lia. rewrite raising_low. ring.
  Qed.
  Lemma amp_ladder ls : forall q t qs s ms, (forall l a b, couples q ls t l a b -> invariant3 l a b) -> In qs (paths q ls t) -> Forall2 within ls ms -> within q s ->
    raising q (s - 1) * amp q (s - 1) ls ms qs + raise ls (fun x => amp q s ls x qs) ms = raising t (s + zsum ms - 1) * amp q s ls ms qs.
  Proof.
    induction ls as [|l ls IH]; intros q t qs s ms H I W Ws.
    - apply in_paths_nil in I. destruct I as [-> ->]. inversion W; subst. cbn [amp raise zsum Proofs.Projector.amp]. rewrite Z.add_0_r. ring.
    - apply in_paths_cons in I. destruct I as [q' [r [-> [T I]]]]. destruct (F2_cons _ _ _ _ W) as [m [ms' [-> [Wm W']]]]. cbn [raise zsum Proofs.Projector.amp]. rewrite raise_scal.
      assert (C : raising q (s - 1) * cgr l q q' m (s - 1) + raising l (m - 1) * cgr l q q' (m - 1) s = raising q' (s + m - 1) * cgr l q q' m s) by (apply cgr_ladder; try assumption; apply H; eapply couples_head; eauto).
      replace (s - 1 + m)%Z with (s + m - 1)%Z by lia. replace (s + (m - 1))%Z with (s + m - 1)%Z by lia. replace (s + (m + zsum ms') - 1)%Z with (s + m + zsum ms' - 1)%Z by lia.
      destruct (Z.le_gt_cases (Z.abs (s + m)) q') as [A|A].
      + pose proof (IH q' t r (s + m)%Z ms' ltac:(intros; apply H; eapply couples_tail; eauto) I W' ltac:(unfold within; lia)) as E.
        transitivity ((raising q (s - 1) * cgr l q q' m (s - 1) + raising l (m - 1) * cgr l q q' (m - 1) s) * amp q' (s + m - 1) ls ms' r + cgr l q q' m s * raise ls (fun x => amp q' (s + m) ls x r) ms'); [ring|]. rewrite C.
        transitivity (cgr l q q' m s * (raising q' (s + m - 1) * amp q' (s + m - 1) ls ms' r + raise ls (fun x => amp q' (s + m) ls x r) ms')); [ring|]. rewrite E. ring.
      + assert (Z0 : cgr l q q' m s = 0) by (unfold Proofs.Projector.cgr; destruct (Z.leb_spec (Z.abs (s + m)) q'); [lia|reflexivity]).
        transitivity ((raising q (s - 1) * cgr l q q' m (s - 1) + raising l (m - 1) * cgr l q q' (m - 1) s) * amp q' (s + m - 1) ls ms' r + cgr l q q' m s * raise ls (fun x => amp q' (s + m) ls x r) ms'); [ring|]. rewrite C, Z0. ring.
  Qed.
  Definition all_invariant3 (ls : list Z) : Prop := forall l a b, used ls l a b -> invariant3 l a b.
  Lemma amps_ladder ls qs ms : (2 <= length ls)%nat -> all_invariant3 ls -> In qs (paths_of ls) -> Forall2 within (removelast ls) ms ->
    raise (removelast ls) (fun x => amps ls x qs) ms = raising (last ls 0%Z) (zsum ms - 1) * amps ls ms qs.
  Proof.
    intros HL H I W. unfold all_invariant3, used, paths_of, Proofs.Projector.amps in *. destruct (removelast ls) as [|a [|b t]] eqn:E.
    - exfalso. destruct ls as [|? [|? ?]]; cbn in *; try lia; discriminate.
    - destruct (F2_cons _ _ _ _ W) as [m [r [-> [Wm W']]]]. inversion W'; subst. cbn [seq_of raise zsum] in *. pose proof (amp_ladder [] a (last ls 0%Z) qs m [] H I ltac:(constructor) Wm) as G. cbn [raise zsum] in G. rewrite Z.add_0_r in *. exact G.
    - destruct (F2_cons _ _ _ _ W) as [m [r [-> [Wm W']]]]. destruct (F2_cons _ _ _ _ W') as [s [r' [-> [Ws W'']]]]. cbn [seq_of raise zsum] in *. pose proof (amp_ladder (a :: t) b (last ls 0%Z) qs s (m :: r') H I ltac:(now constructor) Ws) as G. cbn [raise zsum] in G. replace (m + (s + zsum r') - 1)%Z with (s + (m + zsum r') - 1)%Z by lia. rewrite <- G. ring.
  Qed.
  (** The tensor of a vector over the states. *)
  Definition tensor (ls : list Z) (v : list Z -> R) (x : list Z) : R := if (zsum x =? 0)%Z then v (removelast x) else 0.
  Lemma raise_zero ls : forall f ms, (forall x, zsum x = (zsum ms - 1)%Z -> f x = 0) -> raise ls f ms = 0.
  Proof using. clear. induction ls as [|l ls IH]; intros f [|m ms] H; cbn [raise]; try reflexivity. rewrite (H ((m - 1)%Z :: ms)) by (cbn; lia). rewrite IH; [ring|]. intros x Hx. apply H. cbn. lia. Qed.
  Lemma value_raise ls y x : Forall (fun l => 0 <= l)%Z ls -> (2 <= length ls)%nat -> all_invariant3 ls -> Forall2 within ls x ->
    raise ls (tensor ls (fun ms => value tj ls ms y)) x = 0.
  Proof.
    intros HN HL H W. pose proof (last_nonneg _ HN) as HF. assert (NE : ls <> []) by (intros ->; cbn in HL; lia).
    destruct (Z.eq_dec (zsum x) 1) as [E|E]; [|apply raise_zero; intros z Hz; unfold tensor; destruct (Z.eqb_spec (zsum z) 0); [lia|reflexivity]].
    assert (D : exists ms m, x = ms ++ [m] /\ Forall2 within (removelast ls) ms). { rewrite (app_removelast_last 0%Z NE) in W. apply Forall2_app_inv_l in W. destruct W as [a [b [Wa [Wb ->]]]]. destruct (F2_cons _ _ _ _ Wb) as [m [u [-> [_ Wu]]]]. inversion Wu; subst. eauto. }
    destruct D as [ms [m [-> Wms]]]. rewrite zsum_app in E. cbn [zsum] in E. set (M := zsum ms) in *. assert (LEN : length (removelast ls) = length ms) by (eapply Forall2_length; eauto).
    rewrite (app_removelast_last 0%Z NE) at 1. rewrite raise_app by lia. unfold tensor at 2. rewrite zsum_app. cbn [zsum]. rewrite removelast_last. destruct (Z.eqb_spec (zsum ms + (m - 1 + 0)) 0) as [_|C]; [|lia].
    rewrite (raise_ext (removelast ls) _ (fun z => rsum (fun qs => (sgn (M - 1) * sgn (zsum y) / IZR (2 * last ls 0%Z + 1) * amps ls y qs) * amps ls z qs) (paths_of ls))).
    - rewrite raise_sum. rewrite (rsum_ext _ (fun qs => raising (last ls 0%Z) (M - 1) * (sgn (M - 1) * sgn (zsum y) / IZR (2 * last ls 0%Z + 1)) * (amps ls ms qs * amps ls y qs))).
      + rewrite rsum_scal. unfold value, coupled. rewrite factor_sgn by exact HF. fold M. replace (sgn (F := R) M) with (- sgn (F := R) (M - 1)) by (rewrite <- sgn_succ; f_equal; lia). replace (raising (last ls 0%Z) (m - 1)) with (raising (last ls 0%Z) (M - 1)) by (rewrite <- raising_neg; f_equal; lia). unfold Rdiv. ring.
      + intros qs I. rewrite raise_scal, amps_ladder by assumption. fold M. ring.
    - intros z Lz Zz. unfold tensor. rewrite zsum_app, removelast_last. cbn [zsum]. destruct (Z.eqb_spec (zsum z + (m + 0)) 0); [|fold M in Zz; lia]. unfold value, coupled. rewrite factor_sgn by exact HF. rewrite Zz. fold M. rewrite <- rsum_scal_r. apply rsum_ext. intros qs _. unfold Rdiv. ring.
  Qed.
End Ladder.

(** *** Indices *)
Section Indices.
  Local Open Scope Z_scope.
  Fixpoint sizes (ls : list Z) : Z := match ls with [] => 1 | l :: t => (2 * l + 1) * sizes t end.
  Lemma sizes_fold ls : fold_right Z.mul 1 (map (fun l => 2 * l + 1) ls) = sizes ls.
  Proof. induction ls as [|l ls IH]; [reflexivity|]. cbn [map fold_right sizes]. now rewrite IH. Qed.
  Lemma sizes_pos ls : Forall (fun l => 0 <= l) ls -> 0 < sizes ls.
  Proof. induction 1 as [|l ls H F IH]; cbn [sizes]; [lia|]. apply Z.mul_pos_pos; lia. Qed.
  Lemma index_py ls : forall ms, length ms = length ls -> fold_right (fun '(l, m) '(index, mult) => (index + (m + l) * mult, mult * (2 * l + 1))) (0, 1) (combine ls ms) = (py_index ls ms, sizes ls).
  Proof.
    induction ls as [|l ls IH]; intros [|m ms] L; try discriminate L; [reflexivity|]. cbn [combine fold_right py_index sizes]. rewrite IH by (cbn in L; lia). rewrite sizes_fold. f_equal; ring.
  Qed.
  Lemma py_index_range ls ms : Forall2 within ls ms -> 0 <= py_index ls ms < sizes ls.
  Proof.
    induction 1 as [|l m ls ms W F IH]; cbn [py_index sizes]; [lia|]. rewrite sizes_fold. unfold within in W. nia.
  Qed.
  Lemma digits_back ls ms : Forall2 within ls ms -> forall k, 0 <= k ->
    fold_right (fun l '(n, il) => (n / (2 * l + 1), n mod (2 * l + 1) :: il)) (k * sizes ls + py_index ls ms, []) ls = (k, map (fun '(l, m) => l + m) (combine ls ms)).
  Proof.
    induction 1 as [|l m ls ms W F IH]; intros k Hk.
    - cbn. f_equal. lia.
    - cbn [fold_right py_index sizes combine map]. rewrite sizes_fold. unfold within in W. replace (k * ((2 * l + 1) * sizes ls) + ((l + m) * sizes ls + py_index ls ms)) with ((k * (2 * l + 1) + (l + m)) * sizes ls + py_index ls ms) by ring. rewrite IH by nia. f_equal.
      + rewrite Z.div_add_l by lia. rewrite Z.div_small by lia. lia.
      + f_equal. rewrite Z.add_comm, Z.mod_add by lia. apply Z.mod_small. lia.
  Qed.
  Lemma index_back ls ms : Forall2 within ls ms -> matrix_index_to_lm (py_index ls ms) ls = combine ls ms.
  Proof.
    intros W. unfold matrix_index_to_lm. rewrite <- fold_left_rev_right, rev_involutive.
    pose proof (digits_back ls ms W 0 ltac:(lia)) as D. rewrite Z.mul_0_l, Z.add_0_l in D.
    match goal with |- context[fold_right ?f ?a ls] => replace (fold_right f a ls) with (0, map (fun '(l, m) => l + m) (combine ls ms)) end.
    - cbn [snd]. clear D. induction W as [|l m ls ms H F IH]; [reflexivity|]. cbn [combine map]. rewrite IH. f_equal. f_equal. lia.
    - rewrite <- D. generalize (py_index ls ms, @nil Z). clear. intros a. induction ls as [|l ls IH]; [reflexivity|]. cbn [fold_right]. rewrite <- IH. destruct (fold_right _ a ls). reflexivity.
  Qed.
  Lemma state_full ls ms : ls <> [] -> In ms (states ls) <-> Forall2 within ls (ms ++ [- zsum ms]).
  Proof.
    intros NE. rewrite in_states. rewrite (app_removelast_last 0 NE) at 3. split.
    - intros [W A]. apply Forall2_app; [exact W|]. constructor; [unfold within; lia|constructor].
    - intros H. apply Forall2_app_inv_l in H. destruct H as [a [b [Wa [Wb E]]]]. destruct (F2_cons _ _ _ _ Wb) as [m [u [-> [Wm Wu]]]]. inversion Wu; subst. apply app_inj_tail in E. destruct E as [-> <-]. unfold within in Wm. split; [exact Wa|lia].
  Qed.
  Lemma row_back ls : ls <> [] -> map (fun i => matrix_index_to_lm i ls) (row ls) = map (fun ms => combine ls (ms ++ [- zsum ms])) (states ls).
  Proof.
    intros NE. unfold row. rewrite map_map. apply map_ext_in. intros ms I. apply (state_full ls ms NE) in I. unfold lm_to_matrix_index. rewrite index_py by (symmetry; eapply Forall2_length; eauto). cbn [fst]. now apply index_back.
  Qed.
  Lemma combine_inj {A B} (l : list A) : forall (a b : list B), length a = length l -> length b = length l -> combine l a = combine l b -> a = b.
  Proof. induction l as [|x l IH]; intros [|p a] [|q b] La Lb E; try discriminate; [reflexivity|]. cbn in *. injection E as -> E. f_equal. apply IH; auto. Qed.
  Lemma full_split ls x : ls <> [] -> Forall2 within ls x -> zsum x = 0 -> exists ms, In ms (states ls) /\ x = ms ++ [- zsum ms].
  Proof.
    intros NE W Z0. assert (NX : x <> []) by (intros ->; inversion W; congruence). exists (removelast x). assert (E : x = removelast x ++ [- zsum (removelast x)]). { rewrite (app_removelast_last 0 NX) at 1. f_equal. f_equal. pose proof (removelast_zsum x NX). lia. }
    split; [|exact E]. apply (state_full ls _ NE). now rewrite <- E.
  Qed.
  Lemma in_combs o : forall a b l, In l (combs o a b) <-> length l = o /\ Sorted.StronglySorted Z.le l /\ Forall (fun x => a <= x <= b) l.
  Proof.
    induction o as [|o IH]; intros a b l; cbn [combs].
    - split; [intros [<-|[]]; repeat constructor|]. intros [L _]. destruct l; [now left|discriminate].
    - rewrite in_flat_map. split.
      + intros [x [Hx H]]. apply in_map_iff in H. destruct H as [t [<- Ht]]. apply in_zrange in Hx. apply IH in Ht. destruct Ht as [L [SS F]]. split; [cbn; lia|]. split; constructor; try assumption; try (eapply Forall_impl; [|exact F]; cbn; lia).
      + intros [L [SS F]]. destruct l as [|x t]; [discriminate|]. inversion SS as [|? ? S1 F1]; subst. inversion F as [|? ? Hx F2]; subst. exists x. split; [apply in_zrange; lia|]. apply in_map, IH. split; [cbn in L; lia|]. split; [exact S1|]. rewrite Forall_forall in *. intros y Hy. pose proof (F1 y Hy). pose proof (F2 y Hy). lia.
  Qed.
  Lemma NoDup_combs o : forall a b, NoDup (combs o a b).
  Proof.
    induction o as [|o IH]; intros a b; cbn [combs]; [repeat constructor; easy|]. apply NoDup_flat; [apply NoDup_zrange| |].
    - intros x _. apply NoDup_map_inj; [congruence|apply IH].
    - intros x y z _ _ Hx Hy. apply in_map_iff in Hx, Hy. destruct Hx as [u [<- _]], Hy as [u' [E _]]. congruence.
  Qed.
End Indices.
Lemma raise_ext_in ls : forall f g x, Forall2 within ls x -> (forall z, Forall2 within ls z -> f z = g z) -> raise ls f x = raise ls g x.
Proof.
  induction ls as [|l ls IH]; intros f g x W H; [reflexivity|]. destruct (F2_cons _ _ _ _ W) as [m [t [-> [Wm Wt]]]]. cbn [raise]. rewrite (IH _ (fun t => g (m :: t)) t Wt) by (intros z Wz; apply H; now constructor). f_equal.
  destruct (Z.eq_dec m (- l)) as [->|D]; [rewrite raising_low; ring|]. rewrite (H ((m - 1)%Z :: t)); [reflexivity|]. constructor; [unfold within in *; lia|exact Wt].
Qed.
