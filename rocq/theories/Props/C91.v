(** C91: the normal form of fractional coordinates does not depend on the cell in which an atom is given nor on the order of atoms of an element,
    and not on the origin for coordinates and translations of at most as many decimals as kept; structures of the same normal form are the same
    within two units of the last decimal. *)
From Verif Require Import Base Spec.Matcher Model.ThermoGrid Model.Matcher Proofs.Matcher.
From Coq Require Import QArith ZArith Lia Lqa List Permutation.
Import ListNotations.
Local Open Scope nat_scope.

Definition normal (d : nat) (l : list atom) (n_atoms : list nat) : res (list Z * list Z * list Z) := normalize d (map ax l) (map ay l) (map az l) n_atoms.
Definition unit_ (d : nat) : Q := (1 / inject_Z (10 ^ Z.of_nat d))%Q.
Definition on_axis (d : nat) (v : Z) : Q := (inject_Z v * unit_ d)%Q.
Definition atoms_of (d : nat) (r : list Z * list Z * list Z) : list atom := let '(x, y, z) := r in combine (combine (map (on_axis d) x) (map (on_axis d) y)) (map (on_axis d) z).
Arguments atoms_of d !r /.

Lemma Forall2_imp {A B} (P P' : A -> B -> Prop) l l' : (forall a b, P a b -> P' a b) -> Forall2 P l l' -> Forall2 P' l l'.
Proof. intros H. induction 1; constructor; auto. Qed.
Lemma within_0 x x' : within 0 0 x x' -> exists z, (x' == x + inject_Z z)%Q.
Proof. intros [z [H1 H2]]. exists z. lra. Qed.
Lemma within_t t x x' : within 0 t x x' -> exists z, (x' == x + t + inject_Z z)%Q.
Proof. intros [z [H1 H2]]. exists z. lra. Qed.
Lemma step_lattice d x x' : within 0 0 x x' -> step d 0 x x'.
Proof. intros H. destruct (within_0 _ _ H) as [z Z]. exists 0%Z. rewrite (grid_mod d x x' z Z). change (inject_Z 0) with 0%Q. ring. Qed.
Lemma decimal_grid d x : decimal d x -> on_grid d x.
Proof. intros [k E]. exists k. unfold coord, unit_of. pose proof (unit_Q d) as U. unfold unit_of in U. rewrite <- E. field. lra. Qed.
Lemma decimal_sum d x t z x' : decimal d x -> decimal d t -> (x' == x + t + inject_Z z)%Q -> decimal d x'.
Proof. intros [k K] [j J] E. exists (k + j + z * 10 ^ Z.of_nat d)%Z. rewrite E, !inject_Z_plus, inject_Z_mult, <- K, <- J. ring. Qed.
Lemma step_decimal d t x x' : decimal d x -> decimal d t -> within 0 t x x' -> step d t x x'.
Proof.
  intros X T H. destruct (within_t _ _ _ H) as [z E]. pose proof (decimal_sum _ _ _ _ _ X T E) as X'. destruct (grid_exact d x (decimal_grid d x X)) as [a A]. destruct (grid_exact d x' (decimal_grid d x' X')) as [b B]. exists (b + z - a)%Z. rewrite A, B, E. unfold Zminus. rewrite !inject_Z_plus, inject_Z_opp. ring.
Qed.

Theorem C91_lattice d l l' n_atoms : same 0 (0, 0, 0)%Q n_atoms l l' -> normal d l n_atoms = normal d l' n_atoms.
Proof.
  intros [m [H1 H2]]. unfold normal. rewrite (normalize_reordered d _ _ _ H1). apply (normalize_steps d (0, 0, 0)%Q). revert H2. apply Forall2_imp. intros a b [A [B C]]. repeat split; now apply step_lattice.
Qed.

Theorem C91_translated d t l l' n_atoms : Forall (decimals d) l -> decimals d t -> same 0 t n_atoms l l' -> normal d l n_atoms = normal d l' n_atoms.
Proof.
  intros D T [m [H1 H2]]. unfold normal. rewrite (normalize_reordered d _ _ _ H1). apply (normalize_steps d t). assert (DM : Forall (decimals d) m) by (eapply Permutation_Forall; [exact (reordered_perm _ _ _ H1)|exact D]). clear - DM T H2. induction H2 as [|a b m l' H1 H2 IH]; [constructor|]. inversion DM; subst. constructor; [|now apply IH]. destruct H1 as [A [B C]], T as [T1 [T2 T3]], H3 as [D1 [D2 D3]]. repeat split; now apply step_decimal.
Qed.

Lemma describes_ d l n_atoms r : normal d l n_atoms = Ok r -> exists m k, reordered n_atoms l m /\ r = (map (fun a => place d (map ax l) (fst (fst k)) (ax a)) m, map (fun a => place d (map ay l) (snd (fst k)) (ay a)) m, map (fun a => place d (map az l) (snd k) (az a)) m).
Proof.
  unfold normal. intros H. destruct l as [|a l]; [discriminate|]. destruct (normalize_spec d (a :: l) n_atoms ltac:(easy)) as [f [E [[k [_ F]] _]]]. rewrite H in E. injection E as ->. rewrite F. destruct (flat_unflat d (a :: l) n_atoms k) as [m [M1 M2]]. now exists m, k.
Qed.
Definition shift3 (d : nat) (l : list atom) (k : nat * nat * nat) : atom := (shift_of d (map ax l) (fst (fst k)), shift_of d (map ay l) (snd (fst k)), shift_of d (map az l) (snd k)).
Lemma coord_unit d z : (coord d z == inject_Z z * unit_ d)%Q.
Proof. unfold coord, unit_, unit_of. pose proof (unit_Q d) as U. unfold unit_of in U. field. lra. Qed.
Lemma within_comp e e' t t' x y y' : (e == e')%Q -> (t == t')%Q -> (y == y')%Q -> within e t x y -> within e' t' x y'.
Proof. intros E T Y [z H]. exists z. lra. Qed.

(** The normal form describes the same arrangement, within one unit of the last decimal. *)
Theorem C91_describes d l n_atoms r : normal d l n_atoms = Ok r -> exists t, same (unit_ d) t n_atoms l (atoms_of d r).
Proof.
  intros H. destruct (describes_ _ _ _ _ H) as [m [k [M ->]]]. exists (shift3 d l k). exists m. split; [exact M|]. cbn [atoms_of]. rewrite !map_map, combine_map3. clear. induction m as [|a m IH]; [constructor|]. cbn [map]. constructor; [|exact IH].
  unfold moved, shift3, ax, ay, az. cbn [fst snd]. split; [|split]; (eapply within_comp; [reflexivity|reflexivity|apply coord_unit|apply place_near]).
Qed.

Lemma Forall2_swap {A B} (P : A -> B -> Prop) l l' : Forall2 P l l' -> Forall2 (fun b a => P a b) l' l.
Proof. induction 1; constructor; auto. Qed.
Lemma Forall2_firstn_ {A B} (P : A -> B -> Prop) n l l' : Forall2 P l l' -> Forall2 P (firstn n l) (firstn n l').
Proof. intros H. revert n. induction H; intros [|n]; cbn; constructor; auto. Qed.
Lemma Forall2_skipn_ {A B} (P : A -> B -> Prop) n l l' : Forall2 P l l' -> Forall2 P (skipn n l) (skipn n l').
Proof. intros H. revert n. induction H; intros [|n]; cbn; try constructor; auto. Qed.
Lemma reordered_app n ns f s f' s' : (length f = n \/ (length f <= n /\ s = [] /\ s' = [])) -> Permutation f f' -> reordered ns s s' -> reordered (n :: ns) (f ++ s) (f' ++ s').
Proof.
  intros L P R. pose proof (Permutation_length P) as L'. cbn [reordered]. destruct L as [L|[L [-> ->]]].
  - assert (L2 : length f' = n) by lia. assert (E1 : firstn n (f ++ s) = f) by (rewrite firstn_app, L, Nat.sub_diag, firstn_all2 by lia; cbn; apply app_nil_r). assert (E2 : firstn n (f' ++ s') = f') by (rewrite firstn_app, L2, Nat.sub_diag, firstn_all2 by lia; cbn; apply app_nil_r).
    assert (E3 : skipn n (f ++ s) = s) by (rewrite skipn_app, L, Nat.sub_diag, skipn_all2 by lia; reflexivity). assert (E4 : skipn n (f' ++ s') = s') by (rewrite skipn_app, L2, Nat.sub_diag, skipn_all2 by lia; reflexivity). rewrite E1, E2, E3, E4. now split.
  - rewrite !app_nil_r, !firstn_all2, !skipn_all2 by lia. now split.
Qed.
Lemma reordered_transport (P : atom -> atom -> Prop) ns : forall m m' l', Forall2 P m m' -> reordered ns m' l' -> exists m'', reordered ns m m'' /\ Forall2 P m'' l'.
Proof.
  induction ns as [|n ns IH]; intros m m' l' F H; [cbn in H; subst; exists m; now split|]. destruct H as [Pm H]. destruct (IH _ _ _ (Forall2_skipn_ P n _ _ F) H) as [s [S1 S2]].
  destruct (Permutation_Forall2 Pm (Forall2_swap _ _ _ (Forall2_firstn_ P n _ _ F))) as [f [F1 F2]]. exists (f ++ s). rewrite <- (firstn_skipn n m) at 1. rewrite <- (firstn_skipn n l'). split; [|apply Forall2_app; [exact (Forall2_swap _ _ _ F2)|exact S2]].
  apply reordered_app; [|exact F1|exact S1]. destruct (Nat.le_gt_cases n (length m)) as [LE|GT]; [left; now apply firstn_length_le|]. right. rewrite (skipn_all2 m) in * by lia. split; [rewrite firstn_all2 by lia; lia|]. split; [reflexivity|]. apply reordered_perm in S1. now apply Permutation_nil in S1.
Qed.
Lemma reordered_trans ns : forall l m k, reordered ns l m -> reordered ns m k -> reordered ns l k.
Proof. induction ns as [|n ns IH]; cbn; intros l m k H1 H2; [congruence|]. destruct H1, H2. split; [eapply Permutation_trans; eassumption|eapply IH; eassumption]. Qed.
Lemma within_two e t t' x x' y : within e t x y -> within e t' x' y -> within (e + e) (t - t') x x'.
Proof. intros [z H] [w W]. exists (z - w)%Z. unfold Zminus. rewrite inject_Z_plus, inject_Z_opp. lra. Qed.
Lemma moved_two e t t' a a' b : moved e t a b -> moved e t' a' b -> moved (e + e) (ax t - ax t', ay t - ay t', az t - az t')%Q a a'.
Proof. intros [A1 [A2 A3]] [B1 [B2 B3]]. unfold moved. unfold ax at 1 4, ay at 1 4, az at 1 4. cbn [fst snd]. split; [|split]; eapply within_two; eassumption. Qed.

Theorem C91_sound d l l' n_atoms r : normal d l n_atoms = Ok r -> normal d l' n_atoms = Ok r -> exists t, same (2 * unit_ d) t n_atoms l l'.
Proof.
  intros H H'. destruct (C91_describes _ _ _ _ H) as [t [m [M1 M2]]]. destruct (C91_describes _ _ _ _ H') as [t' [m' [M1' M2']]]. exists (ax t - ax t', ay t - ay t', az t - az t')%Q.
  assert (F : Forall2 (moved (unit_ d + unit_ d) (ax t - ax t', ay t - ay t', az t - az t')%Q) m m').
  { clear - M2 M2'. set (b := atoms_of d r) in *. clearbody b. revert m' M2'. induction M2 as [|x y m b X M2 IH]; intros m' M2'; inversion M2'; subst; constructor; [eapply moved_two; eassumption|now apply IH]. }
  destruct (reordered_transport _ _ _ _ _ F (reordered_sym _ _ _ M1')) as [m2 [R F2]]. exists m2. split; [eapply reordered_trans; eassumption|]. revert F2. apply Forall2_imp. intros a b [A [B C]]. assert (E : (unit_ d + unit_ d == 2 * unit_ d)%Q) by ring.
  split; [|split]; (eapply within_comp; [exact E|reflexivity|reflexivity|assumption]).
Qed.

(** Coordinates from minus a half to below a half *)
Theorem C91_range d l n_atoms x y z : normal d l n_atoms = Ok (x, y, z) -> forall v, In v x \/ In v y \/ In v z -> (- 10 ^ Z.of_nat d <= 2 * v < 10 ^ Z.of_nat d)%Z.
Proof.
  intros H v. destruct (describes_ _ _ _ _ H) as [m [k [M E]]]. injection E as -> -> ->. rewrite !in_map_iff. intros [I|[I|I]]; destruct I as [a [<- _]]; apply grid_range.
Qed.

(** As many coordinates as atoms, and an error for none *)
Theorem C91_stops d l n_atoms : (l = [] -> normal d l n_atoms = Err ZeroDivisionError) /\ (l <> [] -> exists x y z, normal d l n_atoms = Ok (x, y, z) /\ length x = length l /\ length y = length l /\ length z = length l).
Proof.
  split; [now intros ->|]. intros H. destruct (normalize_spec d l n_atoms H) as [f [E _]]. fold (normal d l n_atoms) in E. destruct (describes_ _ _ _ _ E) as [m [k [M X]]]. rewrite X in E. do 3 eexists. split; [exact E|]. rewrite !map_length. assert (length m = length l); [|auto]. symmetry. apply Permutation_length, (reordered_perm _ _ _ M).
Qed.

(** Not so for other translations: moving all atoms by 3 / 10^6 changes the normal form with five decimals. *)
Definition chain : list atom := [(62501 # 250000, 0, 0); (1 # 2, 0, 0); (13 # 20, 0, 0); (2 # 5, 0, 0)]%Q.
Definition moved_chain (t : Q) : list atom := map (fun a => (ax a + t, ay a, az a)%Q) chain.
Theorem C91_translation_refuted : ~ (forall d t l l' n_atoms, same 0 t n_atoms l l' -> normal d l n_atoms = normal d l' n_atoms).
Proof.
  intros H. assert (C : normal 5 chain [4] = normal 5 (moved_chain (3 # 1000000)) [4]); [|vm_compute in C; discriminate]. apply (H 5 (3 # 1000000, 0, 0)%Q). exists chain. split; [cbn; split; reflexivity|]. unfold moved_chain. repeat constructor; (exists 0%Z; cbn; unfold Qle; cbn; lia).
Qed.
Example ex_chain : normal 5 chain [4] = Ok ([-45000; -30000; -20000; -5000]%Z, repeat (-50000)%Z 4, repeat (-50000)%Z 4) /\
  normal 5 (moved_chain (3 # 1000000)) [4] = Ok ([-45000; -30000; 30001; 45000]%Z, repeat (-50000)%Z 4, repeat (-50000)%Z 4).
Proof. now vm_compute. Qed.

(** Two atoms of one element and one of another: a translation by (0.1, 0.2, 0.3), another order, another cell *)
Definition three : list atom := [(1 # 10, 0, 1 # 4); (6 # 10, 1 # 2, 1 # 4); (3 # 10, 1 # 3, 3 # 4)]%Q.
Definition three_moved : list atom := [(- (3 # 10), 7 # 10, 155 # 100); (2 # 10, 12 # 10, - (45 # 100)); (14 # 10, 533333 # 1000000, 5 # 100)]%Q.
Definition three_decimal : list atom := [(1 # 10, 0, 1 # 4); (6 # 10, 1 # 2, 1 # 4); (3 # 10, 333333 # 1000000, 3 # 4)]%Q.
Example ex_same : same 0 (1 # 10, 2 # 10, 3 # 10)%Q [2; 1] three_decimal three_moved /\ Forall (decimals 6) three_decimal /\ decimals 6 (1 # 10, 2 # 10, 3 # 10)%Q.
Proof.
  split; [|split].
  - exists [(6 # 10, 1 # 2, 1 # 4); (1 # 10, 0, 1 # 4); (3 # 10, 333333 # 1000000, 3 # 4)]%Q. split; [cbn; split; [apply perm_swap|split; reflexivity]|]. repeat apply Forall2_cons; [| | |constructor]; split; [|split| |split| |split].
    + exists (-1)%Z; now vm_compute.
    + exists 0%Z; now vm_compute.
    + exists 1%Z; now vm_compute.
    + exists 0%Z; now vm_compute.
    + exists 1%Z; now vm_compute.
    + exists (-1)%Z; now vm_compute.
    + exists 1%Z; now vm_compute.
    + exists 0%Z; now vm_compute.
    + exists (-1)%Z; now vm_compute.
  - assert (D : forall x k, (x * inject_Z (10 ^ Z.of_nat 6) == inject_Z k)%Q -> decimal 6 x) by (intros x k E; now exists k).
    repeat constructor; unfold ax, ay, az; cbn [fst snd]; [apply (D _ 100000%Z)|apply (D _ 0%Z)|apply (D _ 250000%Z)|apply (D _ 600000%Z)|apply (D _ 500000%Z)|apply (D _ 250000%Z)|apply (D _ 300000%Z)|apply (D _ 333333%Z)|apply (D _ 750000%Z)]; reflexivity.
  - split; [exists 100000%Z|split; [exists 200000%Z|exists 300000%Z]]; reflexivity.
Qed.
Example ex_normal : normal 6 three_decimal [2; 1] = normal 6 three_moved [2; 1].
Proof. now vm_compute. Qed.

Print Assumptions C91_lattice.
Print Assumptions C91_translated.
Print Assumptions C91_describes.
Print Assumptions C91_sound.
Print Assumptions C91_range.
Print Assumptions C91_stops.
Print Assumptions C91_translation_refuted.
