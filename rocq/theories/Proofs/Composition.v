From Verif Require Import Base Num NumR Model.Composition.
From Coq Require Import Reals Lra.
Local Open Scope R_scope.

Lemma sumnR_scale p c (f : nat -> R) : sumn p (fun i => c * f i) = c * sumn p f. Proof. exact (nsumf_scale_l (F:=R) c f (seq 0 p)). Qed.
Lemma sumnR_scale_r p c (f : nat -> R) : sumn p (fun i => f i * c) = sumn p f * c. Proof. exact (nsumf_scale_r (F:=R) c f (seq 0 p)). Qed.
Lemma sumnR_add p (f g : nat -> R) : sumn p (fun i => f i + g i) = sumn p f + sumn p g. Proof. exact (nsumf_add (F:=R) f g (seq 0 p)). Qed.
Lemma sumnR_sub p (f g : nat -> R) : sumn p (fun i => f i - g i) = sumn p f - sumn p g. Proof. exact (nsumf_sub (F:=R) f g (seq 0 p)). Qed.
Lemma sumnR_swap p q (f : nat -> nat -> R) : sumn p (fun i => sumn q (fun j => f i j)) = sumn q (fun j => sumn p (fun i => f i j)). Proof. exact (sumn_swap (F:=R) p q f). Qed.
Lemma sumnR_delta p m (f : nat -> R) : (m < p)%nat -> sumn p (fun k => (if Nat.eqb k m then 1 else 0) * f k) = f m.
Proof.
  induction p as [|p IH]; intros H; [lia|]. rewrite sumn_S. cbn [nadd R_num]. destruct (Nat.eqb_spec p m) as [->|Hn].
  - rewrite (sumn_ext m _ (fun k => 0 * f k)); [rewrite sumnR_scale; ring|]. intros i Hi. destruct (Nat.eqb_spec i m); [lia|reflexivity].
  - rewrite IH by lia. ring.
Qed.
Section Composition.
  Variables (nt ne : nat) (atol rtol : R) (ends : mat R) (pinv : mat R -> mat R).
  Hypothesis tols : 0 <= atol /\ 0 <= rtol.
  Let c0 := init ends pinv.
  Let P := pinv (fun i k => ends k i).
  Hypothesis penrose : forall i k, (i < nt)%nat -> (k < ne)%nat -> sumn ne (fun a => sumn nt (fun b => ends a i * P a b * ends k b)) = ends k i.
  Hypothesis independent : forall x : vec R, (forall i, (i < nt)%nat -> sumn ne (fun k => x k * ends k i) = 0) -> forall k, (k < ne)%nat -> x k = 0.
  Definition mixture' (x n : vec R) : Prop := forall i, (i < nt)%nat -> n i = sumn ne (fun k => x k * ends k i).
  Definition with_energies' (e : vec R) : composition := {| axis := axis c0; axis_inv := axis_inv c0; energies_end := Some e |}.
  (** P A = 1 *)
  Lemma left_inverse k m : (k < ne)%nat -> (m < ne)%nat -> sumn nt (fun b => P k b * ends m b) = if Nat.eqb k m then 1 else 0.
  Proof.
    intros Hk Hm. set (x := fun k => sumn nt (fun b => P k b * ends m b) - (if Nat.eqb k m then 1 else 0)). enough (x k = 0) by (unfold x in *; lra).
    apply independent; [|exact Hk]. intros i Hi. unfold x.
    rewrite (sumn_ext ne _ (fun k => sumn nt (fun b => ends k i * P k b * ends m b) - (if Nat.eqb k m then 1 else 0) * ends k i)).
    - rewrite sumnR_sub, penrose, sumnR_delta by assumption. ring.
    - intros a _. rewrite (sumn_ext nt (fun b => ends a i * P a b * ends m b) (fun b => ends a i * (P a b * ends m b))) by (intros; ring). rewrite sumnR_scale. ring.
  Qed.
  Lemma part_mixture x n k : mixture' x n -> (k < ne)%nat -> sumn nt (fun b => P k b * n b) = x k.
  Proof.
    intros H Hk. rewrite (sumn_ext nt _ (fun b => sumn ne (fun m => P k b * (x m * ends m b)))) by (intros b Hb; rewrite (H b Hb), sumnR_scale; reflexivity).
    rewrite sumnR_swap. rewrite (sumn_ext ne _ (fun m => (if Nat.eqb m k then 1 else 0) * x m)); [now apply sumnR_delta|].
    intros m Hm. rewrite (sumn_ext nt _ (fun b => x m * (P k b * ends m b))) by (intros; ring). rewrite sumnR_scale, left_inverse by assumption. rewrite Nat.eqb_sym. ring.
  Qed.
  Lemma proj_mixture e x n i : mixture' x n -> (i < nt)%nat -> matvec nt (proj ne (with_energies' e)) n i = n i.
  Proof.
    intros H Hi. unfold matvec, dot, proj. cbn [nmul R_num axis axis_inv with_energies']. 
    rewrite (sumn_ext nt _ (fun j => sumn ne (fun k => ends k i * (P k j * n j)))).
    - rewrite sumnR_swap. rewrite (H i Hi). apply sumn_ext. intros k Hk. rewrite sumnR_scale, (part_mixture x n k H Hk). ring.
    - intros j _. etransitivity; [symmetry; apply sumnR_scale_r|]. apply sumn_ext. intros k _. unfold c0, init, P. cbn. ring.
  Qed.
  Lemma mixture_close e x n : mixture' x n -> allclose nt atol rtol (matvec nt (proj ne (with_energies' e)) n) n = true.
  Proof.
    intros H. unfold allclose. apply forallb_forall. intros i Hi. apply in_seq in Hi. rewrite (proj_mixture e x n i H) by lia. apply negb_true_iff. cbn. apply Rltb_false.
    replace (n i - n i) with 0 by ring. rewrite Rabs_R0. pose proof (Rabs_pos (n i)). assert (0 <= rtol * Rabs (n i)) by (apply Rmult_le_pos; tauto). lra.
  Qed.
  Lemma composition_ok e x n : mixture' x n -> get_composition nt ne atol rtol (with_energies' e) n = Ok (fun k => sumn nt (fun b => P k b * n b) / sumn ne (fun k => sumn nt (fun b => P k b * n b)), fun k => sumn nt (fun b => P k b * n b)).
  Proof. intros H. unfold get_composition. rewrite (mixture_close e x n H). reflexivity. Qed.
  Lemma part_sum x n : mixture' x n -> sumn ne (fun k => sumn nt (fun b => P k b * n b)) = sumn ne x.
  Proof. intros H. apply sumn_ext. intros k Hk. now apply part_mixture. Qed.
  Lemma mixture_composition e x n : mixture' x n ->
    exists comp part, get_composition nt ne atol rtol (with_energies' e) n = Ok (comp, part) /\
      (forall k, (k < ne)%nat -> part k = x k) /\ (forall k, (k < ne)%nat -> comp k = x k / sumn ne x).
  Proof.
    intros H. rewrite (composition_ok e x n H). eexists. eexists. split; [reflexivity|]. split; intros k Hk; cbv beta; rewrite ?(part_sum x n H); now rewrite (part_mixture x n k H Hk).
  Qed.
  Lemma end_mixture m : (m < ne)%nat -> mixture' (fun k => if Nat.eqb k m then 1 else 0) (ends m).
  Proof. intros Hm i Hi. symmetry. now apply (sumnR_delta ne m (fun k => ends k i)). Qed.
  Lemma delta_sum m : (m < ne)%nat -> sumn ne (fun k => if Nat.eqb k m then 1 else 0) = 1.
  Proof. intros Hm. etransitivity; [|exact (sumnR_delta ne m (fun _ => 1) Hm)]. apply sumn_ext. intros. ring. Qed.
  Lemma end_member e m : (m < ne)%nat ->
    exists comp part, get_composition nt ne atol rtol (with_energies' e) (ends m) = Ok (comp, part) /\ forall k, (k < ne)%nat -> comp k = if Nat.eqb k m then 1 else 0.
  Proof.
    intros Hm. destruct (mixture_composition e _ _ (end_mixture m Hm)) as [comp [part [E [_ H]]]]. exists comp, part. split; [exact E|]. intros k Hk. rewrite (H k Hk), delta_sum by exact Hm. field.
  Qed.
  Lemma formation_mixture e x n energy : mixture' x n ->
    formation_energy nt ne atol rtol (with_energies' e) energy n = Ok ((energy - sumn ne (fun k => x k * e k)) / sumn ne x).
  Proof.
    intros H. unfold formation_energy. rewrite (composition_ok e x n H). cbn [bind with_energies' energies_end snd]. rewrite (part_sum x n H). cbn [nsub ndiv R_num]. f_equal. f_equal. f_equal.
    unfold dot. apply sumn_ext. intros k Hk. rewrite (part_mixture x n k H Hk). cbn. ring.
  Qed.
  Lemma formation_end e m : (m < ne)%nat -> formation_energy nt ne atol rtol (with_energies' e) (e m) (ends m) = Ok 0.
  Proof. intros Hm. rewrite (formation_mixture e _ _ _ (end_mixture m Hm)). rewrite (sumnR_delta ne m e Hm), delta_sum by exact Hm. f_equal. field. Qed.
  Lemma formation_shift e x n energy w : mixture' x n ->
    formation_energy nt ne atol rtol (with_energies' (fun k => e k + sumn nt (fun i => w i * ends k i))) (energy + sumn nt (fun i => w i * n i)) n =
    formation_energy nt ne atol rtol (with_energies' e) energy n.
  Proof.
    intros H. rewrite !(formation_mixture _ x n _ H). f_equal. f_equal.
    assert (E : sumn nt (fun i => w i * n i) = sumn ne (fun k => x k * sumn nt (fun i => w i * ends k i))).
    { rewrite (sumn_ext nt _ (fun i => sumn ne (fun k => x k * (w i * ends k i)))).
      - rewrite sumnR_swap. apply sumn_ext. intros k _. apply sumnR_scale.
      - intros i Hi. rewrite (H i Hi), <- sumnR_scale. apply sumn_ext. intros. ring. }
    rewrite E. rewrite (sumn_ext ne (fun k => x k * (e k + _)) (fun k => x k * e k + x k * sumn nt (fun i => w i * ends k i))) by (intros; ring). rewrite sumnR_add. ring.
  Qed.
  Lemma formation_multiple e x n energy q : mixture' x n -> q <> 0 ->
    formation_energy nt ne atol rtol (with_energies' e) (q * energy) (fun i => q * n i) = formation_energy nt ne atol rtol (with_energies' e) energy n.
  Proof.
    intros H Hq. assert (H2 : mixture' (fun k => q * x k) (fun i => q * n i)).
    { intros i Hi. rewrite (H i Hi), <- sumnR_scale. apply sumn_ext. intros. ring. }
    rewrite (formation_mixture _ _ _ _ H2), (formation_mixture _ x n _ H). f_equal.
    rewrite (sumn_ext ne (fun k => q * x k * e k) (fun k => q * (x k * e k))) by (intros; ring). rewrite !sumnR_scale.
    destruct (Req_dec (sumn ne x) 0) as [E|E]; [|field; split; assumption]. rewrite E, Rmult_0_r. unfold Rdiv. rewrite Rinv_0. ring.
  Qed.
End Composition.
Lemma comp_sum nt ne (atol rtol : R) c n comp part : get_composition nt ne atol rtol c n = Ok (comp, part) -> sumn ne part <> 0 -> sumn ne comp = 1.
Proof.
  unfold get_composition. destruct (negb _); [discriminate|]. intros H. injection H as <- <-. intros HN. etransitivity; [exact (sumnR_scale_r ne (/ sumn ne (matvec nt (axis_inv c) n)) (matvec nt (axis_inv c) n))|]. now apply Rinv_r.
Qed.
Lemma formation_arrays nt ne (atol rtol : R) c energies ns : length energies = length ns ->
  formation_energies nt ne atol rtol c energies ns =
  match energies_end c with
  | None => if forallb (fun n => is_ok (get_composition nt ne atol rtol c n)) ns then Err TypeError else Err RuntimeError
  | Some _ => mapM (fun '(e, n) => formation_energy nt ne atol rtol c e n) (combine energies ns)
  end.
Proof.
  intros HL. unfold formation_energies, get_compositions. set (ok := fun n => allclose nt atol rtol (matvec nt (proj ne c) n) n).
  assert (EO : forall n, is_ok (get_composition nt ne atol rtol c n) = ok n) by (intros n; unfold get_composition, ok; destruct (allclose _ _ _ _ _); reflexivity).
  destruct (energies_end c) as [e|] eqn:EE.
  - revert energies HL. induction ns as [|n ns IH]; intros [|en energies] HL; try discriminate; [reflexivity|]. cbn [forallb map combine mapM]. injection HL as HL. specialize (IH energies HL).
    unfold formation_energy at 1, get_composition at 1. fold (ok n). destruct (ok n) eqn:E; cbn [negb andb]; [|cbn [bind]; reflexivity].
    rewrite <- IH, EE. cbn [bind snd]. destruct (forallb ok ns); cbn [negb bind]; reflexivity.
  - replace (forallb (fun n => is_ok (get_composition nt ne atol rtol c n)) ns) with (forallb ok ns) by (clear HL; induction ns as [|n ns IH]; [reflexivity|]; cbn [forallb]; now rewrite EO, IH). destruct (forallb ok ns); reflexivity.
Qed.
