(** C87: histories of calculator objects that share a potential. *)
From Verif Require Import Base Model.Calc.

Section C87.
  Variables (St V Arg Ob Res : Type).
  Variable eval : list St -> res (list V).
  Variable final : Res -> St.
  Variable make : kind -> Arg -> option St -> prog St V Ob.
  Variable blank : Ob.
  Variable work : kind -> Arg -> Ob -> option (list St) -> prog St V Res.
  Notation exec := (exec St V eval).
  Notation step1 := (step1 St V Arg Ob Res eval final make blank work).
  Notation step := (step St V Arg Ob Res eval final make blank work).
  Notation history := (history St V Arg Ob Res eval final make blank work).
  Notation op := (op St Arg).
  Notation structures := (k_structures St Ob Res).
  Notation unitcell := (k_unitcell St Ob Res).
  Notation object := (k_object St Ob Res).
  Notation calc_of := (w_calc St V Ob Res).
  Notation record_of := (w_record St V Ob Res).

  Lemma kind_eqb_eq a b : kind_eqb a b = true <-> a = b.
  Proof using. destruct a as [[]|[]], b as [[]|[]]; cbn; split; congruence. Qed.
  Lemma kind_eqb_refl a : kind_eqb a a = true.
  Proof using. now apply kind_eqb_eq. Qed.

  (** *** Values *)
  Definition sound (m : record St V) : Prop := forall sts vs, m = Some (sts, vs) -> eval sts = Ok vs.
  Lemma ask_sound sts m : sound m -> sound (fst (ask St V eval sts m)).
  Proof using. intros H. unfold ask. destruct (eval sts) as [vs|e] eqn:E; [|exact H]. cbn [fst]. intros s v Q. assert (s = sts /\ v = vs) as [-> ->] by (split; congruence). exact E. Qed.
  Lemma exec_sound {A} (p : prog St V A) : forall m, sound m -> sound (fst (exec p m)).
  Proof using.
    induction p as [r|sts k IH]; intros m H; [exact H|]. cbn [Calc.exec]. pose proof (ask_sound sts m H) as H1. destruct (ask St V eval sts m) as [m' a]. apply IH. exact H1.
  Qed.
  Lemma create_sound k a cell g m c : sound m -> sound (fst (fst (create St V Arg Ob Res eval make k a cell g (m, c)))).
  Proof using.
    intros H. unfold create. destruct (set_optional St Ob Res g c) as [c1|]; [|exact H]. destruct (first_structure St Ob Res c1) as [u|]; [|exact H].
    pose proof (exec_sound (make k a u) m H) as H1. destruct (exec (make k a u) m) as [m' [o|e]]; exact H1.
  Qed.
  Lemma perform_sound k a o m c : sound m -> sound (fst (fst (perform St V Arg Ob Res eval work k a o (m, c)))).
  Proof using. intros H. unfold perform. pose proof (exec_sound (work k a o (structures c)) m H) as H1. destruct (exec _ m) as [m' [x|e]]; exact H1. Qed.
  Lemma step1_sound m c o : sound m -> sound (fst (fst (step1 (m, c) o))).
  Proof using.
    intros H. destruct o as [g|r|g|k a g|k a g|k a g]; cbn [Calc.step1 fst snd].
    - destruct (set_structures St Ob Res g c); exact H.
    - destruct r; exact H.
    - unfold eval_calc. destruct (set_optional St Ob Res g c) as [c1|]; [|exact H]. destruct (structures c1) as [l|]; [|exact H]. pose proof (ask_sound l m H) as H1. destruct (ask St V eval l m) as [m' r]. exact H1.
    - unfold compute. pose proof (create_sound (Once k) a true g m c H) as H1. destruct (create _ _ _ _ _ _ _ (Once k) a true g (m, c)) as [[m1 c1] [o|e]]; [|exact H1]. now apply perform_sound.
    - unfold init. destruct k.
      + cbn [quiet fst]. now apply create_sound.
      + pose proof (create_sound (Steps Geometry) a false g m c H) as H1. destruct (create _ _ _ _ _ _ _ (Steps Geometry) a false g (m, c)) as [[m1 c1] [o|[]]]; exact H1.
      + cbn [quiet fst]. now apply create_sound.
      + pose proof (exec_sound (make (Steps Formation) a None) m H) as H1. destruct (exec _ m) as [m' [o|e]]; exact H1.
    - unfold run. cbn [snd fst]. destruct (object c (Steps k)) as [[o old]|]; [|destruct k; exact H].
      destruct k.
      + now apply perform_sound.
      + pose proof (perform_sound (Steps Geometry) a o m c H) as H1. destruct (perform _ _ _ _ _ _ _ (Steps Geometry) a o (m, c)) as [[m1 c1] [[| |x]|e]]; exact H1.
      + now apply perform_sound.
      + destruct (set_optional St Ob Res g c) as [c1|]; [now apply perform_sound|exact H].
  Qed.
  (** Whatever was called in whatever order by whichever of the objects, the values shown are those of the structures evaluated last. *)
  Theorem C87_values ops sts vs : record_of (history ops) = Some (sts, vs) -> eval sts = Ok vs.
  Proof.
    assert (G : sound (record_of (history ops))); [|apply G].
    unfold Calc.history. induction ops as [|[i o] ops IH] using rev_ind; [intros s v Q; discriminate|]. rewrite fold_left_app. cbn [fold_left fst snd]. set (w := fold_left _ ops _) in *. clearbody w.
    unfold Calc.step. pose proof (step1_sound (record_of w) (calc_of w i) o IH) as H. destruct (step1 (record_of w, calc_of w i) o) as [[m c] r]. exact H.
  Qed.
  (** Evaluation: the structures given, or those held, are evaluated and held. *)
  Theorem C87_eval w i g l : (match g with Some (One _ s) => Some [s] | Some (Many _ l) => Some l | Some (Other _) => None | None => structures (calc_of w i) end) = Some l ->
    let '(w', r) := step w i (Eval _ _ g) in
    structures (calc_of w' i) = Some l /\
    match eval l with Ok vs => r = Ok (Values _ _ vs) /\ record_of w' = Some (l, vs) | Err e => r = Err e /\ record_of w' = record_of w end.
  Proof.
    intros H. unfold Calc.step. cbn [Calc.step1]. unfold eval_calc.
    assert (E : exists c1, set_optional St Ob Res g (calc_of w i) = Ok c1 /\ structures c1 = Some l).
    { destruct g as [[s|l'|]|]; cbn [set_optional set_structures] in *; try discriminate; eexists; (split; [reflexivity|]); cbn; congruence. }
    destruct E as (c1 & -> & E). rewrite E. unfold ask. destruct (eval l) as [vs|e]; cbn; rewrite Nat.eqb_refl; repeat split; exact E.
  Qed.
  Theorem C87_eval_refused w i : (step w i (Eval _ _ (Some (Other _))) = (mk_shared _ _ _ _ (record_of w) (fun j => if j =? i then calc_of w i else calc_of w j), Err RuntimeError)) /\
    (structures (calc_of w i) = None -> snd (step w i (Eval _ _ None)) = Err TypeError).
  Proof. split; [reflexivity|]. intros H. unfold Calc.step. cbn [Calc.step1]. unfold eval_calc. cbn [set_optional]. now rewrite H. Qed.

  (** *** Objects of calculations and their results *)
  Definition creates (o : op) (k : kind) : Prop := match o, k with Compute _ _ k1 _ _, Once k2 => k1 = k2 | Init _ _ k1 _ _, Steps k2 => k1 = k2 | _, _ => False end.
  (** The structure a new object is made for: the first one held; none for formation energies *)
  Definition cell_for (k : kind) (l : option (list St)) : option St := match k with Steps Formation => None | _ => match l with Some (x :: _) => Some x | _ => None end end.
  Definition made_for (k : kind) (l : option (list St)) (ob : Ob) : Prop :=
    (exists a m m', exec (make k a (cell_for k l)) m = (m', Ok ob)) \/ (k = Steps Formation /\ ob = blank).
  Definition worked (k : kind) (ob : Ob) (x : Res) : Prop := exists a l m m', exec (work k a ob l) m = (m', Ok x).
  (** One call leaves the object of a calculation, or runs it, or makes a new one for the first structure, or removes it. *)
  Definition change (k : kind) (o : op) (c c' : calc St Ob Res) : Prop :=
    object c' k = object c k \/
    (exists ob r x, object c k = Some (ob, r) /\ object c' k = Some (ob, Some x) /\ worked k ob x) \/
    (creates o k /\ exists ob r, object c' k = Some (ob, r) /\ made_for k (structures c') ob /\ (forall x, r = Some x -> worked k ob x)) \/
    (k = Steps Geometry /\ object c' k = None).
  Lemma with_object_at c k o k' : object (with_object St Ob Res c k o) k' = if kind_eqb k' k then o else object c k'.
  Proof using. reflexivity. Qed.
  Lemma set_optional_object g c c1 k : set_optional St Ob Res g c = Ok c1 -> object c1 k = object c k.
  Proof using. destruct g as [[s|l|]|]; cbn; intros Q; try discriminate; match type of Q with Ok ?a = _ => assert (c1 = a) by congruence end; subst; reflexivity. Qed.
  Lemma create_change k a cell g m c : let '((m', c'), r) := create St V Arg Ob Res eval make k a cell g (m, c) in
    match r with
    | Ok ob => object c' k = Some (ob, None) /\ (k <> Steps Formation -> made_for k (structures c') ob) /\ forall k', k' <> k -> object c' k' = object c k'
    | Err _ => forall k', object c' k' = object c k'
    end.
  Proof using.
    unfold create. destruct (set_optional St Ob Res g c) as [c1|] eqn:E1; [|reflexivity]. destruct (first_structure St Ob Res c1) as [u|] eqn:E2; [|intros k'; now apply (set_optional_object g c c1)].
    destruct (exec (make k a u) m) as [m' [o|e]] eqn:E3.
    - cbn [snd fst]. split; [rewrite with_object_at, kind_eqb_refl; reflexivity|]. split.
      + intros NF. left. exists a, m, m'. assert (EU : cell_for k (structures (with_object St Ob Res (if cell then with_unitcell St Ob Res c1 u else c1) k (Some (o, None)))) = u).
        { unfold first_structure in E2. assert (ES : structures (with_object St Ob Res (if cell then with_unitcell St Ob Res c1 u else c1) k (Some (o, None))) = structures c1) by (destruct cell; reflexivity).
          rewrite ES. unfold cell_for. destruct k as [k1|[]]; try congruence; destruct (structures c1) as [[|x t]|]; congruence. }
        rewrite EU. exact E3.
      + intros k' NK. rewrite with_object_at. destruct (kind_eqb k' k) eqn:Q; [apply kind_eqb_eq in Q; congruence|]. destruct cell; now apply (set_optional_object g c c1).
    - intros k'. destruct cell; now apply (set_optional_object g c c1).
  Qed.
  Lemma perform_change k a o m c : let '((m', c'), r) := perform St V Arg Ob Res eval work k a o (m, c) in
    structures c' = structures c /\ (forall k', k' <> k -> object c' k' = object c k') /\
    (object c' k = object c k \/ exists x, r = Ok (Result _ _ x) /\ object c' k = Some (o, Some x) /\ worked k o x).
  Proof using.
    unfold perform. destruct (exec (work k a o (structures c)) m) as [m' [x|e]] eqn:E.
    - split; [reflexivity|]. split; [intros k' NK; rewrite with_object_at; destruct (kind_eqb k' k) eqn:Q; [apply kind_eqb_eq in Q; congruence|reflexivity]|].
      right. exists x. split; [reflexivity|]. split; [rewrite with_object_at, kind_eqb_refl; reflexivity|]. exists a, (structures c), m, m'. exact E.
    - split; [reflexivity|]. split; [reflexivity|now left].
  Qed.
  Lemma kind_dec (a b : kind) : a = b \/ a <> b.
  Proof using. destruct (kind_eqb a b) eqn:E; [left; now apply kind_eqb_eq|right; intros Q; apply kind_eqb_eq in Q; congruence]. Qed.
  Theorem C87_step m c o k : let '((m', c'), r) := step1 (m, c) o in change k o c c'.
  Proof.
    unfold change. destruct o as [g|r|g|k0 a g|k0 a g|k0 a g]; cbn [Calc.step1 fst snd].
    - destruct (set_structures St Ob Res g c) as [c1|] eqn:E; [|now left]. left. now apply (set_optional_object (Some g) c c1).
    - destruct r; now left.
    - unfold eval_calc. destruct (set_optional St Ob Res g c) as [c1|] eqn:E; [|now left]. destruct (structures c1) as [l|]; [destruct (ask St V eval l m)|]; left; now apply (set_optional_object g c c1).
    - unfold compute. pose proof (create_change (Once k0) a true g m c) as H. destruct (create _ _ _ _ _ _ _ (Once k0) a true g (m, c)) as [[m1 c1] [ob|e]]; [|left; apply H].
      destruct H as (H1 & H2 & H3). pose proof (perform_change (Once k0) a ob m1 c1) as P. destruct (perform _ _ _ _ _ _ _ (Once k0) a ob (m1, c1)) as [[m2 c2] r2]. destruct P as (P1 & P2 & P3).
      destruct (kind_dec k (Once k0)) as [->|NK]; [|left; now rewrite P2, H3 by exact NK].
      right. right. left. split; [reflexivity|]. specialize (H2 ltac:(discriminate)). destruct P3 as [P3|(x & _ & P3 & P4)].
      + exists ob, None. rewrite P3, P1. split; [exact H1|]. split; [exact H2|discriminate].
      + exists ob, (Some x). rewrite P1. split; [exact P3|]. split; [exact H2|]. intros y Q. assert (y = x) by congruence. now subst.
    - unfold init. assert (CR : forall cell, let '((m', c'), r) := create St V Arg Ob Res eval make (Steps k0) a cell g (m, c) in k0 <> Formation ->
        object c' k = object c k \/ (creates (Init St Arg k0 a g) k /\ exists ob r, object c' k = Some (ob, r) /\ made_for k (structures c') ob /\ (forall x, r = Some x -> worked k ob x))).
      { intros cell. pose proof (create_change (Steps k0) a cell g m c) as H. destruct (create _ _ _ _ _ _ _ (Steps k0) a cell g (m, c)) as [[m1 c1] [ob|e]]; intros NF; [|left; apply H].
        destruct H as (H1 & H2 & H3). destruct (kind_dec k (Steps k0)) as [->|NK]; [|left; now apply H3]. right. split; [reflexivity|]. exists ob, None. split; [exact H1|]. split; [apply H2; congruence|discriminate]. }
      destruct k0.
      + specialize (CR true). destruct (create _ _ _ _ _ _ _ (Steps Phonon) a true g (m, c)) as [[m1 c1] r1]. cbn [quiet fst]. destruct (CR ltac:(discriminate)) as [H|H]; [now left|right; right; now left].
      + specialize (CR false). assert (K2 := create_change (Steps Geometry) a false g m c). destruct (create _ _ _ _ _ _ _ (Steps Geometry) a false g (m, c)) as [[m1 c1] r1].
        assert (Q : object c1 k = object c k \/ creates (Init St Arg Geometry a g) k /\ exists ob r, object c1 k = Some (ob, r) /\ made_for k (structures c1) ob /\ (forall x, r = Some x -> worked k ob x)) by (apply CR; discriminate).
        destruct r1 as [ob|[]]; cbn [quiet fst snd]; try (destruct Q as [Q|Q]; [now left|right; right; now left]).
        rewrite with_object_at. destruct (kind_eqb k (Steps Geometry)) eqn:EK; [apply kind_eqb_eq in EK; right; right; right; split; [exact EK|reflexivity]|]. left. apply K2.
      + specialize (CR true). destruct (create _ _ _ _ _ _ _ (Steps FC) a true g (m, c)) as [[m1 c1] r1]. cbn [quiet fst]. destruct (CR ltac:(discriminate)) as [H|H]; [now left|right; right; now left].
      + destruct (exec (make (Steps Formation) a None) m) as [m' [ob|e]] eqn:E; rewrite with_object_at;
          (destruct (kind_eqb k (Steps Formation)) eqn:EK; [apply kind_eqb_eq in EK; subst k|now left]); right; right; left; (split; [reflexivity|]).
        * exists ob, None. split; [reflexivity|]. split; [left; exists a, m, m'; exact E|discriminate].
        * exists blank, None. split; [reflexivity|]. split; [right; now split|discriminate].
    - unfold run. cbn [fst snd]. destruct (object c (Steps k0)) as [[ob old]|] eqn:EO; [|destruct k0; now left].
      assert (PF : forall c1, (forall k', object c1 k' = object c k') -> let '((m', c'), r) := perform St V Arg Ob Res eval work (Steps k0) a ob (m, c1) in
        object c' k = object c k \/ exists ob r x, object c k = Some (ob, r) /\ object c' k = Some (ob, Some x) /\ worked k ob x).
      { intros c1 EQ. pose proof (perform_change (Steps k0) a ob m c1) as P. destruct (perform _ _ _ _ _ _ _ (Steps k0) a ob (m, c1)) as [[m2 c2] r2]. destruct P as (_ & P2 & P3).
        destruct (kind_dec k (Steps k0)) as [->|NK]; [|left; now rewrite P2, EQ by exact NK]. destruct P3 as [P3|(x & _ & P3 & P4)]; [left; now rewrite P3|right]. exists ob, old, x. auto. }
      destruct k0.
      + specialize (PF c ltac:(reflexivity)). destruct (perform _ _ _ _ _ _ _ (Steps Phonon) a ob (m, c)) as [[m2 c2] r2]. destruct PF as [H|H]; [now left|right; now left].
      + specialize (PF c ltac:(reflexivity)). destruct (perform _ _ _ _ _ _ _ (Steps Geometry) a ob (m, c)) as [[m2 c2] [[| |x]|e]]; destruct PF as [H|H]; try (now left); right; now left.
      + specialize (PF c ltac:(reflexivity)). destruct (perform _ _ _ _ _ _ _ (Steps FC) a ob (m, c)) as [[m2 c2] r2]. destruct PF as [H|H]; [now left|right; now left].
      + destruct (set_optional St Ob Res g c) as [c1|] eqn:E; [|now left]. specialize (PF c1 (fun k' => set_optional_object g c c1 k' E)).
        destruct (perform _ _ _ _ _ _ _ (Steps Formation) a ob (m, c1)) as [[m2 c2] r2]. destruct PF as [H|H]; [now left|right; now left].
  Qed.
  Lemma history_app a b : history (a ++ b) = fold_left (fun w q => fst (step w (fst q) (snd q))) b (history a).
  Proof using. unfold Calc.history. apply fold_left_app. Qed.
  Lemma step_calc w i o j : calc_of (fst (step w i o)) j = if j =? i then snd (fst (step1 (record_of w, calc_of w i) o)) else calc_of w j.
  Proof using. unfold Calc.step. destruct (step1 (record_of w, calc_of w i) o) as [[m c] r]. reflexivity. Qed.
  (** Over all histories, also those of several objects: what an object holds for a calculation was made by its own last call that made it,
      for the structure that was first then, and its result is the result of a run of just that. *)
  Theorem C87_origin ops i k ob r : object (calc_of (history ops) i) k = Some (ob, r) ->
    exists before o after, ops = before ++ (i, o) :: after /\ creates o k /\ made_for k (structures (calc_of (history (before ++ [(i, o)])) i)) ob /\
      (forall mid rest, after = mid ++ rest -> exists r', object (calc_of (history (before ++ (i, o) :: mid)) i) k = Some (ob, r')) /\
      (forall x, r = Some x -> worked k ob x).
  Proof.
    revert r. induction ops as [|[j o] ops IH] using rev_ind; intros r H; [discriminate|].
    assert (HS : history (ops ++ [(j, o)]) = fst (step (history ops) j o)) by (now rewrite history_app).
    assert (KEEP : forall r0, object (calc_of (history ops) i) k = Some (ob, r0) -> (forall x, r = Some x -> (exists r1, r0 = r1 /\ r1 = Some x) \/ worked k ob x) -> exists before o0 after, ops ++ [(j, o)] = before ++ (i, o0) :: after /\ creates o0 k /\
      made_for k (structures (calc_of (history (before ++ [(i, o0)])) i)) ob /\ (forall mid rest, after = mid ++ rest -> exists r', object (calc_of (history (before ++ (i, o0) :: mid)) i) k = Some (ob, r')) /\ (forall x, r = Some x -> worked k ob x)).
    { intros r0 H0 HX. destruct (IH r0 H0) as (before & o0 & after & A1 & A2 & A3 & A4 & A5). exists before, o0, (after ++ [(j, o)]). split; [subst ops; now rewrite <- app_assoc|]. split; [exact A2|]. split; [exact A3|]. split.
      - intros mid rest Q. destruct rest as [|z rest] using rev_ind.
        + rewrite app_nil_r in Q. subst mid. rewrite app_comm_cons, app_assoc, <- A1. now exists r.
        + clear IHrest. rewrite app_assoc in Q. apply app_inj_tail in Q. destruct Q as [Q _]. exact (A4 mid rest Q).
      - intros x Q. destruct (HX x Q) as [(r1 & -> & Q')|W]; [now apply A5|exact W]. }
    rewrite HS, step_calc in H. destruct (Nat.eqb_spec i j) as [->|NE].
    2: { apply (KEEP r H). intros x Q. left. now exists r. }
    pose proof (C87_step (record_of (history ops)) (calc_of (history ops) j) o k) as C. destruct (step1 (record_of (history ops), calc_of (history ops) j) o) as [[m' c'] r'] eqn:E. cbn [fst snd] in H.
    destruct C as [C|[(ob1 & r1 & x & C1 & C2 & C3)|[(C0 & ob1 & r1 & C1 & C2 & C3)|[_ C]]]].
    - rewrite C in H. apply (KEEP r H). intros x Q. left. now exists r.
    - assert (ob1 = ob /\ r = Some x) as [-> ->] by (split; congruence). apply (KEEP r1 C1). intros y Q. right. assert (y = x) by congruence. now subst.
    - assert (ob1 = ob /\ r1 = r) as [-> ->] by (split; congruence). exists ops, o, []. split; [reflexivity|]. split; [exact C0|].
      assert (EC : calc_of (history (ops ++ [(j, o)])) j = c') by (rewrite HS, step_calc, Nat.eqb_refl, E; reflexivity).
      split; [rewrite EC; exact C2|]. split; [|exact C3]. intros mid rest Q. symmetry in Q. apply app_eq_nil in Q. destruct Q as [-> _]. exists r. rewrite EC. exact H.
    - congruence.
  Qed.

  (** *** Calls out of order *)
  Theorem C87_uninitialised w i k a g : object (calc_of w i) (Steps k) = None ->
    snd (step w i (Run _ _ k a g)) = (if kind_eqb (Steps k) (Steps Geometry) then Ok (Nothing _ _) else Err RuntimeError) /\
    record_of (fst (step w i (Run _ _ k a g))) = record_of w /\ calc_of (fst (step w i (Run _ _ k a g))) i = calc_of w i.
  Proof.
    intros H. unfold Calc.step. cbn [Calc.step1]. unfold run. cbn [fst snd]. rewrite H. destruct k; cbn; rewrite Nat.eqb_refl; repeat split.
  Qed.
  (** A geometry without degrees of freedom: the earlier object is dropped, a run returns nothing and leaves the structures. *)
  Theorem C87_no_freedom w i a g l m' : (match g with Some (One _ s) => Some [s] | Some (Many _ l) => Some l | Some (Other _) => None | None => structures (calc_of w i) end) = Some l -> l <> [] ->
    exec (make (Steps Geometry) a (cell_for (Steps Geometry) (Some l))) (record_of w) = (m', Err ValueError) ->
    let '(w1, r1) := step w i (Init _ _ Geometry a g) in
    r1 = Ok (Nothing _ _) /\ structures (calc_of w1 i) = Some l /\ unitcell (calc_of w1 i) = unitcell (calc_of w i) /\ object (calc_of w1 i) (Steps Geometry) = None.
  Proof.
    intros H NL HE. unfold Calc.step. cbn [Calc.step1 init]. unfold create.
    assert (E : exists c1, set_optional St Ob Res g (calc_of w i) = Ok c1 /\ structures c1 = Some l /\ unitcell c1 = unitcell (calc_of w i)).
    { destruct g as [[s|l'|]|]; cbn [set_optional set_structures] in *; try discriminate; eexists; (split; [reflexivity|]); cbn; split; congruence. }
    destruct E as (c1 & -> & E & U). unfold first_structure. rewrite E. destruct l as [|x l]; [contradiction|]. cbn [cell_for] in HE. rewrite HE. cbn. rewrite Nat.eqb_refl. repeat split; assumption.
  Qed.
  (** After an optimization the structure held is the optimized one. *)
  Theorem C87_optimized w i a g x : snd (step w i (Run _ _ Geometry a g)) = Ok (Result _ _ x) -> structures (calc_of (fst (step w i (Run _ _ Geometry a g))) i) = Some [final x] /\ result _ _ _ _ (fst (step w i (Run _ _ Geometry a g))) i (Steps Geometry) = Some x.
  Proof.
    unfold Calc.step. cbn [Calc.step1]. unfold run. cbn [fst snd]. destruct (object (calc_of w i) (Steps Geometry)) as [[ob old]|]; [|cbn; discriminate]. unfold perform.
    destruct (exec (work (Steps Geometry) a ob (structures (calc_of w i))) (record_of w)) as [m' [y|e]]; cbn; [|discriminate]. intros H. assert (y = x) by congruence. subst. unfold result. cbn. rewrite Nat.eqb_refl. split; reflexivity.
  Qed.
  (** If a constructor fails with another exception, the object made for earlier structures stays, though the structures are the new ones. *)
  Theorem C87_stale_refuted w i k a g l m' e o : k <> Formation -> (e <> ValueError \/ k <> Geometry) ->
    (match g with Some (One _ s) => Some [s] | Some (Many _ l) => Some l | Some (Other _) => None | None => structures (calc_of w i) end) = Some l -> l <> [] ->
    exec (make (Steps k) a (cell_for (Steps k) (Some l))) (record_of w) = (m', Err e) -> object (calc_of w i) (Steps k) = Some o ->
    let '(w1, r1) := step w i (Init _ _ k a g) in
    r1 = Err e /\ structures (calc_of w1 i) = Some l /\ object (calc_of w1 i) (Steps k) = Some o.
  Proof.
    intros NF NV H NL HE HO. unfold Calc.step. cbn [Calc.step1].
    assert (E : exists c1, set_optional St Ob Res g (calc_of w i) = Ok c1 /\ structures c1 = Some l /\ object c1 (Steps k) = Some o).
    { destruct g as [[s|l'|]|]; cbn [set_optional set_structures] in *; try discriminate; eexists; (split; [reflexivity|]); cbn; split; congruence. }
    destruct E as (c1 & E1 & E2 & E3). destruct l as [|x l]; [contradiction|].
    assert (HE' : exec (make (Steps k) a (Some x)) (record_of w) = (m', Err e)) by (destruct k; try exact HE; congruence).
    destruct k; try congruence; cbn [init]; unfold create; rewrite E1; unfold first_structure; rewrite E2, HE'; cbn.
    - rewrite Nat.eqb_refl. repeat split; assumption.
    - destruct NV as [NV|NV]; [|congruence]. destruct e; cbn; try congruence; rewrite Nat.eqb_refl; repeat split; assumption.
    - rewrite Nat.eqb_refl. repeat split; assumption.
  Qed.
  (** The unit cell is the structure that was first at the last call that makes something, whether or not it could be made;
      geometry, formation energies, evaluations and runs leave it. *)
  Definition sets_cell (o : op) : option (option (given St)) := match o with Compute _ _ _ _ g | Init _ _ Phonon _ g | Init _ _ FC _ g => Some g | _ => None end.
  Lemma perform_cell k a o m c : unitcell (snd (fst (perform St V Arg Ob Res eval work k a o (m, c)))) = unitcell c /\ structures (snd (fst (perform St V Arg Ob Res eval work k a o (m, c)))) = structures c.
  Proof using. unfold perform. destruct (exec _ m) as [m' [x|e]]; split; reflexivity. Qed.
  Lemma set_optional_cell g c c1 : set_optional St Ob Res g c = Ok c1 -> unitcell c1 = unitcell c.
  Proof using. destruct g as [[s|l|]|]; cbn; intros Q; try discriminate; match type of Q with Ok ?a = _ => assert (c1 = a) by congruence end; subst; reflexivity. Qed.
  Theorem C87_unitcell m c o : let c' := snd (fst (step1 (m, c) o)) in
    match sets_cell o with
    | None => unitcell c' = unitcell c
    | Some g => match (match g with Some (One _ s) => Some [s] | Some (Many _ l) => Some l | Some (Other _) => None | None => structures c end) with
                | Some (x :: l) => unitcell c' = Some x /\ structures c' = Some (x :: l)
                | Some [] => unitcell c' = unitcell c /\ structures c' = Some []
                | None => structures c' = structures c
                end
    end.
  Proof.
    assert (CR : forall k a g m c, let '((m', c'), r) := create St V Arg Ob Res eval make k a true g (m, c) in
      match (match g with Some (One _ s) => Some [s] | Some (Many _ l) => Some l | Some (Other _) => None | None => structures c end) with
                | Some (x :: l) => unitcell c' = Some x /\ structures c' = Some (x :: l)
                | Some [] => unitcell c' = unitcell c /\ structures c' = Some []
                | None => structures c' = structures c
                end).
    { clear. intros k a g m c. unfold create. destruct g as [[s|[|x l]|]|]; cbn; try (now split).
      - destruct (exec (make k a (Some s)) m) as [m' [ob|e]]; now split.
      - destruct (exec (make k a (Some x)) m) as [m' [ob|e]]; now split.
      - unfold first_structure. destruct (structures c) as [[|x l]|] eqn:E; cbn.
        + now split.
        + destruct (exec (make k a (Some x)) m) as [m' [ob|e]]; now split.
        + destruct (exec (make k a None) m) as [m' [ob|e]]; exact E. }
    destruct o as [g|r|g|k0 a g|k0 a g|k0 a g]; cbn [Calc.step1 fst snd sets_cell].
    - destruct (set_structures St Ob Res g c) as [c1|] eqn:E; [|reflexivity]. now apply (set_optional_cell (Some g) c c1).
    - destruct r; reflexivity.
    - unfold eval_calc. destruct (set_optional St Ob Res g c) as [c1|] eqn:E; [|reflexivity]. destruct (structures c1) as [l|]; [destruct (ask St V eval l m)|]; now apply (set_optional_cell g c c1).
    - unfold compute. specialize (CR (Once k0) a g m c). destruct (create _ _ _ _ _ _ _ (Once k0) a true g (m, c)) as [[m1 c1] [ob|e]]; [|exact CR]. destruct (perform_cell (Once k0) a ob m1 c1) as [-> ->]. exact CR.
    - unfold init. destruct k0; cbn [sets_cell].
      + specialize (CR (Steps Phonon) a g m c). destruct (create _ _ _ _ _ _ _ (Steps Phonon) a true g (m, c)) as [[m1 c1] r]. exact CR.
      + clear CR. unfold create. destruct (set_optional St Ob Res g c) as [c1|e] eqn:E; [|destruct e; reflexivity]. pose proof (set_optional_cell g c c1 E) as U. destruct (first_structure St Ob Res c1) as [u|e]; [|destruct e; exact U].
        destruct (exec (make (Steps Geometry) a u) m) as [m' [ob|e]]; [exact U|destruct e; exact U].
      + specialize (CR (Steps FC) a g m c). destruct (create _ _ _ _ _ _ _ (Steps FC) a true g (m, c)) as [[m1 c1] r]. exact CR.
      + destruct (exec (make (Steps Formation) a None) m) as [m' [ob|e]]; reflexivity.
    - unfold run. cbn [fst snd]. destruct (object c (Steps k0)) as [[ob old]|]; [|destruct k0; reflexivity]. destruct k0.
      + apply perform_cell.
      + destruct (perform_cell (Steps Geometry) a ob m c) as [U _]. destruct (perform _ _ _ _ _ _ _ (Steps Geometry) a ob (m, c)) as [[m1 c1] [[| |x]|e]]; exact U.
      + apply perform_cell.
      + destruct (set_optional St Ob Res g c) as [c1|] eqn:E; [|reflexivity]. destruct (perform_cell (Steps Formation) a ob m c1) as [-> _]. now apply (set_optional_cell g c c1).
  Qed.
  (** Another object's structures, unit cell and results are left alone. *)
  Theorem C87_others w i o j : j <> i -> calc_of (fst (step w i o)) j = calc_of w j.
  Proof. intros H. rewrite step_calc. now rewrite (proj2 (Nat.eqb_neq j i) H). Qed.
End C87.

(** *** Which calculator is made *)
Section Choose.
  Variables (Pot Params Coeffs Props : Type).
  Notation initialize := (initialize Pot Params Coeffs Props).
  Theorem C87_choose pot params coeffs none :
    (forall p, initialize pot params coeffs (Some p) none = Ok (Given _ _ _ _ p)) /\
    initialize None None None None none = (if none then Ok (Missing _ _ _ _) else Err RuntimeError) /\
    (forall p, params <> None -> coeffs = None -> initialize p params coeffs None none = Err RuntimeError) /\
    (forall p, params = None -> initialize (Some (Single_pot _ p)) params coeffs None none = Ok (From_pot _ _ _ _ p)) /\
    (forall l, params = None -> (2 <= length l) -> initialize (Some (Several_pots _ l)) params coeffs None none = Ok (From_pots _ _ _ _ l)) /\
    (forall p, params = None -> initialize (Some (Several_pots _ [p])) params coeffs None none = Ok (From_pot _ _ _ _ p)) /\
    (forall p c, initialize None (Some [p]) (Some [c]) None none = Ok (From_params1 _ _ _ _ p c)) /\
    (forall ps cs, 2 <= length ps -> initialize None (Some ps) (Some cs) None none = if length ps =? length cs then Ok (From_params_hybrid _ _ _ _ ps cs) else Err RuntimeError).
  Proof.
    split; [intros p; destruct pot, params, coeffs; reflexivity|]. split; [reflexivity|].
    split; [intros p H ->; destruct params; [destruct p; reflexivity|congruence]|].
    split; [intros p ->; destruct coeffs; reflexivity|].
    split. { intros l -> H. destruct l as [|a [|b l]]; [cbn in H; lia|cbn in H; lia|]. destruct coeffs; reflexivity. }
    split; [intros p ->; destruct coeffs; reflexivity|]. split; [reflexivity|].
    intros ps cs H. destruct ps as [|a [|b ps]]; [cbn in H; lia|cbn in H; lia|]. unfold Calc.initialize, properties_init. change (1 <? length (a :: b :: ps)) with true. change (length (a :: b :: ps) =? 1) with false. cbn [andb].
    destruct (length (a :: b :: ps) =? length cs); reflexivity.
  Qed.
  (** Coefficients alone, or an empty list of files, end in an error of python. *)
  Theorem C87_choose_errors c none : initialize None None (Some c) None none = Err TypeError /\ initialize (Some (Several_pots _ [])) None None None none = Err IndexError.
  Proof. split; reflexivity. Qed.
End Choose.

(** *** Examples: structures are numbers, values are their squares; an equation of state evaluates the double and the triple of the cell;
    a geometry optimization evaluates the cell and half of it and ends with the cell itself. *)
Definition eval0 (l : list nat) : res (list nat) := if existsb (Nat.eqb 7) l then Err RuntimeError else Ok (map (fun x => x * x) l).
Definition make0 (k : kind) (_ : unit) (u : option nat) : prog nat nat nat :=
  match u with Some 9 => Ret _ _ _ (Err ValueError) | Some 8 => Ret _ _ _ (Err KeyError) | Some x => Ret _ _ _ (Ok x) | None => Ret _ _ _ (Err AttributeError) end.
Definition work0 (k : kind) (_ : unit) (o : nat) (_ : option (list nat)) : prog nat nat nat :=
  match k with
  | Steps Geometry => Ask _ _ _ [o] (fun r => Ask _ _ _ [Nat.div2 o] (fun _ => Ret _ _ _ (do _ <- r; Ok o)))
  | _ => Ask _ _ _ [2 * o; 3 * o] (fun r => Ret _ _ _ (do vs <- r; Ok (nth 1 vs 0)))
  end.
Notation hist0 := (history nat nat unit nat nat eval0 (fun x => x) make0 0 work0).
Definition seen (w : shared nat nat nat nat) i := (w_record _ _ _ _ w, k_structures _ _ _ (w_calc _ _ _ _ w i), k_unitcell _ _ _ (w_calc _ _ _ _ w i)).
Example ex_eos : let w := hist0 [(0, Compute _ _ EOS tt (Some (One _ 5)))] in
  seen w 0 = (Some ([10; 15], [100; 225]), Some [5], Some 5) /\ result _ _ _ _ w 0 (Once EOS) = Some 225.
Proof. split; reflexivity. Qed.
Example ex_stale : let w := hist0 [(0, Init _ _ Phonon tt (Some (One _ 5))); (0, Init _ _ Phonon tt (Some (One _ 8))); (0, Run _ _ Phonon tt None)] in
  k_structures _ _ _ (w_calc _ _ _ _ w 0) = Some [8] /\ result _ _ _ _ w 0 (Steps Phonon) = Some 225.
Proof. split; reflexivity. Qed.
Example ex_no_freedom : let w := hist0 [(0, Init _ _ Geometry tt (Some (One _ 9)))] in snd (step nat nat unit nat nat eval0 (fun x => x) make0 0 work0 w 0 (Run _ _ Geometry tt None)) = Ok (Nothing _ _).
Proof. reflexivity. Qed.
(** The values shown need not be those of the structures held, *)
Theorem C87_mismatch_refuted : ~ forall ops i sts vs, w_record _ _ _ _ (hist0 ops) = Some (sts, vs) -> k_structures _ _ _ (w_calc _ _ _ _ (hist0 ops) i) = Some sts.
Proof. intros H. specialize (H [(0, Eval _ _ (Some (One _ 5))); (0, Set_ _ _ (One _ 6))] 0 [5] [25] eq_refl). discriminate. Qed.
(** not even after an optimization, *)
Theorem C87_optimized_refuted : ~ forall ops a g x, let q := step nat nat unit nat nat eval0 (fun x => x) make0 0 work0 (hist0 ops) 0 (Run _ _ Geometry a g) in
  snd q = Ok (Result _ _ x) -> exists vs, w_record _ _ _ _ (fst q) = Some ([x], vs).
Proof. intros H. specialize (H [(0, Init _ _ Geometry tt (Some (One _ 4)))] tt None 4 eq_refl). destruct H as [vs H]. discriminate. Qed.
(** nor those of an evaluation of one's own; *)
Theorem C87_shared_refuted : ~ forall before i g after, Forall (fun q => fst q <> i) after ->
  w_record _ _ _ _ (hist0 (before ++ (i, Eval _ _ g) :: after)) = w_record _ _ _ _ (hist0 (before ++ [(i, Eval _ _ g)])).
Proof. intros H. specialize (H [] 0 (Some (One _ 5)) [(1, Eval _ _ (Some (One _ 6)))] ltac:(constructor; [discriminate|constructor])). discriminate. Qed.
(** and the unit cell need not be that of the calculation run last. *)
Theorem C87_unitcell_refuted : ~ forall ops ob r, k_object _ _ _ (w_calc _ _ _ _ (hist0 ops) 0) (Steps Phonon) = Some (ob, r) -> k_unitcell _ _ _ (w_calc _ _ _ _ (hist0 ops) 0) = Some ob.
Proof. intros H. specialize (H [(0, Init _ _ Phonon tt (Some (One _ 5))); (0, Compute _ _ EOS tt (Some (One _ 6))); (0, Run _ _ Phonon tt None)] 5 (Some 225) eq_refl). discriminate. Qed.

Print Assumptions C87_values.
Print Assumptions C87_eval.
Print Assumptions C87_eval_refused.
Print Assumptions C87_step.
Print Assumptions C87_origin.
Print Assumptions C87_uninitialised.
Print Assumptions C87_no_freedom.
Print Assumptions C87_optimized.
Print Assumptions C87_stale_refuted.
Print Assumptions C87_unitcell.
Print Assumptions C87_others.
Print Assumptions C87_choose.
Print Assumptions C87_choose_errors.
Print Assumptions C87_mismatch_refuted.
Print Assumptions C87_optimized_refuted.
Print Assumptions C87_shared_refuted.
Print Assumptions C87_unitcell_refuted.
