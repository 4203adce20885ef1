(** C13: what the conjugate-gradient solver returns. *)
From Verif Require Import Base Num Model.Regress Model.CG Proofs.CG.
From Coq Require Import QArith Qcanon.
Local Open Scope nat_scope.
Local Open Scope num_scope.

Section C13.
  Context {F : Type} {N : Num F} {O : NumOrd F} {L : FieldLaws F} (p : nat) (big : F).

  (** Along the whole run the residual is b - (A + alpha) x of the current iterate, and the
      solver returns the last iterate (None if no residual ever was below the bound [big]). *)
  Theorem C13_last_iterate (sys : system F) (y : option (list F)) (b : vec F) (alpha : F) (coef0 : option (vec F)) (gtol : F) (max_iter : nat) :
    let c0 := match coef0 with Some c => c | None => fun _ => 0 end in
    let s0 := start p sys big alpha b c0 in
    exists n, (n <= max_iter)%nat /\ (max_iter <= 101 -> n = max_iter)%nat /\
      solver_cg p sys big y (Some b) alpha coef0 gtol max_iter
      = Ok (if existsb (fun m => nltb (c_norm (iterate p sys alpha m s0)) big) (seq 1 n)
            then Some (coef (iterate p sys alpha n s0)) else None) /\
      forall m i, c_res (iterate p sys alpha m s0) i = b i - eval_dot p sys alpha (coef (iterate p sys alpha m s0)) i.
  Proof. exact (solver_last p sys big y (Some b) alpha coef0 gtol max_iter b eq_refl). Qed.

  (** Working with X instead of X^T X is the same system. *)
  Theorem C13_same_system (x : list (vec F)) (alpha : F) (v : vec F) i :
    eval_dot p (Sys_x x) alpha v i = sumn p (fun j => nsumf (fun r => r i * r j) x * v j) + alpha * v i.
  Proof. exact (eval_dot_x p x alpha v i). Qed.

  (** Without X^T y, it is formed from the rows of X and y; one of them missing is an error. *)
  Theorem C13_right_side (x : list (vec F)) (ys : list F) (alpha : F) (coef0 : option (vec F)) (gtol : F) (max_iter : nat) :
    solver_cg p (Sys_x x) big (Some ys) None alpha coef0 gtol max_iter
    = solver_cg p (Sys_x x) big None (Some (fun i => nsumf (fun q => fst q i * snd q) (combine x ys))) alpha coef0 gtol max_iter.
  Proof.
    reflexivity.
  Qed.
  Theorem C13_no_right_side sys alpha (coef0 : option (vec F)) gtol max_iter : solver_cg p sys big None None alpha coef0 gtol max_iter = Err RuntimeError.
  Proof. reflexivity. Qed.

  (** *** Several penalties *)
  Notation solve sys b alpha c0 gtol k := (solver_cg p sys big None (Some b) alpha c0 gtol k).
  Lemma loop_nth sys b gtol k l : forall c0 cs, cg_loop p sys big None (Some b) gtol k l c0 = Ok cs ->
    length cs = length l /\ forall i a, nth_error l i = Some a ->
      exists c, nth_error cs i = Some c /\ solve sys b a (match i with 0%nat => c0 | S j => match nth_error cs j with Some c' => c' | None => None end end) gtol k = Ok c.
  Proof using.
    clear. induction l as [|a l IH]; intros c0 cs H; cbn [cg_loop] in H.
    - assert (cs = []) by congruence. subst. split; [reflexivity|]. intros [|i] a H1; discriminate.
    - destruct (solve sys b a c0 gtol k) as [c|] eqn:E1; [|discriminate]. cbn [bind] in H. destruct (cg_loop p sys big None (Some b) gtol k l c) as [ct|] eqn:E2; [|discriminate].
      cbn [bind] in H. assert (cs = c :: ct) by congruence. subst. destruct (IH _ _ E2) as [L1 L2]. split; [cbn; now rewrite L1|].
      intros [|i] a' H1; cbn [nth_error] in *.
      + assert (a' = a) by congruence. subst. now exists c.
      + destruct (L2 i a' H1) as [c' [H2 H3]]. exists c'. split; [exact H2|]. destruct i; exact H3.
  Qed.
  Lemma all_some_Ok {A} (l : list (option A)) r : all_some l = Ok r <-> l = map Some r.
  Proof using.
    clear. revert r. induction l as [|[a|] l IH]; intros r; cbn [all_some].
    - split; intros H; [assert (r = []) by congruence; now subst|]. destruct r; [reflexivity|discriminate].
    - destruct (all_some l) as [r'|]; cbn [bind].
      + assert (l = map Some r') by now apply IH. subst. split; intros H; [assert (r = a :: r') by congruence; now subst|]. destruct r as [|b r]; [discriminate|]. cbn in H.
        assert (map Some r' = map Some r) by congruence. assert (Ok r' = Ok r) by now apply IH. congruence.
      + split; [discriminate|]. intros H. destruct r as [|b r]; [discriminate|]. cbn in H. assert (Err e = Ok r) by (apply IH; congruence). discriminate.
    - split; [discriminate|]. destruct r; discriminate.
  Qed.
  Lemma all_some_None {A} (l : list (option A)) : In None l -> all_some l = Err RuntimeError.
  Proof using.
    clear. induction l as [|[a|] l IH]; intros H; [destruct H| |reflexivity]. destruct H as [H|H]; [discriminate|]. cbn [all_some]. now rewrite IH.
  Qed.

  (** The columns are in the order of the penalties; the last penalty is solved first, from zero, and
      every other one starts from the solution for the next penalty. *)
  Theorem C13_columns sys b gtol k alphas cols : fit_cg p sys big None (Some b) gtol k alphas = Ok cols ->
    length cols = length alphas /\
    forall i a, nth_error alphas i = Some a ->
      exists c, nth_error cols i = Some c /\ solve sys b a (nth_error cols (i + 1)) gtol k = Ok (Some c).
  Proof.
    unfold fit_cg. intros H. destruct (cg_loop p sys big None (Some b) gtol k (rev alphas) None) as [cs|] eqn:E1; [|discriminate]. cbn [bind] in H.
    destruct (all_some cs) as [l|] eqn:E2; [|discriminate]. cbn [bind] in H. assert (cols = rev l) by congruence. subst cols. clear H.
    apply all_some_Ok in E2. subst cs. destruct (loop_nth _ _ _ _ _ _ _ E1) as [L1 L2]. rewrite map_length, rev_length in L1. split; [now rewrite rev_length|].
    assert (RN : forall {A} (q : list A) i, (i < length q)%nat -> nth_error (rev q) i = nth_error q (length q - 1 - i)).
    { clear. intros A q i Hi. assert (Hl : (length q - 1 - i < length q)%nat) by lia.
      destruct (nth_error q (length q - 1 - i)) as [x|] eqn:E; [|apply nth_error_None in E; lia].
      rewrite (nth_error_nth' _ x) by (now rewrite rev_length). f_equal. rewrite rev_nth by exact Hi. replace (length q - S i)%nat with (length q - 1 - i)%nat by lia. now apply nth_error_nth. }
    intros i a Hi. assert (Li : (i < length alphas)%nat) by (apply nth_error_Some; congruence).
    destruct (L2 (length alphas - 1 - i)%nat a) as [c [H1 H2]].
    { rewrite RN by lia. replace (length alphas - 1 - (length alphas - 1 - i))%nat with i by lia. exact Hi. }
    rewrite nth_error_map in H1. destruct (nth_error l (length alphas - 1 - i)) as [v|] eqn:E; [|discriminate]. cbn in H1. assert (c = Some v) by congruence. subst c.
    exists v. split; [rewrite RN by lia; rewrite L1; exact E|]. rewrite <- H2. f_equal.
    destruct (length alphas - 1 - i)%nat as [|j] eqn:Ej.
    - apply nth_error_None. rewrite rev_length. lia.
    - rewrite RN by lia. rewrite L1. replace (length alphas - 1 - (i + 1))%nat with j by lia. rewrite nth_error_map.
      destruct (nth_error l j) eqn:E3; [reflexivity|apply nth_error_None in E3]. assert (S j < length l)%nat by (apply nth_error_Some; congruence). lia.
  Qed.
  (** A penalty without solution makes the fit fail. *)
  Theorem C13_no_solution sys b gtol k alphas alpha : solve sys b alpha None gtol k = Ok None -> fit_cg p sys big None (Some b) gtol k (alphas ++ [alpha]) = Err RuntimeError.
  Proof.
    intros H. unfold fit_cg. rewrite rev_app_distr. cbn [rev app cg_loop]. rewrite H. cbn [bind].
    assert (T : forall l c0, exists cs, cg_loop p sys big None (Some b) gtol k l c0 = Ok cs).
    { clear. induction l as [|a l IH]; intros c0; [now exists []|]. cbn [cg_loop]. unfold solver_cg at 1. cbn [bind]. destruct (IH (deref (loop p sys a gtol k 0 (start p sys big a b (match c0 with Some c => c | None => fun _ => 0 end))))) as [cs E]. rewrite E. eexists. reflexivity. }
    destruct (T (rev alphas) None) as [cs E]. rewrite E. cbn [bind]. rewrite all_some_None; [reflexivity|now left].
  Qed.
End C13.
Print Assumptions C13_right_side.
Print Assumptions C13_columns.
Print Assumptions C13_no_solution.
Print Assumptions C13_last_iterate.
Print Assumptions C13_same_system.

(** Counterexample to "returns the iterate with the smallest residual seen": A = diag(1, 3, 9),
    b = (12, 12, 1), two iterations.  The residuals have norms 136/15 and 64/7; the second
    one is larger and its iterate is returned. *)
Module Example.
  Definition z (n : Z) : Qc := Q2Qc (Qmake n 1).
  Definition A : system Qc := Sys_xtx (fun i j => if (i =? j)%nat then match i with 0%nat => z 0 | 1%nat => z 2 | _ => z 8 end else z 0).
  Definition b : vec Qc := fun i => match i with 0%nat => z 12 | 1%nat => z 12 | _ => z 1 end.
  Definition run k := solver_cg 3 A (z 10000000000) None (Some b) (z 1) None (Q2Qc (1 # 10000)) k.
  Definition res_norm (r : res (option (vec Qc))) : option Qc :=
    match r with Ok (Some c) => Some (norm 3 (eval_residual 3 A (z 1) b c)) | _ => None end.
  Theorem C13_smallest_residual_refuted :
    res_norm (run 1) = Some (Q2Qc (136 # 15)) /\ res_norm (run 2) = Some (Q2Qc (64 # 7)) /\
    nltb (Q2Qc (136 # 15)) (Q2Qc (64 # 7)) = true.
  Proof. repeat split; vm_compute; reflexivity. Qed.
End Example.
