(** C74: the free energy, energy and entropy read from a thermodynamic integration. *)
From Verif Require Import Base Num NumR Model.Fit Model.TI Spec.Fit Spec.TI Proofs.Gauss Proofs.TI.
From Coq Require Import QArith Qcanon Reals Lra.
From Coq Require String.
Import String.StringSyntax.
Local Open Scope string_scope.
Local Open Scope list_scope.
Local Open Scope nat_scope.

Section C74.
  Variables (simpson : list (R * R) -> R) (posv : mat R -> vec R -> option (vec R)) (huge : R).
  Notation load := (load_ti simpson posv huge).

  (** A complete file gives nothing if its energy is below -100, if more than a fifth of the records are
      left out, or all of the last three; else it gives the results from the records that are kept. *)
  Theorem C74_load f n T V e log : sound_solver 2 posv -> complete f n T V e log ->
    exists bs, left_out (5 / 100) (map s_disp log) bs /\
      ((e < -100)%R \/ too_many bs -> load f = Ok None) /\
      (~ (e < -100)%R -> ~ too_many bs -> exists r rx, load f = Ok (Some (r, rx)) /\ results simpson n T V (kept log bs) r rx).
  Proof. intros Hp. apply load_spec, Hp. Qed.

  (** There is only one way of leaving records out, the first record is always kept, and there is only
      one extrapolated value. *)
  Theorem C74_unique :
    (forall ds bs bs', ds <> [] -> left_out (5 / 100) ds bs -> left_out (5 / 100) ds bs' -> bs = bs') /\
    (forall ds bs, left_out (5 / 100) ds bs -> forall b, nth_error bs 0 = Some b -> b = false) /\
    (forall pts v v', extrapolates pts v -> extrapolates pts v' -> v = v').
  Proof.
    split; [|split].
    - apply left_out_unique.
    - intros ds bs. apply left_out_first. lra.
    - apply extrapolates_unique.
  Qed.

  (** A supercell with k times as many atoms gives the same results per atom, as long as the energies with
      which failures are detected are the same. *)
  Theorem C74_replicated f f' (k n : nat) T V e log : sound_solver 2 posv -> k <> 0 ->
    (forall c data, simpson (map (fun q : R * R => (fst q, c * snd q)%R) data) = (c * simpson data)%R) ->
    complete f n T V e log -> complete f' (k * n) T (INR k * V) e (map (times (INR k)) log) ->
    load f = Ok None /\ load f' = Ok None \/
    exists r rx r' rx', load f = Ok (Some (r, rx)) /\ load f' = Ok (Some (r', rx')) /\ same_numbers r r' /\ same_numbers rx rx'.
  Proof. intros Hp. apply load_times, Hp. Qed.

  (** Files that are not complete *)
  Theorem C74_refused (f : file R) :
    (y_natom f = None \/ y_temp f = None \/ y_volume f = None -> load f = Err KeyError) /\
    (forall T V n, y_natom f = Some n -> y_temp f = Some T -> y_volume f = Some V ->
       (n = 0 -> load f = Err ZeroDivisionError) /\
       (n <> 0 -> y_props f = None -> load f = Err KeyError) /\
       (forall b, n <> 0 -> y_props f = Some (None, b) -> y_sampling f = None -> load f = Err RuntimeError) /\
       (n <> 0 -> y_props f = Some (Some [], None) -> load f = Err IndexError)).
  Proof.
    split.
    - unfold load_ti. intros [H|[H|H]]; rewrite H; cbn [key bind]; [reflexivity| |].
      + destruct (y_natom f); reflexivity.
      + destruct (y_natom f); [|reflexivity]. cbn [key bind]. destruct (y_temp f); reflexivity.
    - intros T V n H1 H2 H3. unfold load_ti. rewrite H1, H2, H3. cbn [key bind]. repeat split.
      + intros ->. reflexivity.
      + intros Hn ->. replace (n =? 0) with false by (symmetry; now apply Nat.eqb_neq). reflexivity.
      + intros b Hn -> ->. replace (n =? 0) with false by (symmetry; now apply Nat.eqb_neq). reflexivity.
      + intros Hn ->. replace (n =? 0) with false by (symmetry; now apply Nat.eqb_neq). reflexivity.
  Qed.

  (** Many files: the results of those that can be loaded, in their order. *)
  Theorem C74_files fs : let '(a, b) := load_ti_files simpson posv huge fs in
    exists rs, a = map fst rs /\ b = map snd rs /\ length a = length b /\
      map (fun r => Ok (Some r)) rs = filter (fun x => match x with Ok (Some _) => true | _ => false end) (map load fs).
  Proof.
    unfold load_ti_files. eexists. split; [reflexivity|]. split; [reflexivity|]. split; [now rewrite !map_length|].
    induction fs as [|f fs IH]; [reflexivity|]. cbn [flat_map map filter].
    destruct (load f) as [[r|]|]; cbn [app map]; [f_equal|..]; exact IH.
  Qed.

  (** The trapezoid rule is exact for straight lines; the only other rule is Simpson's. *)
  Theorem C74_rules :
    (forall a b q0 data, on_line a b (q0 :: data) -> integrate simpson (q0 :: data) "trapezoid" =
       Ok (a * (fst (last data q0) - fst q0) + b * (fst (last data q0) ^ 2 - fst q0 ^ 2) / 2)%R) /\
    (forall data, integrate simpson data "simpson" = Ok (simpson data)) /\
    (forall data m, m <> "trapezoid" -> m <> "simpson" -> integrate simpson data m = Err RuntimeError).
  Proof.
    split; [|split].
    - intros a b q0 data H. unfold integrate. cbn [String.eqb Ascii.eqb Bool.eqb]. now rewrite (trapezoid_line a b data q0 H).
    - reflexivity.
    - intros data m H1 H2. unfold integrate. apply String.eqb_neq in H1. apply String.eqb_neq in H2. now rewrite H1, H2.
  Qed.
End C74.
Print Assumptions C74_load.
Print Assumptions C74_unique.
Print Assumptions C74_replicated.
Print Assumptions C74_refused.
Print Assumptions C74_files.
Print Assumptions C74_rules.

(** ** The solver exists *)
Section Solver.
  Local Open Scope R_scope.
  Definition cramer (m : mat R) (v : vec R) : option (vec R) :=
    let det := m 0%nat 0%nat * m 1%nat 1%nat - m 0%nat 1%nat * m 1%nat 0%nat in
    if Req_EM_T det 0 then None else
    Some (fun i => if (i =? 0)%nat then (v 0%nat * m 1%nat 1%nat - v 1%nat * m 0%nat 1%nat) / det
                   else (m 0%nat 0%nat * v 1%nat - m 1%nat 0%nat * v 0%nat) / det).
  Lemma cramer_sound : sound_solver 2 cramer.
  Proof.
    constructor.
    - intros m m' v v' Hm Hv. unfold cramer. rewrite !Hm, !Hv by lia. destruct (Req_EM_T _ _); [exact I|reflexivity].
    - intros m v c. unfold cramer. destruct (Req_EM_T _ _) as [|D]; [discriminate|]. intros H. injection H as <-.
      intros i Hi. unfold sumn. cbn [seq nsumf map nsum fold_right nadd n0 R_num Nat.eqb].
      assert (i = 0 \/ i = 1)%nat as [->| ->] by lia; cbn; field; exact D.
    - intros m v H. unfold cramer. destruct (Req_EM_T _ _) as [D|]; [|discriminate]. exfalso.
      destruct (Req_EM_T (m 1%nat 1%nat) 0) as [Z|Z].
      + specialize (H (fun i => if (i =? 1)%nat then 1 else 0)). unfold sumn in H. cbn in H. rewrite Z in H.
        assert (K : 0 < 0 + (0 * (0 + (m 0%nat 0%nat * 0 + (m 0%nat 1%nat * 1 + 0))) + (1 * (m 1%nat 0%nat * 0 + (0 * 1 + 0)) + 0))); [|lra].
        eapply Rlt_le_trans; [apply H; exists 1%nat; cbn; split; [lia|lra]|]. lra.
      + specialize (H (fun i => if (i =? 0)%nat then m 1%nat 1%nat else - m 1%nat 0%nat)). unfold sumn in H. cbn in H.
        assert (K : 0 < m 1%nat 1%nat * (m 0%nat 0%nat * m 1%nat 1%nat - m 0%nat 1%nat * m 1%nat 0%nat)); [|rewrite D in K; lra].
        eapply Rlt_le_trans; [apply H; exists 0%nat; cbn; split; [lia|exact Z]|]. lra.
  Qed.
End Solver.

(** ** The energy in the file is that of the supercell, but failures are meant per atom *)
Section Supercell.
  Local Open Scope R_scope.
  Definition log1 : list sample := [mk_sample 0 0 0 1; mk_sample (1/2) 1 (-60) 1; mk_sample 1 2 (-60) 1].
  Definition file_of (n : nat) (V e : R) (log : list sample) : file R :=
    mk_file (Some n) (Some 300) (Some V) (Some (None, Some e)) (Some (map written log)).
  Lemma file_complete n V e log : n <> 0%nat -> log <> [] -> complete (file_of n V e log) n 300 V e log.
  Proof. intros Hn Hl. constructor; try reflexivity; auto. exists None, (Some e). split; [reflexivity|]. split; [right; split; reflexivity|left; reflexivity]. Qed.
  (** Every number of the second file is that of the same system with twice as many atoms, and it is dropped. *)
  Theorem C74_supercell_refuted simpson : exists n V e log,
    complete (file_of n V e log) n 300 V e log /\ e = last_energy log - first_energy log /\
    complete (file_of (2 * n) (2 * V) (2 * e) (map (times 2) log)) (2 * n) 300 (2 * V) (2 * e) (map (times 2) log) /\
    (exists r, load_ti simpson cramer 0 (file_of n V e log) = Ok (Some r)) /\
    load_ti simpson cramer 0 (file_of (2 * n) (2 * V) (2 * e) (map (times 2) log)) = Ok None.
  Proof.
    assert (C1 : complete (file_of 1 10 (-60) log1) 1 300 10 (-60) log1) by (apply file_complete; [lia|discriminate]).
    assert (C2 : complete (file_of (2 * 1) (2 * 10) (2 * -60) (map (times 2) log1)) (2 * 1) 300 (2 * 10) (2 * -60) (map (times 2) log1))
      by (apply file_complete; [lia|discriminate]).
    exists 1%nat, 10, (-60), log1. split; [exact C1|]. split; [unfold last_energy, log1; cbn; lra|]. split; [exact C2|].
    split.
    - destruct (C74_load simpson cramer 0 _ _ _ _ _ _ cramer_sound C1) as (bs & L & _ & S).
      assert (E : bs = [false; false; false]).
      { apply (left_out_unique (5 / 100) (map s_disp log1)); [discriminate|exact L|]. split; [reflexivity|].
        intros d0 Hd. cbn in Hd. injection Hd as <-. split; [intros _ b [<-|[<-|[<-|[]]]]; reflexivity|]. intros _.
        exists [false; false; false]. split.
        - split; [reflexivity|]. split; [cbn; congruence|]. intros [|[|[|i]]] d j Hi Hd Hj; try lia; cbn in Hd, Hj.
          + injection Hd as <-. injection Hj as <-. exists 0%nat, 1. split; [lia|]. split; [reflexivity|]. split; [reflexivity|].
            split; [intros; lia|]. split; [discriminate|]. rewrite Rminus_diag_eq, Rabs_R0 by reflexivity. lra.
          + injection Hd as <-. injection Hj as <-. exists 1%nat, 1. split; [lia|]. split; [reflexivity|]. split; [reflexivity|].
            split; [intros; lia|]. split; [discriminate|]. rewrite Rminus_diag_eq, Rabs_R0 by reflexivity. lra.
          + destruct i; discriminate.
        - intros [|[|[|i]]] d b Hd Hb; cbn in Hd, Hb; try (injection Hd as <-; injection Hb as <-; cbn; split; [discriminate|]; intros [H|H]; [lra|discriminate]).
          destruct i; discriminate. }
      subst bs. destruct S as (r & rx & E & _); [lra| |eauto].
      intros [H|H]; [cbn in H; lra|]. specialize (H 0%nat ltac:(cbn; lia) ltac:(cbn; lia)). discriminate.
    - destruct (C74_load simpson cramer 0 _ _ _ _ _ _ cramer_sound C2) as (bs & _ & N & _). apply N. left. lra.
  Qed.
End Supercell.
Print Assumptions C74_supercell_refuted.

(** ** Examples, computed *)
Section Examples.
  Local Open Scope Qc_scope.
  Definition q (a : Z) (b : positive) : Qc := Q2Qc (a # b).
  Definition zb (x : Qc) : bool := if Qc_eq_dec x (q 0 1) then true else false.
  Definition posv_q (m : mat Qc) (v : vec Qc) := gauss zb 2 m v.
  Definition ent (a d e x : Qc) : entry Qc := mk_entry (Some a) (Some d) (Some e) (Some x).
  Definition five : list (entry Qc) :=
    [ent (q 0 1) (q 1 1) (q 3 1) (q 1 10); ent (q 1 4) (q 2 1) (q 4 1) (q 1 10); ent (q 1 2) (q 3 1) (q 5 1) (q 9 10);
     ent (q 3 4) (q 4 1) (q 6 1) (q 1 8); ent (q 1 1) (q 5 1) (q 7 1) (q 1 8)].
  Definition file5 (log : list (entry Qc)) : file Qc :=
    mk_file (Some 2%nat) (Some (q 100 1)) (Some (q 30 1)) (Some (None, None)) (Some log).
  Definition numbers (r : res (option (data_ti Qc * data_ti Qc))) :=
    match r with
    | Ok (Some (a, b)) => Ok (Some (map this [t_volume a; t_temp a; t_free a; t_energy a; t_entropy a], length (t_log a), length (t_log b)))
    | Ok None => Ok None
    | Err e => Err e
    end.
  (** The third record is left out, being more than twice as far as the first one. *)
  Example C74_ex_load : numbers (load_ti (trapezoid (F:=Qc)) posv_q (q 0 1) (file5 five)) =
    Ok (Some ([15 # 1; 100 # 1; 3 # 2; 2 # 1; 1 # 200]%Q, 4%nat, 4%nat)).
  Proof. vm_compute. reflexivity. Qed.
  (** Two of five records are too many. *)
  Example C74_ex_melted : numbers (load_ti (trapezoid (F:=Qc)) posv_q (q 0 1) (file5 (firstn 3 five ++ [ent (q 3 4) (q 4 1) (q 6 1) (q 9 10)] ++ skipn 4 five))) = Ok None.
  Proof. vm_compute. reflexivity. Qed.
  (** After a jump the records are compared with the last one before it. *)
  Example C74_ex_jumps : check_melting (F:=Qc) (q 1 20) [q 50 100; q 52 100; q 58 100; q 57 100; q 59 100] = Ok [false; false; true; false; false].
  Proof. vm_compute. reflexivity. Qed.
  (** The penalty bends even a perfect line a little. *)
  Example C74_ex_penalty : match extrapolate_data posv_q (q 0 1) [(q 0 1, q 1 1); (q 1 2, q 2 1); (q 1 1, q 3 1)] with
    | Ok v => (Qle_bool (this v) 3, Qeq_bool (this v) 3, Qle_bool (3 - (1 # 1000000000)) (this v)) = (true, false, true)
    | Err _ => False end.
  Proof. vm_compute. reflexivity. Qed.
End Examples.
