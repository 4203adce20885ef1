(** C30: polynomial combinations enumerate every admissible multiset once. *)
From Verif Require Import Base Model.Mapping Model.ModelParams Spec.ModelParams Proofs.ModelParams.

Theorem C30_pair (nt maxp : nat) (ntp : list ntpAttr) :
  let M := model_params_pair nt 2 maxp ntp in
  let A := adm_pair nt ntp in
  let P := seq 0 (length ntp) in
  (length (mp_comb1 M) = nt /\ forall t, t < nt -> nth t (mp_comb1 M) [] = filter (A t) P) /\
  (if 1 <? maxp then combs_complete nt 2 A P (mp_comb2 M) (mp_ind2 M) else mp_comb2 M = []) /\
  (if 2 <? maxp then combs_complete nt 3 A P (mp_comb3 M) (mp_ind3 M) else mp_comb3 M = []).
Proof. exact (pair_combinations nt maxp ntp). Qed.
Print Assumptions C30_pair.

Theorem C30_gtinv (nt n_fn : nat) (cond : nat -> nat -> list nat) (l_comb : list (list nat)) (mt maxp : nat) :
  cond_ok n_fn cond -> l_comb_ok l_comb -> mt <= 4 ->
  let lts := linear_terms nt n_fn (tp_to_n nt cond) l_comb in
  let M := model_params_gtinv nt mt maxp lts in
  let A := adm_gtinv lts in
  let P := poly_indices mt lts in
  (length (mp_comb1 M) = nt /\ forall t, t < nt -> nth t (mp_comb1 M) [] = filter (A t) (seq 0 (length lts))) /\
  (if (1 <? mt) && (1 <? maxp) then combs_complete nt 2 A P (mp_comb2 M) (mp_ind2 M) else mp_comb2 M = []) /\
  (if (1 <? mt) && (2 <? maxp) then combs_complete nt 3 A P (mp_comb3 M) (mp_ind3 M) else mp_comb3 M = []).
Proof.
  exact (fun Hc Hl => gtinv_combinations nt mt maxp _ (linear_terms_types_ok nt n_fn cond l_comb Hc Hl)).
Qed.
Print Assumptions C30_gtinv.

(** Two types, one radial function, invariants l = 0 and l = (1, 1): the hypotheses hold and there are
    8 linear features, 27 of the 36 products being admissible. *)
Example C30_meets : cond_ok 1 (fun _ _ => [0]) /\ l_comb_ok [[0]; [1; 1]].
Proof.
  split.
  - intros i j. split; repeat constructor; auto.
  - intros lc [<-|[<-|[]]]; (split; [discriminate|split; [repeat constructor|cbn; lia]]).
Qed.
Example C30_value :
  let lts := linear_terms 2 1 (tp_to_n 2 (fun _ _ => [0])) [[0]; [1; 1]] in
  let M := model_params_gtinv 2 2 2 lts in
  length lts = 8 /\ length (mp_comb2 M) = 27 /\ firstn 4 (mp_comb2 M) = [[0; 0]; [0; 1]; [1; 1]; [1; 2]] /\
  map (@length nat) (mp_ind2 M) = [15; 15].
Proof. vm_compute. auto. Qed.
