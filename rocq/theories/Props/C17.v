(** C17: the conjugate index of an order-parameter key is its mirror. *)
From Verif Require Import Base Model.Cxx Model.Mapping Proofs.Mapping.
From Coq Require Zquot.

(** Global numbering: the entry [a] with number [g] stores the number [g'] of an existing entry [a']
    with the same radial function, type pair and l, opposite m, and whose own conjugate is [g]. *)
Theorem C17_conjugate (n_fn maxl : nat) (tpn : list (list nat)) (g : nat) (a : nlmtpAttr) :
  nth_error (nlmtp_attrs n_fn maxl tpn) g = Some a ->
  exists g' a', Z.of_nat g' = a_gcj a /\ nth_error (nlmtp_attrs n_fn maxl tpn) g' = Some a' /\
    a_n a' = a_n a /\ a_tp a' = a_tp a /\ a_n_id a' = a_n_id a /\
    lm_l (a_lm a') = lm_l (a_lm a) /\ lm_m (a_lm a') = (- lm_m (a_lm a))%Z /\
    a_gcj a' = Z.of_nat g /\ a_gid a = g /\
    a_lm a = lm_attr (lm_l (a_lm a)) (lm_m (a_lm a)) /\
    (Z.abs (lm_m (a_lm a)) <= Z.of_nat (lm_l (a_lm a)))%Z /\
    (lm_m (a_lm a) = 0%Z -> g' = g).
Proof. exact (conj_index n_fn maxl tpn g a). Qed.
Print Assumptions C17_conjugate.

(** Numbering inside the list of one atom type: the stored local conjugate id has the same property,
    and the list of the keys with m <= 0 is numbered by position. *)
Theorem C17_local_conjugate (nt n_fn maxl : nat) (cond : nat -> nat -> list nat) (t h : nat) (a : nlmtpAttr) :
  let M := mapping_gtinv nt n_fn maxl cond in
  t < nt -> nth_error (nth t (gm_loc M) []) h = Some a ->
  a_il a = h /\
  exists a', nth_error (nth t (gm_loc M) []) (a_icj a) = Some a' /\ a_icj a' = h /\
    a_n a' = a_n a /\ a_tp a' = a_tp a /\ lm_l (a_lm a') = lm_l (a_lm a) /\
    lm_m (a_lm a') = (- lm_m (a_lm a))%Z /\ Z.of_nat (a_gid a') = a_gcj a /\
    (lm_m (a_lm a) = 0%Z -> a_icj a = h).
Proof. exact (local_conjugate nt n_fn maxl cond t h a). Qed.
Print Assumptions C17_local_conjugate.

Theorem C17_noconj (nt n_fn maxl : nat) (cond : nat -> nat -> list nat) (t : nat) :
  let M := mapping_gtinv nt n_fn maxl cond in
  t < nt ->
  nth t (gm_nc M) [] = filter (fun a => (lm_m (a_lm a) <=? 0)%Z) (nth t (gm_loc M) []) /\
  forall k a, nth_error (nth t (gm_nc M) []) k = Some a -> a_inc a = k.
Proof. exact (local_noconj nt n_fn maxl cond t). Qed.
Print Assumptions C17_noconj.

(** Entry of the harmonics array and signs stored with each (l, m): the array holds Y_{l,-|m|} at l (l + 1) / 2 + l - |m|;
    conjugates are the keys with m > 0. *)
Theorem C17_lm (l : nat) (m : Z) :
  (Z.abs m <= Z.of_nat l)%Z ->
  let a := lm_attr l m in
  lm_l a = l /\ lm_m a = m /\ lm_key a = l * (l + 1) / 2 + l - Z.to_nat (Z.abs m) /\
  (lm_conj a = true <-> (0 < m)%Z) /\ lm_cc a = (if Z.even m then 1 else -1)%Z /\ lm_sign a = (if Nat.even l then 1 else -1)%Z.
Proof.
  intros H a. assert (K : ((Z.of_nat l + 3) * Z.of_nat l / 2 = Z.of_nat (l * (l + 1) / 2 + l))%Z).
  { rewrite Nat2Z.inj_add, (Nat2Z.inj_div (l * (l + 1)) 2). replace ((Z.of_nat l + 3) * Z.of_nat l)%Z with (Z.of_nat (l * (l + 1)) + Z.of_nat l * 2)%Z by lia.
    now rewrite Z.div_add by lia. }
  unfold a, lm_attr. cbn [lm_l lm_m lm_key lm_conj lm_cc lm_sign]. rewrite K. repeat split.
  - destruct (m <? 1)%Z eqn:E; lia.
  - destruct (Z.ltb_spec m 1); cbn; [discriminate|lia].
  - intros Hm. destruct (Z.ltb_spec m 1); cbn; [lia|reflexivity].
  - now rewrite Zquot.Zeven_rem.
  - replace (l mod 2 =? 0) with (Nat.even l); [reflexivity|]. destruct (Nat.even l) eqn:E.
    + apply Nat.even_spec in E. destruct E as [k ->]. symmetry. apply Nat.eqb_eq. rewrite Nat.mul_comm. now apply Nat.mod_mul.
    + symmetry. apply Nat.eqb_neq. intros E'. apply Nat.mod_divides in E'; [|lia]. destruct E' as [k ->]. assert (Nat.even (2 * k) = true) by (apply Nat.even_spec; now exists k). congruence.
Qed.
Print Assumptions C17_lm.

(** Two radial functions, the second one only for type pairs 1 and 2; two types. *)
Example C17_example :
  let cond i j := if (i =? 0) && (j =? 0) then [0] else [0; 1] in
  let A := nlmtp_attrs 2 1 (tp_to_n 2 cond) in
  length A = 20 /\
  map (fun a => (a_n a, lm_l (a_lm a), lm_m (a_lm a), a_tp a, a_gcj a)) (firstn 2 (skipn 14 A))
  = [(1, 1, (-1)%Z, 1, 18%Z); (1, 1, (-1)%Z, 2, 19%Z)] /\
  option_map (fun a => (a_n a, lm_l (a_lm a), lm_m (a_lm a), a_tp a, a_gcj a)) (nth_error A 18)
  = Some (1, 1, 1%Z, 1, 14%Z).
Proof. vm_compute. auto. Qed.
