(** Polynomial invariants: polyinv/polyinv_utils.py, api_polyinv.py and the C++ projector (polyinv/cxx/src/projector). The
    functions order3 .. order8 and those of the preconditioner are the same nest of loops written out for each order; here they
    are one function of the list of l. int is unbounded, gsl_sf_coupling_3j is the parameter [tj] (of l and m, not of their
    doubles). Loops over pairs of m under OpenMP give a list of single writes, which may be done in any order. *)
From Verif Require Import Base Num.
Local Open Scope Z_scope.

Definition zrange (a b : Z) : list Z := map (fun k => a + Z.of_nat k) (seq 0 (Z.to_nat (b - a + 1))).
Definition m_range (l : Z) : list Z := zrange (- l) l.
Fixpoint zsum (l : list Z) : Z := match l with [] => 0 | x :: t => x + zsum t end.
Fixpoint tuples (ls : list Z) : list (list Z) := match ls with [] => [[]] | l :: t => flat_map (fun m => map (cons m) (tuples t)) (m_range l) end.

(** *** precondition.cpp *)
(** [check_sum] (L15-20); the last m is [- zsum ms]. *)
Definition check_sum (ms : list Z) (lmax : Z) : bool := Z.abs (- zsum ms) <=? lmax.
(** [lm_to_matrix_index] (L233-263): index and multiplier, from the last to the first. *)
Definition lm_to_matrix_index (ls ms : list Z) : Z := fst (fold_right (fun '(l, m) '(index, mult) => (index + (m + l) * mult, mult * (2 * l + 1))) (0, 1) (combine ls ms)).
(** [order2] .. [order8] (L42-231): [row], and [map_m_to_index]; a missing key reads as zero. *)
Definition states (ls : list Z) : list (list Z) := filter (fun ms => check_sum ms (last ls 0)) (tuples (removelast ls)).
Definition row (ls : list Z) : list Z := map (fun ms => lm_to_matrix_index ls (ms ++ [- zsum ms])) (states ls).
Fixpoint find_pos (x : list Z) (l : list (list Z)) : option nat :=
  match l with [] => None | y :: t => if list_eq_dec Z.eq_dec x y then Some O else option_map S (find_pos x t) end.
Definition map_m (ls ms : list Z) : nat := match find_pos ms (states ls) with Some i => i | None => O end.

(** *** polyinv_utils.py *)
(** [lm_to_matrix_index] (L37-45) *)
Fixpoint py_index (ls ms : list Z) : Z := match ls, ms with l :: ls', m :: ms' => (l + m) * fold_right Z.mul 1 (map (fun l => 2 * l + 1) ls') + py_index ls' ms' | _, _ => 0 end.
(** [matrix_index_to_lm] (L48-55) *)
Definition matrix_index_to_lm (index : Z) (ls : list Z) : list (Z * Z) :=
  let digits := snd (fold_left (fun '(n, il) l => (n / (2 * l + 1), n mod (2 * l + 1) :: il)) (rev ls) (index, [])) in
  map (fun '(i, l) => (l, i - l)) (combine digits ls).
(** itertools.combinations_with_replacement(range(0, maxl + 1), order), the ones from a on. *)
Fixpoint combs (order : nat) (a maxl : Z) : list (list Z) :=
  match order with O => [[]] | S o => flat_map (fun l => map (cons l) (combs o l maxl)) (zrange a maxl) end.

Section Projector.
  Context {F : Type} {N : Num F} {O : NumOrd F}.
  Local Open Scope num_scope.
  Local Open Scope Z_scope.
  Variable tj : Z -> Z -> Z -> Z -> Z -> Z -> F.

  Definition sgn (k : Z) : F := if Z.even k then 1%F else (- (1))%F.
  Definition nz (k : Z) : F := nnat (Z.to_nat k).
  (** [clebsch_gordan] (L801-808) *)
  Definition cg (l1 l2 l m1 m2 m : Z) : F := (tj l1 l2 l m1 m2 (- m) * nsqrt (nz (2 * l + 1)) * sgn (l1 - l2 + m))%F.

  (** std::map and std::unordered_map: keys and values as they are written; a missing key reads as zero. *)
  Definition dict : Type := list (list Z * F).
  Definition dget (d : dict) (k : list Z) : F := match find (fun e => if list_eq_dec Z.eq_dec (fst e) k then true else false) (rev d) with Some e => snd e | None => 0%F end.

  (** Couplings (order4 L154-167, order5 L237-262, ..., order8 L564-613): first pair, intermediate, last. The states of the
      loops are the intermediate l and the sum of m. *)
  Definition level1 (l1 l2 : Z) : list (Z * Z * Z) :=
    flat_map (fun lq => flat_map (fun m1 => flat_map (fun m2 => if lq <? Z.abs (m1 + m2) then [] else [(lq, m1, m2)]) (m_range l2)) (zrange 0 l1)) (zrange (Z.abs (l1 - l2)) (l1 + l2)).
  Definition cleb_first (l1 l2 : Z) : dict := map (fun '(lq, m1, m2) => ([lq; m1; m2], cg l1 l2 lq m1 m2 (m1 + m2))) (level1 l1 l2).
  Definition level (l : Z) (st : list (Z * Z)) : list (Z * Z * Z * Z) :=
    flat_map (fun '(lqa, s) => flat_map (fun lqb => flat_map (fun m => if lqb <? Z.abs (s + m) then [] else [(lqa, s, lqb, m)]) (m_range l)) (zrange (Z.abs (l - lqa)) (l + lqa))) st.
  Definition cleb_inter (l : Z) (st : list (Z * Z)) : dict := map (fun '(lqa, s, lqb, m) => ([lqa; lqb; m; s], cg l lqa lqb m s (s + m))) (level l st).
  Definition level_next (l : Z) (st : list (Z * Z)) : list (Z * Z) := map (fun '(_, s, lqb, m) => (lqb, s + m)) (level l st).
  Definition cleb_last (l lf : Z) (st : list (Z * Z)) : dict :=
    flat_map (fun '(lq, s) => flat_map (fun m => if lf <? Z.abs (s + m) then [] else [([lq; m; s], cg l lq lf m s (s + m))]) (m_range l)) st.

  (** [set_inter_prod_first] (L699-719), [set_inter_prod] (L722-752), [set_final_prod] (L755-777): the list of intermediate l with products;
      s, s' are the sums before the last m. *)
  Definition prod_first (d : dict) (l1 l2 m1 m2 m1' m2' : Z) : list (Z * F) :=
    flat_map (fun lq => if (lq <? Z.abs (m1 + m2)) || (lq <? Z.abs (m1' + m2')) then [] else [(lq, dget d [lq; m1; m2] * dget d [lq; m1'; m2'])%F]) (zrange (Z.abs (l1 - l2)) (l1 + l2)).
  Definition prod_inter (d : dict) (l : Z) (prods : list (Z * F)) (s m s' m' : Z) : list (Z * F) :=
    flat_map (fun '(lq1, p) => flat_map (fun lq2 => if (lq2 <? Z.abs (s + m)) || (lq2 <? Z.abs (s' + m')) then [] else [(lq2, p * dget d [lq1; lq2; m; s] * dget d [lq1; lq2; m'; s'])%F]) (zrange (Z.abs (l - lq1)) (l + lq1))) prods.
  Definition prod_last (d : dict) (prods : list (Z * F)) (s m s' m' : Z) : F :=
    fold_left (fun num '(lq, p) => (num + p * dget d [lq; m; s] * dget d [lq; m'; s'])%F) prods 0%F.
  (** The loops over the m of the middle. *)
  Fixpoint products (mid : list Z) (ll lf : Z) (st : list (Z * Z)) (prods : list (Z * F)) (s s' : Z) (ms ms' : list Z) : F :=
    match mid, ms, ms' with
    | [], [m], [m'] => prod_last (cleb_last ll lf st) prods s m s' m'
    | l :: mid', m :: ms1, m' :: ms1' => products mid' ll lf (level_next l st) (prod_inter (cleb_inter l st) l prods s m s' m') (s + m) (s' + m') ms1 ms1'
    | _, _, _ => 0%F
    end.
  (** The number of one pair of states, before the factor of the last m (order3 L125-127, order4 L199-202, ...). *)
  Definition number (ls ms ms' : list Z) : F :=
    match ls, ms, ms' with
    | [l1; l2; l3], [m1; m2], [m1'; m2'] =>
        let d := flat_map (fun m1 => flat_map (fun m2 => if l3 <? Z.abs (m1 + m2) then [] else [([m1; m2], cg l1 l2 l3 m1 m2 (m1 + m2))]) (m_range l2)) (zrange 0 l1) in
        (dget d [m1; m2] * dget d [m1'; m2'])%F
    | l1 :: l2 :: rest, m1 :: m2 :: t, m1' :: m2' :: t' =>
        products (removelast (removelast rest)) (last (removelast rest) 0) (last rest 0) (map (fun '(lq, m1, m2) => (lq, m1 + m2)) (level1 l1 l2))
          (prod_first (cleb_first l1 l2) l1 l2 m1 m2 m1' m2') (m1 + m2) (m1' + m2') t t'
    | _, _, _ => 0%F
    end.
  Definition factor (lf : Z) (ms ms' : list Z) : F := (sgn (Z.abs (- zsum ms - - zsum ms')) / nz (2 * lf + 1))%F.

  (** [assign_core] (L780-798) *)
  Definition write : Type := nat * nat * F.
  Definition assign_core (num : F) (i ip i2 ip2 : nat) : list write :=
    [(i, ip, num); (i, ip2, num); (i2, ip, num); (i2, ip2, num)] ++
    if (i =? ip)%nat then [] else [(ip, i, num); (ip, i2, num); (ip2, i, num); (ip2, i2, num)].
  Definition neg (ms : list Z) : list Z := map Z.opp ms.
  (** States of the loops: m1 from zero. *)
  Definition half (ls : list Z) : list (list Z) :=
    match removelast ls with [] => [] | l1 :: t => filter (fun ms => check_sum ms (last ls 0)) (flat_map (fun m1 => map (cons m1) (tuples t)) (zrange 0 l1)) end.
  (** [order3] (L82-130) .. [order8] (L553-693) *)
  Definition writes_n (ls : list Z) : list write :=
    flat_map (fun ms => flat_map (fun ms' =>
      if (map_m ls ms' <? map_m ls ms)%nat then []
      else assign_core (number ls ms ms' * factor (last ls 0%Z) ms ms')%F (map_m ls ms) (map_m ls ms') (map_m ls (neg ms)) (map_m ls (neg ms'))) (half ls)) (half ls).
  (** [order2] (L45-80) *)
  Definition writes_2 (ls : list Z) : list write :=
    match ls with
    | [l1; l2] =>
        flat_map (fun ms => flat_map (fun ms' =>
          let i := map_m ls ms in let ip := map_m ls ms' in
          if (ip <? i)%nat then []
          else let num := if l1 =? l2 then factor l2 ms ms' else 0%F in
               (i, ip, num) :: if (i =? ip)%nat then [] else [(ip, i, num)]) (states ls)) (states ls)
    | _ => []
    end.
  (** The matrix after writes on zeros. *)
  Definition core (ws : list write) : mat F := fun i j => fold_left (fun c '(a, b, v) => if (a =? i)%nat && (b =? j)%nat then v else c) ws 0%F.
  (** [build_projector] (L19-42): the writes. std::invalid_argument is ValueError. *)
  Definition build (ls : list Z) : res (list write) :=
    if negb (Z.even (- zsum ls)) then Err ValueError
    else match length ls with 2%nat => Ok (writes_2 ls) | 3%nat | 4%nat | 5%nat | 6%nat | 7%nat | 8%nat => Ok (writes_n ls) | _ => Err ValueError end.

  (** *** api_polyinv.py: [eigh] gives the columns of eigenvectors of a matrix of some size, [num_basis] the count from characters. [order] is the order
      in which writes are done. *)
  Variable eigh : nat -> mat F -> list (list F).
  Variable num_basis : list Z -> Z.
  Variable order : list write -> list write.
  (** [build_projector] (projector.py L9-18), [solve] (api L81-99) *)
  Definition solve (ls : list Z) : res (list (list F) * list (list (Z * Z))) :=
    do ws <- build ls;
    Ok (eigh (length (states ls)) (core (order ws)), map (fun i => matrix_index_to_lm i ls) (row ls)).
  (** [run_enum_single_order] (L46-78); [run_enum] (L18-43) *)
  Definition selected (ord : nat) (maxl : Z) (minl : option Z) (eliminate_odd : bool) : list (list Z) :=
    filter (fun l => (0 <? num_basis l) && match minl with Some b => existsb (fun x => b <=? x) l | None => true end && (negb eliminate_odd || Z.even (zsum l))) (combs ord 0 maxl).
  Definition run_enum_single (ord : nat) (maxl : Z) (minl : option Z) (eliminate_odd : bool) := mapM solve (selected ord maxl minl eliminate_odd).
  Definition run_enum (orders : list nat) (maxl : Z) (minl : option Z) (eliminate_odd : bool) : res (list (list (list F) * list (list (Z * Z)))) :=
    if existsb (fun o => (6 <? o)%nat) orders then Err RuntimeError
    else do parts <- mapM (fun o => run_enum_single o maxl minl eliminate_odd) orders; Ok (concat parts).
End Projector.
