(** What the results of a thermodynamic integration are: which records count, extrapolation to alpha = 1. *)
From Verif Require Import Base Num NumR Model.TI.
From Coq Require Import Reals.
Local Open Scope R_scope.

(** ** Records *)
Record sample := mk_sample { s_alpha : R; s_delta : R; s_energy : R; s_disp : R }.
Definition written (s : sample) : entry R := mk_entry (Some (s_alpha s)) (Some (s_delta s)) (Some (s_energy s)) (Some (s_disp s)).
Definition first_energy (log : list sample) : R := match log with s :: _ => s_energy s | [] => 0 end.
Definition last_energy (log : list sample) : R := last (map s_energy log) 0.

(** A complete file: the records are [delta_energies], or else [sampling_point_properties]; [e] is the energy
    of the file, or else the energy difference per atom of the last and the first record. *)
Record complete (f : file R) (n : nat) (T V e : R) (log : list sample) : Prop := mk_complete {
  c_natom : y_natom f = Some n; c_positive : n <> 0%nat; c_temp : y_temp f = Some T; c_volume : y_volume f = Some V;
  c_some : log <> [];
  c_log : exists a b, y_props f = Some (a, b) /\
    (a = Some (map written log) \/ a = None /\ y_sampling f = Some (map written log)) /\
    (b = Some e \/ b = None /\ e = (last_energy log - first_energy log) / INR n) }.

(** ** Records left out *)
Definition vanishing (x : R) : Prop := Rabs x <= 1 / 10 ^ 8.
(** [js] tells which displacements jump: the first does not, and a later one does if it is more than [thr]
    from the latest one before it that does not. *)
Definition jumping (thr : R) (ds : list R) (js : list bool) : Prop :=
  length js = length ds /\ (forall j, nth_error js 0 = Some j -> j = false) /\
  forall i d j, (0 < i)%nat -> nth_error ds i = Some d -> nth_error js i = Some j ->
    exists k dk, (k < i)%nat /\ nth_error ds k = Some dk /\ nth_error js k = Some false /\
      (forall l, (k < l < i)%nat -> nth_error js l = Some true) /\ (j = true <-> thr < Rabs (d - dk)).
(** A record is left out if its displacement jumps or is more than twice the first one; none is if the
    first displacement vanishes. *)
Definition left_out (thr : R) (ds : list R) (bs : list bool) : Prop :=
  length bs = length ds /\ forall d0, nth_error ds 0 = Some d0 ->
    (vanishing d0 -> forall b, In b bs -> b = false) /\
    (~ vanishing d0 -> exists js, jumping thr ds js /\
       forall i d b, nth_error ds i = Some d -> nth_error bs i = Some b ->
         (b = true <-> 2 < d / d0 \/ nth_error js i = Some true)).
Definition kept {X} (l : list X) (bs : list bool) : list X := map fst (filter (fun q => negb (snd q)) (combine l bs)).
Definition number (bs : list bool) : nat := count_occ Bool.bool_dec bs true.
(** Too many are left out: more than a fifth, or all of the last three. *)
Definition too_many (bs : list bool) : Prop :=
  INR (length bs) / 5 < INR (number bs) \/
  forall i, (length bs <= i + 3)%nat -> (i < length bs)%nat -> nth_error bs i = Some true.

(** ** Extrapolation: the value at 1 of the penalised least squares line *)
Definition line_cost (pts : list (R * R)) (a b : R) : R :=
  nsumf (fun q => (snd q - (a + b * fst q)) ^ 2) pts + 1 / 10 ^ 10 * (a ^ 2 + b ^ 2).
Definition extrapolates (pts : list (R * R)) (v : R) : Prop :=
  exists a b, (forall a' b', line_cost pts a b <= line_cost pts a' b') /\ v = a + b * 1.
Definition final {X} (n : nat) (l : list X) : list X := rev (firstn n (rev l)).
Definition deltas (log : list sample) : list (R * R) := map (fun s => (s_alpha s, s_delta s)) log.
Definition energies (log : list sample) : list (R * R) := map (fun s => (s_alpha s, s_energy s)) log.

(** ** Results *)
Section Results.
  Variable simpson : list (R * R) -> R.
  Record result (n : nat) (T V : R) (log : list sample) (data : list (R * R)) (e1 : R) (r : data_ti R) : Prop := mk_result {
    r_volume : t_volume r * INR n = V;
    r_temp : t_temp r = T;
    r_free : t_free r * INR n = simpson data;
    r_energy : t_energy r * INR n = e1 - first_energy log;
    r_entropy : (vanishing T -> t_entropy r = 0) /\ (~ vanishing T -> t_energy r - T * t_entropy r = t_free r);
    r_log : t_log r = map written log }.
  (** The results without and with extrapolation from the records [log] *)
  Definition results (n : nat) (T V : R) (log : list sample) (r rx : data_ti R) : Prop :=
    result n T V log (deltas log) (last_energy log) r /\
    exists d e, extrapolates (final 3 (deltas log)) d /\ extrapolates (final 3 (energies log)) e /\
      result n T V log (deltas log ++ [(1, d)]) e rx.
End Results.

(** ** The same system with [k] times as many atoms *)
Definition times (k : R) (s : sample) : sample := mk_sample (s_alpha s) (k * s_delta s) (k * s_energy s) (s_disp s).
(** A straight line *)
Definition on_line (a b : R) (data : list (R * R)) : Prop := forall q, In q data -> snd q = a + b * fst q.
