(** Compositions and formation energies: calculator/utils/composition_utils.py. Vectors are functions of the component
    number; [nt] atom types, [ne] end members. *)
From Verif Require Import Base Num.

Section Composition.
  Context {F : Type} {N : Num F} {O : NumOrd F}.
  Local Open Scope num_scope.
  Variables nt ne : nat.
  (** Tolerances of np.allclose (1e-8 and 1e-5). *)
  Variables atol rtol : F.

  (** State set by [__init__] (L9-27) and the setter (L93-101): [axis] is the transposed array of end members, [inv] its
      np.linalg.pinv (a parameter). *)
  Record composition := { axis : mat F; axis_inv : mat F; energies_end : option (vec F) }.
  Definition init (end_members : mat F) (pinv : mat F -> mat F) : composition :=
    let a : mat F := fun i k => end_members k i in {| axis := a; axis_inv := pinv a; energies_end := None |}.
  Definition proj (c : composition) : mat F := fun i j => sumn ne (fun k => axis c i k * axis_inv c k j).
  (** Setter: [len] is len(e). *)
  Definition set_energies (c : composition) (len : nat) (e : vec F) : res composition :=
    if negb (ne =? len)%nat then Err RuntimeError else Ok {| axis := axis c; axis_inv := axis_inv c; energies_end := Some e |}.
  (** np.allclose(a, b) on vectors of [nt] components. *)
  Definition allclose (a b : vec F) : bool := forallb (fun i => negb (nltb (atol + rtol * nabs (b i)) (nabs (a i - b i)))) (seq 0 nt).
  (** [get_composition] (L29-41): composition and partition. *)
  Definition get_composition (c : composition) (n : vec F) : res (vec F * vec F) :=
    if negb (allclose (matvec nt (proj c) n) n) then Err RuntimeError
    else let partition := matvec nt (axis_inv c) n in Ok (fun k => partition k / sumn ne partition, partition).
  (** [get_compositions] (L43-58): one check for all structures. *)
  Definition get_compositions (c : composition) (ns : list (vec F)) : res (list (vec F * vec F)) :=
    if negb (forallb (fun n => allclose (matvec nt (proj c) n) n) ns) then Err RuntimeError
    else Ok (map (fun n => let partition := matvec nt (axis_inv c) n in (fun k => partition k / sumn ne partition, partition)) ns).
  (** [compute_formation_energy] (L60-70): None @ partition raises TypeError. *)
  Definition formation_energy (c : composition) (energy : F) (n : vec F) : res F :=
    do cp <- get_composition c n;
    match energies_end c with
    | None => Err TypeError
    | Some e => Ok ((energy - dot ne e (snd cp)) / sumn ne (snd cp))
    end.
  (** [compute_formation_energies] (L72-86) *)
  Definition formation_energies (c : composition) (energies : list F) (ns : list (vec F)) : res (list F) :=
    do cps <- get_compositions c ns;
    match energies_end c with
    | None => Err TypeError
    | Some e => Ok (map (fun '(en, cp) => (en - dot ne e (snd cp)) / sumn ne (snd cp)) (combine energies cps))
    end.
End Composition.
