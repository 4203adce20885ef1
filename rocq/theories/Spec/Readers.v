(** What output files say: samples of structure, energy, forces and stress. *)
From Verif Require Import Base Num Model.Structure Model.Readers.
From Coq Require String.
Import String.StringSyntax.
Local Open Scope string_scope.
Local Open Scope list_scope.
Local Open Scope nat_scope.

Section Spec.
  Context {F : Type} {N : Num F} {O : NumOrd F} {P A : Type}.
  Notation structure := (structure P A F).
  Notation vasprun := (vasprun (F := F) (P := P) (A := A)).
  Notation calc := (calc (F := F) (P := P) (A := A)).
  Record sample := mk_sample { s_structure : structure; s_energy : F; s_force : list (list F); s_stress : nat -> nat -> F }.

  (** The numbers of atoms, elements and types fit the positions. *)
  Definition consistent (st : structure) : Prop :=
    length (positions st) = length (elements st) /\ length (types st) = length (elements st) /\ sum (n_atoms st) = length (elements st).
  (** The structure of a cell of the document; types count from zero; the element r is Zr. *)
  Definition structure_of (x : vasprun) (name : string) (c : A * list P * F) (st : structure) : Prop :=
    axis st = fst (fst c) /\ positions st = snd (fst c) /\ volume st = snd c /\ Structure.name st = Some name /\ n_atoms st = x_natoms x /\
    Forall2 (fun e e' => e = "r" /\ e' = "Zr" \/ e <> "r" /\ e' = e) (x_elements x) (elements st) /\
    Forall2 (fun t t' => (t = t' + 1)%Z) (x_types x) (types st) /\ consistent st.
  (** The sample of a calculation: everything is from this calculation. *)
  Definition calc_sample (kbar : F) (x : vasprun) (name : string) (c : calc) (r : sample) : Prop :=
    exists cell t, c_cell c = Some cell /\ structure_of x name cell (s_structure r) /\ c_energy c = Some (s_energy r) /\ c_force c = Some (s_force r) /\
      c_stress c = Some t /\ s_stress r = (fun i j => ndiv (nmul (t i j) (volume (s_structure r))) kbar).
  (** The first calculation that has an entry *)
  Definition first_having {X} (f : calc -> option X) (l : list calc) (v : X) : Prop :=
    exists l1 c l2, l = l1 ++ c :: l2 /\ Forall (fun c => f c = None) l1 /\ f c = Some v.
  (** The energies of the electronic steps of the first calculation are all there, at least two, and the last two differ. *)
  Definition not_converged (tol : F) (x : vasprun) : Prop :=
    exists c cs es e2 e1, x_calcs x = c :: cs /\ c_steps c = map Some (es ++ [e2; e1]) /\ nltb (nabs (nsub e1 e2)) tol = false.
  (** The sample of a document that is not of molecular dynamics: first energy, first forces, first stress, final structure *)
  Definition static_sample (kbar : F) (x : vasprun) (name : string) (r : sample) : Prop :=
    exists c cs cell t, x_calcs x = c :: cs /\ x_final x = Some cell /\ structure_of x name cell (s_structure r) /\ c_energy c = Some (s_energy r) /\
      first_having c_force (x_calcs x) (s_force r) /\ first_having c_stress (x_calcs x) t /\
      s_stress r = (fun i j => ndiv (nmul (t i j) (volume (s_structure r))) kbar).
  Inductive file_samples (tol kbar : F) (x : vasprun) (name : string) : list sample -> Prop :=
  | dynamics rs : x_ibrion x = Some 0%Z -> Forall2 (calc_sample kbar x name) (x_calcs x) rs -> file_samples tol kbar x name rs
  | static r : x_ibrion x <> Some 0%Z -> ~ not_converged tol x -> static_sample kbar x name r -> file_samples tol kbar x name [r]
  | skipped : x_ibrion x <> Some 0%Z -> not_converged tol x -> file_samples tol kbar x name [].
  (** The four lists of a list of samples *)
  Definition lists_of (rs : list sample) : lists := mk_lists (map s_structure rs) (map s_energy rs) (map s_force rs) (map s_stress rs).

  (** SSCHA results that are used, and their samples *)
  Definition used (y : sscha_yaml (F := F) (P := P) (A := A)) : Prop := y_converge y = true /\ y_supercell y <> None /\ y_forces y <> None /\ y_stress y <> None.
  (** [st'] is [st] under the name of the file. *)
  Definition renamed (name : string) (st st' : structure) : Prop :=
    consistent st /\ st' = mk_structure (axis st) (positions st) (n_atoms st) (elements st) (types st) (volume st) (Some name).
  Definition sscha_sample (kjmol : F) (symmetrized : bool) (y : sscha_yaml (F := F) (P := P) (A := A)) (name : string) (r : sample) : Prop :=
    (symmetrized = true /\ exists st, y_unitcell y = Some st /\ renamed name st (s_structure r) /\ s_energy r = ndiv (y_free_energy y) kjmol /\
       y_sym_forces y = Some (s_force r) /\ y_sym_stress y = Some (s_stress r)) \/
    ((symmetrized = false \/ y_sym_forces y = None) /\ exists st n t, y_supercell y = Some st /\ renamed name st (s_structure r) /\ y_n_unitcells y = Some n /\
       s_energy r = ndiv (nmul (y_free_energy y) (nnat n)) kjmol /\ y_forces y = Some (s_force r) /\ y_stress y = Some t /\ s_stress r = (fun i j => nmul (t i j) (nnat n))).

  (** The row of a temperature: the first one that is close *)
  Definition row_at (rtol atol temperature : F) (rows : list (F * option F)) (p : option F) : Prop :=
    exists r1 t r2, rows = r1 ++ (t, p) :: r2 /\ isclose rtol atol t temperature = true /\ Forall (fun r => isclose rtol atol (fst r) temperature = false) r1.
End Spec.
