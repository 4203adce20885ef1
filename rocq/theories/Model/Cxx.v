(** The C++ standard-library containers used by the polynomial-MLP core.
    Vectors are lists (reading out of range gives a default: undefined behaviour in C++);
    [std::set] is a duplicate-free sorted list; [std::unordered_map] is an association list in
    insertion order (the iteration order of C++ is unspecified; it only permutes sums). *)
From Verif Require Import Base.

(** [v[i] = f(v[i])]; no effect out of range. *)
Fixpoint upd {A} (i : nat) (f : A -> A) (l : list A) : list A :=
  match l, i with
  | [], _ => []
  | a :: t, O => f a :: t
  | a :: t, S i' => a :: upd i' f t
  end.

(** Loop [for x in l: v[key(x)].emplace_back(val(x))] starting from [v = vector(n)]. *)
Definition group {A B} (n : nat) (key : A -> nat) (val : A -> B) (l : list A) : list (list B) :=
  fold_left (fun v x => upd (key x) (fun b => b ++ [val x]) v) l (repeat [] n).

(** [std::sort] on vectors of integers. *)
Fixpoint ins_by {A} (leb : A -> A -> bool) (x : A) (l : list A) : list A :=
  match l with
  | [] => [x]
  | y :: t => if leb x y then x :: l else y :: ins_by leb x t
  end.
Definition sort_by {A} (leb : A -> A -> bool) (l : list A) : list A := fold_right (ins_by leb) [] l.
Definition sortn (l : list nat) : list nat := sort_by Nat.leb l.

(** Lexicographic comparison of [std::vector] / of sequences. *)
Fixpoint lex {A} (cmp : A -> A -> comparison) (a b : list A) : comparison :=
  match a, b with
  | [], [] => Eq
  | [], _ => Lt
  | _, [] => Gt
  | x :: a', y :: b' => match cmp x y with Eq => lex cmp a' b' | c => c end
  end.
Definition lexn : list nat -> list nat -> comparison := lex Nat.compare.
Definition cmp_pair (a b : nat * nat) : comparison :=
  match Nat.compare (fst a) (fst b) with Eq => Nat.compare (snd a) (snd b) | c => c end.

(** [std::set::insert]. *)
Fixpoint set_insert {A} (cmp : A -> A -> comparison) (x : A) (l : list A) : list A :=
  match l with
  | [] => [x]
  | y :: t => match cmp x y with Lt => x :: l | Eq => l | Gt => y :: set_insert cmp x t end
  end.
Definition set_of {A} (cmp : A -> A -> comparison) (l : list A) : list A :=
  fold_left (fun s x => set_insert cmp x s) l [].

(** [std::find] followed by [std::distance]: position of the first equal element. *)
Fixpoint find_id {A} (eqb : A -> A -> bool) (x : A) (l : list A) : nat :=
  match l with
  | [] => 0
  | y :: t => if eqb x y then 0 else S (find_id eqb x t)
  end.

Fixpoint leqb (a b : list nat) : bool :=
  match a, b with
  | [], [] => true
  | x :: a', y :: b' => (x =? y) && leqb a' b'
  | _, _ => false
  end.

(** [std::set_intersection] of two sorted ranges (fuel: total length). *)
Fixpoint set_inter_ (k : nat) (a b : list nat) : list nat :=
  match k with
  | O => []
  | S k' =>
      match a, b with
      | x :: a', y :: b' =>
          match Nat.compare x y with
          | Lt => set_inter_ k' a' b
          | Gt => set_inter_ k' a b'
          | Eq => x :: set_inter_ k' a' b'
          end
      | _, _ => []
      end
  end.
Definition set_intersection (a b : list nat) : list nat := set_inter_ (length a + length b) a b.

(** [std::unordered_map<vector<int>, V>]: [operator[]] on a missing key yields the default. *)
Definition umap (V : Type) := list (list nat * V).
Fixpoint um_find {V} (k : list nat) (m : umap V) : option V :=
  match m with
  | [] => None
  | (k', v) :: t => if leqb k k' then Some v else um_find k t
  end.
(** [m[k] = f(m[k])], the new key going to the end. *)
Fixpoint um_alter {V} (k : list nat) (f : option V -> V) (m : umap V) : umap V :=
  match m with
  | [] => [(k, f None)]
  | (k', v) :: t => if leqb k k' then (k', f (Some v)) :: t else (k', v) :: um_alter k f t
  end.
Definition um_set {V} (k : list nat) (v : V) (m : umap V) : umap V := um_alter k (fun _ => v) m.
Definition um_get (k : list nat) (m : umap nat) : nat := match um_find k m with Some v => v | None => 0 end.

(** [vector.erase(begin() + i)]. *)
Fixpoint erase {A} (i : nat) (l : list A) : list A :=
  match l, i with
  | [], _ => []
  | _ :: t, O => t
  | a :: t, S i' => a :: erase i' t
  end.

(** polymlp_structs.h [erase_a_key] (L240-245). *)
Definition erase_a_key (l : list nat) (i : nat) : list nat := sortn (erase i l).

(** polymlp_structs.h [convert_set_to_mappings] (L224-238): the set in sorted order is the
    vector of products; the map gives the position of a key. *)
Definition set_map (s : list (list nat)) : umap nat :=
  fold_left (fun m ki => um_set (fst ki) (snd ki) m) (combine s (seq 0 (length s))) [].
