(** Model of the numpy primitives the package relies on. *)
From Coq Require Import List Arith Bool Permutation Sorted.
From Verif Require Import M_Base.
Import ListNotations.

(** Stable sort (numpy kind="mergesort"/"stable", Python [sorted]). *)
Fixpoint insert {A} (leb : A -> A -> bool) (x : A) (l : list A) : list A :=
  match l with
  | [] => [x]
  | y :: l' => if leb x y then x :: y :: l' else y :: insert leb x l'
  end.
Definition isort {A} (leb : A -> A -> bool) (l : list A) : list A := fold_right (insert leb) [] l.

(** [a.argsort(kind="mergesort")]: positions of the stable sort. *)
Definition stable_argsort (keys : list nat) : list nat :=
  map snd (isort (fun a b => fst a <=? fst b) (combine keys (seq 0 (length keys)))).

(** Specification of [a.argsort()] with numpy's default (unstable) kind: some permutation of the
    positions that puts the keys in order.  The model takes such a function as a parameter, and
    the theorems hold for every one. *)
Definition is_argsort (f : list nat -> list nat) : Prop :=
  forall keys, exists ps : list (nat * nat),
    map snd ps = f keys /\
    Permutation.Permutation ps (combine keys (seq 0 (length keys))) /\
    Sorted.StronglySorted (fun a b => fst a <= fst b) ps.

(** [a[ix]] for in-range integer index arrays. *)
Definition take {A} (d : A) (l : list A) (ix : list nat) : list A := map (fun i => nth i l d) ix.

(** np.delete(a, ix, axis=0): drop the listed positions, keep the order of the rest. *)
Definition delete_at {A} (l : list A) (ix : list nat) : list A :=
  map snd (filter (fun p => negb (existsb (Nat.eqb (fst p)) ix)) (combine (seq 0 (length l)) l)).

(** np.delete(a, mask, axis=0) and a[mask] for a boolean mask. *)
Definition delete_mask {A} (l : list A) (m : list bool) : list A :=
  map fst (filter (fun p => negb (snd p)) (combine l m)).
Definition take_mask {A} (l : list A) (m : list bool) : list A :=
  map fst (filter (fun p => snd p) (combine l m)).

(** Runs of equal consecutive elements of a sorted array: value and length
    (numpy's np.unique: sort, then compare neighbours). *)
Fixpoint runs {A} (eqb : A -> A -> bool) (l : list A) : list (A * nat) :=
  match l with
  | [] => []
  | x :: l' =>
      match runs eqb l' with
      | (y, n) :: r => if eqb x y then (x, S n) :: r else (x, 1) :: (y, n) :: r
      | [] => [(x, 1)]
      end
  end.

(** np.unique(a, return_counts=True). *)
Definition unique_counts {A} (leb eqb : A -> A -> bool) (l : list A) : list (A * nat) :=
  runs eqb (isort leb l).

(** np.unique(a). *)
Definition unique {A} (leb eqb : A -> A -> bool) (l : list A) : list A :=
  map fst (unique_counts leb eqb l).

(** Position of the first element equal to [x] (numpy's return_index is the first occurrence,
    its return_inverse the position in the unique array). *)
Fixpoint index_of {A} (eqb : A -> A -> bool) (x : A) (l : list A) : nat :=
  match l with
  | [] => 0
  | y :: l' => if eqb x y then 0 else S (index_of eqb x l')
  end.

(** np.unique(a, return_index=True, return_inverse=True). *)
Definition unique_full {A} (leb eqb : A -> A -> bool) (l : list A)
  : list A * list nat * list nat :=
  let u := unique leb eqb l in
  (u, map (fun x => index_of eqb x l) u, map (fun x => index_of eqb x u) l).

(** Order of numpy's byte views on little-endian machines: unsigned integers compared by their
    bytes, least significant byte first ([np.void]/[S] views are compared with memcmp).  Integers
    are non-negative here.  [f] bounds the number of bytes. *)
Fixpoint le_compare (f : nat) (a b : nat) : comparison :=
  match f with
  | 0 => Eq
  | S f' =>
      match Nat.compare (a mod 256) (b mod 256) with
      | Eq => le_compare f' (a / 256) (b / 256)
      | c => c
      end
  end.

(** memcmp of two rows of equal length, and the resulting order on rows.  The fuel (a bound on the
    entries) is more bytes than any entry has. *)
Fixpoint row_compare (f : nat) (r1 r2 : list nat) : comparison :=
  match r1, r2 with
  | [], [] => Eq
  | [], _ => Lt
  | _, [] => Gt
  | a :: r1', b :: r2' =>
      match le_compare f a b with Eq => row_compare f r1' r2' | c => c end
  end.
Definition row_leb (r1 r2 : list nat) : bool :=
  match row_compare (list_max (r1 ++ r2)) r1 r2 with Gt => false | _ => true end.
