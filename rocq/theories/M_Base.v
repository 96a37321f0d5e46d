(** Results of Python/C++ calls as values, and small array helpers shared by all models. *)
From Coq Require Import List Arith.
Import ListNotations.

(** Exceptions raised by the modelled code or by the libraries it calls. *)
Inductive exn : Type :=
| IndexError | ValueError | TypeError | KeyError | AssertionError | AttributeError
| NotImplementedError | RuntimeError.

(** A call returns a value, raises, or (for a [while] loop run with fuel) has not finished. *)
Inductive res (A : Type) : Type :=
| Ok (a : A)
| Raise (e : exn)
| OutOfFuel.
Arguments Ok {A} a.
Arguments Raise {A} e.
Arguments OutOfFuel {A}.

Definition bind {A B} (r : res A) (k : A -> res B) : res B :=
  match r with Ok a => k a | Raise e => Raise e | OutOfFuel => OutOfFuel end.

Notation "'let!' x ':=' r 'in' k" := (bind r (fun x => k))
  (at level 200, x pattern, r at level 100, k at level 200).

(** [a[i]] for a non-negative index: IndexError when out of range. *)
Definition get {A} (l : list A) (i : nat) : res A :=
  match nth_error l i with Some x => Ok x | None => Raise IndexError end.

Fixpoint mapM {A B} (f : A -> res B) (l : list A) : res (list B) :=
  match l with
  | [] => Ok []
  | x :: l' => let! y := f x in let! ys := mapM f l' in Ok (y :: ys)
  end.

(** [a[i] = v] on a list used as an array (no effect when out of range; callers check). *)
Fixpoint upd {A} (l : list A) (i : nat) (v : A) : list A :=
  match l, i with
  | [], _ => []
  | _ :: l', 0 => v :: l'
  | x :: l', S i' => x :: upd l' i' v
  end.

(** [a[lo:hi]] for non-negative bounds; Python clamps both ends. *)
Definition slice {A} (l : list A) (lo hi : nat) : list A := firstn (hi - lo) (skipn lo l).
