(** Specification vocabulary for bar forces, independent of the model. *)
From Coq Require Import List Arith Reals Permutation.
Import ListNotations.
Open Scope R_scope.

(** Sum of [f] over a list. *)
Fixpoint sum_over {A} (f : A -> R) (l : list A) : R := match l with [] => 0 | x :: r => f x + sum_over f r end.

(** {a,b} is a side of a triangle of the list. *)
Definition side (ts : list (nat * nat * nat)) (a b : nat) : Prop :=
  exists x y z, In (x, y, z) ts /\ ((a = x /\ b = y) \/ (a = y /\ b = z) \/ (a = z /\ b = x)).
Definition undirected_side ts a b : Prop := side ts a b \/ side ts b a.

(** Number i is the first or the second end of the bar: +1, -1 (0 for neither, or both). *)
Definition incidence (i : nat) (e : nat * nat) : R :=
  (if Nat.eqb (fst e) i then 1 else 0) - (if Nat.eqb (snd e) i then 1 else 0).

Definition px (p : list (R * R)) (i : nat) : R := fst (nth i p (0, 0)).
Definition py (p : list (R * R)) (i : nat) : R := snd (nth i p (0, 0)).
Definition distance (p : list (R * R)) (e : nat * nat) : R :=
  sqrt ((px p (fst e) - px p (snd e)) ^ 2 + (py p (fst e) - py p (snd e)) ^ 2).

(** The bar's length, [eps] for a bar without length. *)
Definition length_or (eps : R) (p : list (R * R)) (e : nat * nat) : R := if Req_EM_T (distance p e) 0 then eps else distance p e.
(** The mean of the two middle values in sorted order (of the middle one, twice, if their number is odd). *)
Definition is_median (l : list R) (m : R) : Prop :=
  exists s, Permutation l s /\ (forall i j, (i <= j < length s)%nat -> nth i s 0 <= nth j s 0) /\
    m = (nth ((length l - 1) / 2) s 0 + nth (length l / 2) s 0) / 2.
(** The positive finite sizes among those of the bars. *)
Definition positive_sizes (g : nat * nat -> option R) (bars : list (nat * nat)) : list R :=
  flat_map (fun e => match g e with Some x => if Rlt_dec 0 x then [x] else [] | None => [] end) bars.

(** A possibly non-finite size times a number. *)
Definition hscale (c : R) (h : option R) : option R := match h with Some x => Some (c * x) | None => None end.
