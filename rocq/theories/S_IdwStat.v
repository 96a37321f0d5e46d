(** What weights and statistics are meant to do, stated without the model's functions. *)
From Coq Require Import List Arith Reals.
From Verif Require Import M_Idw.
Import ListNotations.
Open Scope R_scope.

(** An answer with [k] finite positive distances, all at least [eps], to data points. *)
Definition full_answer (n k : nat) (eps : R) (row : answer) : Prop :=
  length row = k /\ forall d i, In (d, i) row -> (i < n)%nat /\ exists r, d = Some r /\ 0 < r /\ eps <= r.
Fixpoint sum_over (f : R -> nat -> R) (row : answer) : R :=
  match row with [] => 0 | (Some d, i) :: r => f d i + sum_over f r | (None, _) :: r => sum_over f r end.
(** Sums of lists of finite numbers. *)
Definition finite_sum (l : list (option R)) (s : R) : Prop := exists xs, l = map Some xs /\ s = fold_right Rplus 0 xs.
(** Distances in ascending order, as the tree answers. *)
Definition nearest_first (row : answer) : Prop := forall i j di dj a b, (i <= j)%nat -> nth_error row i = Some (Some di, a) -> nth_error row j = Some (Some dj, b) -> di <= dj.
