(** Specification vocabulary for mesh smoothing on doubles, independent of the model. *)
From Coq Require Import List Arith Bool ZArith Reals SpecFloat.
From Flocq Require Import Core.
From Verif Require Import S_Double S_Ieee S_Edges S_FixMesh S_Adjacency.
Import ListNotations.
Open Scope R_scope.

(** The other corners of the faces at vertex v, face by face. *)
Definition others (ts : list face) (v : nat) : list nat :=
  flat_map (fun t => if existsb (Nat.eqb v) (corners t) then filter (fun j => negb (Nat.eqb v j)) (corners t) else []) ts.
(** Point number i; only used in range. *)
Definition pt (p : list (spec_float * spec_float)) (i : nat) : spec_float * spec_float := nth i p nan2.
(** The exact mean of a coordinate over the listed vertices. *)
Definition Rsum (l : list R) : R := fold_right Rplus 0 l.
Definition mean_of (c : spec_float * spec_float -> spec_float) (p : list (spec_float * spec_float)) (l : list nat) : R :=
  Rsum (map (fun j => val (c (pt p j))) l) / INR (length l).
(** Rounding error of a mean of n numbers of absolute value at most M. *)
Definition mean_error (n : nat) (M : R) : R := ((1 + u) ^ (n + 1) - 1) * M + bpow radix2 (-1075).
(** x is the mean of the listed vertices, up to rounding. *)
Definition near_mean (M : R) (p : list (spec_float * spec_float)) (l : list nat) (x : spec_float * spec_float) : Prop :=
  finite_point x /\ Rabs (val (fst x) - mean_of fst p l) <= mean_error (length l) M /\ Rabs (val (snd x) - mean_of snd p l) <= mean_error (length l) M.
(** No vertex has more than N neighbours, counted face by face. *)
Definition degree_atmost (N : nat) (n : nat) (ts : list face) : Prop := forall v, (v < n)%nat -> (length (others ts v) <= N)%nat.
(** Two vertices that are not the same differ by at least 2^-500 in some coordinate. *)
Definition apart (x y : spec_float * spec_float) : Prop :=
  bpow radix2 (-500) <= Rabs (val (fst x) - val (fst y)) \/ bpow radix2 (-500) <= Rabs (val (snd x) - val (snd y)).
Definition same_place (x y : spec_float * spec_float) : Prop := val (fst x) = val (fst y) /\ val (snd x) = val (snd y).
(** The length of an edge as computed: each operation rounded, at least 2^-52. *)
Definition length_of (x y : spec_float * spec_float) : R :=
  Rmax (bpow radix2 (-52)) (rnd (sqrt (rnd (rnd (rnd (val (fst x) - val (fst y)) * rnd (val (fst x) - val (fst y))) +
                                            rnd (rnd (val (snd x) - val (snd y)) * rnd (val (snd x) - val (snd y))))))).
(** Squared distance as computed, and a vertex at the smallest such distance from x. *)
Definition rdist2 (x y : spec_float * spec_float) : R :=
  let dx := rnd (val (fst y) - val (fst x)) in let dy := rnd (val (snd y) - val (snd x)) in rnd (rnd (dx * dx) + rnd (dy * dy)).
Definition nearest_rounded (x : spec_float * spec_float) (p : list (spec_float * spec_float)) (i : nat) : Prop :=
  (i < length p)%nat /\ forall j, (j < length p)%nat -> rdist2 x (pt p i) <= rdist2 x (pt p j).
(** One sweep: the kept vertices stay bit by bit, every other one goes to the mean of its neighbours up to rounding. *)
Definition sweep_step (ts : list face) (kept : nat -> Prop) (M : R) (p q : list (spec_float * spec_float)) : Prop :=
  length q = length p /\ forall v, (v < length p)%nat -> (kept v -> pt q v = pt p v) /\ (~ kept v -> near_mean M p (others ts v) (pt q v)).
Inductive sweeps (ts : list face) (kept : nat -> Prop) (M : R) : nat -> list (spec_float * spec_float) -> list (spec_float * spec_float) -> Prop :=
| sweeps_0 : forall p, sweeps ts kept M 0 p p
| sweeps_S : forall j p q r, sweep_step ts kept M p q -> sweeps ts kept M j q r -> sweeps ts kept M (S j) p r.
(** No edge is longer in q than in p by tol times its length in q, as computed. *)
Definition grew_less (ts : list face) (tol : R) (p q : list (spec_float * spec_float)) : Prop :=
  forall t a b, In t ts -> In a (corners t) -> In b (corners t) -> a <> b ->
    rnd (length_of (pt q a) (pt q b) - length_of (pt p a) (pt p b)) < tol * length_of (pt q a) (pt q b).
Definition pinned (pfix : option (list (spec_float * spec_float))) : list (spec_float * spec_float) := match pfix with Some l => l | None => [] end.
(** What is kept: the boundary and the vertices nearest to the pins. *)
Definition stays (ts : list face) (pins : list nat) (v : nat) : Prop := (exists w, on_boundary ts w v) \/ In v pins.
(** Rounding errors of k sweeps over vertices with at most N neighbours and coordinates of absolute value at most M. *)
Definition drift (N k : nat) (M : R) : R := 2 * INR k * (INR (N + 2) * u * M + bpow radix2 (-1075)).
