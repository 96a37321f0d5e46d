(** Specification vocabulary for inverse-distance weighting. *)
From Coq Require Import List Arith Reals.
From Verif Require Import M_Idw.
Import ListNotations.
Open Scope R_scope.

(** What a nearest-neighbour search has to return for [k] neighbours of [q] among the points [X] under the
    distance [dist]: k entries; the first min(k, |X|) are different data points with their distances, in
    order of distance, and no data point left out is closer; the rest is filled with (infinity, |X|). *)
Definition nearest_answer {P : Type} (dist : P -> P -> R) (X : list P) (k : nat) (q : P) (row : answer) : Prop :=
  exists near, row = map (fun i => (option_map (dist q) (nth_error X i), i)) near ++ repeat (None, length X) (k - length near) /\
    length near = Nat.min k (length X) /\ NoDup near /\ (forall i, In i near -> (i < length X)%nat) /\
    (forall a b i j, (a <= b)%nat -> nth_error near a = Some i -> nth_error near b = Some j ->
       forall x y, nth_error X i = Some x -> nth_error X j = Some y -> dist q x <= dist q y) /\
    (forall i j x y, In i near -> ~ In j near -> nth_error X i = Some x -> nth_error X j = Some y -> dist q x <= dist q y).
Fixpoint total (f : nat -> R) (l : list nat) : R := match l with [] => 0 | i :: r => f i + total f r end.
(** The distance from q to data point i. *)
Definition distance_to {P : Type} (dist : P -> P -> R) (X : list P) (q : P) (i : nat) : R :=
  match nth_error X i with Some x => dist q x | None => 0 end.
(** The search answers correctly for these query points. *)
Definition correct_search {P : Type} (dist : P -> P -> R) (query : list P -> nat -> P -> answer) (X : list P) (k : nat) (qs : list P) : Prop :=
  forall q, In q qs -> nearest_answer dist X k q (query X k q).
(** [v] is the inverse-distance weighted value at q: that of a nearest data point if only one is asked for
    or it is closer than [eps]; else the weighted mean of k data points no farther than the others. *)
Definition idw_value_at {P : Type} (dist : P -> P -> R) (X : list P) (z : list R) (eps : R) (k p : nat) (q : P) (v : R) : Prop :=
  (exists i, (i < length X)%nat /\ (forall j, (j < length X)%nat -> distance_to dist X q i <= distance_to dist X q j) /\
     v = nth i z 0 /\ (k = 1%nat \/ distance_to dist X q i < eps)) \/
  (exists near, length near = k /\ NoDup near /\ (forall i, In i near -> (i < length X)%nat) /\
     (forall i j, In i near -> ~ In j near -> (j < length X)%nat -> distance_to dist X q i <= distance_to dist X q j) /\
     (k <> 1)%nat /\ (forall j, (j < length X)%nat -> eps <= distance_to dist X q j) /\
     v = total (fun i => nth i z 0 / distance_to dist X q i ^ p) near / total (fun i => 1 / distance_to dist X q i ^ p) near).
