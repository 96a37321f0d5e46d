(** Property theorem C38 (idw.py).  [query] is any nearest-neighbour search that answers correctly for the distance
    [dist] at the points asked; p is a natural exponent; the optional weights are in T_IdwStat.v. *)
From Coq Require Import List Arith Reals Lra.
From Verif Require Import M_Base M_Idw S_Idw P_Idw.
Import ListNotations.
Open Scope R_scope.

Theorem C38_values : forall {P} (dist : P -> P -> R) query X z k p qs, correct_search dist query X k qs ->
  length X = length z -> (1 <= k <= length X)%nat ->
  exists vs, idw_call query X z k p qs = Ok vs /\ Forall2 (idw_value_at dist X z (/ 10 ^ 10) k p) qs vs.
Proof. exact @call_values. Qed.
Print Assumptions C38_values.

(** Every value lies between any bounds of the data values. *)
Theorem C38_range : forall {P} (dist : P -> P -> R) query X z k p qs lo hi, correct_search dist query X k qs ->
  length X = length z -> (1 <= k <= length X)%nat -> (forall a, In a z -> lo <= a <= hi) ->
  exists vs, idw_call query X z k p qs = Ok vs /\ length vs = length qs /\ forall v, In v vs -> lo <= v <= hi.
Proof. exact @call_range. Qed.
Print Assumptions C38_range.

(** Bounds of the values of the neighbours found suffice. *)
Theorem C38_neighbour_range : forall {P} (dist : P -> P -> R) X z, length X = length z -> forall q k p row lo hi,
  nearest_answer dist X k q row -> (1 <= k <= length X)%nat ->
  (forall d i, In (d, i) row -> lo <= nth i z 0 <= hi) -> exists v, idw_one z k p row = Ok v /\ lo <= v <= hi.
Proof. exact @idw_range. Qed.
Print Assumptions C38_neighbour_range.

(** At a data point the data value is returned (for any number of neighbours, even more than there are). *)
Theorem C38_data_points : forall {P} (dist : P -> P -> R) query X z k p q i, correct_search dist query X k [q] ->
  length X = length z -> (1 <= k)%nat -> nth_error X i = Some q -> NoDup X ->
  (forall x y, 0 <= dist x y) -> (forall x, dist x x = 0) -> (forall x y, dist x y = 0 -> x = y) ->
  idw_call query X z k p [q] = Ok [nth i z 0].
Proof. exact @call_data. Qed.
Print Assumptions C38_data_points.

(** More neighbours than data points: IndexError at any other place. *)
Theorem C38_too_few_points : forall {P} (dist : P -> P -> R) query X z k p q qs, correct_search dist query X k (q :: qs) ->
  length X = length z -> X <> [] -> (length X < k)%nat -> k <> 1%nat ->
  (forall x, In x X -> / 10 ^ 10 <= dist q x) -> idw_call query X z k p (q :: qs) = Raise IndexError.
Proof. exact @call_too_few. Qed.
Print Assumptions C38_too_few_points.

(** Lists of different lengths and empty data are rejected. *)
Theorem C38_rejects : forall {P} (query : list P -> nat -> P -> answer) X z k p qs, (length X <> length z -> idw_call query X z k p qs = Raise AssertionError) /\
  (length X = length z -> z = [] -> idw_call query X z k p qs = Raise IndexError).
Proof. exact @call_rejects. Qed.
Print Assumptions C38_rejects.

(** Only the ratios of the distances matter. *)
Theorem C38_scale_free : forall z k p c r i0 (tl : list (R * nat)), 0 < c -> 0 < r -> (forall d i, In (d, i) tl -> 0 < d) ->
  (r < / 10 ^ 10 <-> c * r < / 10 ^ 10) ->
  idw_one z k p ((Some (c * r), i0) :: map (fun a => (Some (c * fst a), snd a)) tl) =
  idw_one z k p ((Some r, i0) :: map (fun a => (Some (fst a), snd a)) tl).
Proof. exact idw_scale. Qed.
Print Assumptions C38_scale_free.

Example C38_case : correct_search line_dist line_query [0; 4] 2 [1] /\ idw_call line_query [0; 4] [10; 20] 2 1 [1] = Ok [25 / 2].
Proof. exact line_call. Qed.
Example C38_documented_case : forall z1 z2 z3,
  idw_one [z1; z2; z3] 3 1 [(Some 1, 0%nat); (Some 2, 1%nat); (Some 3, 2%nat)] = Ok (6 / 11 * z1 + 3 / 11 * z2 + 2 / 11 * z3).
Proof. exact doc_case. Qed.
