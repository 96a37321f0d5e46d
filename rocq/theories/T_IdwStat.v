(** Theorems about the weights (C143) and the statistics (C144) of inverse-distance weighting. *)
From Coq Require Import List Arith Reals Lra Lia.
From Verif Require Import M_Base M_Idw M_IdwStat S_IdwStat P_IdwStat.
Import ListNotations.
Open Scope R_scope.

(** C143.  The value is the mean weighted by weights / distance^p, wherever these do not add up to 0. *)
Theorem C143_mean : forall z k p ws row, (2 <= k)%nat -> full_answer (length z) k (/ 10 ^ 10) row -> length ws = length z ->
  sum_over (fun d i => nth i ws 0 / d ^ p) row <> 0 -> forall st, exists v, one z k p (Some ws) false row st = Ok (Some v, st) /\
  v * sum_over (fun d i => nth i ws 0 / d ^ p) row = sum_over (fun d i => nth i ws 0 / d ^ p * nth i z 0) row.
Proof. exact weighted_mean. Qed.
Print Assumptions C143_mean.
(** With weights >= 0, one of the neighbours' being positive, the value lies between the data of the neighbours of positive weight. *)
Theorem C143_range : forall z k p ws row lo hi, (2 <= k)%nat -> full_answer (length z) k (/ 10 ^ 10) row -> length ws = length z ->
  (forall d i, In (d, i) row -> 0 <= nth i ws 0) -> (exists d i, In (d, i) row /\ 0 < nth i ws 0) ->
  (forall d i, In (d, i) row -> 0 < nth i ws 0 -> lo <= nth i z 0 <= hi) ->
  forall st, exists v, one z k p (Some ws) false row st = Ok (Some v, st) /\ lo <= v <= hi.
Proof. exact weighted_range. Qed.
Print Assumptions C143_range.
(** A common factor of the weights does not matter. *)
Theorem C143_scale : forall z k p ws c row st stat, c <> 0 -> one z k p (Some (map (Rmult c) ws)) stat row st = one z k p (Some ws) stat row st.
Proof. exact weights_scale. Qed.
Print Assumptions C143_scale.
(** Equal weights are no weights, and without weights the function of C38 is computed. *)
Theorem C143_equal : forall z k p c row st stat, c <> 0 -> (forall d i, In (d, i) row -> (i < length z)%nat) ->
  one z k p (Some (repeat c (length z))) stat row st = one z k p None stat row st.
Proof. exact equal_weights. Qed.
Print Assumptions C143_equal.
Theorem C143_none : forall z k p row st, (forall d i, In (d, i) row -> exists r, d = Some r /\ 0 < r) ->
  forall v, idw_one z k p row = Ok v -> one z k p None false row st = Ok (Some v, st).
Proof. exact no_weights. Qed.
Print Assumptions C143_none.
(** Neighbours that all have weight 0 give no number. *)
Theorem C143_all_zero_refuted : exists z k p ws row, (2 <= k)%nat /\ full_answer (length z) k (/ 10 ^ 10) row /\ length ws = length z /\ Forall (fun w => 0 <= w) ws /\
  (exists w, In w ws /\ 0 < w) /\ forall st, one z k p (Some ws) false row st = Ok (None, st).
Proof. exact all_zero. Qed.
Print Assumptions C143_all_zero_refuted.
(** Weights "of the same shape as q", as documented, fail: they are indexed like the data. *)
Theorem C143_documented_shape_refuted : exists z k p ws rows, (2 <= k)%nat /\ Forall (full_answer (length z) k (/ 10 ^ 10)) rows /\ length ws = length rows /\ Forall (fun w => 0 < w) ws /\
  call z k p (Some ws) false rows fresh = Raise IndexError.
Proof. exact shape_of_q. Qed.
Print Assumptions C143_documented_shape_refuted.
Example C143_case : full_answer 3 2 (/ 10 ^ 10) [(Some 1, 2%nat); (Some 2, 0%nat)] /\ exists v, one [10; 20; 40] 2 1 (Some [2; 5; 1]) false [(Some 1, 2%nat); (Some 2, 0%nat)] (0%nat, []) = Ok (Some v, (0%nat, [])) /\ v = 25.
Proof. exact weights_case. Qed.

(** C144.  Statistics on: after a call on a fresh object wn is the number of points interpolated and the entries of wsum add up to it. *)
Theorem C144_sums : forall z k p weights rows, (2 <= k)%nat -> z <> [] -> match weights with Some ws => length ws = length z | None => True end ->
  Forall (full_answer (length z) k (/ 10 ^ 10)) rows ->
  Forall (fun row => match weights with Some ws => sum_over (fun d i => nth i ws 0 / d ^ p) row <> 0 | None => True end) rows ->
  exists vs ws, call z k p weights true rows fresh = Ok (map Some vs, {| s_wn := length rows; s_wsum := Some ws |}) /\ length vs = length rows /\ length ws = k /\ finite_sum ws (INR (length rows)).
Proof. exact call_stats. Qed.
Print Assumptions C144_sums.
(** Nearer neighbours have collected at least as much weight. *)
Theorem C144_nearest_first : forall z k p rows, (2 <= k)%nat -> z <> [] -> Forall (full_answer (length z) k (/ 10 ^ 10)) rows -> Forall nearest_first rows ->
  exists vs xs, call z k p None true rows fresh = Ok (vs, {| s_wn := length rows; s_wsum := Some (map Some xs) |}) /\ forall i j, (i <= j < k)%nat -> nth j xs 0 <= nth i xs 0.
Proof. exact call_sorted. Qed.
Print Assumptions C144_nearest_first.
(** Without statistics, and for points that coincide with data, the state stays. *)
Theorem C144_off : forall z k p weights rows vs st st', call z k p weights false rows st = Ok (vs, st') -> s_wn st' = s_wn st /\ (forall ws, s_wsum st = Some ws -> s_wsum st' = Some ws).
Proof. exact call_off. Qed.
Print Assumptions C144_off.
(** A later call with another number of neighbours raises. *)
Theorem C144_other_neighbours_refuted : exists z k k' rows rows' vs st, (2 <= k)%nat /\ (2 <= k')%nat /\ Forall (full_answer (length z) k (/ 10 ^ 10)) rows /\ Forall (full_answer (length z) k' (/ 10 ^ 10)) rows' /\
  call z k 1 None true rows fresh = Ok (vs, st) /\ call z k' 1 None true rows' st = Raise ValueError.
Proof. exact two_calls. Qed.
Print Assumptions C144_other_neighbours_refuted.
Theorem C144_other_neighbours : forall z k p weights rows row st ws, (2 <= k)%nat -> z <> [] -> match weights with Some ws => length ws = length z | None => True end -> full_answer (length z) k (/ 10 ^ 10) row ->
  s_wsum st = Some ws -> length ws <> k -> call z k p weights true (row :: rows) st = Raise ValueError.
Proof. exact other_count. Qed.
Print Assumptions C144_other_neighbours.
(** One point whose neighbours' weights add up to 0 leaves no finite number in wsum, in this call and
    in all later ones. *)
Theorem C144_poisoned : forall z k p ws rows st wsum, (2 <= k)%nat -> z <> [] -> length ws = length z -> Forall (full_answer (length z) k (/ 10 ^ 10)) rows ->
  s_wsum st = Some wsum \/ (s_wsum st = None /\ wsum = repeat (Some 0) k) -> length wsum = k ->
  wsum = repeat None k \/ Exists (fun row => sum_over (fun d i => nth i ws 0 / d ^ p) row = 0) rows ->
  exists vs, call z k p (Some ws) true rows st = Ok (vs, {| s_wn := s_wn st + length rows; s_wsum := Some (repeat None k) |}).
Proof. exact call_poisoned. Qed.
Print Assumptions C144_poisoned.
Example C144_poisoned_case : Forall (full_answer 3 2 (/ 10 ^ 10)) [[(Some 1, 2%nat); (Some 3, 0%nat)]; [(Some 2, 1%nat); (Some 2, 0%nat)]] /\
  Exists (fun row => sum_over (fun d i => nth i [0; 4; 0] 0 / d ^ 1) row = 0) [[(Some 1, 2%nat); (Some 3, 0%nat)]; [(Some 2, 1%nat); (Some 2, 0%nat)]].
Proof. exact poisoned_case. Qed.
Example C144_case : Forall (full_answer 3 2 (/ 10 ^ 10)) [[(Some 1, 2%nat); (Some 3, 0%nat)]; [(Some 2, 1%nat); (Some 2, 0%nat)]] /\ Forall nearest_first [[(Some 1, 2%nat); (Some 3, 0%nat)]; [(Some 2, 1%nat); (Some 2, 0%nat)]].
Proof. exact stats_case. Qed.
