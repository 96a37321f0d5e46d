(** Property theorems on the gradient limiter (cpp/HamiltonJacobi.cpp).  [s2] and [se] stand for the
    computed square roots of 2 and of the tolerance; the theorems hold for every s2 >= 1 and se >= 0. *)
From Coq Require Import List Arith Lia ZArith QArith Qabs.
From Verif Require Import M_Base M_GradLimit S_GradLimit P_GradLimit.
Import ListNotations.
Open Scope nat_scope.

(** C19.  The result has one value per cell, between the smallest input and the cell's own input. *)
Theorem C19_limiter_range : forall s2 se elen dfdx d0 d1 d2 ffun imax,
  (1 <= s2)%Q -> (0 <= se)%Q -> (0 <= elen)%Q -> (0 <= dfdx)%Q -> size_grid d0 d1 d2 ffun ->
  exists f, gradient_limit s2 se d0 d1 d2 elen dfdx imax ffun = Ok f /\ length f = length ffun /\
    forall m, smallest ffun m -> forall i, i < length ffun ->
      (m <= nth i f 0 <= nth i ffun 0)%Q /\ (nth i ffun 0 == m -> nth i f 0 == m)%Q.
Proof. exact T_range. Qed.
Print Assumptions C19_limiter_range.

(** C20.  If the loop stops because no cell is active, side neighbours and main-diagonal neighbours
    obey the gradation. *)
Theorem C20_limiter_gradation : forall s2 se elen dfdx d0 d1 d2 ffun imax f m,
  (1 <= s2)%Q -> (0 <= se)%Q -> (0 <= elen)%Q -> (0 <= dfdx)%Q -> size_grid d0 d1 d2 ffun ->
  gradient_limit_flag s2 se d0 d1 d2 elen dfdx imax ffun = Ok (f, true) -> smallest ffun m ->
  forall i j k i' j', i < d0 -> j < d1 -> k < d2 -> i' < d0 -> j' < d1 ->
  (side_neighbours i j i' j' ->
     (Qabs (nth (cell d0 d1 i j k) f 0 - nth (cell d0 d1 i' j' k) f 0) <= elen * dfdx + m * se)%Q) /\
  (i' = S i /\ j' = S j ->
     (Qabs (nth (cell d0 d1 i j k) f 0 - nth (cell d0 d1 i' j' k) f 0) <= elen * s2 * dfdx + m * se)%Q).
Proof. exact T_sides. Qed.
Print Assumptions C20_limiter_gradation.
Example C19_C20_case : size_grid 3 3 1 anti_f /\ smallest anti_f 10 /\ (1 <= sqrt2_d)%Q /\ (0 <= sqrt_eps_d)%Q /\
  gradient_limit_flag sqrt2_d sqrt_eps_d 3 3 1 100 (1 # 10) 10 anti_f = Ok (anti_out, true) /\
  (nth 3 anti_out 0 == 20)%Q /\ (nth 0 anti_out 0 == 30)%Q.
Proof.
  split; [exact anti_grid|]. split; [exact anti_smallest|]. split; [discriminate|]. split; [discriminate|].
  split; [exact anti_run|]. split; reflexivity.
Qed.

(** C21.  The other diagonal is not limited, although the code's comment says all neighbours are. *)
Theorem C21_antidiagonal_refuted : exists d0 d1 d2 elen dfdx imax ffun f m i j k i' j',
  size_grid d0 d1 d2 ffun /\ (0 < elen)%Q /\ (0 < dfdx)%Q /\
  gradient_limit_flag sqrt2_d sqrt_eps_d d0 d1 d2 elen dfdx imax ffun = Ok (f, true) /\ smallest ffun m /\
  i < d0 /\ j < d1 /\ k < d2 /\ i' < d0 /\ j' < d1 /\ touching i j i' j' /\
  (elen * sqrt2_d * dfdx + m * sqrt_eps_d < Qabs (nth (cell d0 d1 i j k) f 0 - nth (cell d0 d1 i' j' k) f 0))%Q.
Proof. exact anti_refuted. Qed.
Print Assumptions C21_antidiagonal_refuted.
(** What holds for all eight neighbours: twice the bound for a side. *)
Theorem C21_eight_neighbours_partial : forall s2 se elen dfdx d0 d1 d2 ffun imax f m,
  (1 <= s2)%Q -> (0 <= se)%Q -> (0 <= elen)%Q -> (0 <= dfdx)%Q -> size_grid d0 d1 d2 ffun ->
  gradient_limit_flag s2 se d0 d1 d2 elen dfdx imax ffun = Ok (f, true) -> smallest ffun m ->
  forall i j k i' j', i < d0 -> j < d1 -> k < d2 -> i' < d0 -> j' < d1 -> touching i j i' j' ->
  (Qabs (nth (cell d0 d1 i j k) f 0 - nth (cell d0 d1 i' j' k) f 0) <= 2 * (elen * dfdx + m * se))%Q.
Proof. exact T_touch. Qed.
Print Assumptions C21_eight_neighbours_partial.

(** C22.  Number of passes that always suffices. *)
Theorem C22_limiter_passes : forall s2 se elen dfdx d0 d1 d2 ffun m N imax,
  (1 <= s2)%Q -> (0 < se)%Q -> (0 <= elen)%Q -> (0 <= dfdx)%Q -> size_grid d0 d1 d2 ffun ->
  smallest ffun m -> (0 < m)%Q ->
  (total_of ffun - inject_Z (Z.of_nat (length ffun)) * m < inject_Z (Z.of_nat N) * (m * se))%Q -> N < imax ->
  exists f, gradient_limit_flag s2 se d0 d1 d2 elen dfdx imax ffun = Ok (f, true).
Proof. exact T_terminates. Qed.
Print Assumptions C22_limiter_passes.
(** So every large enough iteration limit converges, and to the same field. *)
Theorem C22_limiter_converges : forall s2 se elen dfdx d0 d1 d2 ffun m,
  (1 <= s2)%Q -> (0 < se)%Q -> (0 <= elen)%Q -> (0 <= dfdx)%Q -> size_grid d0 d1 d2 ffun ->
  smallest ffun m -> (0 < m)%Q ->
  exists N f, forall imax, N <= imax -> gradient_limit_flag s2 se d0 d1 d2 elen dfdx imax ffun = Ok (f, true).
Proof. exact T_converges. Qed.
Print Assumptions C22_limiter_converges.
Example C22_case : size_grid 3 3 1 anti_f /\ smallest anti_f 10 /\
  (total_of anti_f - inject_Z (Z.of_nat (length anti_f)) * 10 < inject_Z (Z.of_nat 25) * (10 * 1))%Q.
Proof. split; [exact anti_grid|]. split; [exact anti_smallest|reflexivity]. Qed.

(** C23.  Every output value is an input value plus the gradation times the length of a walk. *)
Theorem C23_limiter_walk : forall s2 se elen dfdx d0 d1 d2 ffun imax f,
  (1 <= s2)%Q -> (0 <= se)%Q -> (0 <= elen)%Q -> (0 <= dfdx)%Q -> size_grid d0 d1 d2 ffun ->
  gradient_limit s2 se d0 d1 d2 elen dfdx imax ffun = Ok f ->
  forall i j k, i < d0 -> j < d1 -> k < d2 -> exists i' j' L, i' < d0 /\ j' < d1 /\
    grid_walk d0 d1 elen (elen * s2) (i', j', k) (i, j, k) L /\
    (nth (cell d0 d1 i j k) f 0 == nth (cell d0 d1 i' j' k) ffun 0 + dfdx * L)%Q.
Proof. exact T_walk. Qed.
Print Assumptions C23_limiter_walk.
(** A field within the limit comes back unchanged. *)
Theorem C23_limited_unchanged : forall s2 se elen dfdx d0 d1 d2 ffun imax m,
  (1 <= s2)%Q -> (0 <= se)%Q -> (0 <= elen)%Q -> (0 <= dfdx)%Q -> size_grid d0 d1 d2 ffun ->
  smallest ffun m -> limited d0 d1 d2 ffun (elen * dfdx + m * se)%Q (elen * s2 * dfdx + m * se)%Q ->
  gradient_limit s2 se d0 d1 d2 elen dfdx imax ffun = Ok ffun.
Proof. exact T_unchanged. Qed.
Print Assumptions C23_limited_unchanged.

(** C57.  No field below the input that obeys the limit on all eight neighbours is cut: the result is
    at least the largest such field. *)
Theorem C57_limiter_maximal : forall s2 se elen dfdx d0 d1 d2 ffun imax f h,
  (1 <= s2)%Q -> (0 <= se)%Q -> (0 <= elen)%Q -> (0 <= dfdx)%Q -> size_grid d0 d1 d2 ffun ->
  gradient_limit s2 se d0 d1 d2 elen dfdx imax ffun = Ok f ->
  length h = length ffun -> limited d0 d1 d2 h (elen * dfdx)%Q (elen * s2 * dfdx)%Q ->
  (forall i, i < length ffun -> (nth i h 0 <= nth i ffun 0)%Q) -> forall i, i < length ffun -> (nth i h 0 <= nth i f 0)%Q.
Proof. exact T_maximal. Qed.
Print Assumptions C57_limiter_maximal.
(** A tilted plane on a 2 x 2 grid is limited and is below the bumpy input. *)
Definition plane : list Q := [10; 20; 15; 25]%Q.
Definition bumpy : list Q := [10; 40; 15; 40]%Q.
Example C23_C57_case : size_grid 2 2 1 bumpy /\
  (forall i, i < 4 -> (nth i plane 0 <= nth i bumpy 0)%Q) /\
  limited 2 2 1 plane (100 * (1 # 6))%Q (100 * sqrt2_d * (1 # 6))%Q /\
  gradient_limit sqrt2_d sqrt_eps_d 2 2 1 100 (1 # 6) 9 bumpy <> Ok bumpy.
Proof.
  split.
  { split; [lia|reflexivity|]. intros x Hx. simpl in Hx. decompose [or] Hx; subst; try contradiction; discriminate. }
  split.
  { intros i Hi. do 4 (destruct i as [|i]; [vm_compute; discriminate|]). lia. }
  split.
  { intros i j k i' j' Hi Hj Hk Hi' Hj'. assert (k = 0) by lia. subst.
    destruct i as [|[|]]; try lia; destruct j as [|[|]]; try lia; destruct i' as [|[|]]; try lia; destruct j' as [|[|]]; try lia;
      split; intros H; vm_compute in H; try discriminate; vm_compute; discriminate. }
  vm_compute. discriminate.
Qed.
