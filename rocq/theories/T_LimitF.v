(** Property theorems on the gradient limiter of cpp/HamiltonJacobi.cpp on IEEE doubles. *)
From Coq Require Import List Arith Lia ZArith Reals SpecFloat Lra.
From Flocq Require Import Core IEEE754.BinarySingleNaN.
From Verif Require Import M_Base M_LimitF S_Double S_GradLimit S_LimitF P_LimitF.
Import ListNotations.
Open Scope nat_scope.

(** C156.  Sizes stay finite, do not grow, and do not fall below the smallest input, whatever rounds or
    overflows; nan stays nan. *)
Theorem C156_range : forall elen dfdx d0 d1 d2 ffun, amount elen -> amount dfdx -> double_grid d0 d1 d2 ffun -> forall imax,
  exists f, limit_f d0 d1 d2 elen dfdx imax ffun = Ok f /\ length f = length ffun /\
    forall i, i < length ffun ->
      (at_cell ffun i = S754_nan -> at_cell f i = S754_nan) /\
      (at_cell ffun i <> S754_nan -> amount (at_cell f i) /\ (val (at_cell f i) <= val (at_cell ffun i))%R /\
        forall m, smallest_size ffun m -> (m <= val (at_cell f i))%R).
Proof. exact limit_range. Qed.
Print Assumptions C156_range.
(** If the loop stops because no cell is active, side neighbours and main-diagonal neighbours that hold
    sizes obey the gradation with the roundings of the code. *)
Theorem C156_gradation : forall elen dfdx d0 d1 d2 ffun, amount elen -> amount dfdx -> double_grid d0 d1 d2 ffun -> forall imax f m,
  limit_f_flag d0 d1 d2 elen dfdx imax ffun = Ok (f, true) -> smallest_size ffun m ->
  forall i j k, i < d0 -> j < d1 -> k < d2 ->
  let ok a b W := finite_double (at_cell f a) -> finite_double (at_cell f b) ->
    (val (at_cell f a) <= reach (val (at_cell f b)) W (tolerance m))%R /\ (val (at_cell f b) <= reach (val (at_cell f a)) W (tolerance m))%R in
  (S j < d1 -> ok (cell d0 d1 i j k) (cell d0 d1 i (S j) k) (side_growth (val elen) (val dfdx))) /\
  (S i < d0 -> ok (cell d0 d1 i j k) (cell d0 d1 (S i) j k) (side_growth (val elen) (val dfdx))) /\
  (S i < d0 -> S j < d1 -> (val elen <= bpow radix2 1022)%R ->
     ok (cell d0 d1 i j k) (cell d0 d1 (S i) (S j) k) (diagonal_growth (val elen) (val dfdx))).
Proof. exact limit_converged. Qed.
Print Assumptions C156_gradation.
(** The rounded bound exceeds the exact one by a factor of at most 1 + 2^-51. *)
Theorem C156_relative : forall g e d m, (0 <= g)%R -> (0 <= e)%R -> (0 <= d)%R -> (0 <= m)%R ->
  (reach g (side_growth e d) (tolerance m) <= (g + e * d + m / 31622) * (1 + 4 * uro) + bpow radix2 (-1072))%R.
Proof. exact reach_above. Qed.
Print Assumptions C156_relative.
(** Every large enough iteration limit converges, and to the same field, also when the smallest size is 0. *)
Theorem C156_converges : forall elen dfdx d0 d1 d2 ffun, amount elen -> amount dfdx -> double_grid d0 d1 d2 ffun ->
  exists N f, forall imax, N <= imax -> limit_f_flag d0 d1 d2 elen dfdx imax ffun = Ok (f, true).
Proof. exact limit_terminates. Qed.
Print Assumptions C156_converges.
(** No field below the input that obeys the gradation as rounded is cut. *)
Theorem C156_maximal : forall elen dfdx d0 d1 d2 ffun, amount elen -> amount dfdx -> double_grid d0 d1 d2 ffun -> forall imax f h,
  limit_f d0 d1 d2 elen dfdx imax ffun = Ok f -> (val elen <= bpow radix2 1022)%R ->
  (forall i, i < length ffun -> at_cell ffun i <> S754_nan -> (val (at_cell h i) <= val (at_cell ffun i))%R) ->
  limited_f d0 d1 d2 h (side_growth (val elen) (val dfdx)) (diagonal_growth (val elen) (val dfdx)) ->
  forall i, i < length ffun -> at_cell ffun i <> S754_nan -> (val (at_cell h i) <= val (at_cell f i))%R.
Proof. exact limit_maximal. Qed.
Print Assumptions C156_maximal.
(** A field within the limit comes back bit for bit. *)
Theorem C156_unchanged : forall elen dfdx d0 d1 d2 ffun, amount elen -> amount dfdx -> double_grid d0 d1 d2 ffun -> forall imax m,
  smallest_size ffun m -> (val elen <= bpow radix2 1022)%R ->
  (forall i j k i' j', i < d0 -> j < d1 -> k < d2 -> i' < d0 -> j' < d1 ->
    let a := at_cell ffun (cell d0 d1 i j k) in let b := at_cell ffun (cell d0 d1 i' j' k) in a <> S754_nan -> b <> S754_nan ->
    (side_neighbours i j i' j' -> (val a <= reach (val b) (side_growth (val elen) (val dfdx)) (tolerance m))%R) /\
    (touching i j i' j' -> (val a <= reach (val b) (diagonal_growth (val elen) (val dfdx)) (tolerance m))%R)) ->
  limit_f d0 d1 d2 elen dfdx imax ffun = Ok ffun.
Proof. exact limit_unchanged. Qed.
Print Assumptions C156_unchanged.

(** A 2 x 2 grid with a nan in its second cell: 10, nan, 0.1, 40 with spacing 100 and gradation 0.15. *)
Definition d10 := S754_finite false 5629499534213120 (-49).
Definition d40 := S754_finite false 5629499534213120 (-47).
Definition d01 := S754_finite false 7205759403792794 (-56).
Definition d100 := S754_finite false 7036874417766400 (-46).
Definition d015 := S754_finite false 5404319552844595 (-55).
Definition holed : list spec_float := [d10; S754_nan; d01; d40].
Definition holed_out : list spec_float := [d10; S754_nan; d01; S754_finite false 8500544296661811 (-49)].
Example C156_case : amount d100 /\ amount d015 /\ double_grid 2 2 1 holed /\ (val d100 <= bpow radix2 1022)%R /\
  limit_f_flag 2 2 1 d100 d015 10 holed = Ok (holed_out, true).
Proof.
  assert (F : forall m e, valid_binary 53 1024 (S754_finite false m e) = true -> amount (S754_finite false m e)).
  { intros m e H. split; [split; [exact H|reflexivity]|]. unfold val, SF2R. cbn. apply F2R_ge_0. cbn. lia. }
  split; [apply F; reflexivity|]. split; [apply F; reflexivity|]. split.
  { split; [lia|reflexivity| |discriminate]. intros x Hx. cbn in Hx. decompose [or] Hx; subst; try contradiction; try (left; apply F; reflexivity). now right. }
  split; [|vm_compute; reflexivity]. apply Rle_trans with (bpow radix2 7).
  - unfold val, d100, SF2R, F2R. cbn. lra.
  - apply bpow_le. lia.
Qed.

(** C157.  A nan in the first cell switches the limiter off: the tolerance becomes nan and no cell
    is changed. *)
Theorem C157_first_nan : forall d0 d1 d2 elen dfdx imax ffun, 0 < d0 -> 0 < d1 -> 0 < d2 -> length ffun = d0 * d1 * d2 ->
  nth 0 ffun S754_nan = S754_nan -> limit_f d0 d1 d2 elen dfdx imax ffun = Ok ffun.
Proof. exact first_nan. Qed.
Print Assumptions C157_first_nan.
(** So the neighbours of the returned field need not obey the gradation although the loop reports no
    active cell. *)
Theorem C157_refuted : exists d0 d1 d2 elen dfdx ffun m i j,
  amount elen /\ amount dfdx /\ (0 < d0 /\ 0 < d1 /\ 0 < d2)%nat /\ length ffun = (d0 * d1 * d2)%nat /\
  (forall x, In x ffun -> size_or_nan x) /\ smallest_size ffun m /\
  (S i < d0)%nat /\ (j < d1)%nat /\ finite_double (at_cell ffun (cell d0 d1 i j 0)) /\ finite_double (at_cell ffun (cell d0 d1 (S i) j 0)) /\
  (reach (val (at_cell ffun (cell d0 d1 i j 0))) (side_growth (val elen) (val dfdx)) (tolerance m) < val (at_cell ffun (cell d0 d1 (S i) j 0)))%R /\
  forall imax, (2 <= imax)%nat -> limit_f_flag d0 d1 d2 elen dfdx imax ffun = Ok (ffun, true).
Proof. exact off_refuted. Qed.
Print Assumptions C157_refuted.
