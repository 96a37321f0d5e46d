(** Property theorems C208: densified shorelines on IEEE doubles. *)
From Coq Require Import List Arith ZArith Reals SpecFloat.
From Verif Require Import M_Base M_Ieee M_ForceF M_DensifyF S_Double S_Ieee S_DensifyF P_StartF P_DensifyF P_DensifyF2.
Import ListNotations.
Open Scope R_scope.

(** Each segment that ends at a marked point is cut into the fewest equal pieces of span at most [d], up to 20 u M; all other segments
    stay. *)
Theorem C208_densify_partial : forall M d poly mask, good_length M d -> length mask = length poly -> Forall (plain_row M) poly -> (Z.of_nat (length poly) <= 2 ^ 30)%Z ->
  exists out, densify_f poly d mask = Ok out /\ densified_f M (val d) poly mask out.
Proof. exact densify_ok. Qed.
Print Assumptions C208_densify_partial.

(** No row is lost or changed; gaps of the result are at most [d] up to 60 u M, unless they were not to be cut. *)
Theorem C208_gap_partial : forall M d poly mask out, good_length M d -> length mask = length poly -> Forall (plain_row M) poly -> (Z.of_nat (length poly) <= 2 ^ 30)%Z -> densify_f poly d mask = Ok out ->
  kept_rows poly out /\ forall i r s, nth_error out i = Some r -> nth_error out (S i) = Some s -> span r s <= val d + 3 * cut_error M \/
  exists k p q, nth_error poly k = Some p /\ nth_error poly (S k) = Some q /\ (nth_error mask (S k) = Some false \/ p = nan2 \/ q = nan2) /\ same_row p r /\ same_row q s.
Proof. exact densify_facts. Qed.
Print Assumptions C208_gap_partial.

(** Gaps can be larger than [d]: from 0 to 0.4 by 0.1. *)
Theorem C208_gap_refuted : exists out r s, densify_f [(f_0, f_0); (d_04, f_0)] s_01 [true; true] = Ok out /\ nth_error out 2 = Some r /\ nth_error out 3 = Some s /\ length out = 5%nat /\ val s_01 < span r s.
Proof. exact gap_case. Qed.
Print Assumptions C208_gap_refuted.
(** There can be a piece too many: from 0.1 to 0.4 by 0.1 there are four, though three are short enough. *)
Theorem C208_fewest_refuted : exists out, densify_f [(s_01, f_0); (d_04, f_0)] s_01 [true; true] = Ok out /\ length out = 5%nat /\ span (s_01, f_0) (d_04, f_0) <= 3 * val s_01.
Proof. exact few_case. Qed.
Print Assumptions C208_fewest_refuted.
(** An infinite longitude at the end of a marked segment raises. *)
Theorem C208_infinite : forall d poly mask k a b, finite_double d -> 0 < val d -> nth_error poly k = Some a -> nth_error poly (S k) = Some b -> nth_error mask (S k) = Some true ->
  finite_point a -> Rabs (val (snd a)) <= 2 ^ 400 -> (exists s, fst b = S754_infinity s) -> finite_double (snd b) -> Rabs (val (snd b)) <= 2 ^ 400 -> densify_f poly d mask = Raise RuntimeError.
Proof. exact infinite_raises. Qed.
Print Assumptions C208_infinite.
Example C208_infinite_case : densify_f [(f_0, f_0); (S754_infinity false, f_0)] s_01 [true; true] = Raise RuntimeError /\ densify_f [(f_0, f_0); (d_04, f_0)] f_0 [true; true] = Raise RuntimeError.
Proof. exact infinite_case. Qed.

(** 0.1 to 0.4 and 0 to 0.4, two lines. *)
Example C208_case : good_length 1 s_01 /\ Forall (plain_row 1) [(s_01, f_0); (d_04, f_0); nan2; (f_0, f_0); (d_04, f_0)].
Proof. exact rows_case. Qed.
