(** Property theorems C199: the projection of outside points on IEEE doubles. *)
From Coq Require Import List Arith ZArith Reals SpecFloat.
From Verif Require Import M_Base M_FixMesh M_QualF M_Ieee M_ForceF M_ProjF S_Double S_Ieee S_ProjF P_ProjF.
Import ListNotations.
Open Scope R_scope.

(** C199.  Points are neither added nor removed; a point with distance not above 0 is the same pair of doubles afterwards. *)
Theorem C199_keeps : forall p fd deps, length (project_points_back_f p fd deps) = length p /\
  forall i q, nth_error p i = Some q -> SFltb (S754_zero false) (fd q) = false -> nth_error (project_points_back_f p fd deps) i = Some q.
Proof. exact keeps. Qed.
Print Assumptions C199_keeps.

(** No point of a box, edges included, is moved. *)
Theorem C199_keeps_box : forall x0 xN y0 yN p deps i q, finite_double x0 -> finite_double xN -> finite_double y0 -> finite_double yN -> finite_point q -> nth_error p i = Some q ->
  val x0 <= val (fst q) <= val xN -> val y0 <= val (snd q) <= val yN ->
  nth_error (project_points_back_f p (fun a => bbox_f x0 xN y0 yN (fst a) (snd a)) deps) i = Some q.
Proof. exact keeps_box. Qed.
Print Assumptions C199_keeps_box.

(** A point farthest beyond one side of a box, with coordinates up to 2^k and k at most 22, keeps the coordinate along
    that side and comes to within 2^(k-23) of its distance of that side, plus 2^(k-52). *)
Theorem C199_box_partial : forall k w x0 xN y0 yN p i q, (k <= 22)%nat ->
  size_atmost k x0 -> size_atmost k xN -> size_atmost k y0 -> size_atmost k yN -> size_atmost k (fst q) -> size_atmost k (snd q) ->
  nth_error p i = Some q -> foremost w (val x0) (val xN) (val y0) (val yN) (spot q) -> 0 < beyond w (val x0) (val xN) (val y0) (val yN) (spot q) ->
  exists q', nth_error (project_points_back_f p (fun a => bbox_f x0 xN y0 yN (fst a) (snd a)) deps_f) i = Some q' /\ finite_point q' /\ along w (spot q') = along w (spot q) /\
    Rabs (across w (spot q') - place w (val x0) (val xN) (val y0) (val yN)) <= 2 ^ k / 2 ^ 23 * beyond w (val x0) (val xN) (val y0) (val yN) (spot q) + 2 ^ k / 2 ^ 52.
Proof. exact projects_ok. Qed.
Print Assumptions C199_box_partial.
(** (2, 0.5) outside the unit square goes to (1, 0.5); (0.5, 0.5) stays. *)
Example C199_case : size_atmost 1 f_0 /\ size_atmost 1 d_1 /\ size_atmost 1 ftwo /\ size_atmost 1 d_half /\
  foremost East (val f_0) (val d_1) (val f_0) (val d_1) (spot (ftwo, d_half)) /\ 0 < beyond East (val f_0) (val d_1) (val f_0) (val d_1) (spot (ftwo, d_half)) /\
  project_points_back_f [(ftwo, d_half); (d_half, d_half)] unit_fd deps_f = [(d_1, d_half); (d_half, d_half)].
Proof. exact case_facts. Qed.

(** With coordinates up to 2^26, it lands on the side exactly when the step and the differences are exact. *)
Theorem C199_box_exact : forall k w x0 xN y0 yN p i q, (k <= 26)%nat ->
  size_atmost k x0 -> size_atmost k xN -> size_atmost k y0 -> size_atmost k yN -> size_atmost k (fst q) -> size_atmost k (snd q) ->
  nth_error p i = Some q -> foremost w (val x0) (val xN) (val y0) (val yN) (spot q) -> 0 < beyond w (val x0) (val xN) (val y0) (val yN) (spot q) ->
  let c := across w (spot q) in let P := place w (val x0) (val xN) (val y0) (val yN) in
  representable (c + / 2 ^ 26) -> representable (c - P) -> representable (c + / 2 ^ 26 - P) ->
  exists q', nth_error (project_points_back_f p (fun a => bbox_f x0 xN y0 yN (fst a) (snd a)) deps_f) i = Some q' /\ finite_point q' /\ along w (spot q') = along w (spot q) /\ across w (spot q') = P.
Proof. exact projects_exact. Qed.
Print Assumptions C199_box_exact.
Example C199_case_exact : representable (across East (spot (ftwo, d_half)) + / 2 ^ 26) /\ representable (across East (spot (ftwo, d_half)) - place East (val f_0) (val d_1) (val f_0) (val d_1)) /\
  representable (across East (spot (ftwo, d_half)) + / 2 ^ 26 - place East (val f_0) (val d_1) (val f_0) (val d_1)).
Proof. exact representable_case. Qed.

(** In general the point can end outside: (3, 0.5) beyond the side x = 0.1. *)
Theorem C199_lands_refuted : exists x0 xN y0 yN q q', size_atmost 2 x0 /\ size_atmost 2 xN /\ size_atmost 2 y0 /\ size_atmost 2 yN /\ size_atmost 2 (fst q) /\ size_atmost 2 (snd q) /\
  val x0 < val xN /\ val y0 < val yN /\ foremost East (val x0) (val xN) (val y0) (val yN) (spot q) /\ 0 < beyond East (val x0) (val xN) (val y0) (val yN) (spot q) /\
  project_points_back_f [q] (fun a => bbox_f x0 xN y0 yN (fst a) (snd a)) deps_f = [q'] /\ 0 < beyond East (val x0) (val xN) (val y0) (val yN) (spot q').
Proof. exact not_on_edge. Qed.
Print Assumptions C199_lands_refuted.

(** Beyond a corner the distance of the box is the greatest excess, whose difference quotients add up: (2, 2) outside the
    unit square goes to (1.5, 1.5) only. *)
Theorem C199_corner_refuted : project_points_back_f [(ftwo, ftwo)] unit_fd deps_f = [(d_15, d_15)] /\ unit_fd (d_15, d_15) = d_half.
Proof. exact corner_case. Qed.
Print Assumptions C199_corner_refuted.

(** Where both coordinates are larger than 2^28 (in metres, for instance) the step 2^-26 is lost: no point is moved, for
    any distance function. *)
Theorem C199_far : forall p fd i q, nth_error p i = Some q -> finite_point q -> 2 ^ 28 < Rabs (val (fst q)) <= 2 ^ 100 -> 2 ^ 28 < Rabs (val (snd q)) <= 2 ^ 100 -> finite_double (fd q) ->
  nth_error (project_points_back_f p fd deps_f) i = Some q.
Proof. exact far_kept. Qed.
Print Assumptions C199_far.
Theorem C199_far_refuted : exists q, finite_point q /\ SFltb (S754_zero false) (unit_fd q) = true /\ project_points_back_f [q] unit_fd deps_f = [q].
Proof. exact far_case. Qed.
Print Assumptions C199_far_refuted.
