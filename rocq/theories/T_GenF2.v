(** Property theorems C204, C205: the mesh that generate_mesh returns, on IEEE doubles. *)
From Coq Require Import List Arith ZArith Reals SpecFloat.
From Flocq Require Import Core.
From Verif Require Import M_Base M_Edges M_FixMesh M_LapF M_QualF M_Ieee M_ForceF M_ProjF M_GenF S_FixMesh S_Double S_Ieee S_LapF S_ForceF S_GenF P_GenF P_GenF2.
Import ListNotations.
Open Scope R_scope.

(** C204.  Whatever the domain, the sizes and the triangulations are: the points of the returned mesh are points of the last
    triangulation or fixed points, every index is valid, no two triangles have the same corners and every point is used. *)
Theorem C204_returned : forall tr locked fd fh geps deps dt m pfix kleb n p p' t', total_order kleb -> generate_mesh_f tr locked fd fh geps deps dt m pfix kleb n p = Ok (p', t') ->
  (0 < n)%nat /\ p <> [] /\
  (exists q pd td, tr (n - 1)%nat q = Ok (pd, td) /\ (forall x, In x p' -> In x pd \/ In x pfix)) /\
  Forall (in_range (length p')) t' /\ no_two same_vertices t' /\ (forall i, (i < length p')%nat -> exists t, In t t' /\ In i (corners t)).
Proof. exact returned_f. Qed.
Print Assumptions C204_returned.

Theorem C204_rejected : forall tr locked fd fh geps deps dt m pfix kleb n p, (n = 0)%nat \/ p = [] -> generate_mesh_f tr locked fd fh geps deps dt m pfix kleb n p = Raise AssertionError.
Proof. exact no_iterations. Qed.
Print Assumptions C204_rejected.

(** In a box: the true centroid of every returned triangle is deeper inside than geps, up to the roundings of the centroid and the
    merging of close points; no triangle is clockwise by more than a rounding of the squared extent; and the corners of the
    triangles of the last triangulation that are deep enough inside have a returned point in their place. *)
Theorem C204_box : forall tr locked fh geps deps dt mult pfix x0 xN y0 yN kleb, total_order kleb -> finite_double geps -> 0 <= val geps ->
  forall M e, M <= bpow radix2 440 -> within_size M (x0, y0) /\ within_size M (xN, yN) ->
  forall n p p' t', generate_mesh_f tr locked (fun q => bbox_f x0 xN y0 yN (fst q) (snd q)) fh geps deps dt mult pfix kleb n p = Ok (p', t') ->
  exists q pd td p1, tr (n - 1)%nat q = Ok (pd, td) /\ length p1 = length pd /\ (forall j, nth j p1 nan2 = nth j pd nan2 \/ In (nth j p1 nan2) pfix) /\
    (Forall (within_size M) p1 -> extent_atmost p1 e -> extent_atleast p1 (bpow radix2 (-340)) ->
     (forall s, In s t' -> box_depth (val x0) (val xN) (val y0) (val yN) (corner3 p' s) < - val geps + centroid_error M + merge_error e M) /\
     (forall a b c, In (a, b, c) t' -> - (8 * u * (e * e) + bpow radix2 (-1072)) <= Rarea2 (nth a p' nan2) (nth b p' nan2) (nth c p' nan2)) /\
     (forall t i, In t td -> In i (corners t) -> box_depth (val x0) (val xN) (val y0) (val yN) (corner3 p1 t) < - (1 + 2 * u) * val geps - 2 * centroid_error M ->
        exists j, (j < length p')%nat /\ Rabs (val (fst (nth j p' nan2)) - val (fst (nth i p1 nan2))) <= merge_error e M /\ Rabs (val (snd (nth j p' nan2)) - val (snd (nth i p1 nan2))) <= merge_error e M)).
Proof. exact box_result. Qed.
Print Assumptions C204_box.

(** C205.  Fixed points in a box that are among the first points: each is a point of the last triangulation after the fixed points
    are put in place, and if a triangle there is deep enough inside, the returned mesh has a point in the place of the fixed one. *)
Theorem C205_fixed_partial : forall tr locked fh geps deps dt mult pfix x0 xN y0 yN kleb, total_order kleb -> finite_double geps -> 0 <= val geps ->
  forall M e, M <= bpow radix2 440 -> within_size M (x0, y0) /\ within_size M (xN, yN) ->
  forall n p p' t', keeps_places tr -> finite_double dt -> Forall moderate pfix -> distinguishable pfix -> (forall x, In x pfix -> val x0 <= val (fst x) <= val xN /\ val y0 <= val (snd x) <= val yN) -> (forall x, In x pfix -> present p x) ->
  generate_mesh_f tr locked (fun q => bbox_f x0 xN y0 yN (fst q) (snd q)) fh geps deps dt mult pfix kleb n p = Ok (p', t') ->
  exists q pd td p1, tr (n - 1)%nat q = Ok (pd, td) /\ length p1 = length pd /\ (forall j, nth j p1 nan2 = nth j pd nan2 \/ In (nth j p1 nan2) pfix) /\
    forall x, In x pfix -> exists i, (i < length p1)%nat /\ same_place x (pt p1 i) /\
      (Forall (within_size M) p1 -> extent_atmost p1 e -> extent_atleast p1 (bpow radix2 (-340)) ->
       forall t, In t td -> In i (corners t) -> box_depth (val x0) (val xN) (val y0) (val yN) (corner3 p1 t) < - (1 + 2 * u) * val geps - 2 * centroid_error M ->
       exists j, (j < length p')%nat /\ Rabs (val (fst (pt p' j)) - val (fst x)) <= merge_error e M /\ Rabs (val (snd (pt p' j)) - val (snd x)) <= merge_error e M).
Proof. exact box_fixed. Qed.
Print Assumptions C205_fixed_partial.
(** Two iterations in the unit square with opposite corners fixed, and a point at (1, 2): that point ends at the fixed corner (1, 1)
    and is merged with it; the hypotheses hold with M = 1 and e = 2 (see C202_case for the others). *)
Example C205_case : total_order zedge_leb /\ g_run 1 [(f_0, f_0); (g_1, g_1)] g_p = Ok (g_last, g_t) /\ Forall (within_size 1) g_last /\ within_size 1 (f_0, f_0) /\ within_size 1 (g_1, g_1) /\ extent_atmost g_last 2 /\ extent_atleast g_last (bpow radix2 (-340)) /\
  g_mesh 2 [(f_0, f_0); (g_1, g_1)] g_p = Ok ([(f_0, f_0); (g_1, g_1); (g_1, g_low); (g_low, g_1)], [(0, 2, 3); (2, 1, 3)]%nat).
Proof. exact g_mesh_case. Qed.

(** In general they are not all returned: a fixed corner of the unit square in a Delaunay triangulation with two points outside, where
    the centroids of all triangles at the corner are outside. *)
Theorem C205_fixed_refuted : exists tr pfix p p' t' x, keeps_places tr /\ Forall moderate pfix /\ distinguishable pfix /\ (forall x, In x pfix -> 0 <= val (fst x) <= 1 /\ 0 <= val (snd x) <= 1) /\ (forall x, In x pfix -> present p x) /\
  generate_mesh_f tr no_lock unit_box g_fh g_eps deps_f g_02 L0mult_f pfix zedge_leb 1 p = Ok (p', t') /\ t' <> [] /\ In x pfix /\
  forall y, In y p' -> / 4 <= Rabs (val (fst x) - val (fst y)) \/ / 4 <= Rabs (val (snd x) - val (snd y)).
Proof. exact lost_corner. Qed.
Print Assumptions C205_fixed_refuted.
