(** Theorems about triangle quality on doubles (C182-C184). *)
From Coq Require Import List Arith ZArith Lia Reals Lra QArith Qreals SpecFloat.
From Flocq Require Import Core.
From Verif Require Import M_Base M_Numpy M_FixMesh M_Clean M_LimitF M_QualF S_Double S_Edges S_FixMesh S_Adjacency S_Clean S_Quality S_QualF.
From Verif Require Import P_Search P_Interior P_Quality P_QualF P_QualFC.
Import ListNotations.
Open Scope R_scope.

(** C182.  For a triangle in which the triangle inequality holds with d perimeters to spare, simp_qual on doubles is within 2^-47 / d of the
    exact value of its formula, relatively. *)
Theorem C182_accuracy : forall d p0 p1 p2, ordinary_triangle p0 p1 p2 -> / 2 ^ 40 <= d -> fat d (at_point p0) (at_point p1) (at_point p2) ->
  let e := code_quality (at_point p0) (at_point p1) (at_point p2) in
  finite_double (tri_qual_f p0 p1 p2) /\ 0 < e /\ Rabs (val (tri_qual_f p0 p1 p2) - e) <= e / (2 ^ 47 * d).
Proof. exact accuracy. Qed.
Print Assumptions C182_accuracy.
Theorem C182_rows : forall pd ts qs, simp_qual_f pd ts = Ok qs -> length qs = length ts /\
  forall i, (i < length ts)%nat -> let '(a, b, c) := nth i ts no_face in nth i qs S754_nan = tri_qual_f (corner_f pd a) (corner_f pd b) (corner_f pd c).
Proof. exact rows. Qed.
Print Assumptions C182_rows.

(** C183.  Every value is nan or between 0 and the exact bound for the perimeter (up to 10^-12). *)
Theorem C183_range_partial : forall p0 p1 p2, ordinary_triangle p0 p1 p2 -> tri_qual_f p0 p1 p2 = S754_nan \/
  (finite_double (tri_qual_f p0 p1 p2) /\ 0 <= val (tri_qual_f p0 p1 p2) <= perimeter (at_point p0) (at_point p1) (at_point p2) / (3 * sqrt 3) * (1 + / 10 ^ 12)).
Proof. exact range. Qed.
Print Assumptions C183_range_partial.
(** Two corners in the same place always give nan, and so do some triangles with an area. *)
Theorem C183_coincident_refuted : forall p0 p1 p2, ordinary_triangle p0 p1 p2 -> at_point p0 = at_point p1 \/ at_point p1 = at_point p2 \/ at_point p2 = at_point p0 -> tri_qual_f p0 p1 p2 = S754_nan.
Proof. exact coincident. Qed.
Print Assumptions C183_coincident_refuted.
Theorem C183_number_refuted : exists p0 p1 p2, ordinary_triangle p0 p1 p2 /\ S_Quality.area2 (at_point p0) (at_point p1) (at_point p2) <> 0 /\ tri_qual_f p0 p1 p2 = S754_nan.
Proof. exact sliver. Qed.
Print Assumptions C183_number_refuted.

(** C184.  delete_boundary_faces on doubles: faces away from the boundary stay, well-shaped faces on it go or stay by their exact quality, and
    faces with two corners in the same place stay, whatever the threshold. *)
Theorem C184_verdict_refuted : forall argsort, is_argsort argsort -> forall kleb qual p pd ts mq qs, all_used (length p) ts -> has_boundary ts ->
  simp_qual_f pd ts = Ok qs -> Forall2 (fun t x => same_number (qual p t) x) ts qs -> (forall t, In t ts -> ordinary_face pd t) ->
  exists keep, delete_boundary_faces argsort kleb qual p ts mq = (let! f := fix_mesh kleb ptol_default p (faces_at ts keep) true in Ok (fst (fst f), snd (fst f))) /\
    Sorted.StronglySorted lt keep /\
    forall i, (i < length ts)%nat ->
      (~ (exists u v, on_boundary ts u v /\ In v (corners (nth i ts no_face))) -> In i keep) /\
      (collapsed pd (nth i ts no_face) -> In i keep) /\
      (forall d, / 2 ^ 40 <= d -> fat_face d pd (nth i ts no_face) -> Q2R mq <= face_quality_f pd (nth i ts no_face) * (1 - / (2 ^ 47 * d)) -> In i keep) /\
      (forall d, / 2 ^ 40 <= d -> fat_face d pd (nth i ts no_face) -> face_quality_f pd (nth i ts no_face) * (1 + / (2 ^ 47 * d)) < Q2R mq ->
         (exists u v, on_boundary ts u v /\ In v (corners (nth i ts no_face))) -> ~ In i keep).
Proof. exact verdict. Qed.
Print Assumptions C184_verdict_refuted.
(** If all perimeters are below 5 times the threshold, exactly the faces on the boundary whose quality is a number are removed: what is left there
    are the slivers with a quality of nan. *)
Theorem C184_small_mesh : forall argsort, is_argsort argsort -> forall kleb qual p pd ts mq qs, all_used (length p) ts -> has_boundary ts ->
  simp_qual_f pd ts = Ok qs -> Forall2 (fun t x => same_number (qual p t) x) ts qs ->
  (forall t, In t ts -> ordinary_face pd t /\ perimeter_f pd t < 5 * Q2R mq) ->
  exists keep, positions (length ts) (fun i => ~ ((exists u v, on_boundary ts u v /\ In v (corners (nth i ts no_face))) /\ nth i qs S754_nan <> S754_nan)) keep /\
    delete_boundary_faces argsort kleb qual p ts mq = (let! f := fix_mesh kleb ptol_default p (faces_at ts keep) true in Ok (fst (fst f), snd (fst f))).
Proof. exact small_mesh_f. Qed.
Print Assumptions C184_small_mesh.

(** The triangle with sides 3, 4, 5: quality 8 / 5. *)
Example C182_case : ordinary_triangle f00 f30 f04 /\ fat (/ 8) (at_point f00) (at_point f30) (at_point f04) /\
  code_quality (at_point f00) (at_point f30) (at_point f04) = 8 / 5 /\ tri_qual_f f00 f30 f04 = S754_finite false 7205759403792794 (-52).
Proof. exact case_345. Qed.
Example C183_case : ordinary_triangle f00 f00 f04 /\ tri_qual_f f00 f00 f04 = S754_nan.
Proof. exact case_same. Qed.
(** With a threshold of 3 the triangle with sides 3, 4, 5 is removed and the collapsed one stays. *)
Example C184_case : simp_qual_f [f00; f30; f04] tri_col = Ok [S754_finite false 7205759403792794 (-52); S754_nan] /\
  Forall2 (fun t x => same_number (qual_col p345 t) x) tri_col [S754_finite false 7205759403792794 (-52); S754_nan] /\
  all_used 3 tri_col /\ has_boundary tri_col /\ (forall t, In t tri_col -> ordinary_face [f00; f30; f04] t /\ perimeter_f [f00; f30; f04] t < 5 * Q2R 3) /\
  delete_boundary_faces stable_argsort M_Edges.zedge_leb qual_col p345 tri_col 3 = Ok ([(0, 0); (3, 0)]%Q, [(0, 1, 1)]%nat).
Proof. exact case_collapsed. Qed.
