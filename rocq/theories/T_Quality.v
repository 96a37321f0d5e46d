(** Theorems about simp_qual (C16). *)
From Coq Require Import List Reals Lra QArith Qreals Lia.
From Verif Require Import M_Base M_Numpy M_FixMesh M_Clean M_Quality S_Edges S_FixMesh S_Adjacency S_Clean S_Quality.
From Verif Require Import P_Search P_Quality P_QualityClean.
Import ListNotations.
Open Scope R_scope.

(** C16.  The documented quality 2 r / R lies in (0, 1] and is 1 exactly for equilateral triangles; the code returns it
    multiplied by the diameter 2 r of the inscribed circle. *)
Theorem C16_value_partial : forall p0 p1 p2 r rr, S_Quality.area2 p0 p1 p2 <> 0 -> inradius_is p0 p1 p2 r -> circumradius_is p0 p1 p2 rr ->
  tri_qual p0 p1 p2 = (2 * r) * (2 * r / rr) /\ 0 < r /\ 0 < rr.
Proof. exact tri_qual_is. Qed.
Print Assumptions C16_value_partial.
(** All rows of the connectivity; the call fails exactly when a vertex number is too large. *)
Theorem C16_rows : forall p t, Forall (fun f => in_range (length p) f) t ->
  exists qs, simp_qual p t = Ok qs /\ Forall2 (fun f q => let '(i, j, k) := f in
    forall p0 p1 p2 r rr, nth_error p i = Some p0 -> nth_error p j = Some p1 -> nth_error p k = Some p2 ->
      S_Quality.area2 p0 p1 p2 <> 0 -> inradius_is p0 p1 p2 r -> circumradius_is p0 p1 p2 rr -> q = (2 * r) * (2 * r / rr)) t qs.
Proof. exact simp_qual_rows. Qed.
Print Assumptions C16_rows.
Theorem C16_index : forall p t, simp_qual p t = Raise IndexError <-> ~ Forall (fun f => in_range (length p) f) t.
Proof. exact simp_qual_index. Qed.
Print Assumptions C16_index.
Theorem C16_documented_quality : forall p0 p1 p2 r rr, S_Quality.area2 p0 p1 p2 <> 0 -> inradius_is p0 p1 p2 r -> circumradius_is p0 p1 p2 rr ->
  0 < 2 * r / rr <= 1 /\ (2 * r / rr = 1 <-> exists s, equilateral p0 p1 p2 s).
Proof. exact euler. Qed.
Print Assumptions C16_documented_quality.
Theorem C16_radii_exist : forall p0 p1 p2, S_Quality.area2 p0 p1 p2 <> 0 -> exists r rr, inradius_is p0 p1 p2 r /\ circumradius_is p0 p1 p2 rr.
Proof. exact radii_exist. Qed.
Print Assumptions C16_radii_exist.
(** Consequences: it is proportional to the size of the triangle, is side / sqrt 3 for equilateral triangles, exceeds 1, never exceeds
    perimeter / (3 sqrt 3), and, despite the documentation ("signed"), ignores the orientation. *)
Theorem C16_scale_free_refuted : forall p0 p1 p2 k, S_Quality.area2 p0 p1 p2 <> 0 -> 0 < k ->
  tri_qual (scale k p0) (scale k p1) (scale k p2) = k * tri_qual p0 p1 p2.
Proof. exact qual_scales. Qed.
Print Assumptions C16_scale_free_refuted.
Theorem C16_equilateral_refuted : forall p0 p1 p2 s, 0 < s -> equilateral p0 p1 p2 s -> tri_qual p0 p1 p2 = s / sqrt 3.
Proof. exact qual_equilateral. Qed.
Print Assumptions C16_equilateral_refuted.
Theorem C16_at_most_one_refuted : tri_qual (0, 0) (3, 0) (0, 4) = 8 / 5.
Proof. exact qual_345. Qed.
Print Assumptions C16_at_most_one_refuted.
Theorem C16_bounded_by_size : forall p0 p1 p2, S_Quality.area2 p0 p1 p2 <> 0 -> 0 < tri_qual p0 p1 p2 <= perimeter p0 p1 p2 / (3 * sqrt 3).
Proof. exact qual_small. Qed.
Print Assumptions C16_bounded_by_size.
Theorem C16_signed_refuted : forall p0 p1 p2, tri_qual p0 p2 p1 = tri_qual p0 p1 p2.
Proof. exact qual_flip. Qed.
Print Assumptions C16_signed_refuted.
(** So delete_boundary_faces with threshold mq removes EVERY face with a boundary vertex, however well shaped, from a mesh
    whose faces have perimeter below 5 mq (0.5 degrees for the default 0.1, 0.05 for the 0.01 of mesh_clean); rounding of the quality by up to 2% allowed. *)
Theorem C16_small_meshes_lose_boundary_refuted : forall argsort, is_argsort argsort -> forall kleb qual p ts mq, all_used (length p) ts -> has_boundary ts ->
  (forall t, In t ts -> face_area p t <> 0 /\ face_perimeter p t < 5 * Q2R mq) ->
  (forall t, In t ts -> exists q, qual p t = Some q /\ Q2R q <= face_qual p t * (102 / 100)) ->
  exists keep, positions (length ts) (fun i => ~ exists u v, on_boundary ts u v /\ In v (corners (nth i ts no_face))) keep /\
    delete_boundary_faces argsort kleb qual p ts mq =
    (let! f := fix_mesh kleb ptol_default p (faces_at ts keep) true in Ok (fst (fst f), snd (fst f))).
Proof. exact small_mesh. Qed.
Print Assumptions C16_small_meshes_lose_boundary_refuted.

(** A concrete non-degenerate triangle for the hypotheses above. *)
Example C16_case : S_Quality.area2 (0, 0) (3, 0) (0, 4) <> 0 /\ tri_qual (scale 10 (0, 0)) (scale 10 (3, 0)) (scale 10 (0, 4)) = 16.
Proof.
  assert (H : S_Quality.area2 (0, 0) (3, 0) (0, 4) <> 0) by (unfold S_Quality.area2; cbn; lra).
  split; auto. rewrite C16_scale_free_refuted, C16_at_most_one_refuted by (auto; lra). lra.
Qed.
Definition q345 : list (Q * Q) := [(0, 0); (3 # 100, 0); (0, 4 # 100)]%Q.
Example C16_small_case : all_used (length q345) [(0, 1, 2)]%nat /\ face_area q345 (0, 1, 2)%nat <> 0 /\
  face_perimeter q345 (0, 1, 2)%nat = 12 / 100 /\ 12 / 100 < 5 * Q2R (15 # 100) /\
  face_qual q345 (0, 1, 2)%nat = Q2R (16 # 1000).
Proof.
  assert (D1 : dist2d (corner q345 0) (corner q345 1) = 3 / 100). { unfold dist2d, corner, q345, Q2R. cbn -[sqrt pow]. match goal with |- sqrt ?x = _ => replace x with ((3 / 100) ^ 2) by field end. apply sqrt_pow2. lra. }
  assert (D2 : dist2d (corner q345 1) (corner q345 2) = 5 / 100). { unfold dist2d, corner, q345, Q2R. cbn -[sqrt pow]. match goal with |- sqrt ?x = _ => replace x with ((5 / 100) ^ 2) by field end. apply sqrt_pow2. lra. }
  assert (D3 : dist2d (corner q345 2) (corner q345 0) = 4 / 100). { unfold dist2d, corner, q345, Q2R. cbn -[sqrt pow]. match goal with |- sqrt ?x = _ => replace x with ((4 / 100) ^ 2) by field end. apply sqrt_pow2. lra. }
  assert (A : face_area q345 (0, 1, 2)%nat = 12 / 10000) by (unfold face_area, S_Quality.area2, corner, q345, Q2R; cbn; field).
  split; [|split; [rewrite A; lra|split; [|split; [unfold Q2R; cbn; lra|]]]].
  - intros v. cbn. split.
    + intros H. exists (0, 1, 2)%nat. split; auto. cbn. lia.
    + intros (t & [<-|[]] & H). cbn in H. lia.
  - cbn [face_perimeter]. unfold perimeter. rewrite D1, D2, D3. field.
  - change (face_qual q345 (0, 1, 2)%nat) with (tri_qual (corner q345 0) (corner q345 1) (corner q345 2)).
    replace (corner q345 0) with (scale (1 / 100) (0, 0)) by (unfold corner, scale, q345, Q2R; cbn; f_equal; field).
    replace (corner q345 1) with (scale (1 / 100) (3, 0)) by (unfold corner, scale, q345, Q2R; cbn; f_equal; field).
    replace (corner q345 2) with (scale (1 / 100) (0, 4)) by (unfold corner, scale, q345, Q2R; cbn; f_equal; field).
    rewrite C16_scale_free_refuted, C16_at_most_one_refuted; [unfold Q2R; cbn; field|apply C16_case|lra].
Qed.
(** The hypothesis of C16_rows on one face of three points, and a face that names a fourth one. *)
Example C16_rows_case : Forall (fun f => in_range (length [(0, 0); (3, 0); (0, 4)]) f) [(0, 1, 2); (2, 0, 1)]%nat /\
  simp_qual [(0, 0); (3, 0); (0, 4)] [(0, 1, 3)]%nat = Raise IndexError.
Proof. split; [repeat constructor; cbn; lia|reflexivity]. Qed.
