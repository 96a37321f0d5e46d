(** Property theorems C07-C11, C17, C18, C55 and C56 (clean.py).  [argsort] is numpy's default argsort,
    [kleb] the byte order used by np.unique(axis=0), [draw] the random draws, [qual] the face
    quality: the theorems hold for all of them. *)
From Coq Require Import List Arith Bool ZArith QArith Lia.
From Verif Require Import M_Base M_Numpy M_Edges M_FixMesh M_Adjacency M_Clean.
From Verif Require Import S_Edges S_FixMesh S_Adjacency S_Clean.
From Verif Require Import P_Edges P_FixMesh P_Adjacency P_Search P_Exterior P_Interior P_Traversable P_OneFace P_Laplacian P_CleanMore P_MeshClean P_CleanFold.
Import ListNotations.
Open Scope nat_scope.

(** C07.  The flood fill returns for every start face, and flags exactly what is connected to it. *)
Theorem C07_flood_fill_exact : forall argsort, is_argsort argsort -> forall ts start, start < length ts ->
  exists flag, depth_first_search argsort start ts = Ok flag /\ length flag = length ts /\
    forall j, nth j flag false = true <-> connected ts start j.
Proof. exact dfs_spec. Qed.
Print Assumptions C07_flood_fill_exact.
Example C07_case : depth_first_search stable_argsort 2 [(0, 1, 2); (3, 4, 5); (2, 1, 6); (6, 7, 8); (1, 6, 9)] =
  Ok [true; false; true; false; true].
Proof. reflexivity. Qed.

(** C08.  The kept faces are exactly those in components with more than the fraction m of the area,
    each once, whatever faces are drawn. *)
Theorem C08_large_components_kept : forall argsort draw p ts m, is_argsort argsort ->
  (forall k n, 0 < n -> draw k n < n) -> Forall (in_range (length p)) ts ->
  Forall (fun t => (0 <= area2 p t)%Q) ts -> (0 < mesh_area p ts)%Q -> (0 <= m)%Q ->
  exists keep, delete_exterior_faces argsort draw p ts m = Ok (faces_at ts keep) /\ NoDup keep /\
    forall i, In i keep <-> i < length ts /\ large p ts m i.
Proof. exact exterior_exact. Qed.
Print Assumptions C08_large_components_kept.
(** With faces of either orientation the loop still ends and keeps whole components. *)
Theorem C08_whole_components : forall argsort draw p ts m, is_argsort argsort ->
  (forall k n, 0 < n -> draw k n < n) -> Forall (in_range (length p)) ts -> (0 <= m)%Q ->
  exists keep, delete_exterior_faces argsort draw p ts m = Ok (faces_at ts keep) /\ NoDup keep /\
    (forall i, In i keep -> i < length ts) /\ forall i j, In i keep -> connected ts i j -> In j keep.
Proof. exact exterior_total. Qed.
Print Assumptions C08_whole_components.
Definition c08_p : list (Q * Q) := [(0, 0); (1, 0); (0, 1); (1, 1); (5, 5); (5 + (1 # 10), 5); (5, 5 + (1 # 10))]%Q.
Definition c08_t : list face := [(4, 5, 6); (0, 1, 2); (2, 1, 3)].
Example C08_case : Forall (in_range (length c08_p)) c08_t /\ Forall (fun t => (0 <= area2 c08_p t)%Q) c08_t /\
  (0 < mesh_area c08_p c08_t)%Q /\
  delete_exterior_faces stable_argsort (fun k n => n - 1) c08_p c08_t (1 # 20) = Ok [(0, 1, 2); (2, 1, 3)].
Proof.
  split; [unfold in_range; repeat constructor|]. split; [|split; reflexivity].
  repeat (apply Forall_cons; [apply Qle_bool_iff; reflexivity|]). apply Forall_nil.
Qed.

(** C09.  One face is deleted at every boundary vertex with more than two boundary edges (the worst of
    those that qualify), and nothing else. *)
Theorem C09_interior_faces_exact : forall argsort, is_argsort argsort -> forall qual p ts,
  all_used (length p) ts -> Forall nondegenerate ts -> has_boundary ts ->
  exists del keep, delete_interior_faces argsort qual p ts = Ok (faces_at ts keep, del) /\
    positions (length ts) (fun i => ~ In i del) keep /\
    (forall v, 2 < boundary_degree ts v -> exists f, In f del /\ chosen qual p ts v f) /\
    (forall f, In f del -> exists v, 2 < boundary_degree ts v /\ chosen qual p ts v f).
Proof. exact interior_exact. Qed.
Print Assumptions C09_interior_faces_exact.
Theorem C09_nothing_to_delete : forall argsort, is_argsort argsort -> forall qual p ts,
  all_used (length p) ts -> Forall nondegenerate ts -> has_boundary ts -> (forall v, boundary_degree ts v <= 2) ->
  delete_interior_faces argsort qual p ts = Ok (ts, []).
Proof. exact interior_unchanged. Qed.
Print Assumptions C09_nothing_to_delete.
(** Without a boundary (a closed surface, no faces) the call fails. *)
Theorem C09_no_boundary : forall argsort qual p ts, ~ has_boundary ts -> delete_interior_faces argsort qual p ts = Raise IndexError.
Proof. exact interior_closed. Qed.
Print Assumptions C09_no_boundary.
(** Two triangles touching in vertex 2; the second is the worse one. *)
Definition bow_p : list (Q * Q) := [(0, 0); (1, 0); (1, 1); (2, 1); (1, 2)]%Q.
Definition bow_t : list face := [(0, 1, 2); (2, 3, 4)].
Definition bow_q (p : list (Q * Q)) (t : face) : option Q := if fst (fst t) =? 2 then Some (1 # 2) else Some 1%Q.
Example C09_case : all_used (length bow_p) bow_t /\ Forall nondegenerate bow_t /\ boundary_degree bow_t 2 = 4 /\
  delete_interior_faces stable_argsort bow_q bow_p bow_t = Ok ([(0, 1, 2)], [1]).
Proof.
  split; [|split; [repeat constructor; discriminate|split; reflexivity]]. intros v. split.
  - intros H. cbn in H.
    do 5 (destruct v as [|v]; [first [exists (0, 1, 2); split; simpl; auto; fail|exists (2, 3, 4); split; simpl; auto; fail]|]). lia.
  - intros (t & [<-|[<-|[]]] & H); simpl in *; lia.
Qed.

(** C10.  The loop ends: it returns a mesh or raises IndexError (see C55), for every mesh. *)
Theorem C10_terminates : forall argsort, is_argsort argsort -> forall kleb, total_order kleb ->
  forall qual draw, (forall c k n, 0 < n -> draw c k n < n) -> forall m, (0 <= m)%Q ->
  forall p ts, Forall (in_range (length p)) ts ->
  (exists r, make_mesh_boundaries_traversable argsort kleb qual draw p ts m = Ok r) \/
  make_mesh_boundaries_traversable argsort kleb qual draw p ts m = Raise IndexError.
Proof. exact mmbt_total. Qed.
Print Assumptions C10_terminates.
(** Every boundary vertex of the returned mesh has exactly two boundary edges. *)
Theorem C10_traversable_exit : forall argsort, is_argsort argsort -> forall kleb, total_order kleb ->
  forall qual draw, (forall c k n, 0 < n -> draw c k n < n) -> forall m, (0 <= m)%Q ->
  forall p ts p' t', Forall (in_range (length p)) ts ->
  make_mesh_boundaries_traversable argsort kleb qual draw p ts m = Ok (p', t') ->
  manifold t' -> Forall nondegenerate t' -> traversable t'.
Proof. exact mmbt_exit. Qed.
Print Assumptions C10_traversable_exit.
(** The conditions on the result hold if they hold of the input and no two input points are within the
    merging tolerance; then the result is also made of faces of the input. *)
Theorem C10_traversable : forall argsort, is_argsort argsort -> forall kleb, total_order kleb ->
  forall qual draw, (forall c k n, 0 < n -> draw c k n < n) -> forall m, (0 <= m)%Q ->
  forall p ts p' t', Forall (in_range (length p)) ts -> separated ptol_default p -> manifold ts ->
  Forall nondegenerate ts ->
  make_mesh_boundaries_traversable argsort kleb qual draw p ts m = Ok (p', t') ->
  traversable t' /\ submesh p ts p' t' /\ manifold t' /\ Forall nondegenerate t'.
Proof. exact mmbt_spec. Qed.
Print Assumptions C10_traversable.
Theorem C10_traversable_unchanged : forall argsort kleb qual draw m p ts, Forall (in_range (length p)) ts -> Forall nondegenerate ts -> has_boundary ts -> traversable ts ->
  make_mesh_boundaries_traversable argsort kleb qual draw p ts m = Ok (p, ts).
Proof. exact mmbt_noop. Qed.
Print Assumptions C10_traversable_unchanged.
(** The returned mesh is never empty or closed; a closed mesh, or one without faces, fails. *)
Theorem C10_keeps_boundary : forall argsort, is_argsort argsort -> forall kleb, total_order kleb ->
  forall qual draw, (forall c k n, 0 < n -> draw c k n < n) -> forall m, (0 <= m)%Q ->
  forall p ts p' t', Forall (in_range (length p)) ts ->
  make_mesh_boundaries_traversable argsort kleb qual draw p ts m = Ok (p', t') -> has_boundary t'.
Proof. exact mmbt_boundary. Qed.
Print Assumptions C10_keeps_boundary.
Theorem C10_no_boundary : forall argsort kleb qual draw m p ts, ~ has_boundary ts ->
  make_mesh_boundaries_traversable argsort kleb qual draw p ts m = Raise IndexError.
Proof. exact mmbt_closed. Qed.
Print Assumptions C10_no_boundary.
(** The surface of a tetrahedron has no boundary. *)
Example C10_case_closed : ~ has_boundary [(0, 1, 2); (0, 1, 3); (0, 2, 3); (1, 2, 3)].
Proof. intros H. apply has_boundary_edges in H. apply H. reflexivity. Qed.
Example C10_case : Forall (in_range (length bow_p)) bow_t /\ Forall nondegenerate bow_t /\ ~ traversable bow_t /\
  make_mesh_boundaries_traversable stable_argsort zedge_leb bow_q (fun _ _ _ => 0) bow_p bow_t (1 # 20) =
  Ok ([(1, 1); (1, 2); (2, 1)]%Q, [(1, 0, 2)]).
Proof.
  split; [unfold in_range; repeat constructor|]. split; [repeat constructor; discriminate|].
  split; [|vm_compute; reflexivity]. intros H. destruct (H 2); discriminate.
Qed.

(** C55.  That make_mesh_boundaries_traversable always returns is refuted: when no component has more
    than the fraction m of the area, everything is deleted and the empty float array is used as an
    index.  The witness is a row of twenty triangles with the default threshold. *)
Theorem C55_always_returns_refuted : exists p ts,
  Forall (in_range (length p)) ts /\ Forall (fun t => (0 < area2 p t)%Q) ts /\
  separated ptol_default p /\ manifold ts /\ Forall nondegenerate ts /\
  (forall argsort kleb qual draw, is_argsort argsort -> (forall c k n, 0 < n -> draw c k n < n) ->
     make_mesh_boundaries_traversable argsort kleb qual draw p ts (1 # 20) = Raise IndexError).
Proof. exact (ex_intro _ row20_p (ex_intro _ row20_t row20_crash)). Qed.
Print Assumptions C55_always_returns_refuted.
Theorem C55_all_small_fails : forall argsort, is_argsort argsort -> forall kleb qual draw,
  (forall c k n, 0 < n -> draw c k n < n) -> forall p ts m,
  Forall (in_range (length p)) ts -> Forall (fun t => (0 <= area2 p t)%Q) ts ->
  (0 < mesh_area p ts)%Q -> (0 <= m)%Q -> (forall i, i < length ts -> ~ large p ts m i) ->
  Forall nondegenerate ts -> manifold ts -> ~ traversable ts ->
  make_mesh_boundaries_traversable argsort kleb qual draw p ts m = Raise IndexError.
Proof. exact mmbt_all_small. Qed.
Print Assumptions C55_all_small_fails.

(** C11.  Without a limit on the rounds the function ends, and no face of the result has exactly one
    neighbour; its faces are faces of the input. *)
Theorem C11_returns : forall argsort, is_argsort argsort -> forall kleb, total_order kleb -> forall mi p ts,
  Forall (in_range (length p)) ts -> mi <> Some 0 ->
  exists p' t', delete_faces_connected_to_one_face argsort kleb mi p ts = Ok (p', t') /\
    (separated ptol_default p -> submesh p ts p' t').
Proof. exact one_face_ok. Qed.
Print Assumptions C11_returns.
Theorem C11_no_dangling_face : forall argsort, is_argsort argsort -> forall kleb, total_order kleb -> forall p ts p' t',
  Forall (in_range (length p)) ts -> separated ptol_default p -> manifold ts ->
  delete_faces_connected_to_one_face argsort kleb None p ts = Ok (p', t') ->
  manifold t' /\ submesh p ts p' t' /\ forall i, i < length t' -> ~ dangling t' i.
Proof. exact one_face_spec. Qed.
Print Assumptions C11_no_dangling_face.
(** One round deletes exactly the faces with one neighbour, and k+1 rounds are one round and k rounds. *)
Theorem C11_one_round : forall argsort, is_argsort argsort -> forall kleb p ts,
  Forall (in_range (length p)) ts -> manifold ts ->
  exists keep, positions (length ts) (fun i => ~ dangling ts i) keep /\
    (length keep = length ts -> delete_faces_connected_to_one_face argsort kleb (Some 1) p ts = Ok (p, ts)) /\
    (length keep < length ts ->
      delete_faces_connected_to_one_face argsort kleb (Some 1) p ts =
      (let! f := fix_mesh kleb ptol_default p (faces_at ts keep) true in Ok (fst (fst f), snd (fst f)))).
Proof. exact one_face_round. Qed.
Print Assumptions C11_one_round.
Theorem C11_rounds : forall argsort, is_argsort argsort -> forall kleb, total_order kleb -> forall k p ts, k <> 0 ->
  delete_faces_connected_to_one_face argsort kleb (Some (S k)) p ts =
  (let! r := delete_faces_connected_to_one_face argsort kleb (Some 1) p ts in
   delete_faces_connected_to_one_face argsort kleb (Some k) (fst r) (snd r)).
Proof. exact rounds. Qed.
Print Assumptions C11_rounds.
(** A fan of four triangles around a point keeps its faces; a triangle hanging on it is removed. *)
Definition fan_p : list (Q * Q) := [(0, 0); (1, 0); (0, 1); (-1, 0); (0, -1); (1, 1)]%Q.
Definition fan_t : list face := [(0, 1, 2); (0, 2, 3); (0, 3, 4); (0, 4, 1); (2, 1, 5)].
Example C11_case : Forall (in_range (length fan_p)) fan_t /\ dangling fan_t 4 /\ ~ dangling fan_t 0 /\
  (exists p' t', delete_faces_connected_to_one_face stable_argsort zedge_leb None fan_p fan_t = Ok (p', t') /\ length t' = 4).
Proof.
  split; [unfold in_range; repeat constructor|]. split; [reflexivity|]. split; [discriminate|].
  eexists; eexists; split; [vm_compute; reflexivity|reflexivity].
Qed.

(** C17.  Exactly the faces with a boundary vertex and a quality below the threshold are removed. *)
Theorem C17_boundary_faces_exact : forall argsort, is_argsort argsort -> forall kleb qual p ts mq,
  all_used (length p) ts -> has_boundary ts ->
  exists keep, positions (length ts)
      (fun i => ~ ((exists u v, on_boundary ts u v /\ In v (corners (nth i ts no_face))) /\
                   exists q, qual p (nth i ts no_face) = Some q /\ (q < mq)%Q)) keep /\
    delete_boundary_faces argsort kleb qual p ts mq =
    (let! f := fix_mesh kleb ptol_default p (faces_at ts keep) true in Ok (fst (fst f), snd (fst f))).
Proof. exact boundary_faces_ok. Qed.
Print Assumptions C17_boundary_faces_exact.
Theorem C17_no_boundary : forall argsort kleb qual p ts mq, ~ has_boundary ts -> delete_boundary_faces argsort kleb qual p ts mq = Raise IndexError.
Proof. exact boundary_faces_closed. Qed.
Print Assumptions C17_no_boundary.
Example C17_case : delete_boundary_faces stable_argsort zedge_leb bow_q bow_p bow_t (3 # 4) =
  Ok ([(0, 0); (1, 0); (1, 1)]%Q, [(0, 1, 2)]).
Proof. vm_compute. reflexivity. Qed.

(** C18.  Smoothing keeps the faces, the boundary vertices, a closest vertex of every pinned point and
    the bounding box, for any number of sweeps and any stopping decision. *)
Theorem C18_smoothing : forall stop k pfix p ts, all_used (length p) ts -> has_boundary ts -> pfix <> Some [] ->
  exists p', laplacian2 stop k pfix p ts = Ok (p', ts) /\ length p' = length p /\
    (forall u v, on_boundary ts u v -> nth v p' (0, 0)%Q = nth v p (0, 0)%Q) /\
    (forall l x, pfix = Some l -> In x l -> exists i, closest x p i /\ nth i p' (0, 0)%Q = nth i p (0, 0)%Q) /\
    forall x, In x p' -> in_box p x.
Proof. exact laplacian_ok. Qed.
Print Assumptions C18_smoothing.
(** A mesh with an unused vertex is returned unchanged. *)
Theorem C18_unused_vertex : forall stop k pfix p ts v, Forall (in_range (length p)) ts -> has_boundary ts -> v < length p ->
  ~ (exists t, In t ts /\ In v (corners t)) -> laplacian2 stop k pfix p ts = Ok (p, ts).
Proof. exact laplacian_invalid. Qed.
Print Assumptions C18_unused_vertex.
(** A mesh without boundary fails, and so does an empty list of pinned points. *)
Theorem C18_no_boundary : forall stop k pfix p ts, Forall (in_range (length p)) ts -> ~ has_boundary ts -> laplacian2 stop k pfix p ts = Raise IndexError.
Proof. exact laplacian_closed. Qed.
Print Assumptions C18_no_boundary.
Theorem C18_empty_pins_refuted : forall stop k p ts, all_used (length p) ts -> has_boundary ts -> laplacian2 stop (S k) (Some []) p ts = Raise IndexError.
Proof. exact laplacian_no_pins. Qed.
Print Assumptions C18_empty_pins_refuted.
(** The documentation of mesh_clean calls the pinned points indices of points; an index i is taken for the point (i, i), and
    vertex i moves. *)
Theorem C18_indices_refuted : exists p ts i, all_used (length p) ts /\ has_boundary ts /\ i < length p /\
  exists p', laplacian2 (fun _ _ => false) 1 (Some [scalar_pin (inject_Z (Z.of_nat i))]) p ts = Ok (p', ts) /\ nth i p' (0, 0)%Q <> nth i p (0, 0)%Q.
Proof. exact pinned_index_moves. Qed.
Print Assumptions C18_indices_refuted.
Theorem C18_scalar_pins : forall stop k l p ts, all_used (length p) ts -> has_boundary ts -> l <> [] ->
  exists p', laplacian2 stop k (Some (map scalar_pin l)) p ts = Ok (p', ts) /\ length p' = length p /\
    forall x, In x l -> exists i, closest (x, x) p i /\ nth i p' (0, 0)%Q = nth i p (0, 0)%Q.
Proof. exact scalar_pins_ok. Qed.
Print Assumptions C18_scalar_pins.
Definition lap_p : list (Q * Q) := [(1 # 2, 1 # 3); (1, 0); (0, 1); (-1, 0); (0, -1)]%Q.
Definition lap_t : list face := [(0, 1, 2); (0, 2, 3); (0, 3, 4); (0, 4, 1)].
Example C18_case : all_used (length lap_p) lap_t /\
  exists x, laplacian2 (fun _ _ => false) 3 None lap_p lap_t = Ok (x :: tl lap_p, lap_t) /\ (fst x == 0 /\ snd x == 0)%Q.
Proof.
  split.
  - intros v. split.
    + intros H. cbn in H.
      do 5 (destruct v as [|v]; [first [exists (0, 1, 2); split; simpl; auto; fail|exists (0, 3, 4); split; simpl; auto; fail]|]). lia.
    + intros (t & Ht & H). simpl in Ht. decompose [or] Ht; subst; simpl in *; try lia; contradiction.
  - eexists. split; [vm_compute; reflexivity|split; reflexivity].
Qed.

(** C56.  What mesh_clean returns: every vertex is used, no face twice, counter-clockwise faces, no
    point twice. *)
Theorem C56_mesh_clean_well_formed : forall argsort kleb, total_order kleb -> forall qual m draw1 draw2 stop mq k pfix p ts p' t',
  mesh_clean argsort kleb qual draw1 draw2 stop mq m k pfix p ts = Ok (p', t') ->
  all_used (length p') t' /\ no_two same_vertices t' /\ Forall (fun t => (0 <= area2 p' t)%Q) t' /\ no_two same_point p'.
Proof. exact mesh_clean_wf. Qed.
Print Assumptions C56_mesh_clean_well_formed.
(** The boundary is traversable if smoothing does not move two points to within the tolerance. *)
Theorem C56_mesh_clean_traversable_partial : forall argsort, is_argsort argsort -> forall kleb, total_order kleb ->
  forall qual m, (0 <= m)%Q -> forall draw1 draw2,
  (forall c k n, 0 < n -> draw1 c k n < n) -> (forall c k n, 0 < n -> draw2 c k n < n) ->
  forall stop mq k pfix p ts p' t',
  Forall (in_range (length p)) ts -> separated ptol_default p -> manifold ts -> Forall nondegenerate ts ->
  mesh_clean argsort kleb qual draw1 draw2 stop mq m k pfix p ts = Ok (p', t') ->
  exists p1 t1 p2, submesh p ts p1 t1 /\ separated ptol_default p1 /\ laplacian2 stop k pfix p1 t1 = Ok (p2, t1) /\
    (separated ptol_default p2 -> traversable t' /\ manifold t' /\ Forall nondegenerate t' /\ submesh p2 t1 p' t').
Proof. exact mesh_clean_spec. Qed.
Print Assumptions C56_mesh_clean_traversable_partial.
(** Without that condition it need not be, even if the input is: smoothing can move two vertices to one point; the two faces on
    both sides of their common side are then one face, and a boundary vertex gets a third boundary side. *)
Theorem C56_traversable_refuted : exists p ts p' t' v,
  Forall (in_range (length p)) ts /\ separated ptol_default p /\ manifold ts /\ Forall nondegenerate ts /\ traversable ts /\
  Forall (fun t => (0 < area2 p t)%Q /\ exists q, fold_q p t = Some q /\ (1 # 100 < q)%Q) ts /\
  mesh_clean stable_argsort zedge_leb fold_q (fun _ _ _ => 0) (fun _ _ _ => 0) (fun _ _ => false) (1 # 100) (1 # 20) 1 None p ts = Ok (p', t') /\
  boundary_degree t' v = 3.
Proof. exact clean_folds. Qed.
Print Assumptions C56_traversable_refuted.
(** Without smoothing (max_iter = 0) the result is a traversable part of the input. *)
Theorem C56_mesh_clean_without_smoothing : forall argsort, is_argsort argsort -> forall kleb, total_order kleb ->
  forall qual m, (0 <= m)%Q -> forall draw1 draw2,
  (forall c k n, 0 < n -> draw1 c k n < n) -> (forall c k n, 0 < n -> draw2 c k n < n) ->
  forall stop mq pfix p ts p' t',
  Forall (in_range (length p)) ts -> separated ptol_default p -> manifold ts -> Forall nondegenerate ts ->
  mesh_clean argsort kleb qual draw1 draw2 stop mq m 0 pfix p ts = Ok (p', t') ->
  traversable t' /\ submesh p ts p' t'.
Proof. exact mesh_clean_no_smoothing. Qed.
Print Assumptions C56_mesh_clean_without_smoothing.
Example C56_case : exists p' t',
  mesh_clean stable_argsort zedge_leb bow_q (fun _ _ _ => 0) (fun _ _ _ => 0) (fun _ _ => false) (1 # 4) (1 # 20) 2 None fan_p fan_t
  = Ok (p', t') /\ length p' = 5 /\ length t' = 4.
Proof. eexists; eexists; split; [vm_compute; reflexivity|split; reflexivity]. Qed.
