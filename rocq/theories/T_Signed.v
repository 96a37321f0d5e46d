(** Theorems about the signed distance function of a shoreline, with its edges and its point-in-polygon kernel, and about meshes made with it
    (C166, C167).  The rows of a ring are its points and a delimiter; [near rows] is what the tree of these rows answers. *)
From Coq Require Import List Arith Bool ZArith QArith Qabs Permutation.
From Verif Require Import M_Base M_Edges M_Sdf M_Inpoly M_FixMesh M_Clean M_Generate M_Shore M_Clip M_Read M_Signed.
From Verif Require Import S_FixMesh S_Generate S_Sdf S_Inpoly S_Cells S_Signed P_Generate P_Signed P_SignedMesh.
Import ListNotations.
Open Scope Q_scope.

(** C166.  For rings with the first point twice at the end the value is the distance to the nearest row, negative where the point is in the outline and
    on no island (up to the kernel's tolerance beside a side). *)
Theorem C166_values : forall ftol (near : list xy -> pt -> Q) inner boxes bb crs st, 0 <= ftol -> (forall rows p, 0 <= near rows p) ->
  boxes <> [] -> Forall shut inner -> Forall shut boxes ->
  exists dom h, signed_distance_function inpoly_fast ftol (fun rows => map (near rows)) (rows_of inner) (rows_of boxes) bb crs st false = Ok dom /\
    d_bbox dom = bb /\ d_crs dom = crs /\ d_stereo dom = st /\ evaluates dom h /\
    forall x y, let q := (x, y) in let d := near (concat (inner ++ boxes)) (Fin x, Fin y) in
      Qabs (h (Fin x, Fin y)) == d /\
      (h (Fin x, Fin y) < 0 -> 0 < d /\ inside_all (near_line ftol) inner boxes q) /\
      (0 < d -> inside_all on_line inner boxes q -> h (Fin x, Fin y) < 0).
Proof. exact signed_values. Qed.
Print Assumptions C166_values.
(** Where at most one island holds the point and no side is near: negative exactly at sea. *)
Theorem C166_sea : forall ftol (near : list xy -> pt -> Q) inner boxes bb crs st, 0 <= ftol -> (forall rows p, 0 <= near rows p) ->
  boxes <> [] -> Forall shut inner -> Forall shut boxes ->
  exists dom h, signed_distance_function inpoly_fast ftol (fun rows => map (near rows)) (rows_of inner) (rows_of boxes) bb crs st false = Ok dom /\ evaluates dom h /\
    forall x y, let q := (x, y) in apart q inner -> (forall l, In l (inner ++ boxes) -> ~ near_line ftol q l) -> 0 < near (concat (inner ++ boxes)) (Fin x, Fin y) ->
      (h (Fin x, Fin y) < 0 <-> at_sea inner boxes q).
Proof. exact sea_values. Qed.
Print Assumptions C166_sea.
Theorem C166_inverted : forall ftol (near : list xy -> pt -> Q) inner boxes bb crs st, boxes <> [] -> Forall shut inner -> Forall shut boxes ->
  exists dom dom' h, signed_distance_function inpoly_fast ftol (fun rows => map (near rows)) (rows_of inner) (rows_of boxes) bb crs st false = Ok dom /\
    signed_distance_function inpoly_fast ftol (fun rows => map (near rows)) (rows_of inner) (rows_of boxes) bb crs st true = Ok dom' /\
    evaluates dom h /\ exists h', evaluates dom' h' /\ forall p, h' p == - h p.
Proof. exact signed_inverted. Qed.
Print Assumptions C166_inverted.
(** The covering knows the outline only. *)
Theorem C166_covering : forall ftol (near : list xy -> pt -> Q) inner boxes bb crs st invert, 0 <= ftol -> (forall rows p, 0 <= near rows p) ->
  boxes <> [] -> Forall shut inner -> Forall shut boxes ->
  exists dom c, signed_distance_function inpoly_fast ftol (fun rows => map (near rows)) (rows_of inner) (rows_of boxes) bb crs st invert = Ok dom /\ covers_by dom c /\
    forall x y, let q := (x, y) in let d := near (concat boxes) (Fin x, Fin y) in
      Qabs (c (Fin x, Fin y)) == d /\
      (c (Fin x, Fin y) < 0 -> 0 < d /\ (odd_many (inside q) true boxes \/ exists l, In l boxes /\ near_line ftol q l)) /\
      (0 < d -> odd_many (inside q) true boxes \/ (exists l, In l boxes /\ on_line q l) -> c (Fin x, Fin y) < 0).
Proof. exact signed_covers. Qed.
Print Assumptions C166_covering.
(** With tolerance zero the ray caster gives the same domain. *)
Theorem C166_kernels : forall query inner boxes bb crs st invert, boxes <> [] -> Forall shut inner -> Forall shut boxes ->
  exists dom dom', signed_distance_function inpoly_fast 0 query (rows_of inner) (rows_of boxes) bb crs st invert = Ok dom /\
    signed_distance_function inpoly_raycasting 0 query (rows_of inner) (rows_of boxes) bb crs st invert = Ok dom' /\
    (forall xs, d_eval dom' xs = d_eval dom xs) /\
    exists c c', d_covering dom = Some c /\ d_covering dom' = Some c' /\ forall xs, c' xs = c xs.
Proof. exact signed_kernels. Qed.
Print Assumptions C166_kernels.
(** A shoreline that leaves no outline is refused. *)
Theorem C166_no_outline : forall ftol query inner bb crs st invert, signed_distance_function inpoly_fast ftol query inner [] bb crs st invert = Raise ValueError.
Proof. exact signed_no_outline. Qed.
Print Assumptions C166_no_outline.
(** The rings of a Shoreline are of this kind, smoothed or not, when those of the file are closed and start off the diagonal and shapely's rings are closed. *)
Theorem C166_from_file_partial : forall (crs : Type) (equals : crs -> crs -> bool) to_crs native gs dst box s rows
  G (make : list point -> res G) valid buffered contains overlaps intersection difference area exteriors stereo_area
  bbox boubox h0 n mult smooth stereo mask boxmask inner mainland out bb,
  transform_to equals to_crs native gs dst = Ok s ->
  (forall z e h, In (GPoly z e h) (explode s) -> ring_off_diagonal e) -> (forall z l, In (GLine z l) (explode s) -> ring_off_diagonal l) ->
  read equals to_crs native gs dst box = Ok rows ->
  (forall g b xy, In (Some xy) (intersection g b) -> closed_ring xy) -> (forall g xy, In xy (exteriors g) -> closed_ring xy) ->
  (forall b l, length (mask b l) = length l) ->
  build G make valid buffered contains overlaps intersection difference area exteriors stereo_area bbox boubox h0 n mult smooth stereo (Ok rows) mask boxmask = Ok (inner, mainland, out, bb) ->
  exists ip bp, inner = rows_of ip /\ out = rows_of bp /\ Forall shut ip /\ Forall shut bp.
Proof. exact file_shut. Qed.
Print Assumptions C166_from_file_partial.
(** An island whose ring starts at a point with two equal coordinates loses that point and a side: a point of the island counts as sea, and the sea to its left as land. *)
Theorem C166_diagonal_refuted : exists gs rows inner mainland out ring land sea,
  gs = [GPoly false ring []] /\ closed_ring ring /\ (forall p, In p ring -> 0 < fst p < 6 /\ 0 < snd p < 6) /\
  read (fun _ _ : unit => true) (fun _ _ g => Ok g) (Some tt) gs tt sea_box = Ok rows /\
  cells_build sea_box 1 1 rows = Ok (inner, mainland, out, sea_box) /\
  inside land ring /\ ~ inside sea ring /\ 0 < fst sea < 6 /\ 0 < snd sea < 6 /\
  forall near : list xy -> pt -> Q, exists dom rows' v w,
    signed_distance_function inpoly_fast 0 (fun r => map (near r)) inner out sea_box None false false = Ok dom /\
    d_eval dom [(Fin (fst land), Fin (snd land)); (Fin (fst sea), Fin (snd sea))] = Ok [v; w] /\
    v == - near rows' (Fin (fst land), Fin (snd land)) /\ w == near rows' (Fin (fst sea), Fin (snd sea)).
Proof. exact island_wrong. Qed.
Print Assumptions C166_diagonal_refuted.
(** The island moved off the diagonal: read, built and evaluated. *)
Example C166_case : ring_off_diagonal off_island /\
  read (fun _ _ : unit => true) (fun _ _ g => Ok g) (Some tt) [GPoly false off_island []] tt sea_box = Ok (rows_of [off_part]) /\ shut off_part /\
  cells_build sea_box 1 1 (rows_of [off_part]) = Ok (rows_of [off_part], [], sea_rows, sea_box) /\ Forall shut sea_cells /\
  match signed_distance_function inpoly_fast 0 (fun _ => map (fun _ => 1)) (rows_of [off_part]) sea_rows sea_box None false false with
  | Ok dom => d_eval dom [(Fin (7 # 2), Fin (5 # 2)); (Fin (3 # 2), Fin (5 # 2)); (Fin (13 # 2), Fin (5 # 2))] | _ => Raise ValueError end = Ok [1 * 1; - (1) * 1; 1 * 1].
Proof. exact off_island_case. Qed.
Print Assumptions C166_case.

(** C167.  The elements generate_mesh returns for such a domain stand for triangles of the last triangulation whose centroid is inside and further than geps
    from every row, and all such triangles are returned. *)
Theorem C167_elements : forall ftol (near : list xy -> pt -> Q) inner boxes bb crs st, 0 <= ftol -> (forall rows p, 0 <= near rows p) ->
  boxes <> [] -> Forall shut inner -> Forall shut boxes ->
  exists dom, signed_distance_function inpoly_fast ftol (fun rows => map (near rows)) (rows_of inner) (rows_of boxes) bb crs st false = Ok dom /\
  let dist := fun c : xy => near (concat (inner ++ boxes)) (Fin (fst c), Fin (snd c)) in
  forall tr forces kleb geps deps dt pfix lock, total_order kleb -> 0 <= geps -> forall n p p' t',
  generate_mesh tr (distance_of dom) forces kleb geps deps dt pfix lock n p = Ok (p', t') ->
  exists q pd td p1, tr (n - 1)%nat q = Ok (pd, td) /\ length p1 = length pd /\
    (forall j, nth j p1 (0, 0) = nth j pd (0, 0) \/ In (nth j p1 (0, 0)) pfix) /\
    forall e, extent_at_most p1 e -> exists m : nat -> nat,
      (forall s, In s t' -> exists t, In t td /\ Permutation (map m (corners t)) (corners s) /\
         (forall i, In i (corners t) -> (m i < length p')%nat /\ S_FixMesh.near (e * ptol_default) (nth i p1 (0, 0)) (nth (m i) p' (0, 0))) /\
         geps < dist (centre p1 t) /\ inside_all (near_line ftol) inner boxes (centre p1 t)) /\
      (forall t, In t td -> geps < dist (centre p1 t) -> inside_all on_line inner boxes (centre p1 t) ->
         exists s, In s t' /\ Permutation (map m (corners t)) (corners s)).
Proof. exact mesh_at_sea. Qed.
Print Assumptions C167_elements.
(** On the island of C166_diagonal_refuted there can be elements. *)
Theorem C167_diagonal_refuted : exists dom p' t' s,
  signed_distance_function inpoly_fast 0 (fun _ => map (fun _ => 1)) island_rows sea_rows sea_box None false false = Ok dom /\
  generate_mesh one_tri (distance_of dom) no_force zedge_leb (1 # 1000) (1 # 16) 1 [] false 2 [(5 # 2, 3 # 2); (7 # 2, 3 # 2); (7 # 2, 7 # 2)] = Ok (p', t') /\
  In s t' /\ inside (centre p' s) island /\ forall i, In i (corners s) -> inside (nth i p' (0, 0)) island.
Proof. exact island_meshed. Qed.
Print Assumptions C167_diagonal_refuted.
(** Off the diagonal: one triangle at sea is kept, one on the island is not. *)
Example C167_case : match signed_distance_function inpoly_fast 0 (fun _ => map (fun _ => 1)) (rows_of [off_part]) sea_rows sea_box None false false with
  | Ok dom => generate_mesh two_tri (distance_of dom) no_force zedge_leb (1 # 1000) (1 # 16) 1 [] false 1
      [(1 # 2, 3 # 2); (3 # 2, 3 # 2); (1 # 2, 5 # 2); (5 # 2, 3 # 2); (7 # 2, 3 # 2); (7 # 2, 5 # 2)]
  | _ => Raise ValueError end = Ok ([(1 # 2, 3 # 2); (1 # 2, 5 # 2); (3 # 2, 3 # 2)], [(1, 0, 2)]%nat).
Proof. exact off_island_mesh. Qed.
Print Assumptions C167_case.
