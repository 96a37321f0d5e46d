(** Property theorems on distance and feature sizes (oceanmesh/edgefx.py:183-426, 752-863).  [fmm] stands
    for skfmm.distance and [medial] for the distance to the medial axis: the theorems hold for all of them.
    [near] is the search for the nearest node. *)
From Coq Require Import List Arith ZArith QArith Qabs.
From Verif Require Import M_Base M_Sdf M_Grid M_Distance P_Sdf S_Grid S_Distance P_Distance.
Import ListNotations.
Open Scope Q_scope.

(** C93.  The nodes nearest to the points are marked and no others; the size is h0 plus rate times the
    distance from them, limited from above.  Without a contour the distance is taken as 999. *)
Theorem C93_distance_sizes : forall fmm near points b h0 rate hi coarsen crs,
  nearest_search near -> plain_points points -> roomy b (h0 * coarsen) ->
  exists g n m phi found, sizing_frame g b (h0 * coarsen) h0 crs n m /\ marks phi n m found /\ found_for g n m points found /\
    match fmm phi (h0 * coarsen) (h0 * coarsen) with
    | Ok dist => exists r, distance_sizing_points fmm near points b h0 rate hi coarsen crs = Ok r /\ sizing_frame r b (h0 * coarsen) h0 crs n m /\ g_fill r = Some None /\
        forall i j, (i < n)%nat -> (j < m)%nat -> exists v, value_at r i j = Fin v /\ limited_above hi (h0 + Qabs (entry dist i j) * rate) v
    | Raise ValueError => exists r, distance_sizing_points fmm near points b h0 rate hi coarsen crs = Ok r /\ sizing_frame r b (h0 * coarsen) h0 crs n m /\ g_fill r = Some None /\
        forall i j, (i < n)%nat -> (j < m)%nat -> exists v, value_at r i j = Fin v /\ limited_above hi (h0 + 999 * rate) v
    | Raise e => distance_sizing_points fmm near points b h0 rate hi coarsen crs = Raise e
    | OutOfFuel => distance_sizing_points fmm near points b h0 rate hi coarsen crs = OutOfFuel
    end.
Proof. exact (fun fmm near points b h0 rate hi coarsen crs H => points_spec fmm near H points b h0 rate hi coarsen crs). Qed.
Print Assumptions C93_distance_sizes.

(** C94.  So no size is below h0, the grid's stored lower bound, nor above the given maximum. *)
Theorem C94_distance_bounds : forall fmm near points b h0 rate hi coarsen crs r,
  nearest_search near -> plain_points points -> roomy b (h0 * coarsen) -> 0 <= rate -> (forall h, hi = Some h -> h0 <= h) ->
  distance_sizing_points fmm near points b h0 rate hi coarsen crs = Ok r ->
  exists n m, sizing_frame r b (h0 * coarsen) h0 crs n m /\
    forall i j, (i < n)%nat -> (j < m)%nat -> exists v, value_at r i j = Fin v /\ h0 <= v /\ (forall h, hi = Some h -> v <= h).
Proof. exact (fun fmm near points b h0 rate hi coarsen crs r H => points_bounds fmm near H points b h0 rate hi coarsen crs r). Qed.
Print Assumptions C94_distance_bounds.
Example C93_C94_case : (plain_points demo_points /\ roomy demo_box (1 * 2) /\ roomy demo_box 1 /\ nearest_search axis_near) /\
  (exists r, distance_sizing_points step_fmm axis_near demo_points demo_box 1 (1 # 4) (Some (6 # 5)) 2 1 = Ok r /\
    (nx r, ny r) = (3, 2)%nat /\ (exists v, value_at r 0 1 = Fin v /\ v == 1) /\ exists v, value_at r 0 0 = Fin v /\ v == 6 # 5) /\
  exists r, distance_sizing_points step_fmm axis_near [] demo_box 1 (1 # 4) None 2 1 = Ok r /\
    exists v, value_at r 0 0 = Fin v /\ v == 1 + 999 * (1 # 4).
Proof. exact (conj demo_ok (conj demo_run demo_none)). Qed.

(** C95.  Lines are sampled so that every place is at most half the edge length after a sample, except
    that a line no longer than half the edge length is refused. *)
Theorem C95_resampling_partial : forall fuel len me n,
  0 < me -> 0 < len -> len <= inject_Z (Z.of_nat n) * (me * (1 # 2)) -> (n < fuel)%nat ->
  (len <= me * (1 # 2) -> resample_line fuel len me = Raise ValueError) /\
  (me * (1 # 2) < len -> exists l, resample_line fuel len me = Ok l /\ (2 <= length l)%nat /\
     (forall k, (k < length l)%nat -> nth k l 0 == 0 + inject_Z (Z.of_nat k) * (me * (1 # 2))) /\
     (forall t, In t l -> 0 <= t < len) /\ (forall t, 0 <= t <= len -> exists s, In s l /\ 0 <= t - s <= me * (1 # 2))).
Proof. exact resample_line_spec. Qed.
Print Assumptions C95_resampling_partial.
Theorem C95_short_line_refuted : exists len me, 0 < len /\ 0 < me /\ forall fuel, (2 <= fuel)%nat -> resample_line fuel len me = Raise ValueError.
Proof. exact short_line_refuted. Qed.
Print Assumptions C95_short_line_refuted.
(** With an edge length that is not positive the loop does not end. *)
Theorem C95_resampling_endless : forall fuel len me, me <= 0 -> 0 < len -> resample_line fuel len me = OutOfFuel.
Proof. exact resample_line_forever. Qed.
Print Assumptions C95_resampling_endless.
Example C95_case : (7 # 2) <= inject_Z (Z.of_nat 4) * (2 * (1 # 2)) /\
  resample_line 5 (7 # 2) 2 = Ok [0; 0 + 2 * (1 # 2); 0 + 2 * (1 # 2) + 2 * (1 # 2); 0 + 2 * (1 # 2) + 2 * (1 # 2) + 2 * (1 # 2)].
Proof. split; [discriminate|exact line_case]. Qed.

(** C96.  The shoreline version uses the points inside the bounding polygon and masks exactly the nodes
    outside it, if there is any shoreline point. *)
Theorem C96_shoreline_mask_partial : forall fmm near inside points b h0 rate hi coarsen crs r mask,
  nearest_search near -> plain_points points -> roomy b (h0 * coarsen) ->
  distance_sizing fmm near inside points b h0 rate hi coarsen crs = Ok (r, mask) ->
  distance_sizing_points fmm near (filter inside points) b h0 rate hi coarsen crs = Ok r /\
  exists n m, sizing_frame r b (h0 * coarsen) h0 crs n m /\
    forall i j, (i < n)%nat -> (j < m)%nat ->
      nth j (nth i mask []) false = match points with [] => true | _ => negb (inside (Fin (x_of r i), Fin (y_of r j))) end.
Proof. exact (fun fmm near inside points b h0 rate hi coarsen crs r mask H => shoreline_spec fmm near H inside points b h0 rate hi coarsen crs r mask). Qed.
Print Assumptions C96_shoreline_mask_partial.
(** Without shoreline points every node is masked, even if all are inside. *)
Theorem C96_shoreline_mask_refuted : exists inside b h0 rate crs r mask n m,
  distance_sizing step_fmm axis_near inside [] b h0 rate None 1 crs = Ok (r, mask) /\ proper_grid r n m /\
  forall i j, (i < n)%nat -> (j < m)%nat -> inside (Fin (x_of r i), Fin (y_of r j)) = true /\ nth j (nth i mask []) false = true.
Proof. exact mask_refuted. Qed.
Print Assumptions C96_shoreline_mask_refuted.
Example C96_case : exists r mask, distance_sizing step_fmm axis_near (fun p => match fst p with Fin x => Qle_bool x 2 | _ => false end)
    demo_points demo_box 1 (1 # 4) None 1 1 = Ok (r, mask) /\
  nth 3 mask [] = [true; true; true; true] /\ nth 2 mask [] = [false; false; false; false].
Proof. eexists _, _. split; [vm_compute; reflexivity|split; reflexivity]. Qed.

(** C97.  Feature sizes: node (i, j) gets the size of node (2 i, 2 j) of the finer grid, 2 (distance to the
    medial axis + distance to the shoreline) / r, raised to the minimum and then lowered to the maximum. *)
Theorem C97_feature_sizes : forall fmm near medial (sdf_le : Q * Q -> bool) points b h0 r lo hi crs,
  nearest_search near -> plain_points points -> roomy b h0 -> 0 < r ->
  exists gc n2 m2 n m phi found ind, sizing_frame gc b (h0 * (1 # 2)) h0 crs n2 m2 /\ box_nodes b h0 n m /\
    (forall i j, (i < n)%nat -> (j < m)%nat -> (2 * i < n2)%nat /\ (2 * j < m2)%nat) /\
    marks phi n2 m2 found /\ found_for gc n2 m2 points found /\
    (forall i j, (i < n2)%nat -> (j < m2)%nat -> entry ind i j = if sdf_le (x_of gc i, y_of gc j) then 1 else 0) /\
    (forall g, feature_sizing fmm near medial sdf_le points b h0 r lo hi crs = Ok g ->
       exists dis dma, fmm phi (h0 * (1 # 2)) (h0 * (1 # 2)) = Ok dis /\ medial ind gc = Ok dma) /\
    forall dis dma, fmm phi (h0 * (1 # 2)) (h0 * (1 # 2)) = Ok dis -> medial ind gc = Ok dma ->
    exists g, feature_sizing fmm near medial sdf_le points b h0 r lo hi crs = Ok g /\ sizing_frame g b h0 h0 crs n m /\ g_fill g = Some None /\
      forall i j, (i < n)%nat -> (j < m)%nat -> exists y v, value_at g i j = Fin v /\
        limited_below lo (2 * (entry dma (2 * i) (2 * j) + Qabs (entry dis (2 * i) (2 * j))) / r) y /\ limited_above hi y v.
Proof. exact (fun fmm near medial sdf_le points b h0 r lo hi crs H => feature_spec fmm near H medial sdf_le points b h0 r lo hi crs). Qed.
Print Assumptions C97_feature_sizes.
Theorem C97_feature_refusal : forall fmm near medial sdf_le points b h0 r lo hi crs,
  r <= 0 -> feature_sizing fmm near medial sdf_le points b h0 r lo hi crs = Raise AssertionError.
Proof. exact feature_refuses. Qed.
Print Assumptions C97_feature_refusal.

(** C98.  The stored lower bound h0 is not a lower bound of the feature sizes, unless a minimum of at least
    h0 is given. *)
Theorem C98_feature_minimum_refuted : exists points b h0 g, plain_points points /\ roomy b h0 /\
  feature_sizing step_fmm axis_near flat_medial (fun _ => true) points b h0 3 None None 1 = Ok g /\
  exists n m i j v, proper_grid g n m /\ (i < n)%nat /\ (j < m)%nat /\ value_at g i j = Fin v /\ g_hmin g = Some (Fin h0) /\ v < h0.
Proof. exact feature_refuted. Qed.
Print Assumptions C98_feature_minimum_refuted.
Theorem C98_feature_minimum_partial : forall fmm near medial sdf_le points b h0 r lo hi crs g,
  nearest_search near -> plain_points points -> roomy b h0 -> 0 < r -> h0 <= lo -> (forall h, hi = Some h -> h0 <= h) ->
  feature_sizing fmm near medial sdf_le points b h0 r (Some lo) hi crs = Ok g ->
  exists n m, sizing_frame g b h0 h0 crs n m /\ forall i j, (i < n)%nat -> (j < m)%nat -> exists v, value_at g i j = Fin v /\ h0 <= v.
Proof. exact feature_lower. Qed.
Print Assumptions C98_feature_minimum_partial.
(** The demonstration points and box meet the hypotheses of C97 and C98. *)
Example C97_C98_case : (plain_points demo_points /\ roomy demo_box (1 * 2) /\ roomy demo_box 1 /\ nearest_search axis_near) /\
  exists g, feature_sizing step_fmm axis_near flat_medial (fun _ => true) demo_points demo_box 1 3 (Some (3 # 2)) None 1 = Ok g /\
    exists v, value_at g 0 0 = Fin v /\ v == 3 # 2.
Proof. split; [exact demo_ok|]. eexists. split; [vm_compute; reflexivity|]. eexists. split; [vm_compute; reflexivity|reflexivity]. Qed.
