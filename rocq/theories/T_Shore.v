(** Property theorems C43-C47, C74, C75 (geodata.py: shoreline helpers). *)
From Coq Require Import List Arith Bool ZArith QArith Qabs.
From Verif Require Import M_Base M_Shore S_Shore P_Shore.
Import ListNotations.
Open Scope Q_scope.

(** ** C43 *)
Theorem C43_parts_array_parts : forall parts, parts <> [] -> Forall part parts ->
  exists arr, convert_to_array parts = Ok arr /\ convert_to_list arr = parts.
Proof. exact to_list_to_array. Qed.
Print Assumptions C43_parts_array_parts.

Theorem C43_array_parts_array : forall parts, parts <> [] -> Forall part parts -> convert_to_array (convert_to_list (concat parts)) = Ok (concat parts).
Proof. exact to_array_to_list. Qed.
Print Assumptions C43_array_parts_array.

(** For arrays with missing or repeated delimiters the parts are still proper and no point is lost. *)
Theorem C43_any_array : forall arr, Forall part (convert_to_list arr) /\ points_of (concat (convert_to_list arr)) = points_of arr.
Proof. exact to_list_any. Qed.
Print Assumptions C43_any_array.

(** An array without points cannot be put together again. *)
Theorem C43_no_points : forall arr, (forall r, In r arr -> r = None) -> convert_to_array (convert_to_list arr) = Raise ValueError.
Proof. exact to_list_empty. Qed.
Print Assumptions C43_no_points.

Example C43_case : let parts := [[Some (0, 0); Some (1, 0); None]; [Some (5, 5); None]] in
  parts <> [] /\ Forall part parts /\ convert_to_list (concat parts) = parts.
Proof.
  split; [discriminate|]. split; [|reflexivity].
  constructor; [exists (0, 0), [(1, 0)]; reflexivity|]. constructor; [exists (5, 5), []; reflexivity|constructor].
Qed.

(** ** C44 *)
(** Each segment that ends at a marked point is cut into the fewest equal pieces that differ by at
    most [d] in each coordinate, all other segments stay, no row is lost, no delimiter is added. *)
Theorem C44_densify : forall d poly mask, 0 < d -> length mask = length poly ->
  densified d poly mask (densify poly d mask) /\ kept poly (densify poly d mask) /\
  length (filter is_nan (densify poly d mask)) = length (filter is_nan poly) /\
  (forall i p q, nth_error (densify poly d mask) i = Some (Some p) -> nth_error (densify poly d mask) (S i) = Some (Some q) ->
     span_le p q d \/ exists k p' q', nth_error poly k = Some (Some p') /\ nth_error poly (S k) = Some (Some q') /\ nth_error mask (S k) = Some false /\ pt_eq p p' /\ pt_eq q q').
Proof. exact densify_total. Qed.
Print Assumptions C44_densify.

Example C44_case : densify [Some (0, 0); Some (3, 1); None; Some (9, 9); Some (9, 5)] 1 [true; true; false; true; false] =
    densify [Some (0, 0); Some (3, 1)] 1 [true; true] ++ [None; Some (9, 9); Some (9, 5)] /\
  length (densify [Some (0, 0); Some (3, 1)] 1 [true; true]) = 4%nat.
Proof. split; vm_compute; reflexivity. Qed.

(** ** C45 *)
Theorem C45_corners : forall k ps, ps <> [] -> exists qs, chaikin k ps = Ok qs /\ corners_cut k ps qs.
Proof. exact chaikin_ok. Qed.
Print Assumptions C45_corners.

Theorem C45_facts : forall k ps qs, corners_cut k ps qs -> ps <> [] ->
  length qs = (length ps * 2 ^ k)%nat /\ in_hull ps qs /\
  (exists p q, nth_error ps 0 = Some p /\ nth_error qs 0 = Some q /\ pt_eq q p) /\
  (exists p q, nth_error ps (length ps - 1) = Some p /\ nth_error qs (length qs - 1) = Some q /\ pt_eq q p).
Proof. exact cuts_facts. Qed.
Print Assumptions C45_facts.

Theorem C45_box : forall ps qs xmin xmax ymin ymax, in_hull ps qs -> (forall p, In p ps -> xmin <= fst p <= xmax /\ ymin <= snd p <= ymax) ->
  forall q, In q qs -> xmin <= fst q <= xmax /\ ymin <= snd q <= ymax.
Proof. exact hull_box. Qed.
Print Assumptions C45_box.

(** The whole shoreline is smoothed part by part. *)
Theorem C45_shoreline : forall parts N, parts <> [] -> Forall part parts -> exists arr parts', smooth_shoreline (concat parts) N = Ok arr /\ convert_to_list arr = parts' /\
  Forall2 (fun p p' => exists ps qs, p = map Some ps ++ [None] /\ p' = map Some qs ++ [None] /\ corners_cut N ps qs) parts parts'.
Proof. exact smooth_ok. Qed.
Print Assumptions C45_shoreline.

Theorem C45_empty : forall k, chaikin (S k) [] = Raise IndexError.
Proof. exact chaikin_empty. Qed.
Print Assumptions C45_empty.

Example C45_case : exists qs, chaikin 2 [(0, 0); (4, 0); (4, 4)] = Ok qs /\ length qs = 12%nat /\
  exists q, nth_error qs 3 = Some q /\ pt_eq q (3 # 2, 0).
Proof. eexists. split; [reflexivity|]. split; [reflexivity|]. eexists. split; [reflexivity|split; vm_compute; reflexivity]. Qed.

(** ** C46 *)
(** For (n, 2) arrays a point on the diagonal is lost, repeated points stay and the last point is repeated. *)
Theorem C46_refuted : exists arr r, remove_dup arr = Ok r /\ ~ no_repeats arr r /\
  (exists p, In p arr /\ ~ exists q, In q r /\ pt_eq p q) /\ (exists i p, nth_error r i = Some p /\ nth_error r (S i) = Some p).
Proof. exact remove_dup_refuted. Qed.
Print Assumptions C46_refuted.

(** Exactly what it returns, for every array of points. *)
Theorem C46_actual : forall arr r, remove_dup arr = Ok r -> exists last, nth_error arr (length arr - 1) = Some last /\
  r = filter (fun p => negb (Qeq_bool (fst p) (snd p))) arr ++ [last].
Proof. exact remove_dup_spec. Qed.
Print Assumptions C46_actual.

(** What shapely gets to see is the ring without its points on the diagonal, so the ring survives
    exactly when it has none. *)
Theorem C46_ring_kept : forall arr, arr <> [] -> (ring_seen arr = Ok (map Some arr) <-> forall p, In p arr -> ~ fst p == snd p).
Proof. exact ring_kept. Qed.
Print Assumptions C46_ring_kept.

(** For one-dimensional arrays the claim holds. *)
Theorem C46_one_dimensional : forall arr, arr <> [] -> exists r, remove_dup_1d arr = Ok r /\ no_repeats_1d arr r.
Proof. exact remove_dup_1d_spec. Qed.
Print Assumptions C46_one_dimensional.

Example C46_case : remove_dup_1d [1; 1; 2; 2; 1] = Ok [1; 2; 1] /\ lagoon <> [] /\
  ring_seen lagoon = Ok [Some (0, 1); Some (2, 1); Some (2, 3); Some (2, 3); Some (0, 3); Some (0, 1)].
Proof. split; [vm_compute; reflexivity|]. split; [discriminate|vm_compute; reflexivity]. Qed.

(** ** C47 *)
(** The first three consecutive points (not counting the very last triple) that are not flat decide. *)
Theorem C47_decides : forall ps b, is_path_ccw ps = Ok b <->
  exists i p q r, (i + 3 < length ps)%nat /\ nth_error ps i = Some p /\ nth_error ps (i + 1) = Some q /\ nth_error ps (i + 2) = Some r /\ ~ flat p q r /\
    (forall j p' q' r', (j < i)%nat -> nth_error ps j = Some p' -> nth_error ps (j + 1) = Some q' -> nth_error ps (j + 2) = Some r' -> flat p' q' r') /\
    (if b then 0 < turn p q r else turn p q r < 0).
Proof. exact ccw_decides. Qed.
Print Assumptions C47_decides.

Theorem C47_raises : forall ps, is_path_ccw ps = Raise RuntimeError <->
  forall i p q r, (i + 3 < length ps)%nat -> nth_error ps i = Some p -> nth_error ps (i + 1) = Some q -> nth_error ps (i + 2) = Some r -> flat p q r.
Proof. exact ccw_raises. Qed.
Print Assumptions C47_raises.

(** For points in convex position the answer is the sign of the area. *)
Theorem C47_convex_partial : forall ps b, convex_ccw ps \/ convex_cw ps -> is_path_ccw ps = Ok b -> if b then 0 < area2 ps else area2 ps < 0.
Proof. exact ccw_convex. Qed.
Print Assumptions C47_convex_partial.

(** A simple counter-clockwise polygon (open or closed path) that is reported as clockwise. *)
Theorem C47_refuted : exists ps, simple_polygon ps /\ 0 < area2 ps /\ is_path_ccw ps = Ok false /\ is_path_ccw (ps ++ firstn 1 ps) = Ok false.
Proof. exact ccw_refuted. Qed.
Print Assumptions C47_refuted.

(** A triangle that is not closed is never accepted, and a box of area at most 1e-8 neither. *)
Theorem C47_open_triangle : forall a b c, is_path_ccw [a; b; c] = Raise RuntimeError.
Proof. exact ccw_open_triangle. Qed.
Print Assumptions C47_open_triangle.

Theorem C47_box : forall xmin xmax ymin ymax, xmin < xmax -> ymin < ymax ->
  is_path_ccw (create_boubox xmin xmax ymin ymax) = if Qle_bool ((xmax - xmin) * (ymax - ymin)) (1 # 100000000) then Raise RuntimeError else Ok true.
Proof. exact ccw_box. Qed.
Print Assumptions C47_box.

Example C47_case : convex_ccw [(0, 0); (2, 0); (2, 2); (0, 2)] /\ is_path_ccw [(0, 0); (2, 0); (2, 2); (0, 2)] = Ok true /\
  convex_cw [(0, 2); (2, 2); (2, 0); (0, 0)] /\ is_path_ccw [(0, 2); (2, 2); (2, 0); (0, 0)] = Ok false.
Proof. exact ccw_case. Qed.

(** ** C74 *)
Theorem C74_poly_area : forall ps, poly_area (map fst ps) (map snd ps) == (1 # 2) * Qabs (area2 ps).
Proof. exact poly_area_spec. Qed.
Print Assumptions C74_poly_area.

(** The signed area does not depend on the starting point or on closing the ring; reversing changes its sign. *)
Theorem C74_closed : forall p l, area2 ((p :: l) ++ [p]) == area2 (p :: l).
Proof. exact area_closed. Qed.
Print Assumptions C74_closed.

Theorem C74_rotate : forall l p, area2 (l ++ [p]) == area2 (p :: l).
Proof. exact area_rotate. Qed.
Print Assumptions C74_rotate.

Theorem C74_reverse : forall ps, area2 (rev ps) == - area2 ps.
Proof. exact area_rev. Qed.
Print Assumptions C74_reverse.

Theorem C74_box : forall x0 x1 y0 y1, area2 (create_boubox x0 x1 y0 y1) == 2 * ((x1 - x0) * (y1 - y0)).
Proof. exact area_box. Qed.
Print Assumptions C74_box.

Example C74_case : poly_area [4; 1; 0; 0] [0; 1; 4; 0] == 4 /\ area2 arrow == 8.
Proof. split; vm_compute; reflexivity. Qed.

(** ** C75 *)
Theorem C75_overlap : forall x0 x1 y0 y1 u0 u1 v0 v1, x0 < x1 -> y0 < y1 -> u0 <= u1 -> v0 <= v1 ->
  (is_overlapping (x0, x1, y0, y1) (u0, u1, v0, v1) = true <-> exists p, inside_box (x0, x1, y0, y1) p /\ u0 <= fst p <= u1 /\ v0 <= snd p <= v1).
Proof. exact overlapping_iff. Qed.
Print Assumptions C75_overlap.

Example C75_case : is_overlapping (0, 2, 0, 2) (1, 1, -1, 3) = true /\ is_overlapping (0, 2, 0, 2) (2, 3, 0, 2) = false.
Proof. split; reflexivity. Qed.
