(** Theorems about simplifying, clipping and classifying shorelines and about the construction of a Shoreline (C116 to C122). *)
From Coq Require Import String List Arith Bool ZArith QArith Qabs.
From Verif Require Import M_Base M_Shore M_Dem S_Shore M_Clip S_Clip S_Cells P_Clip.
Import ListNotations.
Open Scope nat_scope.

(** C116.  _nth_simplify keeps every point inside and the ends.  Missing: a closed ring stays closed and no point is repeated, which
    are false. *)
Theorem C116_simplified_partial : forall contains (rings : list (list (Q * Q))), rings <> [] -> Forall (fun r => r <> []) rings ->
  exists lines, nth_simplify contains (concat (map term rings)) = Ok (concat (map term lines)) /\
    Forall2 (fun r line => simplified contains (removelast r) line) rings lines.
Proof. exact simplify_all. Qed.
Print Assumptions C116_simplified_partial.
Theorem C116_closed_refuted : exists r, hd (0, 0)%Q r = last r (0, 0)%Q /\ nth_simplify (fun _ => true) (term r) = Ok (term (removelast r)) /\
  hd (0, 0)%Q (removelast r) <> last (removelast r) (0, 0)%Q.
Proof. exact simplify_open. Qed.
Print Assumptions C116_closed_refuted.
Theorem C116_distinct_refuted : exists contains r, NoDup (removelast r) /\ nth_simplify contains (term r) = Ok (term [(0, 0); (1, 0); (2, 0); (2, 0)]%Q).
Proof. exact simplify_twice. Qed.
Print Assumptions C116_distinct_refuted.
Example C116_case : nth_simplify (fun p => Qle_bool (fst p) 1) (term [(0, 0); (2, 0); (3, 0); (4, 0); (5, 0); (6, 0); (7, 0); (8, 0); (9, 0); (10, 0); (11, 0); (12, 0); (1, 1); (0, 0)]%Q) =
  Ok (term [(0, 0); (2, 0); (1, 1)]%Q).
Proof. exact simplify_case. Qed.

(** C117.  _clip_polys_2, one part, with a mask that is right off the box's sides: a ring inside is left as it is, a ring without points
    inside is dropped, and of any other the points inside stay in order, with at most the box's four corners added; the line is closed
    up to numpy's tolerance.  Missing: exact closure, which is false. *)
Theorem C117_part_partial : forall (contains : Q * Q -> bool) bbox delta ring, let b := wider bbox delta in
  (forall p, strictly_in_box b p -> contains p = true) -> (forall p, contains p = true -> in_box b p) -> (xmin_of b < xmax_of b)%Q -> (ymin_of b < ymax_of b)%Q -> ring <> [] ->
  (forallb contains ring = true -> clip_part2 contains (inflate bbox delta) (term ring) = Ok [term ring]) /\
  (existsb contains ring = false -> clip_part2 contains (inflate bbox delta) (term ring) = Ok []) /\
  (forallb contains ring = false -> existsb contains ring = true ->
     exists line p0 r, clip_part2 contains (inflate bbox delta) (term ring) = Ok [term (p0 :: r)] /\
       snapped contains b [] ring line /\ line <> [] /\ hd_error line = Some p0 /\ (p0 :: r = line \/ p0 :: r = line ++ [p0]) /\ near_points p0 (last (p0 :: r) p0) /\
       sub (filter contains ring) line /\ (forall x, In x line -> (In x ring /\ contains x = true) \/ corner b x) /\
       length line <= length (filter contains ring) + 4 /\ (forall x, In x (p0 :: r) -> in_box b x)).
Proof. exact clip2_part. Qed.
Print Assumptions C117_part_partial.
Theorem C117_refused : forall contains rings bbox delta, Forall (fun r => r <> []) rings ->
  (forall r p, In r rings -> In p r -> contains p = false) -> clip_polys_2 contains (concat (map term rings)) bbox delta = Raise ValueError.
Proof. exact clip2_refused. Qed.
Print Assumptions C117_refused.
Theorem C117_closed_refuted : exists contains ring out, (forall p, contains p = true <-> strictly_in_box (wider (0, 100, 0, 10)%Q (1 # 10)) p) /\
  clip_polys_2 contains (term ring) (0, 100, 0, 10)%Q (1 # 10) = Ok (term out) /\ hd_error out = Some (99, 1)%Q /\ last out (0, 0)%Q = (99, 1000009 # 1000000)%Q.
Proof. exact clip2_open. Qed.
Print Assumptions C117_closed_refuted.
Example C117_case : let contains := fun p : Q * Q => (ltQ (-1 # 10) (fst p) && ltQ (fst p) (41 # 10)) && (ltQ (-1 # 10) (snd p) && ltQ (snd p) (41 # 10)) in
  (forall p, strictly_in_box (wider (0, 4, 0, 4)%Q (1 # 10)) p -> contains p = true) /\ (forall p, contains p = true -> in_box (wider (0, 4, 0, 4)%Q (1 # 10)) p) /\
  clip_polys_2 contains (term (sq 2 2 9 9)) (0, 4, 0, 4)%Q (1 # 10) = Ok (term [(2, 2); (41 # 10, 41 # 10); (2, 2)]%Q).
Proof. exact clip2_case. Qed.

(** C118.  _clip_polys leaves of valid polygons the rings contained in the box and the exterior rings of the other intersections, in
    order; taking all rows of such a ring but two gives the ring back.  Missing: invalid and touching polygons, for which the claim is
    false: a ring whose buffer has two parts in the box is written twice, and a touching one raises. *)
Theorem C118_rings_partial : forall G (make : list (Q * Q) -> res G) valid buffered contains intersection bbox delta b rings gs,
  make (box_points (wider bbox delta)) = Ok b ->
  Forall2 (fun ring g => ring <> [] /\ make (removelast ring) = Ok g /\ valid g = true /\ Forall (fun o => exists xy, o = Some xy /\ xy <> []) (intersection g b)) rings gs ->
  exists out, clip_polys G make valid buffered contains intersection (concat (map term rings)) bbox delta = Ok out /\
    convert_to_list out = concat (map (fun q => clip_outcome contains intersection b (fst q) (snd q)) (combine rings gs)).
Proof. exact clip_polys_ok. Qed.
Print Assumptions C118_rings_partial.
Theorem C118_read_back : forall xy, xy <> [] -> but_two (ring_part xy) = xy.
Proof. exact but_two_ring_part. Qed.
Print Assumptions C118_read_back.
Theorem C118_touching_refuted : forall G (make : list (Q * Q) -> res G) valid buffered contains intersection bbox delta b ring g l,
  make (box_points (wider bbox delta)) = Ok b -> ring <> [] -> make (removelast ring) = Ok g -> valid g = true ->
  contains b g = false -> intersection g b = None :: l -> clip_polys G make valid buffered contains intersection (term ring) bbox delta = Raise AttributeError.
Proof. exact clip_touching. Qed.
Print Assumptions C118_touching_refuted.
Theorem C118_twice_refuted : forall G (make : list (Q * Q) -> res G) valid buffered contains intersection bbox delta b ring g g1 g2,
  make (box_points (wider bbox delta)) = Ok b -> ring <> [] -> make (removelast ring) = Ok g -> valid g = false ->
  buffered g = [g1; g2] -> contains b g1 = true -> contains b g2 = true ->
  clip_polys G make valid buffered contains intersection (term ring) bbox delta = Ok (term ring ++ term ring).
Proof. exact clip_repeats. Qed.
Print Assumptions C118_twice_refuted.
Example C118_case : clip_polys (list cell) cells_make (fun _ => true) (fun g => [g]) cells_contains cells_intersection (term (sq 0 0 1 1) ++ term (sq 1 1 3 2) ++ term (sq 5 5 6 6)) (0, 2, 0, 2)%Q (1 # 10) =
  Ok (term (sq 0 0 1 1) ++ ring_part (sq 1 1 2 2)).
Proof. exact clip_case. Qed.

Example C118_wrong_case :
  (let touch := fun a b : list cell => if nonempty (filter (has b) a) then cells_intersection a b else [None] in
   clip_polys (list cell) cells_make (fun _ => true) (fun g => [g]) cells_contains touch (term (sq 2 0 3 1)) (0, 2, 0, 2)%Q (1 # 10) = Raise AttributeError) /\
  clip_polys (list cell) cells_make (fun _ => false) (fun g => map (fun c => [c]) g) cells_contains cells_intersection (term (sq 0 0 1 2)) (0, 2, 0, 2)%Q (1 # 10) =
    Ok (term (sq 0 0 1 2) ++ term (sq 0 0 1 2)).
Proof. split; vm_compute; reflexivity. Qed.

(** C119.  _classify_shoreline (not stereo) with polygons that behave like sets: the parts have kinds that are right for what is left of the box, the
    islands and the shore parts are written in order, and the region is the box without the shore parts; islands lie in it when the polygons are
    disjoint.  Missing: land is no part of the region, which is false when a polygon covers the whole box. *)
Theorem C119_kinds_partial : forall G X (make : list (Q * Q) -> res G) contains overlaps difference area exteriors stereo_area (mem : G -> X -> Prop),
  set_like mem contains overlaps difference ->
  forall bbox boubox polys h0 mult boxmask bb b gs, outline bbox boubox h0 boxmask = Ok bb -> make bb = Ok b ->
  Forall2 (fun part g => make (but_two part) = Ok g) (convert_to_list polys) gs -> (forall g xy, In xy (exteriors g) -> xy <> []) ->
  exists ks region, length ks = length gs /\
    classify_shoreline G make contains overlaps difference area exteriors stereo_area bbox boubox polys h0 mult false boxmask =
      Ok (concat (of_kind Island ks (convert_to_list polys)), concat (of_kind Shore ks (convert_to_list polys)), concat (map ring_part (exteriors region))) /\
    (forall x, mem region x <-> remaining mem b ks gs (length gs) x) /\
    forall i g k, nth_error gs i = Some g -> nth_error ks i = Some k -> kind_right mem area (mult * (h0 * h0)) (remaining mem b ks gs i) g k.
Proof. exact classify_ok. Qed.
Print Assumptions C119_kinds_partial.
Theorem C119_islands : forall G X (area : G -> Q) (mem : G -> X -> Prop) amin b ks gs, length ks = length gs ->
  (forall i g k, nth_error gs i = Some g -> nth_error ks i = Some k -> kind_right mem area amin (remaining mem b ks gs i) g k) ->
  (forall i j g h x, i <> j -> nth_error gs i = Some g -> nth_error gs j = Some h -> mem g x -> ~ mem h x) ->
  forall i g x, nth_error ks i = Some Island -> nth_error gs i = Some g -> mem g x -> remaining mem b ks gs (length gs) x.
Proof. exact islands_stay. Qed.
Print Assumptions C119_islands.
Theorem C119_landlocked_refuted : forall G X (make : list (Q * Q) -> res G) contains overlaps difference area exteriors stereo_area (mem : G -> X -> Prop)
  bbox boubox ring h0 mult boxmask bb b g, set_like mem contains overlaps difference ->
  outline bbox boubox h0 boxmask = Ok bb -> make bb = Ok b -> ring <> [] -> make (removelast ring) = Ok g -> (forall e xy, In xy (exteriors e) -> xy <> []) ->
  (forall x, mem b x -> mem g x) -> (exists x, mem g x /\ ~ mem b x) ->
  classify_shoreline G make contains overlaps difference area exteriors stereo_area bbox boubox (term ring) h0 mult false boxmask = Ok ([], [], concat (map ring_part (exteriors b))).
Proof. exact landlocked. Qed.
Print Assumptions C119_landlocked_refuted.
(** The outline is the ring given, counter-clockwise if it is convex, or the box, divided to h0/2. *)
Theorem C119_outline : forall bbox (ps : list (Q * Q)) h0 boxmask bb, (0 < h0)%Q -> (forall l, length (boxmask l) = length l) -> (convex_ccw ps \/ convex_cw ps) -> ps <> [] ->
  outline bbox (map Some ps) h0 boxmask = Ok bb ->
  exists ring, (ring = ps \/ ring = rev ps) /\ (0 < area2 ring)%Q /\ densified (h0 / 2) (map Some ring) (boxmask (map Some ring)) (map Some bb).
Proof. exact outline_ring. Qed.
Print Assumptions C119_outline.
Theorem C119_outline_box : forall bbox h0 boxmask, (0 < h0)%Q -> (forall l, length (boxmask l) = length l) ->
  exists bb, outline bbox [] h0 boxmask = Ok bb /\ densified (h0 / 2) (map Some (box_points bbox)) (boxmask (map Some (box_points bbox))) (map Some bb).
Proof. exact outline_box. Qed.
Print Assumptions C119_outline_box.
Example C119_case : set_like (fun a x => In x a) cells_contains cells_overlaps cells_difference /\
  (forall g xy, In xy (cells_exteriors g) -> xy <> []) /\
  cells_classify (0, 2, 0, 2)%Q (term (sq 0 0 1 1) ++ term (sq 1 (-1) 3 3)) 1 1 =
    Ok (term (sq 0 0 1 1), term (sq 1 (-1) 3 3), concat (map ring_part (cells_exteriors [(0, 0); (0, 1)]%Z))).
Proof. exact classify_case. Qed.
Example C119_landlocked_case : cells_classify (0, 2, 0, 2)%Q (term (sq (-1) (-1) 3 3)) 1 1 = Ok ([], [], concat (map ring_part (cells_exteriors [(0, 0); (0, 1); (1, 0); (1, 1)]%Z))).
Proof. exact landlocked_case. Qed.

(** C120.  A Shoreline refuses an h0 or area multiplier that is not positive and negative refinements; otherwise islands of less than a quarter of
    minimum_area_mult * h0**2 are removed.  The documented minimum_area_mult * h0**2 (and h0 * minimum_area_mult) is refuted. *)
Theorem C120_threshold_partial : forall G X (make : list (Q * Q) -> res G) valid buffered contains overlaps intersection difference area exteriors stereo_area (mem : G -> X -> Prop),
  set_like mem contains overlaps difference ->
  forall bbox boubox h0 n mult smooth read mask boxmask inner mainland out bb,
  build G make valid buffered contains overlaps intersection difference area exteriors stereo_area bbox boubox h0 n mult smooth false read mask boxmask = Ok (inner, mainland, out, bb) ->
  (0 < h0)%Q /\ (0 <= n)%Z /\ (0 < mult)%Q /\ bb = bbox /\
  exists b parts gs ks, Forall2 (fun part g => make (but_two part) = Ok g) parts gs /\ length ks = length gs /\
    inner = concat (of_kind Island ks parts) /\ mainland = concat (of_kind Shore ks parts) /\
    (forall i g k, nth_error gs i = Some g -> nth_error ks i = Some k -> kind_right mem area (mult * (h0 * h0) / 4) (remaining mem b ks gs i) g k).
Proof. exact build_threshold. Qed.
Print Assumptions C120_threshold_partial.
Theorem C120_refused : forall G (make : list (Q * Q) -> res G) valid buffered contains overlaps intersection difference area exteriors stereo_area
  bbox boubox h0 n mult smooth stereo read mask boxmask, (h0 <= 0)%Q \/ (n < 0)%Z \/ (mult <= 0)%Q ->
  build G make valid buffered contains overlaps intersection difference area exteriors stereo_area bbox boubox h0 n mult smooth stereo read mask boxmask = Raise ValueError.
Proof. exact build_refused. Qed.
Print Assumptions C120_refused.
Theorem C120_documented_refuted : exists bbox h0 mult ring mainland out g, cells_build bbox h0 mult (term ring) = Ok (term ring, mainland, out, bbox) /\
  cells_make (removelast ring) = Ok g /\ (cells_area g < mult * (h0 * h0))%Q /\ (cells_area g < mult * h0)%Q.
Proof. exact area_kept. Qed.
Print Assumptions C120_documented_refuted.
Theorem C120_linear_refuted : exists bbox h0 mult ring mainland out g, cells_build bbox h0 mult (term ring) = Ok ([], mainland, out, bbox) /\
  cells_make (removelast ring) = Ok g /\ (mult * h0 <= cells_area g)%Q.
Proof. exact area_removed. Qed.
Print Assumptions C120_linear_refuted.

(** C121.  The CRS given is used with an array, with a tuple that looks geographic, or when it is not the default; a Region's own CRS is used with a Region.
    Refuted: a CRS given for a tuple is used (EPSG:4326 given is taken for not given).  The box of an array is the box around its points, which are
    taken as they are or reversed. *)
Theorem C121_used_partial : forall crs (given_is_default same_as_wgs84 : crs -> bool) a c native,
  (given_is_default c = false \/ (exists ring, a = AArray crs ring) \/ exists b, a = ATuple crs b /\ infer_crs_from_coordinates b = true) ->
  (forall b rc, a <> ARegion crs b rc) -> crs_to_use crs given_is_default same_as_wgs84 a c native = c.
Proof. exact (@crs_used). Qed.
Print Assumptions C121_used_partial.
Theorem C121_region : forall crs (given_is_default same_as_wgs84 : crs -> bool) b rc c native,
  crs_to_use crs given_is_default same_as_wgs84 (ARegion crs b rc) c native = rc.
Proof. exact (@crs_region). Qed.
Print Assumptions C121_region.
Theorem C121_given_refuted : exists (given_is_default same_as_wgs84 : string -> bool) b c n, given_is_default c = true /\ c <> n /\
  crs_to_use string given_is_default same_as_wgs84 (ATuple string b) c (Some n) = n.
Proof. exact crs_overridden. Qed.
Print Assumptions C121_given_refuted.
Theorem C121_array_box : forall crs ring r b, ring_and_box crs (AArray crs ring) = Ok (r, b) -> (r = ring \/ r = rev ring) /\ (ring <> [] -> box_around ring b) /\
  (convex_ccw ring \/ convex_cw ring -> 0 < area2 r)%Q.
Proof. exact (@ring_and_box_array). Qed.
Print Assumptions C121_array_box.
Example C121_case : ring_and_box string (AArray string [(0, 0); (0, 2); (3, 2); (3, 0); (0, 0)]%Q) = Ok ([(0, 0); (3, 0); (3, 2); (0, 2); (0, 0)]%Q, (0, 3, 0, 2)%Q).
Proof. vm_compute. reflexivity. Qed.

(** C122.  The box of a stereographic Shoreline is the extent of its points scaled by 0.99; it lies in the extent when the coordinates take both signs.
    Missing: without this it does not, so the claimed overlap fails. *)
Theorem C122_scaled : forall polys, points_of polys <> [] ->
  exists e, box_around (points_of polys) e /\ let '(x0, x1, y0, y1) := e in
    let '(a0, a1, b0, b1) := stereo_box polys in (a0 == x0 * (99 # 100) /\ a1 == x1 * (99 # 100) /\ b0 == y0 * (99 # 100) /\ b1 == y1 * (99 # 100))%Q.
Proof. exact stereo_scaled. Qed.
Print Assumptions C122_scaled.
Theorem C122_inside_partial : forall polys p q r s, In p (points_of polys) -> In q (points_of polys) -> In r (points_of polys) -> In s (points_of polys) ->
  (fst p <= 0 <= fst q)%Q -> (snd r <= 0 <= snd s)%Q -> exists e, box_around (points_of polys) e /\ forall c, corner (stereo_box polys) c -> in_box e c.
Proof. exact stereo_inside. Qed.
Print Assumptions C122_inside_partial.
Theorem C122_inside_refuted : exists polys e c, box_around (points_of polys) e /\ corner (stereo_box polys) c /\ ~ in_box e c.
Proof. exact stereo_outside. Qed.
Print Assumptions C122_inside_refuted.
Example C122_case : stereo_box (term (sq (-1) (-2) 3 4)) = (-99 # 100, 297 # 100, -198 # 100, 396 # 100)%Q.
Proof. vm_compute. reflexivity. Qed.

(** C123.  get_polygon_coordinates reads vector files and csv files by their extension, in lower case, and fails on any other name. *)
Theorem C123_reader : forall A (vector csv : string -> res A) f,
  ((exists pre, f = (pre ++ ".shp")%string \/ f = (pre ++ ".geojson")%string \/ f = (pre ++ ".gpkg")%string) -> get_polygon_coordinates vector csv f = vector f) /\
  ((exists pre, f = (pre ++ ".csv")%string) -> (forall pre, f <> (pre ++ ".shp")%string /\ f <> (pre ++ ".geojson")%string /\ f <> (pre ++ ".gpkg")%string) -> get_polygon_coordinates vector csv f = csv f) /\
  ((forall pre, f <> (pre ++ ".shp")%string /\ f <> (pre ++ ".geojson")%string /\ f <> (pre ++ ".gpkg")%string /\ f <> (pre ++ ".csv")%string) -> get_polygon_coordinates vector csv f = Raise RuntimeError).
Proof. exact (@readers). Qed.
Print Assumptions C123_reader.
Example C123_case : get_polygon_coordinates (fun _ => Ok 1) (fun _ => Ok 2) "coast.shp" = Ok 1 /\ get_polygon_coordinates (fun _ => Ok 1) (fun _ => Ok 2) "coast.csv" = Ok 2 /\
  get_polygon_coordinates (fun _ => Ok 1) (fun _ => Ok 2) "coast.SHP" = Raise RuntimeError.
Proof. repeat split. Qed.
