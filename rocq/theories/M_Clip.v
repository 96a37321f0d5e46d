(** Model of the clipping, simplification and classification of shorelines (oceanmesh/geodata.py:568-842) and of the
    construction of a Shoreline (lines 914-1053).  Shapely's geometry and matplotlib's contains_points are parameters. *)
From Coq Require Import String List Arith Bool ZArith QArith Qabs.
From Verif Require Import M_Base M_Shore M_Dem.
Import ListNotations.
Open Scope nat_scope.

(** The points among all rows of a part but the last two: poly[:-2, :] (geodata.py:602, 775, 821).  A part has at
    least one point and ends with the delimiter, so these rows are points. *)
Definition but_two (poly : list row) : list point := points_of (firstn (length poly - 2) poly).
(** poly[:-1, :] (geodata.py:690). *)
Definition but_one (poly : list row) : list point := points_of (removelast poly).

(** geodata.py:820-837: the loop over one part; [ins] is the mask of line 821.  Every turn raises j, so the number of
    points is fuel enough. *)
Fixpoint simplify_loop (fuel : nat) (pts : list point) (ins : list bool) (j : nat) (line : list point) : res (list point) :=
  if j <? length pts then
    match fuel with
    | O => OutOfFuel
    | S k =>
        let! i := get ins j in
        let! p := get pts j in
        if i then simplify_loop k pts ins (j + 1) (line ++ [p])
        else
          let bd := Nat.min (j + 50) (length ins - 1) in
          let exte := Nat.min 50 (bd - j) in
          if existsb (fun b => b) (slice ins j bd) then simplify_loop k pts ins (j + 1) (line ++ [p])
          else let! q := get pts (j + exte) in simplify_loop k pts ins (j + exte + 1) (line ++ [p; q])
    end
  else Ok line.
Definition simplify_part (contains : point -> bool) (pts : list point) : res (list point) :=
  simplify_loop (length pts) pts (map contains pts) 0 [].
(** geodata.py:811-842; [contains] is contains_points of the path around bbox. *)
Definition nth_simplify (contains : point -> bool) (polys : list row) : res (list row) :=
  let! out := mapM (fun poly => let! line := simplify_part contains (but_two poly) in Ok (map Some line ++ [None])) (convert_to_list polys) in
  convert_to_array out.

Definition box4 : Type := (Q * Q * Q * Q)%type.
Definition xmin_of (b : box4) : Q := fst (fst (fst b)).
Definition xmax_of (b : box4) : Q := snd (fst (fst b)).
Definition ymin_of (b : box4) : Q := snd (fst b).
Definition ymax_of (b : box4) : Q := snd b.
(** geodata.py:682, 766. *)
Definition inflate (b : box4) (delta : Q) : box4 := (xmin_of b - delta, xmax_of b + delta, ymin_of b - delta, ymax_of b + delta)%Q.
Definition ltQ (a b : Q) : bool := negb (Qle_bool b a).
(** The four flags _keepLL, _keepUL, _keepLR, _keepUR (geodata.py:696-699). *)
Record keep : Type := { kLL : bool; kUL : bool; kLR : bool; kUR : bool }.
(** geodata.py:706-732, one point that is not inside: what replaces it ([None]: removed) and the flags. *)
Definition snap (b : box4) (k : keep) (p : point) : option point * keep :=
  let px := fst p in let py := snd p in
  if negb (ltQ (xmin_of b) px && ltQ px (xmax_of b)) || negb (ltQ (ymin_of b) py && ltQ py (ymax_of b)) then
    if kLL k && ltQ px (xmin_of b) && ltQ py (ymin_of b)
    then (Some (xmin_of b, ymin_of b), {| kLL := false; kUL := kUL k; kLR := kLR k; kUR := kUR k |})
    else if kUL k && ltQ px (xmin_of b) && ltQ (ymax_of b) py
    then (Some (xmin_of b, ymax_of b), {| kLL := kLL k; kUL := false; kLR := kLR k; kUR := kUR k |})
    else if kLR k && ltQ (xmax_of b) px && ltQ py (ymin_of b)
    then (Some (xmax_of b, ymin_of b), {| kLL := kLL k; kUL := kUL k; kLR := false; kUR := kUR k |})
    else if kUR k && ltQ (xmax_of b) px && ltQ (ymax_of b) py
    then (Some (xmax_of b, ymax_of b), {| kLL := kLL k; kUL := kUL k; kLR := kLR k; kUR := false |})
    else (None, k)
  else (Some p, k).
(** geodata.py:704-738: the points that remain; removal afterwards keeps the order. *)
Fixpoint snap_all (contains : point -> bool) (b : box4) (k : keep) (p : list point) : list point :=
  match p with
  | [] => []
  | q :: r =>
      if contains q then q :: snap_all contains b k r
      else let '(o, k') := snap b k q in
           match o with Some q' => q' :: snap_all contains b k' r | None => snap_all contains b k' r end
  end.
(** np.isclose(a, c) with its default tolerances. *)
Definition isclose (a c : Q) : bool := Qle_bool (Qabs (a - c)) ((1 # 100000000) + (1 # 100000) * Qabs c).
Definition all_close (p q : point) : bool := isclose (fst p) (fst q) && isclose (snd p) (snd q).
(** geodata.py:742-746. *)
Definition close_line (line : list point) : res (list row) :=
  match line with
  | [] => Raise IndexError
  | p0 :: _ => Ok (if all_close p0 (last line p0) then map Some line ++ [None] else map Some (line ++ [p0]) ++ [None])
  end.
(** geodata.py:673-752; [contains] is contains_points of the path around the inflated box. *)
Definition clip_part2 (contains : point -> bool) (b : box4) (poly : list row) : res (list (list row)) :=
  let p := but_one poly in
  if forallb contains p then Ok [poly]
  else if existsb contains p
  then let! l := close_line (snap_all contains b {| kLL := true; kUL := true; kLR := true; kUR := true |} p) in Ok [l]
  else Ok [].
Definition clip_polys_2 (contains : point -> bool) (polys : list row) (bbox : box4) (delta : Q) : res (list row) :=
  let! out := mapM (clip_part2 contains (inflate bbox delta)) (convert_to_list polys) in
  convert_to_array (List.concat out).

Section Geometry.
  (** Shapely: polygons from points (which may refuse), validity, the parts of the buffered polygon, contains, overlaps,
      the members of an intersection (an exterior ring, or [None] for a member that has none), difference, area,
      the exteriors of the members of a polygon or multipolygon. *)
  Variable G : Type.
  Variable make : list point -> res G.
  Variable valid : G -> bool.
  Variable buffered : G -> list G.
  Variable contains overlaps : G -> G -> bool.
  Variable intersection : G -> G -> list (option (list point)).
  Variable difference : G -> G -> G.
  Variable area : G -> Q.
  Variable exteriors : G -> list (list point).
  (** The part of a ring as it is appended (geodata.py:627-630, 797-800): xy[0] once more, then the delimiter. *)
  Definition ring_rows (xy : list point) : res (list row) :=
    match xy with [] => Raise IndexError | p0 :: _ => Ok (map Some (xy ++ [p0]) ++ [None]) end.
  (** geodata.py:788-803, one polygon. *)
  Definition clip_one (b : G) (poly : list row) (p : G) : res (list row) :=
    if contains b p then Ok poly
    else
      let! rs := mapM (fun o => match o with Some xy => ring_rows xy | None => Raise AttributeError end) (intersection p b) in
      Ok (List.concat rs).
  (** geodata.py:774-804, one part.  A buffer without parts leaves p unbound at line 804 (UnboundLocalError, here RuntimeError). *)
  Definition clip_part (b : G) (poly : list row) : res (list row) :=
    let! mp := make (but_two poly) in
    let ps := if valid mp then [mp] else buffered mp in
    match ps with
    | [] => Raise RuntimeError
    | _ => let! rs := mapM (clip_one b poly) ps in Ok (List.concat rs)
    end.
  Definition box_points (b : box4) : list point := create_boubox (xmin_of b) (xmax_of b) (ymin_of b) (ymax_of b).
  (** geodata.py:755-808. *)
  Definition clip_polys (polys : list row) (bbox : box4) (delta : Q) : res (list row) :=
    let! b := make (box_points (inflate bbox delta)) in
    let! rs := mapM (clip_part b) (convert_to_list polys) in
    Ok (List.concat rs).

  (** The area of geodata.py:603-608: on the sphere when stereo (a parameter), or shapely's. *)
  Variable stereo_area : G -> Q.
  Record classified : Type := { c_inner : list row; c_mainland : list row; c_region : G }.
  (** geodata.py:601-618, one part. *)
  Definition classify_part (amin : Q) (stereo : bool) (st : classified) (poly : list row) : res classified :=
    let! p := make (but_two poly) in
    if contains (c_region st) p then
      if Qle_bool amin (if stereo then stereo_area p else area p)
      then Ok {| c_inner := c_inner st ++ poly; c_mainland := c_mainland st; c_region := c_region st |}
      else Ok st
    else if overlaps p (c_region st) then
      if stereo then Ok {| c_inner := c_inner st; c_mainland := c_mainland st; c_region := p |}
      else Ok {| c_inner := c_inner st; c_mainland := c_mainland st ++ poly; c_region := difference (c_region st) p |}
    else Ok st.
  Fixpoint foldM {A B} (f : A -> B -> res A) (l : list B) (a : A) : res A :=
    match l with [] => Ok a | x :: r => let! a' := f a x in foldM f r a' end.
  (** geodata.py:579-591: the box or the given ring counter-clockwise, densified, without delimiters.  [boxmask] is
      contains_points of line 509 for the rows of the ring. *)
  Definition outline (bbox : box4) (boubox : list row) (h0 : Q) (boxmask : list row -> list bool) : res (list point) :=
    let! bb := match boubox with
               | [] => Ok (map Some (box_points bbox))
               | _ => let! ccw := is_path_ccw (points_of boubox) in Ok (if ccw then boubox else rev boubox)
               end in
    Ok (points_of (densify bb (h0 / 2) (boxmask bb))).
  (** geodata.py:568-634.  The ring given is taken without delimiter rows (is_path_ccw reads all rows). *)
  Definition classify_shoreline (bbox : box4) (boubox polys : list row) (h0 mult : Q) (stereo : bool) (boxmask : list row -> list bool)
    : res (list row * list row * list row) :=
    let amin := (mult * (h0 * h0))%Q in
    let! bb := outline bbox boubox h0 boxmask in
    let! b := make bb in
    let! st := foldM (classify_part amin stereo) (convert_to_list polys) {| c_inner := []; c_mainland := []; c_region := b |} in
    let! out := mapM ring_rows (exteriors (c_region st)) in
    Ok (c_inner st, c_mainland st, List.concat out).

  (** The setters (geodata.py:1022-1053). *)
  Definition set_refinements (v : Z) : res Z := if (v <? 0)%Z then Raise ValueError else Ok v.
  Definition set_minimum_area_mult (v : Q) : res Q := if Qle_bool v 0 then Raise ValueError else Ok v.
  Definition set_h0 (v : Q) : res Q := if Qle_bool v 0 then Raise ValueError else Ok v.
  (** geodata.py:993-999: np.nanmin and np.nanmax of the scaled coordinates. *)
  Definition minQ (l : list Q) : Q := match l with [] => 0 | x :: r => fold_left (fun a b => if Qle_bool a b then a else b) r x end.
  Definition maxQ (l : list Q) : Q := match l with [] => 0 | x :: r => fold_left (fun a b => if Qle_bool b a then a else b) r x end.
  Definition stereo_box (polys : list row) : box4 :=
    let xs := map (fun p => fst p * (99 # 100))%Q (points_of polys) in
    let ys := map (fun p => snd p * (99 # 100))%Q (points_of polys) in
    (minQ xs, maxQ xs, minQ ys, maxQ ys).
  (** geodata.py:979-1010, from the box and its ring on; [read] is what _read returned, [mask] the contains_points of line 509
      for the shoreline.  The attributes inner, mainland, boubox and bbox. *)
  Definition build (bbox : box4) (boubox : list row) (h0 : Q) (refinements : Z) (mult : Q) (smooth stereo : bool)
      (read : res (list row)) (mask boxmask : box4 -> list row -> list bool) : res (list row * list row * list row * box4) :=
    let! h0 := set_h0 h0 in
    let! n := set_refinements refinements in
    let! mult := set_minimum_area_mult mult in
    let! polys := read in
    let bbox := if stereo then stereo_box polys else bbox in
    let boubox := if stereo then map Some (box_points bbox) else boubox in
    let! polys := if smooth then smooth_shoreline polys (Z.to_nat n) else Ok polys in
    let polys := densify polys h0 (mask bbox polys) in
    let! polys := clip_polys polys bbox (1 # 10) in
    let! r := classify_shoreline bbox boubox polys (h0 / 2) mult stereo (boxmask bbox) in
    Ok (fst (fst r), snd (fst r), snd r, bbox).
End Geometry.

(** The CRS a Shoreline uses (geodata.py:928-960).  [crs] is a string as given; for a Region its CRS is used; [native] is the
    file's CRS or nothing, [same_as_wgs84] compares it with EPSG:4326. *)
Section Crs.
  Variable crs : Type.
  Variable given_is_default : crs -> bool.
  Variable same_as_wgs84 : crs -> bool.
  Inductive bbox_arg : Type := ARegion (b : box4) (c : crs) | ATuple (b : box4) | AArray (ring : list point).
  Definition crs_to_use (a : bbox_arg) (c : crs) (native : option crs) : crs :=
    match a with
    | ARegion _ rc => rc
    | ATuple b =>
        if given_is_default c then
          if infer_crs_from_coordinates b then c
          else match native with Some n => if same_as_wgs84 n then c else n | None => c end
        else c
    | AArray _ => c
    end.
  (** geodata.py:963-975: the ring and the box.  A Region's box is a tuple here. *)
  Definition ring_and_box (a : bbox_arg) : res (list point * box4) :=
    match a with
    | ARegion b _ | ATuple b => Ok (box_points b, b)
    | AArray ring =>
        let! ccw := is_path_ccw ring in
        let r := if ccw then ring else rev ring in
        Ok (r, (minQ (map fst r), maxQ (map fst r), minQ (map snd r), maxQ (map snd r)))
    end.
End Crs.

(** geodata.py:448-460: which reader a file name gets; another extension leaves polygon unbound (UnboundLocalError, here
    [Raise RuntimeError]). *)
Fixpoint ends_with (suffix s : string) : bool :=
  if String.eqb suffix s then true else match s with EmptyString => false | String _ r => ends_with suffix r end.
Definition get_polygon_coordinates {A} (vector csv : string -> res A) (f : string) : res A :=
  if ends_with ".shp" f || ends_with ".geojson" f || ends_with ".gpkg" f then vector f
  else if ends_with ".csv" f then csv f else Raise RuntimeError.
