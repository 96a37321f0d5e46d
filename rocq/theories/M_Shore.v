(** Model of the shoreline helpers of oceanmesh/geodata.py.  Coordinates are exact rationals; a row
    of an array is a point or the delimiter row (nan, nan).  (Rows with one nan do not occur: the
    files read contain none and the code only ever writes whole delimiter rows.) *)
From Coq Require Import List Arith Bool ZArith QArith Qabs Qround Qminmax.
From Verif Require Import M_Base.
Import ListNotations.
Open Scope Q_scope.

Definition point := (Q * Q)%type.
(** [None] is the row (nan, nan) (geodata.py:24). *)
Definition row := option point.
Definition is_nan (r : row) : bool := match r with None => true | Some _ => false end.

(** geodata.py:463-465: np.concatenate raises ValueError on an empty list. *)
Definition convert_to_array (l : list (list row)) : res (list row) :=
  match l with [] => Raise ValueError | _ => Ok (concat l) end.
(** np.ma.clump_unmasked (geodata.py:471): the maximal runs of rows that are not nan; [cur] is the run read so far. *)
Fixpoint clump_unmasked (a : list row) (cur : list row) : list (list row) :=
  match a with
  | [] => match cur with [] => [] | _ => [cur] end
  | r :: a' => if is_nan r then match cur with [] => clump_unmasked a' [] | _ => cur :: clump_unmasked a' [] end
               else clump_unmasked a' (cur ++ [r])
  end.
(** geodata.py:468-472. *)
Definition convert_to_list (arr : list row) : list (list row) :=
  let a := None :: arr in
  let tmp := clump_unmasked a [] in
  map (fun p => p ++ [None]) tmp.

(** geodata.py:475-486, for a tuple. *)
Definition create_boubox (xmin xmax ymin ymax : Q) : list point :=
  [(xmin, ymin); (xmax, ymin); (xmax, ymax); (xmin, ymax); (xmin, ymin)].

(** geodata.py:489-498 with endpoint: [N] values from [start] to [stop]; one row of the result. *)
Definition create_range (start stop : Q) (N : nat) : list Q :=
  let divisor := inject_Z (Z.of_nat N - 1) in
  let steps := (1 / divisor) * (stop - start) in
  map (fun k => steps * inject_Z (Z.of_nat k) + start) (seq 0 N).

(** geodata.py:514-517: how many points to insert before row [b]; [None] is nan.  [inside] is
    contains_points for that row (matplotlib, not modelled). *)
Definition nin_of (maxdiff : Q) (a b : row) (inside : bool) : option Z :=
  if negb inside then Some 0%Z
  else match a, b with
       | Some p, Some q =>
           let dlat := Qabs (snd q - snd p) in
           let dlon := Qabs (fst q - fst p) in
           let n := (Qceiling (Qmax dlat dlon / maxdiff) - 1)%Z in
           Some (if (n <? 0)%Z then 0%Z else n)
       | _, _ => None
       end.
Fixpoint nin_all (maxdiff : Q) (poly : list row) (inside : list bool) : list (option Z) :=
  match poly, inside with
  | a :: ((b :: _) as t), _ :: ((m :: _) as s) => nin_of maxdiff a b m :: nin_all maxdiff t s
  | _, _ => []
  end.
(** np.nansum (geodata.py:518). *)
Definition nansum (l : list (option Z)) : Z := fold_right (fun o s => (match o with Some n => n | None => 0 end + s)%Z) 0%Z l.
(** a[n : n+k] = v (rows; geodata.py:540-541). *)
Definition write_rows (out : list row) (n : nat) (v : list row) : list row := firstn n out ++ v ++ skipn (n + length v) out.
(** The loop geodata.py:526-543; latout and lonout are kept as one array of rows. *)
Fixpoint densify_loop (poly : list row) (nin : list (option Z)) (n : nat) (out : list row) : list row :=
  match poly, nin with
  | a :: ((b :: _) as t), ni :: ns =>
      match ni with
      | Some z =>
          if (z =? 0)%Z then densify_loop t ns (n + 1) (write_rows out n [a])
          else
            let k := Z.to_nat z in
            match a, b with
            | Some p, Some q =>
                let lats := create_range (snd p) (snd q) (k + 2) in
                let lons := create_range (fst p) (fst q) (k + 2) in
                densify_loop t ns (n + (k + 1)) (write_rows out n (map Some (combine (firstn (k + 1) lons) (firstn (k + 1) lats))))
            | _, _ => densify_loop t ns (n + 1) (write_rows out n [a])  (* not reached: nan rows have no count *)
            end
      | None => densify_loop t ns (n + 1) (write_rows out n [a])
      end
  | _, _ => out
  end.
(** geodata.py:501-550.  [inside] is the mask of line 509; the argument radius is not used by the code. *)
Definition densify (poly : list row) (maxdiff : Q) (inside : list bool) : list row :=
  let nx := length poly in
  let nin := nin_all maxdiff poly inside in
  let sumnin := nansum nin in
  if (sumnin =? 0)%Z then poly
  else
    let nout := (Z.to_nat sumnin + nx)%nat in
    let out := densify_loop poly nin 0 (repeat None nout) in
    write_rows out (nout - 1) [last poly None].

(** One pass of geodata.py:642-649: every row twice, and the row it is averaged with. *)
Definition twice {A} (l : list A) : list A := flat_map (fun p => [p; p]) l.
Definition mix (p q : point) : point := (fst p * (3 # 4) + fst q * (1 # 4), snd p * (3 # 4) + snd q * (1 # 4)).
Definition chaikin_pass (coords : list point) : res (list point) :=
  match coords with
  | [] => Raise IndexError
  | p0 :: _ =>
      let L := twice coords in
      let R := map (fun i =>
                 if (i =? 0)%nat then nth 0 L p0                            (* R[0] = L[0] *)
                 else if (i =? length L - 1)%nat then last L p0             (* R[-1] = L[-1] *)
                 else if Nat.even i then nth (i - 1) L p0                   (* R[2::2] = L[1:-1:2] *)
                 else nth (i + 1) L p0)                                     (* R[1:-1:2] = L[2::2] *)
               (seq 0 (length L)) in
      Ok (map (fun pq => mix (fst pq) (snd pq)) (combine L R))
  end.
(** geodata.py:637-652. *)
Fixpoint chaikin (refinements : nat) (coords : list point) : res (list point) :=
  match refinements with
  | O => Ok coords
  | S k => let! c := chaikin_pass coords in chaikin k c
  end.
(** The points of a part (poly[:-1]; every row of a part but the last is a point). *)
Definition points_of (l : list row) : list point := flat_map (fun r => match r with Some p => [p] | None => [] end) l.
(** geodata.py:655-671. *)
Definition smooth_shoreline (polys : list row) (N : nat) : res (list row) :=
  let! out := mapM (fun poly => let! tmp := chaikin N (points_of (removelast poly)) in Ok (map Some tmp ++ [None])) (convert_to_list polys) in
  convert_to_array out.

(** geodata.py:872-876 on an (n, 2) array: np.diff works along the last axis, so the rows kept are
    those with different coordinates; the last row is appended. *)
Definition remove_dup (arr : list point) : res (list point) :=
  match arr with
  | [] => Raise IndexError
  | p0 :: _ => Ok (filter (fun p => negb (Qeq_bool (snd p - fst p) 0)) arr ++ [last arr p0])
  end.
(** geodata.py:872-876 on a one-dimensional array. *)
Fixpoint nonzero_diff (arr : list Q) : list Q :=
  match arr with
  | a :: ((b :: _) as t) => if Qeq_bool (b - a) 0 then nonzero_diff t else a :: nonzero_diff t
  | _ => []
  end.
Definition remove_dup_1d (arr : list Q) : res (list Q) :=
  match arr with
  | [] => Raise IndexError
  | p0 :: _ => Ok (nonzero_diff arr ++ [last arr p0])
  end.
(** How a ring reaches shapely: geodata.py:1109-1110 append the delimiter and lines 602 and 775
    take all rows but the last two (without smoothing and densifying in between). *)
Definition ring_seen (arr : list point) : res (list row) :=
  let! p := remove_dup arr in
  let poly := map Some p ++ [None] in
  Ok (firstn (length poly - 2) poly).

(** np.isclose(d, 0.0): absolute tolerance 1e-8. *)
Definition isclose0 (d : Q) : bool := Qle_bool (Qabs d) (1 # 100000000).
(** np.linalg.det of the rows (1, x, y) (geodata.py:855-856), exact. *)
Definition det3 (a b c : point) : Q :=
  (fst b * snd c - fst c * snd b) - (fst a * snd c - fst c * snd a) + (fst a * snd b - fst b * snd a).
(** The loop geodata.py:853-857 on the rows from [i] on; [detO] is the last determinant. *)
Fixpoint orient (p : list point) (detO : Q) : Q :=
  if isclose0 detO then
    match p with
    | a :: ((b :: c :: _ :: _) as t) => orient t (det3 a b c)
    | _ => detO
    end
  else detO.
(** geodata.py:845-862. *)
Definition is_path_ccw (p : list point) : res bool :=
  let detO := orient p 0 in
  if isclose0 detO then Raise RuntimeError else Ok (negb (Qle_bool detO 0)).

(** np.roll(a, 1). *)
Definition roll1 {A} (l : list A) : list A := match rev l with [] => [] | x :: r => x :: rev r end.
Definition dot (a b : list Q) : Q := fold_right Qplus 0 (map (fun xy => fst xy * snd xy) (combine a b)).
(** geodata.py:553-555. *)
Definition poly_area (x y : list Q) : Q := (1 # 2) * Qabs (dot x (roll1 y) - dot y (roll1 x)).

(** geodata.py:865-869. *)
Definition is_overlapping (b1 b2 : Q * Q * Q * Q) : bool :=
  let '(x1min, x1max, y1min, y1max) := b1 in
  let '(x2min, x2max, y2min, y2max) := b2 in
  negb (Qle_bool x2max x1min) && negb (Qle_bool x1max x2min) && negb (Qle_bool y2max y1min) && negb (Qle_bool y1max y2min).
