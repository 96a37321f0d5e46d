(** Model of oceanmesh/signed_distance_function.py. *)
From Coq Require Import List Arith Bool ZArith QArith.
From Verif Require Import M_Base.
Import ListNotations.
Open Scope Q_scope.

(** A float: finite (exact rational) or one of the non-finite values. *)
Inductive num : Type := Fin (q : Q) | Inf (positive : bool) | NaN.
Definition is_finite (a : num) : bool := match a with Fin _ => true | _ => false end.
Definition pt : Type := (num * num)%type.

(** Evaluation of an (n, 2) array of points to n values; the function may raise. *)
Definition sdf : Type := list pt -> res (list Q).

(** signed_distance_function.py:118-131 class Domain.  [d_eval] is the eval method of the object (of
    the subclass for Union, Intersection and Difference); [d_covering] is None when not given.  CRS
    objects are abstract and coded by numbers. *)
Record domain : Type := {
  d_bbox : Q * Q * Q * Q;
  d_eval : sdf;
  d_covering : option sdf;
  d_crs : option nat;
  d_stereo : bool }.

(** Calling None (lines 126-127 with domain = None): TypeError. *)
Definition call_opt (f : option sdf) : sdf := fun x => match f with Some g => g x | None => Raise TypeError end.

(** signed_distance_function.py:43-62 create_bbox: np.minimum is the minimum of two finite numbers; a
    NaN or infinite coordinate is not modelled here (ValueError stands for that). *)
Definition npmin (a b : Q) : Q := if Qle_bool a b then a else b.
Definition npmax (a b : Q) : Q := if Qle_bool a b then b else a.
Definition bbox_value (x0 xN y0 yN x y : Q) : Q :=
  - npmin (npmin (npmin (- y0 + y) (yN - y)) (- x0 + x)) (xN - x).
Definition bbox_func (x0 xN y0 yN : Q) : sdf :=
  mapM (fun p => match p with (Fin x, Fin y) => Ok (bbox_value x0 xN y0 yN x y) | _ => Raise ValueError end).
Definition create_bbox (b : Q * Q * Q * Q) : domain :=
  let '(x0, xN, y0, yN) := b in
  {| d_bbox := b; d_eval := bbox_func x0 xN y0 yN; d_covering := None; d_crs := None; d_stereo := false |}.

(** Python's min / max over a generator (lines 135-140): ValueError when empty. *)
Definition py_min (l : list Q) : res Q :=
  match l with [] => Raise ValueError | x :: r => Ok (fold_left (fun m y => if Qle_bool m y then m else y) r x) end.
Definition py_max (l : list Q) : res Q :=
  match l with [] => Raise ValueError | x :: r => Ok (fold_left (fun m y => if Qle_bool y m then m else y) r x) end.
Definition b0 (b : Q * Q * Q * Q) : Q := let '(x, _, _, _) := b in x.
Definition b1 (b : Q * Q * Q * Q) : Q := let '(_, x, _, _) := b in x.
Definition b2 (b : Q * Q * Q * Q) : Q := let '(_, _, x, _) := b in x.
Definition b3 (b : Q * Q * Q * Q) : Q := let '(_, _, _, x) := b in x.
(** signed_distance_function.py:134-141 _compute_bbox. *)
Definition compute_bbox (ds : list domain) : res (Q * Q * Q * Q) :=
  let! a := py_min (map (fun d => b0 (d_bbox d)) ds) in
  let! b := py_max (map (fun d => b1 (d_bbox d)) ds) in
  let! c := py_min (map (fun d => b2 (d_bbox d)) ds) in
  let! e := py_max (map (fun d => b3 (d_bbox d)) ds) in
  Ok (a, b, c, e).

(** np.minimum.reduce / np.maximum.reduce over a list of equally long arrays (lines 157, 170, 182):
    ValueError on an empty list or on rows of different length. *)
Definition same_lengths (rows : list (list Q)) : bool :=
  match rows with [] => true | r :: _ => forallb (fun s => Nat.eqb (length s) (length r)) rows end.
Definition zip_with (op : Q -> Q -> Q) (a b : list Q) : list Q := map (fun p => op (fst p) (snd p)) (combine a b).
Definition np_reduce (op : Q -> Q -> Q) (rows : list (list Q)) : res (list Q) :=
  match rows with
  | [] => Raise ValueError
  | r :: rs => if same_lengths rows then Ok (fold_left (zip_with op) rs r) else Raise ValueError
  end.

(** signed_distance_function.py:150-152 and the like: first CRS that is not None, any stereo flag. *)
Definition first_crs (ds : list domain) : option nat :=
  match flat_map (fun d => match d_crs d with Some c => [c] | None => [] end) ds with [] => None | c :: _ => Some c end.
Definition any_stereo (ds : list domain) : bool := existsb d_stereo ds.
Definition combined (ev : sdf) (ds : list domain) : res domain :=
  let! b := compute_bbox ds in
  Ok {| d_bbox := b; d_eval := ev; d_covering := None; d_crs := first_crs ds; d_stereo := any_stereo ds |}.

(** signed_distance_function.py:146-157 Union. *)
Definition union_eval (ds : list domain) : sdf := fun x =>
  let! rows := mapM (fun d => d_eval d x) ds in np_reduce npmin rows.
Definition Union (ds : list domain) : res domain := combined (union_eval ds) ds.
(** signed_distance_function.py:160-170 Intersection. *)
Definition intersection_eval (ds : list domain) : sdf := fun x =>
  let! rows := mapM (fun d => d_eval d x) ds in np_reduce npmax rows.
Definition Intersection (ds : list domain) : res domain := combined (intersection_eval ds) ds.
(** signed_distance_function.py:173-184 Difference: all but the first operand are negated. *)
Definition difference_eval (ds : list domain) : sdf := fun x =>
  let! rows := mapM (fun nd => let! v := d_eval (snd nd) x in
                               Ok (if Nat.ltb 0 (fst nd) then map Qopp v else v))
                    (combine (seq 0 (length ds)) ds) in
  np_reduce npmax rows.
Definition Difference (ds : list domain) : res domain := combined (difference_eval ds) ds.

(** signed_distance_function.py:287-328 multiscale_signed_distance_function (the isinstance checks
    always hold here). *)
Definition cover_domain (s : domain) : domain :=
  {| d_bbox := d_bbox s; d_eval := call_opt (d_covering s); d_covering := None; d_crs := d_crs s; d_stereo := d_stereo s |}.
Fixpoint nests_of (ds : list domain) : res (list domain) :=
  match ds with
  | [] => Ok []
  | s :: rest =>
      let! n := Difference (s :: map cover_domain rest) in
      let! ns := nests_of rest in
      Ok (n :: ns)
  end.
Definition multiscale (ds : list domain) : res (domain * list domain) :=
  if Nat.ltb 1 (length ds) then
    let! ns := nests_of ds in
    let! u := Union ns in
    Ok (u, ns)
  else Raise AssertionError.

(** signed_distance_function.py:187-275 signed_distance_function.  The point-in-polygon test and the
    nearest-vertex query are arguments; both are applied to the finite points only. *)
Section Shoreline.
  Variable inpoly_box inpoly_shore : list pt -> list bool.   (** inpoly2 against boubox / all polygons *)
  Variable nearest_all nearest_box : list pt -> list Q.      (** cKDTree.query, k = 1 *)

  Definition finite_mask (x : list pt) : list bool := map (fun p => is_finite (fst p) && is_finite (snd p)) x.
  (** x[mask] *)
  Fixpoint mask_select {A} (m : list bool) (x : list A) : list A :=
    match m, x with
    | true :: m', a :: x' => a :: mask_select m' x'
    | false :: m', _ :: x' => mask_select m' x'
    | _, _ => []
    end.
  (** a[mask] = v: ValueError when v has the wrong length. *)
  Fixpoint mask_assign {A} (a : list A) (m : list bool) (v : list A) : res (list A) :=
    match a, m with
    | [], _ | _, [] => match v with [] => Ok a | _ => Raise ValueError end
    | x :: a', false :: m' => let! r := mask_assign a' m' v in Ok (x :: r)
    | _ :: a', true :: m' => match v with [] => Raise ValueError | y :: v' => let! r := mask_assign a' m' v' in Ok (y :: r) end
    end.
  Definition far : Q := 1000000000000.
  Definition sign_of (c : bool) : Q := if c then - (1) else 1.

  (** Lines 218-246. *)
  Definition shore_func (invert : bool) : sdf := fun x =>
    let m := finite_mask x in
    let n := length x in
    let d := repeat far n in
    let inb := repeat false n in
    let ins := repeat false n in
    let! out :=
      (if existsb (fun b => b) m then
         let xf := mask_select m x in
         let! inb' := mask_assign inb m (inpoly_box xf) in
         let! ins' := mask_assign ins m (inpoly_shore xf) in
         let! d' := mask_assign d m (nearest_all xf) in
         Ok (inb', ins', d')
       else Ok (inb, ins, d)) in
    let '(inb, ins, d) := out in
    let cond := map (fun p => andb (fst p) (snd p)) (combine ins inb) in
    let dist := map (fun p => sign_of (fst p) * snd p) (combine cond d) in
    Ok (if invert then map (fun v => v * - (1)) dist else dist).

  (** Lines 253-270; invert plays no part. *)
  Definition shore_covering : sdf := fun x =>
    let m := finite_mask x in
    let n := length x in
    let d := repeat far n in
    let inb := repeat false n in
    let! out :=
      (if existsb (fun b => b) m then
         let xf := mask_select m x in
         let! inb' := mask_assign inb m (inpoly_box xf) in
         let! d' := mask_assign d m (nearest_box xf) in
         Ok (inb', d')
       else Ok (inb, d)) in
    let '(inb, d) := out in
    Ok (map (fun p => sign_of (fst p) * snd p) (combine inb d)).

  Definition shore_domain (bbox : Q * Q * Q * Q) (crs : option nat) (stereo invert : bool) : domain :=
    {| d_bbox := bbox; d_eval := shore_func invert; d_covering := Some shore_covering; d_crs := crs; d_stereo := stereo |}.
End Shoreline.

(** signed_distance_function.py:278-284 _create_boubox (also in geodata.py). *)
Definition create_boubox (b : Q * Q * Q * Q) : list (Q * Q) :=
  let '(xmin, xmax, ymin, ymax) := b in
  [(xmin, ymin); (xmax, ymin); (xmax, ymax); (xmin, ymax); (xmin, ymin)].
