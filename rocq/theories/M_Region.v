(** Model of the box helpers and of class Region (oceanmesh/region.py).  The stereographic helpers are in M_Stereo.v. *)
From Coq Require Import List Arith Bool ZArith QArith.
From Verif Require Import M_Base M_Sdf.
Import ListNotations.
Open Scope Q_scope.

Definition box : Type := (Q * Q * Q * Q)%type.
(** region.py:24-35 is_global_bbox. *)
Definition is_global_bbox (b : box) : bool :=
  let '(xmin, xmax, ymin, ymax) := b in
  let lon_span := xmax - xmin in
  let lat_span := ymax - ymin in
  let lon_global := Qle_bool 300 lon_span || (Qle_bool xmin (-180) && Qle_bool 180 xmax) in
  let lat_global := Qle_bool 150 lat_span || (Qle_bool ymin (-89) && Qle_bool 89 ymax) in
  lon_global && lat_global.
(** region.py:38-54 bbox_contains. *)
Definition bbox_contains (outer inner : box) : bool :=
  if is_global_bbox outer then true
  else if is_global_bbox inner && negb (is_global_bbox outer) then false
  else
    let '(oxmin, oxmax, oymin, oymax) := outer in
    let '(ixmin, ixmax, iymin, iymax) := inner in
    Qle_bool oxmin ixmin && Qle_bool ixmax oxmax && Qle_bool oymin iymin && Qle_bool iymax oymax.

(** Comparison of floats; False when a NaN is involved. *)
Definition num_lt (a b : num) : bool :=
  match a, b with
  | Fin x, Fin y => negb (Qle_bool y x)
  | Fin _, Inf p => p
  | Inf p, Fin _ => negb p
  | Inf p, Inf p' => negb p && p'
  | _, _ => false
  end.

(** The extent of a region: a tuple of numbers, or an (n, 2) array of polygon vertices. *)
Inductive extent : Type := Box (v : list num) | Poly (v : list pt).

Section Region.
  (** CRS objects, user input for them, CRS.from_user_input (may raise), CRS.equals and
      Transformer.from_crs (may raise; the transformer maps points one by one and reports failure as
      infinities) are external. *)
  Variables (crs user : Type) (parse : user -> res crs) (crs_eq : crs -> crs -> bool).
  Variable transformer : crs -> crs -> res (pt -> pt).

  Record region : Type := { r_bbox : extent; r_crs : crs }.

  (** region.py:189-199: the checks of the bbox setter; Ok is the value stored. *)
  Definition check_bbox (e : extent) : res extent :=
    match e with
    | Box v =>
        match v with
        | v0 :: v1 :: v2 :: v3 :: _ =>
            if num_lt v1 v0 then Raise ValueError else if num_lt v3 v2 then Raise ValueError else Ok e
        | _ => Raise ValueError
        end
    | Poly _ => Ok e
    end.
  (** region.py:165-167 __init__. *)
  Definition Region (e : extent) (c : user) : res region :=
    let! e' := check_bbox e in let! c' := parse c in Ok {| r_bbox := e'; r_crs := c' |}.

  (** A method call leaves a state and returns or raises. *)
  Definition set_bbox (r : region) (e : extent) : region * res unit :=
    match check_bbox e with
    | Ok e' => ({| r_bbox := e'; r_crs := r_crs r |}, Ok tt)
    | Raise x => (r, Raise x)
    | OutOfFuel => (r, OutOfFuel)
    end.
  (** region.py:205-217: xmin, xmax, ymin, ymax = self.bbox raises ValueError unless there are four values. *)
  Definition moved (f : pt -> pt) (e : extent) : res extent :=
    match e with
    | Box [x0; x1; y0; y1] => let a := f (x0, y0) in let b := f (x1, y1) in Ok (Box [fst a; fst b; snd a; snd b])
    | Box _ => Raise ValueError
    | Poly v => Ok (Poly (map f v))
    end.
  (** region.py:201-219 transform_to. *)
  Definition transform_to (r : region) (c : user) : region * res unit :=
    match parse c with
    | Ok d =>
        if crs_eq (r_crs r) d then (r, Ok tt)
        else
          match (let! f := transformer (r_crs r) d in moved f (r_bbox r)) with
          | Ok e =>
              match set_bbox r e with
              | (r', Ok _) => ({| r_bbox := r_bbox r'; r_crs := d |}, Ok tt)
              | (r', x) => (r', x)
              end
          | Raise x => (r, Raise x)
          | OutOfFuel => (r, OutOfFuel)
          end
    | Raise x => (r, Raise x)
    | OutOfFuel => (r, OutOfFuel)
    end.

  (** A user program: any sequence of assignments to bbox and calls of transform_to, exceptions caught. *)
  Inductive op : Type := SetBbox (e : extent) | TransformTo (c : user).
  Definition run_op (r : region) (o : op) : region :=
    match o with SetBbox e => fst (set_bbox r e) | TransformTo c => fst (transform_to r c) end.
  Definition run (r : region) (os : list op) : region := fold_left run_op os r.
End Region.
Arguments r_bbox {crs}.
Arguments r_crs {crs}.
Arguments SetBbox {user}.
Arguments TransformTo {user}.
Arguments Region {crs user}.
Arguments set_bbox {crs}.
Arguments transform_to {crs user}.
Arguments run {crs user}.
