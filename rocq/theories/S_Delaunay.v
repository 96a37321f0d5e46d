(** What is asked of the triangulation engine, and what the wrapper must then deliver. *)
From Coq Require Import List Arith ZArith Permutation Bool.
From Verif Require Import M_Base M_Delaunay.
Import ListNotations.

Section Spec.
  Context {C : Type}.
  Notation point := (C * C)%type.

  (** The three entries of a row. *)
  Definition entries {A} (t : A * A * A) : list A := let '(a, b, c) := t in [a; b; c].

  (** A triangulation in order: vertices with different handles and different points, faces with different
      handles, corners that are vertices, neighbours that are faces. *)
  Record sound (d : dt C) : Prop := {
    snd_handles : NoDup (map hd (verts d));
    snd_points : NoDup (map at_ (verts d));
    snd_faces : NoDup (map fid (faces d));
    snd_corners : forall f h, In f (faces d) -> In h (entries (corners f)) -> In h (map hd (verts d));
    snd_nbrs : forall f g, In f (faces d) -> In (Some g) (entries (nbrs f)) -> In g (map fid (faces d)) }.

  (** Handles with their points, which the wrapper's own numbering does not change. *)
  Definition places (d : dt C) : list (nat * point) := map (fun v => (hd v, at_ v)) (verts d).
  (** Points with their numbers. *)
  Definition numbered (d : dt C) : list (point * nat) := map (fun v => (at_ v, vinfo v)) (verts d).

  (** The documented behaviour of CGAL used here.
      - Insertion: the points are the old and the new ones; a vertex has the number it had, unless its point
        is inserted (again), when it has a number given with that point.
      - Removal: the other vertices stay with their handles, points and numbers.
      - Displacement to a free position: the vertex gets the position, all others stay; to a position held
        by another vertex: the displaced vertex disappears; to its own position: nothing.
      Nothing is asked about the order of the vertices, about which faces there are, or their numbers. *)
  Record obeys (cg : engine C) : Prop := {
    ins_sound : forall d l, sound d -> sound (cg_insert cg d l);
    ins_points : forall d l p, sound d -> (In p (map at_ (verts (cg_insert cg d l))) <-> In p (map at_ (verts d)) \/ In p (map fst l));
    ins_places : forall d l x, sound d -> In x (places d) -> In x (places (cg_insert cg d l));
    ins_numbers : forall d l p n, sound d -> In (p, n) (numbered (cg_insert cg d l)) -> In (p, n) l \/ (~ In p (map fst l) /\ In (p, n) (numbered d));
    rem_sound : forall d h, sound d -> In h (map hd (verts d)) -> sound (cg_remove cg d h);
    rem_verts : forall d h, sound d -> In h (map hd (verts d)) -> Permutation (verts (cg_remove cg d h)) (filter (fun v => negb (hd v =? h)) (verts d));
    mov_sound : forall d h p, sound d -> In h (map hd (verts d)) -> sound (cg_move cg d h p);
    mov_same : forall d h p, sound d -> In (h, p) (places d) -> Permutation (places (cg_move cg d h p)) (places d);
    mov_taken : forall d h g p, sound d -> In h (map hd (verts d)) -> In (g, p) (places d) -> g <> h -> Permutation (places (cg_move cg d h p)) (filter (fun x => negb (fst x =? h)) (places d));
    mov_free : forall d h p, sound d -> In h (map hd (verts d)) -> ~ In p (map at_ (verts d)) ->
      Permutation (places (cg_move cg d h p)) (map (fun x => if fst x =? h then (h, p) else x) (places d)) }.

  (** The point of a handle. *)
  Definition point_of (d : dt C) (h : nat) (p : point) : Prop := In (h, p) (places d).

  (** [t] describes the faces of [d] over the points [ps]: one row per face, whose entries are positions in
      [ps] of the points of the face's corners. *)
  Definition describes (d : dt C) (ps : list point) (t : list (nat * nat * nat)) : Prop :=
    length t = length (faces d) /\
    forall k row f, nth_error t k = Some row -> nth_error (faces d) k = Some f ->
      forall j i h, nth_error (entries row) j = Some i -> nth_error (entries (corners f)) j = Some h ->
        exists p, nth_error ps i = Some p /\ point_of d h p.

  (** [t] lists the neighbours: entry [j] of row [k] is the row of the face opposite to corner [j], or -1. *)
  Definition lists_neighbours (d : dt C) (t : list (Z * Z * Z)) : Prop :=
    length t = length (faces d) /\
    forall k row f, nth_error t k = Some row -> nth_error (faces d) k = Some f ->
      forall j n, nth_error (entries (nbrs f)) j = Some n ->
        match n with
        | None => nth_error (entries row) j = Some (-1)%Z
        | Some g => exists m f', nth_error (entries row) j = Some (Z.of_nat m) /\ nth_error (faces d) m = Some f' /\ fid f' = g
        end.

  (** Flat lists of coordinates as points. *)
  Inductive flat : list C -> list point -> Prop :=
  | flat_nil : flat [] []
  | flat_cons : forall x y r ps, flat r ps -> flat (x :: y :: r) ((x, y) :: ps).

  (** A history of insertions only, and all its points in order. *)
  Inductive inserts : list (call C) -> list point -> Prop :=
  | inserts_none : inserts [] []
  | inserts_more : forall h ps p qs, inserts h ps -> flat p qs -> inserts (h ++ [CInsert p]) (ps ++ qs).

  (** Elements at the positions not listed. *)
  Definition others {A} (l : list A) (idx : list nat) (r : list A) : Prop :=
    exists keep, Permutation (idx ++ keep) (seq 0 (length l)) /\ map (nth_error l) keep = map Some r.
End Spec.

(** A concrete engine, with which the requirements above can be met: the vertices in order of insertion and
    the fan of faces from the first vertex (a Delaunay triangulation when the points lie on a circle, in
    circular order). Coordinates are natural numbers. *)
Definition fan_face (h0 i a b : nat) (more : bool) : face :=
  Face i (h0, a, b) (None, (if more then Some (i + 1) else None), match i with 0 => None | S k => Some k end) 0.
Fixpoint fan_from (h0 i : nat) (hs : list nat) : list face :=
  match hs with
  | a :: ((b :: r) as t) => fan_face h0 i a b (match r with [] => false | _ => true end) :: fan_from h0 (i + 1) t
  | _ => []
  end.
Definition fan (hs : list nat) : list face := match hs with h0 :: r => fan_from h0 0 r | [] => [] end.
Definition with_fan (vs : list (vertex nat)) : dt nat := DT vs (fan (map hd vs)).
Definition same_point (p q : nat * nat) : bool := (fst p =? fst q) && (snd p =? snd q).
Definition fan_insert1 (vs : list (vertex nat)) (x : (nat * nat) * nat) : list (vertex nat) :=
  if existsb (fun v => same_point (at_ v) (fst x)) vs
  then map (fun v => if same_point (at_ v) (fst x) then Vertex (hd v) (at_ v) (snd x) else v) vs
  else vs ++ [Vertex (1 + list_max (map hd vs)) (fst x) (snd x)].
Definition fan_engine : engine nat :=
  Engine (fun d l => with_fan (fold_left fan_insert1 l (verts d)))
         (fun d h => with_fan (filter (fun v => negb (hd v =? h)) (verts d)))
         (fun d h p => with_fan (if existsb (fun v => same_point (at_ v) p) (verts d)
                                 then (if existsb (fun v => (same_point (at_ v) p) && (hd v =? h)) (verts d) then verts d
                                       else filter (fun v => negb (hd v =? h)) (verts d))
                                 else map (fun v => if hd v =? h then Vertex h p (vinfo v) else v) (verts d))).
