(** Specification vocabulary for clipping and classifying shorelines. *)
From Coq Require Import List Arith Bool ZArith QArith Qabs.
From Verif Require Import M_Base M_Shore S_Shore.
Import ListNotations.
Open Scope nat_scope.

(** Some members of a list, in order. *)
Inductive sub {A} : list A -> list A -> Prop :=
| sub_nil l : sub [] l
| sub_keep x l l' : sub l l' -> sub (x :: l) (x :: l')
| sub_skip x l l' : sub l l' -> sub l (x :: l').
(** Closed and open boxes (xmin, xmax, ymin, ymax), and corners. *)
Definition in_box (b : Q * Q * Q * Q) (p : Q * Q) : Prop :=
  let '(x0, x1, y0, y1) := b in (x0 <= fst p <= x1 /\ y0 <= snd p <= y1)%Q.
Definition strictly_in_box (b : Q * Q * Q * Q) (p : Q * Q) : Prop :=
  let '(x0, x1, y0, y1) := b in (x0 < fst p < x1 /\ y0 < snd p < y1)%Q.
Definition corner (b : Q * Q * Q * Q) (p : Q * Q) : Prop :=
  let '(x0, x1, y0, y1) := b in (fst p = x0 \/ fst p = x1) /\ (snd p = y0 \/ snd p = y1).
Definition wider (b : Q * Q * Q * Q) (d : Q) : Q * Q * Q * Q :=
  let '(x0, x1, y0, y1) := b in (x0 - d, x1 + d, y0 - d, y1 + d)%Q.
(** Polygons as sets of points off all boundary lines. *)
Definition set_like {G X} (mem : G -> X -> Prop) (contains overlaps : G -> G -> bool) (difference : G -> G -> G) : Prop :=
  (forall a b, contains a b = true <-> (exists x, mem b x) /\ forall x, mem b x -> mem a x) /\
  (forall a b, overlaps a b = true <->
     (exists x, mem a x /\ mem b x) /\ (exists x, mem a x /\ ~ mem b x) /\ (exists x, mem b x /\ ~ mem a x)) /\
  (forall a b x, mem (difference a b) x <-> mem a x /\ ~ mem b x).
(** A part as a ring given by its exterior: the closing point stands twice. *)
Definition ring_part (xy : list (Q * Q)) : list (option (Q * Q)) := map Some (xy ++ firstn 1 xy) ++ [None].
(** A part from its points. *)
Definition term (ps : list (Q * Q)) : list (option (Q * Q)) := map Some ps ++ [None].
(** How simplification goes through the points left: a point inside is kept, and so is one with a point inside among the next 49 that
    are not the last; from any other it goes on to the 50th after it, or to the last, which is written too. *)
Inductive thinned (inside : point -> bool) : list point -> list point -> Prop :=
| th_end : thinned inside [] []
| th_keep p r l : inside p = true \/ (exists x, In x (firstn (Nat.min 50 (length r)) (p :: r)) /\ inside x = true) -> thinned inside r l -> thinned inside (p :: r) (p :: l)
| th_last p : inside p = false -> thinned inside [p] [p; p]
| th_jump p m q r l : inside p = false -> (forall x, In x m -> inside x = false) -> length m + 1 = Nat.min 50 (length (m ++ q :: r)) ->
    thinned inside r l -> thinned inside (p :: m ++ q :: r) (p :: q :: l).
(** What simplification may do: points inside all stay, in order, and so do the first and the last point; nothing is added but
    possibly the last point once more. *)
Definition simplified (inside : Q * Q -> bool) (pts line : list (Q * Q)) : Prop :=
  thinned inside pts line /\ filter inside line = filter inside pts /\
  (exists s, sub s pts /\ (line = s \/ exists p, line = s ++ [p] /\ inside p = false /\ pts <> [] /\ last pts p = p)) /\
  (forall d, hd d line = hd d pts /\ last line d = last pts d).
(** np.isclose with the second as reference. *)
Definition near (a c : Q) : Prop := (Qabs (a - c) <= (1 # 100000000) + (1 # 100000) * Qabs c)%Q.
Definition near_points (p q : Q * Q) : Prop := near (fst p) (fst q) /\ near (snd p) (snd q).
(** Kinds of shoreline parts. *)
Inductive kind : Type := Island | Small | Shore | Other.
Definition kind_eqb (a b : kind) : bool :=
  match a, b with Island, Island | Small, Small | Shore, Shore | Other, Other => true | _, _ => false end.
Definition of_kind {A} (k : kind) (ks : list kind) (l : list A) : list A := map snd (filter (fun p => kind_eqb k (fst p)) (combine ks l)).
(** What is left of [b] before part [i]: not in the shore parts before it. *)
Definition remaining {G X} (mem : G -> X -> Prop) (b : G) (ks : list kind) (gs : list G) (i : nat) (x : X) : Prop :=
  mem b x /\ forall j g, j < i -> nth_error ks j = Some Shore -> nth_error gs j = Some g -> ~ mem g x.
Definition kind_right {G X} (mem : G -> X -> Prop) (area : G -> Q) (amin : Q) (left : X -> Prop) (g : G) (k : kind) : Prop :=
  match k with
  | Island => (exists x, mem g x) /\ (forall x, mem g x -> left x) /\ (amin <= area g)%Q
  | Small => (exists x, mem g x) /\ (forall x, mem g x -> left x) /\ (area g < amin)%Q
  | Shore => (exists x, mem g x /\ left x) /\ (exists x, mem g x /\ ~ left x) /\ (exists x, left x /\ ~ mem g x)
  | Other => ~ ((exists x, mem g x) /\ forall x, mem g x -> left x) /\ ~ ((exists x, mem g x /\ left x) /\ (exists x, mem g x /\ ~ left x) /\ (exists x, left x /\ ~ mem g x))
  end.
(** What clipping to [b] leaves of a ring whose polygon is [g]: itself, or the exterior rings of the intersection. *)
Definition members_of {A} (l : list (option A)) : list A := flat_map (fun o => match o with Some x => [x] | None => [] end) l.
Definition clip_outcome {G} (contains : G -> G -> bool) (intersection : G -> G -> list (option (list (Q * Q)))) (b : G) (ring : list (Q * Q)) (g : G)
  : list (list (option (Q * Q))) :=
  if contains b g then [term ring] else map ring_part (members_of (intersection g b)).
(** The closed box around points: all are in it and none of its sides can be moved in. *)
Definition box_around (ps : list (Q * Q)) (b : Q * Q * Q * Q) : Prop :=
  let '(x0, x1, y0, y1) := b in
  (forall p, In p ps -> in_box b p) /\ (exists p, In p ps /\ fst p = x0) /\ (exists p, In p ps /\ fst p = x1) /\ (exists p, In p ps /\ snd p = y0) /\ (exists p, In p ps /\ snd p = y1).
(** The corner, as (right, top), that a point lies diagonally beyond; the ring's points inside, and for every corner the first point beyond it moved there. *)
Definition beyond (b : Q * Q * Q * Q) (c : bool * bool) (p : Q * Q) : Prop :=
  let '(x0, x1, y0, y1) := b in (if fst c then x1 < fst p else fst p < x0)%Q /\ (if snd c then y1 < snd p else snd p < y0)%Q.
Definition corner_at (b : Q * Q * Q * Q) (c : bool * bool) : Q * Q :=
  let '(x0, x1, y0, y1) := b in (if fst c then x1 else x0, if snd c then y1 else y0).
Inductive snapped (inside : point -> bool) (b : Q * Q * Q * Q) : list point -> list point -> list point -> Prop :=
| sn_end before : snapped inside b before [] []
| sn_inside before p r l : inside p = true -> snapped inside b (before ++ [p]) r l -> snapped inside b before (p :: r) (p :: l)
| sn_corner before p r l c : inside p = false -> beyond b c p -> (forall q, In q before -> inside q = false -> ~ beyond b c q) ->
    snapped inside b (before ++ [p]) r l -> snapped inside b before (p :: r) (corner_at b c :: l)
| sn_drop before p r l : inside p = false -> (forall c, beyond b c p -> exists q, In q before /\ inside q = false /\ beyond b c q) ->
    snapped inside b (before ++ [p]) r l -> snapped inside b before (p :: r) l.
