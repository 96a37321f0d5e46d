(** What the signed distance function of a shoreline is meant to tell, stated on polylines and without the model's functions. *)
From Coq Require Import List Arith Bool ZArith QArith Qabs.
From Verif Require Import M_Inpoly S_Inpoly.
Import ListNotations.
Open Scope Q_scope.

(** The sides of a polyline. *)
Definition sides (l : list xy) : list seg := combine l (tl l).
(** A ring as vector files and shapely give it: the first point again at the end. *)
Definition closed_ring (l : list xy) : Prop := exists p m q, l = p :: m ++ [q] /\ same_place p q.
(** The first point twice at the end. *)
Definition shut (l : list xy) : Prop := exists p m q r, l = p :: m ++ [q; r] /\ same_place p q /\ same_place p r.
(** Inside a ring by the even-odd rule; on its line; within [tol] (sum of the coordinate differences) of its line. *)
Definition inside (q : xy) (l : list xy) : Prop := odd_many (crosses q) true (sides l).
Definition on_line (q : xy) (l : list xy) : Prop := exists s, In s (sides l) /\ on_segment q s.
Definition near_line (tol : Q) (q : xy) (l : list xy) : Prop :=
  exists s p, In s (sides l) /\ on_segment p s /\ Qabs (fst q - fst p) + Qabs (snd q - snd p) <= tol.
(** Rows of an array: the points of each polyline and a delimiter. *)
Definition rows_of (ls : list (list xy)) : list (option xy) := flat_map (fun l => map Some l ++ [None]) ls.
(** No two members of the list hold [q]. *)
Definition apart (q : xy) (ls : list (list xy)) : Prop :=
  forall i j a b, nth_error ls i = Some a -> nth_error ls j = Some b -> inside q a -> inside q b -> i = j.
(** Inside an odd number of all rings and of the rings of the outline, where a point that touches a ring counts as inside. *)
Definition inside_all (touch : xy -> list xy -> Prop) (inner boxes : list (list xy)) (q : xy) : Prop :=
  (odd_many (inside q) true (inner ++ boxes) \/ exists l, In l (inner ++ boxes) /\ touch q l) /\
  (odd_many (inside q) true boxes \/ exists l, In l boxes /\ touch q l).
(** The sea: in the outline and on no island. *)
Definition at_sea (inner boxes : list (list xy)) (q : xy) : Prop := odd_many (inside q) true boxes /\ forall l, In l inner -> ~ inside q l.
(** A ring whose first point has two different coordinates. *)
Definition ring_off_diagonal (l : list xy) : Prop := closed_ring l /\ forall p m, l = p :: m -> ~ fst p == snd p.
