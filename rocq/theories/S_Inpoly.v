(** Specification vocabulary for point-in-polygon. *)
From Coq Require Import List Arith Bool ZArith QArith.
From Verif Require Import M_Sdf M_Inpoly.
Import ListNotations.
Open Scope Q_scope.

Definition same_place (a b : xy) : Prop := fst a == fst b /\ snd a == snd b.
(** q lies on the closed segment; a segment of length zero has no points. *)
Definition on_segment (q : xy) (s : seg) : Prop :=
  ~ same_place (fst s) (snd s) /\
  exists t, 0 <= t <= 1 /\ fst q == fst (fst s) + t * (fst (snd s) - fst (fst s)) /\ snd q == snd (fst s) + t * (snd (snd s) - snd (fst s)).
(** The ray to the right from q meets the segment, whose lower end counts and whose upper end does not. *)
Definition crosses (q : xy) (s : seg) : Prop :=
  let '(a, b) := s in
  (snd a <= snd q < snd b \/ snd b <= snd q < snd a) /\
  exists t, fst a + t * (fst b - fst a) > fst q /\ snd a + t * (snd b - snd a) == snd q.

(** [odd_many P l]: an odd number of members satisfy P. *)
Inductive odd_many {A} (P : A -> Prop) : bool -> list A -> Prop :=
| om_nil : odd_many P false []
| om_yes x l b : P x -> odd_many P b l -> odd_many P (negb b) (x :: l)
| om_no x l b : ~ P x -> odd_many P b l -> odd_many P b (x :: l).

(** The even-odd rule: [bnd] iff q is on an edge, [stat] iff on an edge or an odd number are crossed. *)
Definition even_odd (segs : list seg) (q : xy) (stat bnd : bool) : Prop :=
  (bnd = true <-> exists s, In s segs /\ on_segment q s) /\
  (stat = true <-> bnd = true \/ odd_many (crosses q) true segs).

(** All edge ends, and closedness: every place is the end of an even number of edges. *)
Definition ends (segs : list seg) : list xy := flat_map (fun s => [fst s; snd s]) segs.
Definition closed_curve (segs : list seg) : Prop := forall c, odd_many (same_place c) false (ends segs).

(** Same edges up to order and direction. *)
Inductive same_edges : list seg -> list seg -> Prop :=
| se_nil : same_edges [] []
| se_skip a b l l' : same_edges l l' -> same_edges ((a, b) :: l) ((a, b) :: l')
| se_flip a b l l' : same_edges l l' -> same_edges ((a, b) :: l) ((b, a) :: l')
| se_swap s t l l' : same_edges l l' -> same_edges (s :: t :: l) (t :: s :: l')
| se_trans l1 l2 l3 : same_edges l1 l2 -> same_edges l2 l3 -> same_edges l1 l3.

(** Outside the smallest box holding all edge ends. *)
Definition outside_ends (segs : list seg) (q : xy) : Prop :=
  (forall c, In c (ends segs) -> fst q < fst c) \/ (forall c, In c (ends segs) -> fst c < fst q) \/
  (forall c, In c (ends segs) -> snd q < snd c) \/ (forall c, In c (ends segs) -> snd c < snd q).

(** Edge indices refer to nodes; the segments they name; the ring through a node list. *)
Definition valid_edges (node : list xy) (es : list (Z * Z)) : Prop :=
  forall e, In e es -> (0 <= fst e < Z.of_nat (length node))%Z /\ (0 <= snd e < Z.of_nat (length node))%Z.
Definition edge_segments (node : list xy) (es : list (Z * Z)) : list seg :=
  map (fun e => (nth (Z.to_nat (fst e)) node (0, 0), nth (Z.to_nat (snd e)) node (0, 0))) es.
Definition ring_segments (node : list xy) : list seg := combine node (tl node ++ firstn 1 node).
