(** Specification vocabulary for edges and boundaries, independent of the model. *)
From Coq Require Import List Arith Bool ZArith.
Import ListNotations.

(** Is the unordered pair {u,v} the pair {x,y}? *)
Definition same_pair (u v x y : nat) : bool := (u =? x) && (v =? y) || (u =? y) && (v =? x).

(** How many of the three sides of a triangle are {u,v}. *)
Definition side_uses (u v : nat) (t : nat * nat * nat) : nat :=
  let '(a, b, c) := t in
  (if same_pair u v a b then 1 else 0) + (if same_pair u v b c then 1 else 0)
  + (if same_pair u v c a then 1 else 0).

(** How many (triangle, side) incidences are {u,v}. *)
Definition edge_uses (u v : nat) (ts : list (nat * nat * nat)) : nat :=
  list_sum (map (side_uses u v) ts).

Definition nondegenerate (t : nat * nat * nat) : Prop :=
  let '(a, b, c) := t in a <> b /\ b <> c /\ a <> c.

Definition has_vertex (v : nat) (t : nat * nat * nat) : Prop :=
  let '(a, b, c) := t in v = a \/ v = b \/ v = c.

(** An undirected edge is on the boundary when it is used by exactly one triangle side. *)
Definition on_boundary (ts : list (nat * nat * nat)) (u v : nat) : Prop := edge_uses u v ts = 1.

(** A bound on the vertex numbers of a mesh, and the number of boundary edges at a vertex. *)
Definition vbound (ts : list (nat * nat * nat)) : nat :=
  S (list_max (flat_map (fun t => let '(a, b, c) := t in [a; b; c]) ts)).
Definition boundary_degree (ts : list (nat * nat * nat)) (v : nat) : nat :=
  length (filter (fun u => edge_uses u v ts =? 1) (seq 0 (vbound ts))).

(** [walk v w v']: following the undirected edges [w] in order leads from [v] to [v']. *)
Fixpoint walk (v : nat) (w : list (nat * nat)) (v' : nat) : Prop :=
  match w with
  | [] => v = v'
  | (a, b) :: w' => (v = a /\ walk b w' v') \/ (v = b /\ walk a w' v')
  end.

Definition touches (e : nat * nat) (v : nat) : Prop := v = fst e \/ v = snd e.

(** Two boundary edges are linked when a chain of boundary edges, consecutive ones sharing a
    vertex, joins them. *)
Inductive blinked (ts : list (nat * nat * nat)) : nat * nat -> nat * nat -> Prop :=
| bl_refl e : blinked ts e e
| bl_step e f g v : on_boundary ts (fst f) (snd f) -> touches e v -> touches f v ->
    blinked ts f g -> blinked ts e g.

(** Strict lexicographic order on integer pairs. *)
Definition zlex (e f : Z * Z) : Prop := (fst e < fst f \/ (fst e = fst f /\ snd e < snd f))%Z.

(** A list of directed segments that can be followed head to tail and returns to its start. *)
Fixpoint chain {P : Type} (x : P) (segs : list (P * P)) (y : P) : Prop :=
  match segs with
  | [] => x = y
  | (a, b) :: r => x = a /\ chain b r y
  end.
Definition closed_chain {P : Type} (segs : list (P * P)) : Prop := exists x, segs <> [] /\ chain x segs x.

(** A NaN-separated array whose parts have the given numbers of points: True marks the NaN rows. *)
Definition nan_column (lens : list nat) : list bool :=
  flat_map (fun m => repeat false m ++ [true]) lens.

(** First row of each part. *)
Fixpoint part_offsets (off : Z) (lens : list nat) : list (Z * nat) :=
  match lens with
  | [] => []
  | m :: r => (off, m) :: part_offsets (off + Z.of_nat m + 1) r
  end.
