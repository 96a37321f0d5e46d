(** Specification vocabulary for adjacency and connectivity, independent of the model. *)
From Coq Require Import List Arith Relations.
From Verif Require Import S_Edges S_FixMesh.
Import ListNotations.

(** Two faces have a common side. *)
Definition shares_side (t s : face) : Prop := exists u v, side_uses u v t >= 1 /\ side_uses u v s >= 1.

Definition no_face : face := (0, 0, 0).

(** Faces number i and j of a mesh have a common side. *)
Definition adjacent (ts : list face) (i j : nat) : Prop :=
  i < length ts /\ j < length ts /\ shares_side (nth i ts no_face) (nth j ts no_face).

(** Connectivity through sides. *)
Definition connected (ts : list face) : nat -> nat -> Prop := clos_refl_trans nat (adjacent ts).

(** No side is used by more than two (face, side) incidences. *)
Definition manifold (ts : list face) : Prop := forall u v, edge_uses u v ts <= 2.

(** Every vertex number below n is used by some face. *)
Definition all_used (n : nat) (ts : list face) : Prop := forall v, v < n <-> exists t, In t ts /\ In v (corners t).

(** Number of occurrences of j in a list. *)
Definition occurrences (j : nat) (l : list nat) : nat := count_occ Nat.eq_dec l j.

(** Number of sides of a face that some other incidence of the mesh also uses. *)
Definition interior_sides (ts : list face) (t : face) : nat :=
  let '(a, b, c) := t in
  (if 2 <=? edge_uses a b ts then 1 else 0) + (if 2 <=? edge_uses b c ts then 1 else 0)
  + (if 2 <=? edge_uses c a ts then 1 else 0).
