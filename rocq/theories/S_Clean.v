(** Specification vocabulary for mesh cleaning, independent of the model. *)
From Coq Require Import List Arith ZArith QArith Sorted Permutation.
From Verif Require Import S_Edges S_FixMesh S_Adjacency.
Import ListNotations.

(** Twice the area of the listed faces of a mesh. *)
Definition faces_area (p : list (Q * Q)) (ts : list face) (l : list nat) : Q :=
  fold_right Qplus 0 (map (fun i => area2 p (nth i ts no_face)) l).
Definition mesh_area (p : list (Q * Q)) (ts : list face) : Q := faces_area p ts (seq 0 (length ts)).

(** [l] lists the faces connected to face i through sides. *)
Definition component (ts : list face) (i : nat) (l : list nat) : Prop :=
  NoDup l /\ forall j, In j l <-> connected ts i j.

(** The component of face i has more than the fraction m of the area of the mesh. *)
Definition large (p : list (Q * Q)) (ts : list face) (m : Q) (i : nat) : Prop :=
  exists l, component ts i l /\ m * mesh_area p ts < faces_area p ts l.

(** The listed faces of a mesh. *)
Definition faces_at (ts : list face) (l : list nat) : list face := map (fun i => nth i ts no_face) l.

(** [l] is the increasing list of the positions below n that satisfy P. *)
Definition positions (n : nat) (P : nat -> Prop) (l : list nat) : Prop :=
  StronglySorted lt l /\ forall i, In i l <-> (i < n)%nat /\ P i.

(** The corner points of a face. *)
Definition corner_points (p : list (Q * Q)) (t : face) : list (Q * Q) := map (fun i => nth i p (0, 0)) (corners t).

(** No two points of the mesh are within the tolerance [ptol] times its extent. *)
Definition separated (ptol : Q) (p : list (Q * Q)) : Prop :=
  exists e, extent_at_most p e /\ no_two (near (e * ptol)) p.

(** Every face of the second mesh is a face of the first: same three corner points. *)
Definition submesh (p : list (Q * Q)) (ts : list face) (p' : list (Q * Q)) (ts' : list face) : Prop :=
  incl p' p /\ forall s, In s ts' -> exists t, In t ts /\ Permutation (corner_points p t) (corner_points p' s).

(** Every boundary vertex has exactly two boundary edges. *)
(** Some edge lies on one face only. *)
Definition has_boundary (ts : list face) : Prop := exists u v, on_boundary ts u v.
Definition traversable (ts : list face) : Prop := forall v, boundary_degree ts v = 0%nat \/ boundary_degree ts v = 2%nat.

(** A face has exactly one side in common with other faces. *)
Definition dangling (ts : list face) (i : nat) : Prop := interior_sides ts (nth i ts no_face) = 1%nat.

(** Between the smallest and the largest value of a list. *)
Definition within (l : list Q) (x : Q) : Prop := (exists a, In a l /\ a <= x) /\ (exists b, In b l /\ x <= b).
Definition in_box (p : list (Q * Q)) (x : Q * Q) : Prop := within (map fst p) (fst x) /\ within (map snd p) (snd x).

Definition dist2 (a b : Q * Q) : Q := (fst a - fst b) * (fst a - fst b) + (snd a - snd b) * (snd a - snd b).
(** Number i is a point of p closest to x. *)
Definition closest (x : Q * Q) (p : list (Q * Q)) (i : nat) : Prop :=
  (i < length p)%nat /\ forall j, (j < length p)%nat -> dist2 x (nth i p (0, 0)) <= dist2 x (nth j p (0, 0)).

(** Qualities are compared as numpy does when it looks for the smallest: nan (None) comes first. *)
Definition not_better (q r : option Q) : Prop :=
  match q, r with None, _ => True | Some _, None => False | Some x, Some y => x <= y end.

(** Face f may be chosen at vertex v: it has the corner v, it has only boundary vertices if some face
    at v has, and its quality is smallest among the faces at v that qualify in the same way. *)
Definition chosen (qual : list (Q * Q) -> face -> option Q) (p : list (Q * Q)) (ts : list face) (v f : nat) : Prop :=
  let face i := nth i ts no_face in
  let at_v i := (i < length ts)%nat /\ In v (corners (face i)) in
  let all_bnd i := forall u, In u (corners (face i)) -> exists w, on_boundary ts w u in
  at_v f /\
  ((exists g, at_v g /\ all_bnd g) -> all_bnd f) /\
  (forall g, at_v g -> (all_bnd f -> all_bnd g) -> not_better (qual p (face f)) (qual p (face g))).
