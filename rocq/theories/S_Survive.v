(** When cleaning leaves something: specification vocabulary, independent of the model. *)
From Coq Require Import List Arith ZArith QArith Permutation.
From Verif Require Import S_Edges S_FixMesh S_Adjacency S_Clean.
Import ListNotations.

(** The faces t and s have a common side and lie on the same side of it. *)
Definition folded (p : list (Q * Q)) (t s : face) : Prop :=
  exists u v a b, Permutation (corners t) [u; v; a] /\ Permutation (corners s) [u; v; b] /\
    0 <= area2 p (u, v, a) * area2 p (u, v, b).

(** A mesh drawn in the plane: no two faces are folded onto each other along a common side. *)
Definition unfolded (p : list (Q * Q)) (ts : list face) : Prop := no_two (folded p) ts.

(** The number of faces, as a fraction of the area: m is less than one part in n. *)
Definition below_share (m : Q) (n : nat) : Prop := m * inject_Z (Z.of_nat n) < 1.

(** No two faces have the same quality. *)
Definition tie (q r : option Q) : Prop := not_better q r /\ not_better r q.
Definition no_ties (qual : list (Q * Q) -> face -> option Q) (p : list (Q * Q)) (ts : list face) : Prop :=
  no_two (fun t s => tie (qual p t) (qual p s)) ts.

(** The quality of a face depends on its corner points only, not on their order. *)
Definition geometric (qual : list (Q * Q) -> face -> option Q) : Prop :=
  forall p t p' t', Permutation (corner_points p t) (corner_points p' t') -> tie (qual p t) (qual p' t').
