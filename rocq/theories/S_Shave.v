(** Composing the clean-up steps: specification vocabulary, independent of the model. *)
From Coq Require Import List Arith ZArith QArith Permutation.
From Verif Require Import S_Edges S_FixMesh S_Adjacency S_Clean.
Import ListNotations.

(** A triangulation without defects: every point is used, points are far apart, no face occurs twice, every edge is on at
    most two faces, and every face has three different corners. *)
Definition plain_mesh (ptol : Q) (p : list (Q * Q)) (ts : list face) : Prop :=
  all_used (length p) ts /\ separated ptol p /\ no_two same_vertices ts /\ manifold ts /\ Forall nondegenerate ts.
Definition no_dangling (ts : list face) : Prop := forall i, (i < length ts)%nat -> ~ dangling ts i.
(** No face is of poorer quality than mq. *)
Definition no_poor (qual : list (Q * Q) -> face -> option Q) (mq : Q) (p : list (Q * Q)) (ts : list face) : Prop :=
  forall t q, In t ts -> qual p t = Some q -> mq <= q.
