(** Property theorems C05 and C06 (connectivity tables of clean.py).  [argsort] is numpy's default
    argsort; the theorems hold whatever order it gives to equal keys. *)
From Coq Require Import List Arith Relations Lia.
From Verif Require Import M_Base M_Numpy M_Adjacency S_Edges S_FixMesh S_Adjacency P_Adjacency.
Import ListNotations.

Notation f2f_row argsort ts i := (row_of (fst (face_to_face argsort ts)) (snd (face_to_face argsort ts)) i).
Notation v2f_row argsort ts v := (row_of (fst (vertex_to_face argsort ts)) (snd (vertex_to_face argsort ts)) v).

(** C05.  If no side is used more than twice, the row of face i lists exactly i and the faces that
    have a common side with it. *)
Theorem C05_face_table_exact : forall argsort, is_argsort argsort -> forall ts, manifold ts ->
  forall i, i < length ts ->
  exists l, f2f_row argsort ts i = Ok l /\ forall j, In j l <-> i = j \/ adjacent ts i j.
Proof. exact f2f_exact. Qed.
Print Assumptions C05_face_table_exact.

(** The length of the row tells how many sides of the face are shared. *)
Theorem C05_face_table_row_length : forall argsort, is_argsort argsort -> forall ts c, manifold ts -> c < length ts ->
  exists l, f2f_row argsort ts c = Ok l /\ length l = S (interior_sides ts (nth c ts no_face)).
Proof. exact f2f_row_length. Qed.
Print Assumptions C05_face_table_row_length.

(** For arbitrary meshes every listed face shares a side, listing is symmetric, and chains of listed
    faces are the chains of faces sharing sides. *)
Theorem C05_face_table_sound : forall argsort, is_argsort argsort -> forall ts i, i < length ts ->
  exists l, f2f_row argsort ts i = Ok l /\ In i l /\ forall j, In j l -> i = j \/ adjacent ts i j.
Proof. exact f2f_sound. Qed.
Print Assumptions C05_face_table_sound.

Theorem C05_face_table_symmetric : forall argsort, is_argsort argsort -> forall ts i j, i < length ts ->
  (exists l, f2f_row argsort ts i = Ok l /\ In j l) -> (exists l, f2f_row argsort ts j = Ok l /\ In i l).
Proof. exact listed_sym. Qed.
Print Assumptions C05_face_table_symmetric.

Theorem C05_face_table_connectivity : forall argsort, is_argsort argsort -> forall ts i j, i < length ts ->
  (clos_refl_trans nat (fun i j => exists l, f2f_row argsort ts i = Ok l /\ In j l) i j <-> connected ts i j).
Proof. exact f2f_connected. Qed.
Print Assumptions C05_face_table_connectivity.

(** Numpy's stable sort is an admissible argsort; two triangles with a common side and one apart. *)
Example C05_argsort : is_argsort stable_argsort.
Proof. exact stable_is_argsort. Qed.
Example C05_case : f2f_row stable_argsort [(0, 1, 2); (2, 1, 3); (3, 4, 5)] 0 = Ok [0; 1] /\
  f2f_row stable_argsort [(0, 1, 2); (2, 1, 3); (3, 4, 5)] 2 = Ok [2].
Proof. split; reflexivity. Qed.

(** C06.  When every vertex below n is used, the slice of vertex v is exactly the faces containing v. *)
Theorem C06_vertex_table_exact : forall argsort, is_argsort argsort -> forall ts n v, all_used n ts -> v < n ->
  exists l, v2f_row argsort ts v = Ok l /\
    forall f, In f l <-> f < length ts /\ In v (corners (nth f ts no_face)).
Proof. exact vertex_to_face_row_In. Qed.
Print Assumptions C06_vertex_table_exact.
Example C06_case : all_used 4 [(0, 1, 2); (2, 1, 3)] /\ v2f_row stable_argsort [(0, 1, 2); (2, 1, 3)] 2 = Ok [0; 1].
Proof.
  split; [|reflexivity]. intros v. split.
  - intros H. do 4 (destruct v as [|v]; [first [exists (0, 1, 2); split; simpl; auto; fail|exists (2, 1, 3); split; simpl; auto; fail]|]). lia.
  - intros (t & [<-|[<-|[]]] & H); simpl in H; lia.
Qed.

(** With an unused vertex (1 here) the slices are shifted: vertex 1 is given a face that does not
    contain it, and the slice of the last vertex cannot be read. *)
Theorem C06_unused_vertex_refuted : forall argsort, is_argsort argsort ->
  v2f_row argsort [(0, 2, 3)] 1 = Ok [0] /\ ~ In 1 (corners (0, 2, 3)) /\
  v2f_row argsort [(0, 2, 3)] 3 = Raise IndexError.
Proof. exact vertex_to_face_misaligned. Qed.
Print Assumptions C06_unused_vertex_refuted.
