(** Property theorems C196 (clean.py): composing the clean-up steps. *)
From Coq Require Import List Arith Bool ZArith QArith Lia.
From Verif Require Import M_Base M_Numpy M_Edges M_FixMesh M_Adjacency M_Clean.
From Verif Require Import S_Edges S_FixMesh S_Adjacency S_Clean S_Survive S_Shave.
From Verif Require Import P_Edges P_FixMesh P_Adjacency P_CleanMore P_Survive P_Shave.
Import ListNotations.
Open Scope nat_scope.

(** C196.  Removing dangling faces, for any number of rounds, keeps a traversable boundary traversable. *)
Theorem C196_dangling_keeps_traversable : forall argsort, is_argsort argsort -> forall kleb, total_order kleb -> forall mi p ts p' t',
  plain_mesh ptol_default p ts -> traversable ts ->
  delete_faces_connected_to_one_face argsort kleb mi p ts = Ok (p', t') -> traversable t'.
Proof. exact dangling_keeps. Qed.
Print Assumptions C196_dangling_keeps_traversable.
(** C196.  Making the boundary traversable and then removing all dangling faces gives a mesh with both properties. *)
Theorem C196_both_steps : forall argsort, is_argsort argsort -> forall kleb, total_order kleb -> forall qual m, (0 <= m)%Q ->
  forall draw, (forall c k n, 0 < n -> draw c k n < n) -> forall mi p ts p1 t1 p2 t2, plain_mesh ptol_default p ts ->
  make_mesh_boundaries_traversable argsort kleb qual draw p ts m = Ok (p1, t1) ->
  delete_faces_connected_to_one_face argsort kleb mi p1 t1 = Ok (p2, t2) -> traversable t2 /\ (mi = None -> no_dangling t2).
Proof. exact trim_keeps. Qed.
Print Assumptions C196_both_steps.
(** C196.  mesh_clean on a mesh without faces poorer than min_element_qual: what is smoothed has a traversable boundary and no
    dangling face, and so has the result unless smoothing moves two points together.  Full statement: the result of
    mesh_clean always has both properties.  Missing: meshes with poor faces (the statement is then false, see below). *)
Theorem C196_no_poor_faces_partial : forall argsort, is_argsort argsort -> forall kleb, total_order kleb -> forall qual, geometric qual ->
  forall m, (0 <= m)%Q -> forall draw1 draw2, (forall c k n, 0 < n -> draw1 c k n < n) -> (forall c k n, 0 < n -> draw2 c k n < n) ->
  forall stop mq k pfix p ts p' t', plain_mesh ptol_default p ts -> no_poor qual mq p ts ->
    mesh_clean argsort kleb qual draw1 draw2 stop mq m k pfix p ts = Ok (p', t') ->
    exists p1 t1 p2 j, submesh p ts p1 t1 /\ traversable t1 /\ no_dangling t1 /\
      laplacian2 stop k pfix p1 t1 = Ok (p2, t1) /\ fix_mesh kleb ptol_default p2 t1 true = Ok (p', t', j) /\
      (separated ptol_default p2 -> traversable t' /\ no_dangling t').
Proof. exact clean_no_poor. Qed.
Print Assumptions C196_no_poor_faces_partial.
(** The two squares joined by a triangle, with a dangling face, meet the hypotheses. *)
Example C196_case : plain_mesh ptol_default wing1_p wing1_t /\ traversable wing1_t /\ dangling wing1_t 0 /\ no_poor sq_area 100 wing1_p wing1_t /\
  (exists p', delete_faces_connected_to_one_face stable_argsort zedge_leb None wing1_p wing1_t =
    Ok (p', [(0, 1, 2); (0, 2, 3); (2, 1, 4); (3, 2, 4); (3, 4, 5); (5, 4, 6); (6, 4, 7); (5, 6, 8); (6, 7, 8)])) /\
  exists p', mesh_clean stable_argsort zedge_leb sq_area (fun _ _ _ => 0) (fun _ _ _ => 0) (fun _ _ => false) 100 (1 # 4) 1 None wing1_p wing1_t =
    Ok (p', [(0, 1, 2); (0, 2, 3); (2, 1, 4); (3, 2, 4); (3, 4, 5); (5, 4, 6); (6, 4, 7); (5, 6, 8); (6, 7, 8)]).
Proof.
  split; [exact wing1_plain|]. split; [exact wing1_traversable|]. split; [vm_compute; reflexivity|]. split; [exact wing1_fair|].
  split; eexists; vm_compute; reflexivity.
Qed.

(** C196.  Deleting poor faces at the boundary can make a traversable boundary touch itself. *)
Theorem C196_poor_faces_refuted : exists p ts qual mq p' t', plain_mesh ptol_default p ts /\ traversable ts /\ no_dangling ts /\ geometric qual /\
  delete_boundary_faces stable_argsort zedge_leb qual p ts mq = Ok (p', t') /\ plain_mesh ptol_default p' t' /\ ~ traversable t'.
Proof. exact boundary_faces_pinch. Qed.
Print Assumptions C196_poor_faces_refuted.
(** C196.  mesh_clean can return a dangling face although its input had none: the poor face between the squares is deleted, and the
    second make_mesh_boundaries_traversable, after the only removal of dangling faces, opens one of the squares. *)
Theorem C196_no_dangling_refuted : exists p ts qual mq p' t', plain_mesh ptol_default p ts /\ traversable ts /\ no_dangling ts /\ geometric qual /\
  mesh_clean stable_argsort zedge_leb qual (fun _ _ _ => 0) (fun _ _ _ => 0) (fun _ _ => false) mq (1 # 4) 0 None p ts = Ok (p', t') /\
  traversable t' /\ dangling t' 0.
Proof. exact clean_dangling. Qed.
Print Assumptions C196_no_dangling_refuted.
