(** Property theorems C12-C15 (fix_mesh.py).  [kleb] is the byte order numpy uses on rounded
    coordinate rows; the theorems hold for every total order. *)
From Coq Require Import List Arith ZArith QArith Permutation SpecFloat Lia.
From Verif Require Import M_Base M_Edges M_FixMesh S_FixMesh P_FixMesh.
Import ListNotations.

(** C12.  When fix_mesh returns, and what it returns is well formed. *)
Theorem C12_fix_mesh_returns : forall kleb ptol, total_order kleb -> forall p ts du,
  (exists r, fix_mesh kleb ptol p ts du = Ok r) <-> p <> [] /\ Forall (in_range (length p)) ts.
Proof. exact fix_mesh_total. Qed.
Print Assumptions C12_fix_mesh_returns.

Theorem C12_fix_mesh_well_formed : forall kleb ptol, total_order kleb -> forall p ts du p' t' jx,
  fix_mesh kleb ptol p ts du = Ok (p', t', jx) ->
  Forall (in_range (length p')) t' /\ no_two same_vertices t' /\
  Forall (fun t => 0 <= area2 p' t) t' /\
  (du = true -> forall i, (i < length p')%nat -> exists t, In t t' /\ In i (corners t)).
Proof. exact fix_mesh_wf. Qed.
Print Assumptions C12_fix_mesh_well_formed.

(** A mesh with a duplicated point, an unused point, a clockwise and a repeated triangle. *)
Example C12_case : fix_mesh zedge_leb (1 # 100) [(0, 0); (1, 0); (0, 1); (1, 1); (1, 1 # 1000); (5 # 10, 5 # 10)]
    [(0, 2, 1); (1, 3, 2); (2, 4, 0)]%nat true =
  Ok ([(0, 0); (0, 1); (1, 0); (1, 1)], [(1, 0, 2); (1, 2, 3)]%nat, [0; 1; 2; 1; 2; 3]%nat).
Proof. reflexivity. Qed.

(** C13.  The geometry is kept up to the snapping tolerance: there is a renumbering of the points
    that moves none by more than ptol times the extent and carries the input triangles onto the
    output triangles.  Without delete_unused it is the third return value. *)
Theorem C13_fix_mesh_geometry : forall kleb ptol, total_order kleb -> forall p ts du p' t' jx e,
  0 < ptol -> extent_at_most p e ->
  fix_mesh kleb ptol p ts du = Ok (p', t', jx) ->
  exists m : nat -> nat,
    (forall i, (i < length p)%nat -> du = false \/ (exists t, In t ts /\ In i (corners t)) ->
       (m i < length p')%nat /\ near (e * ptol) (nth i p (0, 0)) (nth (m i) p' (0, 0))) /\
    incl p' p /\
    (forall t, In t ts -> exists s, In s t' /\ Permutation (map m (corners t)) (corners s)) /\
    (forall s, In s t' -> exists t, In t ts /\ Permutation (map m (corners t)) (corners s)) /\
    (du = false -> jx = map m (seq 0 (length p))).
Proof. exact fix_mesh_geometry. Qed.
Print Assumptions C13_fix_mesh_geometry.
Example C13_case : extent_at_most [(0, 0); (1, 0); (0, 1)] 1 /\
  fix_mesh zedge_leb (1 # 100) [(0, 0); (1, 0); (0, 1)] [(2, 1, 0)%nat] false =
  Ok ([(0, 0); (0, 1); (1, 0)], [(1, 0, 2)%nat], [0; 2; 1]%nat).
Proof.
  split; [|reflexivity]. intros a b Ha Hb. simpl in Ha, Hb.
  decompose [or] Ha; decompose [or] Hb; subst; try contradiction; split; discriminate.
Qed.

(** The hypothesis 0 < ptol is needed: with ptol = 0 all points become one. *)
Theorem C13_zero_tolerance_refuted : forall kleb, total_order kleb -> forall p ts du p' t' jx,
  fix_mesh kleb 0 p ts du = Ok (p', t', jx) -> (length p' <= 1)%nat.
Proof. intros kleb Hk p ts du p' t' jx; exact (fix_mesh_zero_tol kleb p ts du p' t' jx Hk). Qed.
Print Assumptions C13_zero_tolerance_refuted.
Example C13_zero_case : fix_mesh zedge_leb 0 [(0, 0); (1, 0); (0, 1)] [(0, 1, 2)%nat] true =
  Ok ([(0, 0)], [(0, 0, 0)%nat], [0; 0; 0]%nat).
Proof. reflexivity. Qed.

(** With delete_unused=True the third return value is not indexed by input points: it has one entry
    per triangle corner. *)
Theorem C13_index_map_refuted : forall kleb ptol p ts p' t' jx,
  fix_mesh kleb ptol p ts true = Ok (p', t', jx) -> length jx = (3 * length t')%nat.
Proof. exact fix_mesh_jx_unused. Qed.
Print Assumptions C13_index_map_refuted.

(** C14.  In exact arithmetic equal points are merged. *)
Theorem C14_equal_points_merged_partial : forall kleb ptol, total_order kleb -> forall p ts du p' t' jx,
  fix_mesh kleb ptol p ts du = Ok (p', t', jx) -> no_two same_point p'.
Proof. exact fix_mesh_merges. Qed.
Print Assumptions C14_equal_points_merged_partial.
Example C14_case : fix_mesh zedge_leb (1 # 100) [(1, 0); (0, 0); (1, 0); (0, 1); (2 # 2, 0)] [(0, 1, 3); (2, 3, 4)]%nat false =
  Ok ([(0, 0); (0, 1); (1, 0)], [(1, 0, 2); (1, 2, 2)]%nat, [2; 0; 2; 1; 2]%nat).
Proof. reflexivity. Qed.

(** With IEEE doubles they are not: points 0 and 4 of [fpts] are (0.0, 0.0) and (-0.0, 0.0), equal
    numbers, and both are returned. *)
Theorem C14_equal_points_merged_refuted : exists (p : list (spec_float * spec_float)) ts i j,
  (i < j < length p)%nat /\
  SFeqb (fst (nth i p (S754_nan, S754_nan))) (fst (nth j p (S754_nan, S754_nan))) = true /\
  SFeqb (snd (nth i p (S754_nan, S754_nan))) (snd (nth j p (S754_nan, S754_nan))) = true /\
  nth i p (S754_nan, S754_nan) <> nth j p (S754_nan, S754_nan) /\
  forall kleb du, total_order kleb -> exists p' t' jx, fix_mesh_f kleb f2em13 p ts du = Ok (p', t', jx) /\
    In (nth i p (S754_nan, S754_nan)) p' /\ In (nth j p (S754_nan, S754_nan)) p'.
Proof. exact fix_mesh_f_seam. Qed.
Print Assumptions C14_equal_points_merged_refuted.

(** C15.  Triangles collapsed by merging stay in the mesh. *)
Theorem C15_no_degenerate_triangle_refuted : exists p ts,
  forall kleb ptol du, total_order kleb -> 0 < ptol ->
  exists p' t' jx, fix_mesh kleb ptol p ts du = Ok (p', t', jx) /\ exists t, In t t' /\ ~ NoDup (corners t).
Proof. exact fix_mesh_degenerate_witness. Qed.
Print Assumptions C15_no_degenerate_triangle_refuted.

(** No triangle is degenerate when the corners of every input triangle are further apart than the
    snapping tolerance. *)
Theorem C15_no_degenerate_triangle_partial : forall kleb ptol, total_order kleb -> forall p ts du p' t' jx e,
  0 < ptol -> extent_at_most p e ->
  fix_mesh kleb ptol p ts du = Ok (p', t', jx) ->
  (forall a b c, In (a, b, c) ts ->
     ~ near (e * ptol) (nth a p (0, 0)) (nth b p (0, 0)) /\
     ~ near (e * ptol) (nth b p (0, 0)) (nth c p (0, 0)) /\
     ~ near (e * ptol) (nth a p (0, 0)) (nth c p (0, 0))) ->
  Forall (fun t => NoDup (corners t)) t'.
Proof. exact fix_mesh_nondegenerate. Qed.
Print Assumptions C15_no_degenerate_triangle_partial.
Example C15_case : ~ near (1 * (1 # 100)) (nth 0 [(0, 0); (1, 0); (0, 1)] (0, 0)) (nth 1 [(0, 0); (1, 0); (0, 1)] (0, 0)).
Proof. intros [H _]. apply H. reflexivity. Qed.

(** Total orders on rows exist. *)
Example total_order_case : total_order zedge_leb.
Proof. exact zedge_total_order. Qed.
