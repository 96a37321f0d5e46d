(** Property theorems C36 and C66-C69 (mesh_generator.py: generate_mesh and its parts).  The Delaunay
    triangulator [tr], the forces, the signed distance, the byte order [kleb] and the random draws are
    arbitrary; [f] is the value the signed distance function has at a point. *)
From Coq Require Import List Arith ZArith QArith Qabs Permutation.
From Verif Require Import M_Base M_Edges M_FixMesh M_Clean M_Generate S_FixMesh S_Generate P_Generate.
Import ListNotations.
Open Scope Q_scope.

(** C36.  The returned triangles are exactly the faces of triangulation number max_iter - 1 whose
    centroid has signed distance below -geps, up to the renumbering and snapping of fix_mesh. *)
Theorem C36_generate_mesh_result : forall tr fd forces kleb geps deps dt pfix lock f,
  total_order kleb -> pointwise fd f -> forall n p p' t',
  generate_mesh tr fd forces kleb geps deps dt pfix lock n p = Ok (p', t') ->
  (0 < n)%nat /\
  exists q pd td p1, tr (n - 1)%nat q = Ok (pd, td) /\
    length p1 = length pd /\ Forall (in_range (length p1)) td /\
    (forall j, nth j p1 (0, 0) = nth j pd (0, 0) \/ In (nth j p1 (0, 0)) pfix) /\
    (forall e, extent_at_most p1 e -> exists m : nat -> nat,
      (forall t, In t td -> f (centre p1 t) < - geps -> exists s, In s t' /\ Permutation (map m (corners t)) (corners s)) /\
      (forall s, In s t' -> exists t, In t td /\ f (centre p1 t) < - geps /\ Permutation (map m (corners t)) (corners s)) /\
      (forall t i, In t td -> f (centre p1 t) < - geps -> In i (corners t) ->
         (m i < length p')%nat /\ near (e * ptol_default) (nth i p1 (0, 0)) (nth (m i) p' (0, 0)))) /\
    incl p' p1 /\
    Forall (in_range (length p')) t' /\ no_two same_vertices t' /\ Forall (fun t => 0 <= area2 p' t) t' /\
    (forall i, (i < length p')%nat -> exists t, In t t' /\ In i (corners t)).
Proof. exact gen_result. Qed.
Print Assumptions C36_generate_mesh_result.

(** The centroids of the returned triangles themselves, for a distance function that is Lipschitz. *)
Theorem C36_returned_centroids_inside : forall tr fd forces kleb geps deps dt pfix lock f K,
  total_order kleb -> pointwise fd f -> lipschitz K f -> forall n p p' t',
  generate_mesh tr fd forces kleb geps deps dt pfix lock n p = Ok (p', t') ->
  exists q pd td p1, tr (n - 1)%nat q = Ok (pd, td) /\ length p1 = length pd /\
    (forall j, nth j p1 (0, 0) = nth j pd (0, 0) \/ In (nth j p1 (0, 0)) pfix) /\
    forall e, extent_at_most p1 e -> forall s, In s t' -> f (centre p' s) < - geps + K * (e * ptol_default).
Proof. exact gen_inside. Qed.
Print Assumptions C36_returned_centroids_inside.

(** Exactly max_iter triangulations: the calls 0, ..., n - 1 are made, and no answer of another call matters. *)
Theorem C36_calls_made : forall fd forces kleb geps deps dt pfix lock tr n p r,
  generate_mesh tr fd forces kleb geps deps dt pfix lock n p = Ok r ->
  forall k, (k < n)%nat -> exists q s, tr k q = Ok s.
Proof. exact gen_called. Qed.
Print Assumptions C36_calls_made.
Theorem C36_no_other_calls : forall fd forces kleb geps deps dt pfix lock tr tr' n p,
  (forall k q, (k < n)%nat -> tr k q = tr' k q) ->
  generate_mesh tr fd forces kleb geps deps dt pfix lock n p =
  generate_mesh tr' fd forces kleb geps deps dt pfix lock n p.
Proof. exact gen_calls. Qed.
Print Assumptions C36_no_other_calls.

(** Two iterations; one of the two faces is outside. *)
Example C36_case : total_order zedge_leb /\ pointwise (dist_of left_of_3) left_of_3 /\ lipschitz 1 left_of_3 /\
  generate_mesh same_tri (dist_of left_of_3) no_force zedge_leb (1 # 1000) (1 # 16) 1 [] false 2
    [(0, 0); (3, 0); (0, 1); (3, 1)] = Ok ([(0, 0); (0, 1); (3, 0); (3, 1)], [(1, 0, 2); (1, 2, 3)]%nat) /\
  generate_mesh same_tri (dist_of left_of_3) no_force zedge_leb (1 # 1000) (1 # 16) 1 [] false 1
    [(0, 0); (3, 0); (0, 1); (8, 1)] = Ok ([(0, 0); (0, 1); (3, 0)], [(1, 0, 2)]%nat).
Proof.
  split; [exact zedge_total_order|]. split; [apply dist_of_pointwise|]. split; [exact left_of_3_lipschitz|].
  split; vm_compute; reflexivity.
Qed.

(** C66.  Fixed points that are among the initial points and not outside are vertices of the last
    triangulation, and each one on a kept face is a mesh vertex up to the snapping. *)
Theorem C66_fixed_points_partial : forall tr fd forces kleb geps deps dt pfix lock f,
  total_order kleb -> pointwise fd f -> respects f -> keeps_points tr -> (forall x, In x pfix -> f x <= 0) ->
  forall n p p' t', (forall x, In x pfix -> has p x) ->
  generate_mesh tr fd forces kleb geps deps dt pfix lock n p = Ok (p', t') ->
  exists q pd td, tr (n - 1)%nat q = Ok (pd, td) /\
    forall x, In x pfix -> exists i, (i < length pd)%nat /\ same_point (nth i pd (0, 0)) x /\
      forall e t, extent_at_most pd e -> In t td -> In i (corners t) -> f (centre pd t) < - geps ->
        exists y, In y p' /\ near (e * ptol_default) x y.
Proof. exact fixed_in_mesh. Qed.
Print Assumptions C66_fixed_points_partial.
Example C66_case : (forall x, In x [(1, 0); (2, 0)] -> left_of_3 x <= 0) /\ respects left_of_3 /\ keeps_points same_tri /\
  generate_mesh same_tri (dist_of left_of_3) no_force zedge_leb (1 # 1000) (1 # 16) 1 [(1, 0); (2, 0)] false 2
    [(0, 0); (1, 0); (0, 1); (2, 0)] = Ok ([(0, 0); (0, 1); (1, 0); (2, 0)], [(1, 0, 2); (1, 2, 3)]%nat).
Proof.
  split; [|split; [exact left_of_3_respects|split; [exact same_tri_keeps|vm_compute; reflexivity]]].
  intros x [<-|[<-|[]]]; discriminate.
Qed.

(** The points generate_mesh makes itself start with the fixed points. *)
Theorem C66_fixed_points_default_start : forall tr fd forces kleb h geps deps dt pfix lock f fh g rand x0 x1 y0 y1, 0 < h ->
  total_order kleb -> pointwise fd f -> pointwise fh g -> respects f -> keeps_points tr -> (forall x, In x pfix -> f x <= 0) ->
  forall n p p' t', generate_initial_points h geps (x0, x1, y0, y1) fh fd pfix rand = Ok p ->
  generate_mesh tr fd forces kleb geps deps dt pfix lock n p = Ok (p', t') ->
  exists q pd td, tr (n - 1)%nat q = Ok (pd, td) /\
    forall x, In x pfix -> exists i, (i < length pd)%nat /\ same_point (nth i pd (0, 0)) x /\
      forall e t, extent_at_most pd e -> In t td -> In i (corners t) -> f (centre pd t) < - geps ->
        exists y, In y p' /\ near (e * ptol_default) x y.
Proof. exact fixed_default. Qed.
Print Assumptions C66_fixed_points_default_start.

(** What one round of placing fixed points does, in general. *)
Theorem C66_placing_fixed_points : forall pfix p p' inds, place_fixed pfix p = Ok (p', inds) ->
  length p' = length p /\ length inds = length pfix /\ Forall (fun i => (i < length p)%nat) inds /\
  (forall j, ~ In j inds -> nth j p' (0, 0) = nth j p (0, 0)) /\
  (forall k, (k < length pfix)%nat -> (forall l, (k < l < length pfix)%nat -> nth l inds 0%nat <> nth k inds 0%nat) ->
     nth (nth k inds 0%nat) p' (0, 0) = nth k pfix (0, 0)) /\
  (forall y, In y p' -> In y p \/ In y pfix).
Proof. exact place_fixed_spec. Qed.
Print Assumptions C66_placing_fixed_points.
Example C66_placing_case : place_fixed [(1, 0); (2, 0); (9, 9)] [(0, 0); (10, 0); (0, 10); (10, 10)] =
  Ok ([(2, 0); (10, 0); (0, 10); (9, 9)], [0; 0; 3]%nat).
Proof. reflexivity. Qed.

(** Without the hypothesis on the initial points (they may be given by the caller) a fixed point can be lost. *)
Theorem C66_fixed_points_refuted : exists tr f forces pfix p p' t' x,
  keeps_points tr /\ respects f /\ (forall y, In y pfix -> f y <= 0) /\ NoDup pfix /\
  generate_mesh tr (dist_of f) forces zedge_leb (1 # 1000) (1 # 10000000) (1 # 5) pfix false 3 p = Ok (p', t') /\
  t' <> [] /\ In x pfix /\ forall y, In y p' -> ~ near (9 # 10) x y.
Proof. exact fixed_lost. Qed.
Print Assumptions C66_fixed_points_refuted.

(** C67.  lock_boundary: a vertex on the boundary of the triangulation that is not outside the domain
    is still there after the move and the projection. *)
Theorem C67_locked_boundary_partial : forall tr fd forces geps deps dt pfix lock f k q p1 t fixed q',
  lock = true -> pfix = [] -> pointwise fd f -> respects f ->
  topology_step tr fd geps pfix lock k q = Ok (p1, t, fixed) ->
  move_step fd forces deps dt p1 t fixed = Ok q' ->
  exists td, tr k q = Ok (p1, td) /\ length q' = length p1 /\
    (forall i, In i (boundary_ends td) -> f (nth i p1 (0, 0)) <= 0 -> has q' (nth i p1 (0, 0))).
Proof. exact lock_step. Qed.
Print Assumptions C67_locked_boundary_partial.
(** Without lock_boundary and fixed points no vertex is held: it is moved by its force unless that leads outside. *)
Theorem C67_unlocked_moves : forall tr fd forces geps deps dt pfix lock f k q p1 t fixed q',
  lock = false -> pfix = [] -> pointwise fd f ->
  topology_step tr fd geps pfix lock k q = Ok (p1, t, fixed) ->
  move_step fd forces deps dt p1 t fixed = Ok q' ->
  exists td F, tr k q = Ok (p1, td) /\ forces p1 t = Ok F /\ length q' = length p1 /\
    (forall i, (i < length p1)%nat -> let x := (fst (nth i p1 (0, 0)) + dt * fst (nth i F (0, 0)), snd (nth i p1 (0, 0)) + dt * snd (nth i F (0, 0))) in
       f x <= 0 -> nth i q' (0, 0) = x).
Proof. exact free_step. Qed.
Print Assumptions C67_unlocked_moves.
Example C67_unlocked_case :
  let F := fun (p : list point) (_ : list tri) => Ok (map (fun _ => (1, 1)) p) in
  let p := [(0, 0); (1, 0); (0, 1)] in
  let tr := fun (_ : nat) p => Ok (p, [(0, 1, 2)]%nat) in
  exists t, topology_step tr (dist_of left_of_3) (1 # 1000) [] false 0 p = Ok (p, t, []) /\
    move_step (dist_of left_of_3) F (1 # 16) 1 p t [] = Ok [(1, 1); (2, 1); (1, 2)].
Proof. exists [(0, 1, 2)%nat]. split; vm_compute; reflexivity. Qed.
Example C67_case :
  let F := fun (p : list point) (_ : list tri) => Ok (map (fun _ => (1, 1)) p) in
  let p := [(0, 0); (2, 0); (0, 2); (2, 2); (1, 1)] in
  let tr := fun (_ : nat) p => Ok (p, [(0, 1, 4); (1, 3, 4); (3, 2, 4); (2, 0, 4)]%nat) in
  exists t fixed, topology_step tr (dist_of left_of_3) (1 # 1000) [] true 0 p = Ok (p, t, fixed) /\
    move_step (dist_of left_of_3) F (1 # 16) 1 p t fixed = Ok [(0, 0); (2, 0); (0, 2); (2, 2); (2, 2)].
Proof.
  exists [(0, 1, 4); (1, 3, 4); (3, 2, 4); (2, 0, 4)]%nat, [0; 1; 2; 3]%nat. split; vm_compute; reflexivity.
Qed.

Theorem C67_locked_boundary_refuted : exists tr f forces p p' t' i x,
  keeps_points tr /\ respects f /\
  (exists td, tr 0%nat p = Ok (p, td) /\ In i (boundary_ends td) /\ nth i p (0, 0) = x) /\
  generate_mesh tr (dist_of f) forces zedge_leb (1 # 1000) (1 # 16) 1 [] true 2 p = Ok (p', t') /\
  t' <> [] /\ forall y, In y p' -> ~ near (1 # 2) x y.
Proof. exact locked_moved. Qed.
Print Assumptions C67_locked_boundary_refuted.

(** C68.  Projection: no point is added or removed, points that are not outside stay, and for an affine
    distance with squared gradient at least deps every point outside lands on the boundary. *)
Theorem C68_projection_keeps_inside : forall fd f deps p p' i,
  pointwise fd f -> project_points_back p fd deps = Ok p' ->
  length p' = length p /\ ((i < length p)%nat -> f (nth i p (0, 0)) <= 0 -> nth i p' (0, 0) = nth i p (0, 0)).
Proof. exact project_stays. Qed.
Print Assumptions C68_projection_keeps_inside.
Theorem C68_projection_affine : forall fd a b c deps p p', 0 < deps -> deps <= a * a + b * b ->
  let f := fun q : Q * Q => a * fst q + b * snd q + c in
  pointwise fd f -> project_points_back p fd deps = Ok p' ->
  length p' = length p /\
  (forall i, (i < length p)%nat -> f (nth i p (0, 0)) <= 0 -> nth i p' (0, 0) = nth i p (0, 0)) /\
  (forall i, (i < length p)%nat -> 0 < f (nth i p (0, 0)) -> f (nth i p' (0, 0)) == 0).
Proof. exact project_affine. Qed.
Print Assumptions C68_projection_affine.
Example C68_case : (1 # 16) <= 1 * 1 + 0 * 0 /\
  exists p', project_points_back [(0, 0); (4, 7); (3, 3)] (dist_of left_of_3) (1 # 16) = Ok p' /\
  nth 0 p' (0, 0) = (0, 0) /\ same_point (nth 1 p' (0, 0)) (3, 7) /\ nth 2 p' (0, 0) = (3, 3).
Proof. split; [discriminate|]. eexists. split; [vm_compute; reflexivity|]. repeat split; reflexivity. Qed.
(** For a flatter distance the point stays outside. *)
Theorem C68_projection_flat_refuted : exists a b c deps p p', 0 < deps /\ ~ (a == 0 /\ b == 0) /\
  let f := fun q : Q * Q => a * fst q + b * snd q + c in
  project_points_back p (dist_of f) deps = Ok p' /\ exists i, (i < length p)%nat /\ 0 < f (nth i p (0, 0)) /\ 0 < f (nth i p' (0, 0)).
Proof. exact project_flat. Qed.
Print Assumptions C68_projection_flat_refuted.

(** C69.  The initial points are the fixed points followed by lattice points of the box (enlarged by at
    most one step above) with distance below geps; whatever the draws in [0,1), lattice points with the
    smallest size are all there. *)
Theorem C69_initial_points : forall x0 x1 y0 y1 h geps fh fd g f pfix rand r,
  0 < h -> pointwise fh g -> pointwise fd f ->
  generate_initial_points h geps (x0, x1, y0, y1) fh fd pfix rand = Ok r ->
  exists p2, r = pfix ++ p2 /\
    (forall x, In x p2 -> f x < geps /\ exists i j : nat,
       x = (x0 + inject_Z (Z.of_nat i) * h, y0 + inject_Z (Z.of_nat j) * h) /\ fst x < x1 + h /\ snd x < y1 + h) /\
    ((forall u, In u rand -> 0 <= u < 1) ->
     forall i j : nat, let x := (x0 + inject_Z (Z.of_nat i) * h, y0 + inject_Z (Z.of_nat j) * h) in
       fst x < x1 + h -> snd x < y1 + h -> f x < geps -> 0 <= g x ->
       (forall y, In y (lattice (x0, x1, y0, y1) h) -> h <= g y -> g x <= g y) -> In x p2).
Proof. exact initial_points. Qed.
Print Assumptions C69_initial_points.
(** Sizes 1 at x = 0 and 2 at x = 1; the draws 1/2 are above 1/4. *)
Example C69_case : generate_initial_points 1 (1 # 1000) (0, 1, 0, 1) (dist_of (fun x => 1 + fst x)) (dist_of left_of_3)
    [(1 # 3, 0)] [1 # 2; 1 # 2; 1 # 2; 1 # 8] =
  Ok [(1 # 3, 0); (0, 0); (0, 1); (1, 1)].
Proof. reflexivity. Qed.
