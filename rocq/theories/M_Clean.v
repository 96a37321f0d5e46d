(** Model of oceanmesh/clean.py (everything except the tables, which are in M_Adjacency.v). *)
From Coq Require Import List Arith Bool ZArith QArith Qminmax.
From Verif Require Import M_Base M_Numpy M_Edges M_FixMesh M_Adjacency.
Import ListNotations.

(** Default ptol of fix_mesh (fix_mesh.py:34). *)
Definition ptol_default : Q := 2 # 10000000000000.

Section Search.
  (** [row c] is ftof[idx[c]:idx[c+1], 1]. *)
  Variable row : nat -> res (list nat).

  (** clean.py:339-344: the loop over the neighbours of one face.
      State: nflag, visited, searching. *)
  Definition visit_neis (neis : list nat) (st : list bool * list nat * bool) : list bool * list nat * bool :=
    fold_left (fun st nei => let '(flag, vis, sr) := st in
                 if nth nei flag false then st else (upd flag nei true, vis ++ [nei], true)) neis st.

  (** clean.py:333-344: [for c in visited], where the body appends to the list being iterated. *)
  Fixpoint for_visited (fuel pos : nat) (st : list bool * list nat * bool) : res (list bool * list nat * bool) :=
    match fuel with
    | O => OutOfFuel
    | S fuel' =>
        let '(flag, vis, sr) := st in
        match nth_error vis pos with
        | None => Ok st
        | Some c =>
            let! neis := row c in
            for_visited fuel' (S pos) (visit_neis neis (upd flag c true, vis, sr))
        end
    end.

  (** clean.py:331-344: [while searching]. *)
  Fixpoint while_searching (fuel inner : nat) (flag : list bool) (vis : list nat) : res (list bool) :=
    match fuel with
    | O => OutOfFuel
    | S fuel' =>
        let! st := for_visited inner 0 (flag, vis, false) in
        let '(flag', vis', sr) := st in
        if sr then while_searching fuel' inner flag' vis' else Ok flag'
    end.
End Search.

Definition Qsum (l : list Q) : Q := fold_right Qplus 0 l.

(** (An / A) > min_disconnected_area, clean.py:241, 250.  For A = 0 the loop test is reached with
    An = A, and the float quotient nan compares False. *)
Definition frac_gt (An A m : Q) : bool := if Qeq_bool A 0 then false else negb (Qle_bool (An / A) m).

(** np.argmin of an array of qualities; [None] is nan, which numpy treats as smallest.  The position
    of the first nan if there is one, else of the first smallest entry. *)
Fixpoint argmin_from (i best : nat) (bq : option Q) (l : list (option Q)) : nat :=
  match l with
  | [] => best
  | q :: r =>
      match bq, q with
      | None, _ => best
      | Some _, None => i
      | Some b, Some x => if Qle_bool b x then argmin_from (S i) best bq r else argmin_from (S i) i q r
      end
  end.
Definition argmin (l : list (option Q)) : res nat :=
  match l with [] => Raise ValueError | q :: r => Ok (argmin_from 1 0 q r) end.

Section Clean.
  (** numpy's default argsort and the byte order of coordinate rows (see M_Adjacency, M_FixMesh). *)
  Variable argsort : list nat -> list nat.
  Variable kleb : Z * Z -> Z * Z -> bool.
  (** simp_qual (fix_mesh.py:6-31) of one face; [None] is nan.  An arbitrary function here: the
      formula needs square roots and is modelled in M_Quality.v. *)
  Variable qual : list point -> tri -> option Q.

  Definition fix0 (p : list point) (ts : list tri) : res (list point * list tri * list nat) :=
    fix_mesh kleb ptol_default p ts true.

  (** clean.py:312-345 _depth_first_search; [selected] is the draw of np.random.randint(0, nt),
      which raises for nt = 0. *)
  Definition depth_first_search (selected : nat) (ts : list tri) : res (list bool) :=
    match ts with
    | [] => Raise ValueError
    | _ =>
        let '(ftof, idx) := face_to_face argsort ts in
        while_searching (row_of ftof idx) (S (S (length ts))) (S (length ts))
          (repeat false (length ts)) [selected]
    end.

  (** clean.py:230-265 delete_exterior_faces.  [draw k n] is the k-th random face number below n. *)
  Fixpoint exterior_loop (fuel : nat) (draw : nat -> nat -> nat) (k : nat) (p : list point) (A m : Q)
      (t1 acc : list tri) (An : Q) : res (list tri) :=
    match fuel with
    | O => OutOfFuel
    | S fuel' =>
        if frac_gt An A m then
          let! nflag := depth_first_search (draw k (length t1)) t1 in
          let t2 := take_mask t1 nflag in
          let An2 := Qsum (simp_vol p t2) in
          let acc' := if frac_gt An2 A m then acc ++ t2 else acc in
          let t1' := delete_mask t1 nflag in
          exterior_loop fuel' draw (S k) p A m t1' acc' (Qsum (simp_vol p t1'))
        else Ok acc
    end.
  Definition delete_exterior_faces (draw : nat -> nat -> nat) (p : list point) (ts : list tri) (m : Q)
    : res (list tri) :=
    if forallb (fun t => forallb (fun v => v <? length p) (tri_vertices t)) ts then
      let A := Qsum (simp_vol p ts) in
      exterior_loop (S (length ts)) draw 0 p A m ts [] A
    else Raise IndexError.

  (** boundary_edges.reshape(-1), clean.py:274. *)
  Definition boundary_ends (ts : list tri) : list nat :=
    flat_map (fun e => [fst e; snd e]) (get_boundary_edges ts).

  (** clean.py:223-227 _external_topology: the boundary edges and how many boundary vertices there are.
      Indexing the vertex array raises when a vertex number is too large.  Without boundary edges (a closed
      surface, no faces) the table of edges is the float array np.array([]) (edges.py:112), which is no index
      (line 226). *)
  Definition external_topology (p : list point) (ts : list tri) : res (list edge * list nat) :=
    let be := get_boundary_edges ts in
    let bv := unique Nat.leb Nat.eqb (boundary_ends ts) in
    match be with
    | [] => Raise IndexError
    | _ => if forallb (fun v => v <? length p) bv then Ok (be, bv) else Raise IndexError
    end.

  (** clean.py:283-304: the face removed at one vertex. *)
  Definition face_to_delete (p : list point) (ts : list tri) (etbv : list nat) (conn : list nat) : res nat :=
    let cand := filter (fun f => forallb (fun v => existsb (Nat.eqb v) etbv)
                                   (tri_vertices (nth f ts (0, 0, 0)%nat))) conn in
    match cand with
    | [f] => Ok f
    | [] => let! i := argmin (map (fun f => qual p (nth f ts (0, 0, 0)%nat)) conn) in get conn i
    | _ => let! i := argmin (map (fun f => qual p (nth f ts (0, 0, 0)%nat)) cand) in get cand i
    end.

  (** clean.py:268-309 delete_interior_faces: the remaining faces and the deleted face numbers.  A
      vertex number out of range at a vertex off the boundary, which would make simp_qual raise, is not
      detected here; every call in the package is on a mesh returned by fix_mesh. *)
  Definition delete_interior_faces (p : list point) (ts : list tri) : res (list tri * list nat) :=
    let! _ := external_topology p ts in
    let etbv := boundary_ends ts in
    let '(vtoc, nne) := vertex_to_face argsort ts in
    let over := map fst (filter (fun c => 2 <? snd c)%nat (unique_counts Nat.leb Nat.eqb etbv)) in
    let! del := mapM (fun ix => let! conn := row_of vtoc nne ix in face_to_delete p ts etbv conn) over in
    Ok (delete_at ts del, del).

  (** clean.py:205-220 make_mesh_boundaries_traversable.  [draw c] are the random draws of the c-th
      pass.  An empty result of delete_exterior_faces is the float array np.array([]), which
      fix_mesh cannot use as an index. *)
  Fixpoint traversable_loop (fuel : nat) (draw : nat -> nat -> nat -> nat) (c : nat)
      (p : list point) (ts : list tri) (m : Q) : res (list point * list tri) :=
    match fuel with
    | O => OutOfFuel
    | S fuel' =>
        let! topo := external_topology p ts in
        if (length (fst topo) <=? length (snd topo))%nat then Ok (p, ts)
        else
          let! t1 := delete_exterior_faces (draw c) p ts m in
          let! f1 := (match t1 with [] => Raise IndexError | _ => fix0 p t1 end) in
          let '(p1, t2, _) := f1 in
          let! d := delete_interior_faces p1 t2 in
          let! f2 := fix0 p1 (fst d) in
          let '(p2, t3, _) := f2 in
          traversable_loop fuel' draw (S c) p2 t3 m
    end.
  Definition make_mesh_boundaries_traversable (draw : nat -> nat -> nat -> nat) (p : list point)
      (ts : list tri) (m : Q) : res (list point * list tri) :=
    traversable_loop (S (length p + length ts)) draw 0 p ts m.

  (** clean.py:376-378: face numbers whose row of the face table has two entries. *)
  Definition one_neighbour (ts : list tri) : list nat :=
    let idx := snd (face_to_face argsort ts) in
    filter (fun i => nth (S i) idx 0%nat - nth i idx 0%nat =? 2)%nat (seq 0 (length idx - 1)).

  (** clean.py:348-389 delete_faces_connected_to_one_face; max_iter [None] is np.inf. *)
  Fixpoint one_face_loop (fuel count : nat) (max_iter : option nat) (p : list point) (ts : list tri)
    : res (list point * list tri) :=
    match fuel with
    | O => OutOfFuel
    | S fuel' =>
        if (match max_iter with None => true | Some k => count <? k end)%nat then
          match one_neighbour ts with
          | [] => Ok (p, ts)
          | del =>
              let! f := fix0 p (delete_at ts del) in
              let '(p1, t1, _) := f in
              one_face_loop fuel' (S count) max_iter p1 t1
          end
        else Ok (p, ts)
    end.
  Definition delete_faces_connected_to_one_face (max_iter : option nat) (p : list point) (ts : list tri)
    : res (list point * list tri) :=
    match max_iter with
    | Some O => Raise AssertionError
    | _ => one_face_loop (S (length ts)) 0 max_iter p ts
    end.

  (** clean.py:490-509 get_boundary_entities. *)
  Definition get_boundary_entities (p : list point) (ts : list tri) : res (list nat) :=
    let! topo := external_topology p ts in
    let '(vtoe, ptr) := vertex_to_face argsort ts in
    let! rows := mapM (row_of vtoe ptr) (snd topo) in
    Ok (unique Nat.leb Nat.eqb (concat rows)).

  (** q < min_qual; a nan compares False. *)
  Definition qual_lt (q : option Q) (m : Q) : bool :=
    match q with None => false | Some x => negb (Qle_bool m x) end.

  (** clean.py:512-536 delete_boundary_faces.  simp_qual of all faces (line 527) raises on vertex
      numbers out of range. *)
  Definition delete_boundary_faces (p : list point) (ts : list tri) (min_qual : Q)
    : res (list point * list tri) :=
    let! _ := (if forallb (fun t => forallb (fun v => v <? length p) (tri_vertices t)) ts
               then Ok tt else Raise IndexError) in
    let! bele := get_boundary_entities p ts in
    let del := filter (fun f => qual_lt (qual p (nth f ts (0, 0, 0)%nat)) min_qual) bele in
    let! f := fix0 p (delete_at ts del) in
    let '(p1, t1, _) := f in
    Ok (p1, t1).

  (** Rows of the sparse matrix S of laplacian2 (clean.py:445-450): the column indices of row i, with
      multiplicity, from columns [0,0,1,1,2,2] and [1,2,0,2,0,1] of the connectivity. *)
  Definition lap_row (ts : list tri) (i : nat) : list nat :=
    flat_map (fun t => let '(a, b, c) := t in
      (if a =? i then [b; c] else []) ++ (if b =? i then [a; c] else []) ++ (if c =? i then [a; b] else []))%nat ts.

  (** clean.py:435-439 _closest_node inside laplacian2: np.argmin of squared distances. *)
  Definition closest_node (x : point) (p : list point) : res nat :=
    argmin (map (fun y => Some ((fst y - fst x) * (fst y - fst x) + (snd y - snd x) * (snd y - snd x))) p).

  (** clean.py:474-476: one smoothing sweep; [bnd] are the rows that are reset. *)
  Definition lap_sweep (ts : list tri) (bnd : list nat) (p : list point) : list point :=
    map (fun i =>
           if existsb (Nat.eqb i) bnd then nth i p (0, 0)
           else
             let nb := lap_row ts i in
             let w := inject_Z (Z.of_nat (length nb)) in
             (Qsum (map (fun j => fst (nth j p (0, 0))) nb) / w,
              Qsum (map (fun j => snd (nth j p (0, 0))) nb) / w))
        (seq 0 (length p)).

  (** clean.py:473-485: the sweep loop.  [stop it p] is the decision of lines 477-482 (edge-length based,
      needs square roots): an arbitrary function here. *)
  Fixpoint lap_loop (n : nat) (it : nat) (stop : nat -> list point -> bool) (ts : list tri) (bnd : list nat)
      (p : list point) : list point :=
    match n with
    | O => p
    | S n' => let p' := lap_sweep ts bnd p in
              if stop it p' then p' else lap_loop n' (S it) stop ts bnd p'
    end.

  (** An entry of pfix that is a number (clean.py:435-437, 457-458): nodes - node broadcasts it to both coordinates. *)
  Definition scalar_pin (x : Q) : point := (x, x).
  (** clean.py:414-487 laplacian2.  Vertex numbers out of range make coo_matrix raise ValueError.  An empty
      pfix makes the index array of lines 459-460 an array of floats, which raises in line 475. *)
  Definition laplacian2 (stop : nat -> list point -> bool) (max_iter : nat) (pfix : option (list point))
      (p : list point) (ts : list tri) : res (list point * list tri) :=
    if forallb (fun t => forallb (fun v => v <? length p) (tri_vertices t)) ts then
      let! topo := external_topology p ts in
      let! ifix := mapM (fun x => closest_node x p) (match pfix with Some l => l | None => [] end) in
      if existsb (fun i => length (lap_row ts i) =? 0)%nat (seq 0 (length p)) then Ok (p, ts)
      else if (match pfix with Some [] => (0 <? max_iter)%nat | _ => false end) then Raise IndexError
      else Ok (lap_loop max_iter 0 stop ts (snd topo ++ ifix) p, ts)
    else Raise ValueError.

  (** clean.py:23-71 mesh_clean; [stop] as in laplacian2, [draw1] and [draw2] the random draws of the
      two calls. *)
  Definition mesh_clean (draw1 draw2 : nat -> nat -> nat -> nat) (stop : nat -> list point -> bool)
      (min_element_qual min_area : Q) (max_iter : nat) (pfix : option (list point))
      (p : list point) (ts : list tri) : res (list point * list tri) :=
    let! a := make_mesh_boundaries_traversable draw1 p ts min_area in
    let! b := delete_boundary_faces (fst a) (snd a) min_element_qual in
    let! c := delete_faces_connected_to_one_face None (fst b) (snd b) in
    let! d := laplacian2 stop max_iter pfix (fst c) (snd c) in
    let! e := make_mesh_boundaries_traversable draw2 (fst d) (snd d) min_area in
    let! f := fix0 (fst e) (snd e) in
    let '(p', t', _) := f in
    Ok (p', t').
End Clean.
