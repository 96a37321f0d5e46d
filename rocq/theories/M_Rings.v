(** Model of _edges_to_rings and of the choice among the backends of inpoly2
    (oceanmesh/geometry/point_in_polygon.py:107-211, 328-472). *)
From Coq Require Import List Arith Bool ZArith QArith String.
From Verif Require Import M_Base M_Sdf M_Inpoly.
Import ListNotations.
Open Scope nat_scope.

(** A dictionary from vertices to lists of vertices, in order of insertion. *)
Definition dict : Type := list (nat * list nat).
Fixpoint lookup_key (d : dict) (v : nat) : list nat :=
  match d with [] => [] | (k, l) :: r => if k =? v then l else lookup_key r v end.
(** point_in_polygon.py:439: adj[u].append(v) on a defaultdict(list). *)
Fixpoint append_to (d : dict) (u v : nat) : dict :=
  match d with
  | [] => [(u, [v])]
  | (k, l) :: r => if k =? u then (k, l ++ [v]) :: r else (k, l) :: append_to r u v
  end.
(** point_in_polygon.py:436-440. *)
Definition adjacency (edge : list (nat * nat)) : dict :=
  fold_left (fun d e => append_to (append_to d (fst e) (snd e)) (snd e) (fst e)) edge [].

(** point_in_polygon.py:450-467, the inner loop; fuel is one more than the number of vertices. *)
Fixpoint walk (fuel : nat) (adj : dict) (start : nat) (prev : option nat) (current : nat) (ring visited : list nat)
  : res (list nat * list nat) :=
  match fuel with
  | O => OutOfFuel
  | S k =>
      let ring := ring ++ [current] in
      let visited := visited ++ [current] in
      let nbrs := lookup_key adj current in
      let! a := get nbrs 0 in
      let! nxt := match prev with
                  | None => Ok a
                  | Some p => let! b := get nbrs 1 in Ok (if b =? p then a else b)
                  end in
      if nxt =? start then Ok (ring, visited) else walk k adj start (Some current) nxt ring visited
  end.
(** point_in_polygon.py:446-472, the outer loop over adj.keys(), before the look-up of coordinates. *)
Fixpoint ring_loop (adj : dict) (keys : list nat) (visited : list nat) (rings : list (list nat)) : res (list (list nat)) :=
  match keys with
  | [] => Ok rings
  | s :: r =>
      if existsb (Nat.eqb s) visited then ring_loop adj r visited rings
      else
        let! w := walk (S (List.length adj)) adj s None s [] visited in
        ring_loop adj r (snd w) (rings ++ [fst w])
  end.
(** point_in_polygon.py:414-472, vertices instead of coordinates. *)
Definition ring_indices (edge : list (nat * nat)) : res (list (list nat)) :=
  match edge with
  | [] => Ok []
  | _ =>
      let adj := adjacency edge in
      if existsb (fun p => negb (List.length (snd p) =? 2)) adj then Raise ValueError
      else ring_loop adj (map fst adj) [] []
  end.
(** With node[...] (point_in_polygon.py:469-470). *)
Definition edges_to_rings (node : list xy) (edge : list (nat * nat)) : res (list (list xy)) :=
  let! rs := ring_indices edge in mapM (mapM (get node)) rs.

(** Results of a backend: one pair (inside, bnds) per query, or an exception. *)
Definition backend : Type := Q -> list xy -> list (nat * nat) -> list xy -> res (list (bool * bool)).
Definition raycasting : backend := fun ftol node edge vert => Ok (inpoly_raycasting ftol node edge vert).
Definition compiled : backend := fun ftol node edge vert => Ok (inpoly_fast ftol node edge vert).

Section Shapely.
  (** Shapely's Polygon(outer, holes) (which may refuse), contains of the prepared polygon, and whether the
      boundary is within a distance. *)
  Variable polygon : Type.
  Variable make_polygon : list xy -> list (list xy) -> res polygon.
  Variable contains : polygon -> xy -> bool.
  Variable boundary_within : polygon -> Q -> xy -> bool.
  (** point_in_polygon.py:328-361; the call made when shapely is missing is not reached from inpoly2. *)
  Definition inpoly_shapely : backend := fun ftol node edge vert =>
    match edges_to_rings node edge with
    | Raise ValueError => raycasting ftol node edge vert
    | Raise e => Raise e
    | OutOfFuel => OutOfFuel
    | Ok [] => raycasting ftol node edge vert
    | Ok (outer :: holes) =>
        let! p := make_polygon outer holes in
        Ok (map (fun q => (contains p q, boundary_within p ftol q)) vert)
    end.
End Shapely.

(** matplotlib's path codes. *)
Inductive code : Type := MoveTo | LineTo | ClosePoly.
Section Matplotlib.
  (** contains_points of the path with these vertices and codes, for a radius. *)
  Variable contains_points : list (xy * code) -> Q -> xy -> bool.
  (** point_in_polygon.py:383-396. *)
  Definition ring_path (ring : list xy) : list (xy * code) :=
    match ring with
    | [] => []
    | p :: r => (p, MoveTo) :: map (fun q => (q, LineTo)) r ++ [(p, ClosePoly)]
    end.
  (** point_in_polygon.py:369-411. *)
  Definition inpoly_matplotlib : backend := fun ftol node edge vert =>
    match edges_to_rings node edge with
    | Raise ValueError => raycasting ftol node edge vert
    | Raise e => Raise e
    | OutOfFuel => OutOfFuel
    | Ok rings =>
        match flat_map ring_path rings with
        | [] => raycasting ftol node edge vert
        | path => Ok (map (fun q => let inside := contains_points path 0 q in
                                    (inside, contains_points path ftol q && negb inside)) vert)
        end
    end.
End Matplotlib.

(** The environment: which libraries could be imported, whether the compiled kernel could be and was not
    switched off (lines 36-70), and OCEANMESH_INPOLY_METHOD after strip().lower() ("" when unset). *)
Record setting : Type := { have_shapely : bool; have_mpl : bool; have_compiled : bool; method_env : string }.
Definition named_method (s : string) : bool := ((s =? "raycasting") || (s =? "shapely") || (s =? "matplotlib"))%string.
(** point_in_polygon.py:191-206. *)
Definition select_method (e : setting) (n_points n_edges : nat) : string :=
  if named_method (method_env e) then method_env e
  else if (n_points <? 1000) && (n_edges <? 1000) then "raycasting"
  else if have_shapely e then "shapely"
  else if have_mpl e then "matplotlib"
  else "raycasting".

Section Dispatch.
  Variable shapely mpl : backend.
  (** point_in_polygon.py:138-172: the compiled kernel does not raise on the arrays it is given. *)
  Definition dispatch (e : setting) : backend := fun ftol node edge vert =>
    if negb (named_method (method_env e)) && have_compiled e then compiled ftol node edge vert
    else
      let m := select_method e (List.length vert) (List.length edge) in
      if (m =? "shapely")%string && have_shapely e then shapely ftol node edge vert
      else if (m =? "matplotlib")%string && have_mpl e then mpl ftol node edge vert
      else raycasting ftol node edge vert.
End Dispatch.

(** point_in_polygon.py:75-181 for any backend (M_Inpoly.inpoly2 with backends that may raise). *)
Definition inpoly2_with (kernel : backend) (ftol : Q) (node : list xy) (edge : option (list (Z * Z))) (vert : list pt)
  : res (list bool * list bool) :=
  let zeros := repeat false (List.length vert) in
  match node with
  | [] => Ok (zeros, zeros)
  | _ =>
      let m := List.length node in
      let run (edges : list (nat * nat)) :=
        let mask := finite_mask vert in
        if existsb (fun b => b) mask then
          let! r := kernel ftol node edges (map to_xy (mask_select mask vert)) in
          let! s := mask_assign zeros mask (map fst r) in
          let! b := mask_assign zeros mask (map snd r) in
          Ok (s, b)
        else Ok (zeros, zeros) in
      match edge with
      | None => if m <? 2 then Ok (zeros, zeros) else run (ring_edges m)
      | Some es =>
          if forallb (fun e => (0 <=? fst e)%Z && (0 <=? snd e)%Z && (fst e <? Z.of_nat m)%Z && (snd e <? Z.of_nat m)%Z) es
          then run (map (fun e => (Z.to_nat (fst e), Z.to_nat (snd e))) es)
          else Raise ValueError
      end
  end.
