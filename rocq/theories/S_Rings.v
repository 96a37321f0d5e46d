(** Specification vocabulary for rings of edges and the backends of the point-in-polygon test. *)
From Coq Require Import String List Arith Bool ZArith QArith Permutation.
From Verif Require Import M_Base M_Sdf M_Inpoly S_Inpoly M_Rings.
Import ListNotations.
Open Scope nat_scope.

(** Edge ends with repetition; how often a vertex is an end (an edge from v to v counts twice). *)
Definition end_list (edge : list (nat * nat)) : list nat := flat_map (fun e => [fst e; snd e]) edge.
Definition degree (edge : list (nat * nat)) (v : nat) : nat := count_occ Nat.eq_dec (end_list edge) v.
(** Successive members of a ring, the last being followed by the first. *)
Definition cyclic_pairs {A} (r : list A) : list (A * A) := combine r (tl r ++ firstn 1 r).
Definition undirected (e : nat * nat) : nat * nat := (Nat.min (fst e) (snd e), Nat.max (fst e) (snd e)).
(** The rings visit every edge end once and run through every edge once, in some direction. *)
Definition decomposes (edge : list (nat * nat)) (rings : list (list nat)) : Prop :=
  NoDup (concat rings) /\ (forall v, In v (concat rings) <-> In v (end_list edge)) /\ ~ In [] rings /\
  Permutation (map undirected (flat_map cyclic_pairs rings)) (map undirected edge).
Definition places (node : list xy) (r : list nat) : list xy := map (fun i => nth i node (0, 0)%Q) r.

(** A query on a ring; the even-odd rule for one ring. *)
Definition on_ring (r : list xy) (q : xy) : Prop := exists s, In s (ring_segments r) /\ on_segment q s.
Definition in_ring (r : list xy) (q : xy) : Prop := odd_many (crosses q) true (ring_segments r).
(** Holes lie in the outer ring and outside each other. *)
Definition nested (outer : list xy) (holes : list (list xy)) : Prop :=
  forall q, (forall r, In r (outer :: holes) -> ~ on_ring r q) ->
    (forall h, In h holes -> in_ring h q -> in_ring outer q) /\
    (forall i j hi hj, i <> j -> nth_error holes i = Some hi -> nth_error holes j = Some hj -> in_ring hi q -> ~ in_ring hj q).
(** Rings that do not meet themselves: two sides have at most the end common to neighbours in common. *)
Definition simple (r : list xy) : Prop :=
  3 <= length r /\ (forall sg, In sg (ring_segments r) -> ~ same_place (fst sg) (snd sg)) /\
  forall i j si sj q, i < j -> nth_error (ring_segments r) i = Some si -> nth_error (ring_segments r) j = Some sj ->
    on_segment q si -> on_segment q sj -> (j = S i /\ same_place q (snd si)) \/ (i = 0 /\ S j = length r /\ same_place q (fst si)).
Definition apart (rings : list (list xy)) : Prop :=
  forall i j ri rj q, i < j -> nth_error rings i = Some ri -> nth_error rings j = Some rj -> on_ring ri q -> ~ on_ring rj q.
Definition well_formed (outer : list xy) (holes : list (list xy)) : Prop :=
  (forall r, In r (outer :: holes) -> simple r) /\ apart (outer :: holes) /\ nested outer holes.
(** What is asked of shapely, for well-formed rings only: the polygon is built; contains means strictly inside the
    outer ring and strictly outside the holes; points of the boundary are within any distance that is not negative. *)
Definition faithful {P} (make : list xy -> list (list xy) -> res P) (contains : P -> xy -> bool) (within : P -> Q -> xy -> bool) : Prop :=
  forall outer holes, well_formed outer holes -> exists p, make outer holes = Ok p /\ forall q,
    (contains p q = true <-> (forall r, In r (outer :: holes) -> ~ on_ring r q) /\ in_ring outer q /\ forall h, In h holes -> ~ in_ring h q) /\
    (forall f, (exists r, In r (outer :: holes) /\ on_ring r q) -> (0 <= f)%Q -> within p f q = true).
(** A path of closed parts; inside some part is inside (as matplotlib decides). *)
Definition closed_part (r : list xy) : list (xy * code) :=
  match r with [] => [] | p :: t => (p, MoveTo) :: map (fun q => (q, LineTo)) t ++ [(p, ClosePoly)] end.
Definition union_rule (contains_points : list (xy * code) -> Q -> xy -> bool) : Prop :=
  forall rings q, (forall r, In r rings -> ~ on_ring r q) ->
    (contains_points (flat_map closed_part rings) 0%Q q = true <-> exists r, In r rings /\ in_ring r q).

(** The sides asked for: those named by the edges, or those of the ring through the nodes. *)
Definition sides (node : list xy) (edge : option (list (Z * Z))) : list seg :=
  match edge with Some es => edge_segments node es | None => ring_segments node end.
Definition side_pairs (node : list xy) (edge : option (list (Z * Z))) : list (nat * nat) :=
  match edge with
  | Some es => map (fun e => (Z.to_nat (fst e), Z.to_nat (snd e))) es
  | None => combine (seq 0 (length node)) (tl (seq 0 (length node)) ++ firstn 1 (seq 0 (length node)))
  end.
Definition on_side (segs : list seg) (q : xy) : Prop := exists s, In s segs /\ on_segment q s.
(** Settings under which the backend does not depend on the number of queries. *)
Definition settled (e : setting) (n_edges : nat) : Prop :=
  have_compiled e = true \/ In (method_env e) ["raycasting"; "shapely"; "matplotlib"]%string \/ 1000 <= n_edges \/
  (have_shapely e = false /\ have_mpl e = false).
