(** Theorems about metadata and plots of domains, bounds of regions and coordinate arrays of grids (C26, C52, C151-C154). *)
From Coq Require Import List Arith ZArith QArith Qabs Lqa.
From Verif Require Import M_Base M_Sdf M_Region M_Grid M_Domains S_Domains P_Domains.
Import ListNotations.
Open Scope Q_scope.

(** C26.  The outline of a box is the closed ring of its four corners, enclosing twice-area 2wh counter-clockwise. *)
Theorem C26_ring : forall b, let r := create_boubox b in
  shoelace r == 2 * ((b1 b - b0 b) * (b3 b - b2 b)) /\ hd (0, 0) r = last r (0, 0) /\ length r = 5%nat /\
  (forall p, In p r <-> (fst p = b0 b \/ fst p = b1 b) /\ (snd p = b2 b \/ snd p = b3 b)).
Proof. exact boubox_ring. Qed.
Print Assumptions C26_ring.
Example C26_ring_example : create_boubox (0, 2, 5, 8) = [(0, 5); (2, 5); (2, 8); (0, 8); (0, 5)] /\ shoelace (create_boubox (0, 2, 5, 8)) == 12.
Proof. split; reflexivity. Qed.

(** C52.  A minimum over no grid raises IndexError. *)
Theorem C52_empty : forall tr, compute_minimum tr [] = Raise IndexError.
Proof. exact minimum_empty. Qed.
Print Assumptions C52_empty.

(** C151.  Combined domains exist for every non-empty list; their CRS is that of the first domain that has one, and they are
    stereographic iff one of the domains is.  In a multiscale domain this holds of the union for all the domains given, and of
    nest i for domain i and its successors. *)
Theorem C151_metadata : forall ds u, (Union ds = Ok u \/ Intersection ds = Ok u \/ Difference ds = Ok u) -> metadata_of ds u.
Proof. exact metadata_all. Qed.
Print Assumptions C151_metadata.
Theorem C151_returns : forall ds, ((exists u, Union ds = Ok u) <-> ds <> []) /\ ((exists u, Intersection ds = Ok u) <-> ds <> []) /\
  ((exists u, Difference ds = Ok u) <-> ds <> []).
Proof. exact returns_all. Qed.
Print Assumptions C151_returns.
Theorem C151_multiscale : forall ds u ns, multiscale ds = Ok (u, ns) ->
  metadata_of ds u /\ length ns = length ds /\ forall i n, nth_error ns i = Some n -> metadata_of (skipn i ds) n.
Proof. exact multiscale_metadata. Qed.
Print Assumptions C151_multiscale.
(** A box has the bounds given; combinations of boxes have no CRS and are not stereographic. *)
Theorem C151_box : forall b, d_crs (create_bbox b) = None /\ d_stereo (create_bbox b) = false /\ d_bbox (create_bbox b) = b.
Proof. exact box_metadata. Qed.
Print Assumptions C151_box.
Theorem C151_boxes : forall bs u, (Union (map create_bbox bs) = Ok u \/ Intersection (map create_bbox bs) = Ok u \/ Difference (map create_bbox bs) = Ok u) ->
  d_crs u = None /\ d_stereo u = false.
Proof. exact boxes_metadata. Qed.
Print Assumptions C151_boxes.
(** A multiscale domain of shorelines is stereographic when one of them is, and has a CRS when one of them has. *)
Theorem C151_shorelines : forall inb ins near near2 l u ns, multiscale (map (fun q => let '(b, crs, st, inv) := q in shore_domain inb ins near near2 b crs st inv) l) = Ok (u, ns) ->
  (d_stereo u = true <-> exists b crs inv, In (b, crs, true, inv) l) /\ (d_crs u = None <-> forall b crs st inv, In (b, crs, st, inv) l -> crs = None).
Proof. exact shorelines_metadata. Qed.
Print Assumptions C151_shorelines.
Example C151_shorelines_case : exists u ns, multiscale (map (fun q => let '(b, crs, st, inv) := q in shore_domain (map (fun _ => true)) (map (fun _ => true)) (map (fun _ => 1)) (map (fun _ => 1)) b crs st inv)
  [((0, 1, 0, 1), None, false, false); ((0, 2, 0, 1), Some 7%nat, true, false)]) = Ok (u, ns) /\ d_stereo u = true /\ d_crs u = Some 7%nat.
Proof. eexists; eexists. split; [vm_compute; reflexivity|]. vm_compute. auto. Qed.
Example C151_boxes_case : exists u, Difference (map create_bbox [(0, 4, 0, 4); (1, 2, 1, 2)]) = Ok u.
Proof. eexists. reflexivity. Qed.
(** Three domains, the second in CRS 7 and the third in CRS 9 and stereographic, all with coverings. *)
Definition dom (c : option nat) (s : bool) : domain :=
  {| d_bbox := (0, 1, 0, 1); d_eval := fun x => Ok (map (fun _ => 0) x); d_covering := Some (fun x => Ok (map (fun _ => 1) x)); d_crs := c; d_stereo := s |}.
Example C151_example : exists u ns, multiscale [dom None false; dom (Some 7%nat) false; dom (Some 9%nat) true] = Ok (u, ns) /\
  d_crs u = Some 7%nat /\ d_stereo u = true /\ map d_crs ns = [Some 7%nat; Some 7%nat; Some 9%nat].
Proof. do 2 eexists. split; [reflexivity|]. repeat split; reflexivity. Qed.

(** C152.  Samples number N, lie in the box grown by 0.01, and can be any point of it; a plot holds exactly the samples whose
    distance is below 0.0001 in size, with their distances. *)
Theorem C152_count : forall b N draws, length (generate_samples b N draws) = Z.to_nat N.
Proof. exact samples_length. Qed.
Print Assumptions C152_count.
Theorem C152_margin : forall b N draws, proper_box b -> (forall k, 0 <= draws k <= 1) -> Forall (in_margin b (1 # 100)) (generate_samples b N draws).
Proof. exact samples_margin. Qed.
Print Assumptions C152_margin.
Theorem C152_any : forall b p i N, (Z.of_nat i < N)%Z -> proper_box b -> in_margin b (1 # 100) p -> exists draws, (forall k, 0 <= draws k <= 1) /\
  exists q, nth_error (generate_samples b N draws) i = Some q /\ fst q == fst p /\ snd q == snd p.
Proof. exact samples_any. Qed.
Print Assumptions C152_any.
Theorem C152_points : forall F d g (fn : option F) N draws, (forall xs, d_eval d xs = Ok (map g xs)) -> exists pts,
  plot_domain d fn N draws = Ok (pts, match fn with None => Shown | Some f => Saved f end) /\
  forall p v, In (p, v) pts <-> In p (generate_samples (d_bbox d) N draws) /\ v = g (Fin (fst p), Fin (snd p)) /\ Qabs v < 1 # 10000.
Proof. exact @plot_points. Qed.
Print Assumptions C152_points.
(** A plot asked for in a file goes to the file: refuted, method plot of a domain drops the file name. *)
Theorem C152_file_refuted : forall F d (f : F) N draws pts o, Domain_plot d (Some f) N draws = Ok (pts, o) -> o = Shown.
Proof. intros F d f. exact (plot_never_saves d (Some f)). Qed.
Print Assumptions C152_file_refuted.
Example C152_example : exists p q, in_margin (0, 1, 0, 1) (1 # 100) p /\ fst p == 1 # 2 /\
  Domain_plot (dom None false) (Some 3%nat) 2 (fun _ => 1 # 2) = Ok ([(p, 0); (q, 0)], Shown).
Proof. do 2 eexists. split; [|split]; cycle 2; [vm_compute; reflexivity| |reflexivity]. unfold in_margin, Qle. cbn. repeat split; discriminate. Qed.

(** C153.  The total bounds of a polygon with finite vertices are the least and greatest coordinates; a vertex with nan
    coordinates makes them nan.  Those of a tuple are the tuple. *)
Theorem C153_polygon : forall v, v <> [] -> all_finite (map fst v) -> all_finite (map snd v) -> exists a b c d,
  total_bounds (Poly v) = Ok [a; b; c; d] /\ least (map fst v) a /\ greatest (map fst v) b /\ least (map snd v) c /\ greatest (map snd v) d.
Proof. exact bounds_poly. Qed.
Print Assumptions C153_polygon.
Theorem C153_nan : forall v, In NaN (map fst v) -> In NaN (map snd v) -> total_bounds (Poly v) = Ok [NaN; NaN; NaN; NaN].
Proof. exact bounds_nan. Qed.
Print Assumptions C153_nan.
Theorem C153_empty : total_bounds (Poly []) = Raise ValueError.
Proof. exact empty_bounds. Qed.
Print Assumptions C153_empty.
Theorem C153_tuple : forall crs user (parse : user -> res crs) v c r, Region parse (Box v) c = Ok r -> total_bounds (r_bbox r) = Ok v /\ (4 <= length v)%nat.
Proof. exact @box_bounds. Qed.
Print Assumptions C153_tuple.
(** Total bounds are four numbers: refuted, a region takes a tuple of five. *)
Theorem C153_four_refuted : exists v, length v = 5%nat /\ forall crs user (parse : user -> res crs) c d, parse c = Ok d ->
  exists r, Region parse (Box v) c = Ok r /\ total_bounds (r_bbox r) = Ok v.
Proof. exact five_bounds. Qed.
Print Assumptions C153_four_refuted.
Example C153_example : total_bounds (Poly [(Fin 1, Fin 5); (Fin (-2), Fin 7); (Fin 3, Fin 6)]) = Ok [Fin (-2); Fin 3; Fin 5; Fin 7].
Proof. reflexivity. Qed.

(** C154.  The coordinate arrays of a grid have nx rows of ny entries; entry (i, j) is node i in x and node j in y, the nodes
    increase. *)
Theorem C154_shape : forall g, length (fst (create_grid g)) = nx g /\ length (snd (create_grid g)) = nx g /\
  Forall (fun r => length r = ny g) (fst (create_grid g)) /\ Forall (fun r => length r = ny g) (snd (create_grid g)).
Proof. exact grid_shape. Qed.
Print Assumptions C154_shape.
Theorem C154_entries : forall g i j, (i < nx g)%nat -> (j < ny g)%nat ->
  nth j (nth i (fst (create_grid g)) []) 0 = node_x g i /\ nth j (nth i (snd (create_grid g)) []) 0 = node_y g j.
Proof. exact grid_entry. Qed.
Print Assumptions C154_entries.
Theorem C154_increasing : forall g i k, (i < k)%nat -> (0 < g_dx g -> node_x g i < node_x g k) /\ (~ g_dy g == 0 -> node_y g i < node_y g k).
Proof. exact nodes_increase. Qed.
Print Assumptions C154_increasing.
