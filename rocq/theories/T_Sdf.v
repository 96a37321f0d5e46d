(** Property theorems on signed_distance_function.py. *)
From Coq Require Import List Arith Lia QArith.
From Verif Require Import M_Base M_Sdf S_Sdf P_Sdf.
Import ListNotations.
Open Scope Q_scope.

(** C24.  Union, intersection and difference. *)
Theorem C24_union : forall ds gs, ds <> [] -> Forall2 evaluates ds gs ->
  exists u h, Union ds = Ok u /\ evaluates u h /\ forall x, h x < 0 <-> exists g, In g gs /\ g x < 0.
Proof. exact T_union. Qed.
Print Assumptions C24_union.
Theorem C24_intersection : forall ds gs, ds <> [] -> Forall2 evaluates ds gs ->
  exists u h, Intersection ds = Ok u /\ evaluates u h /\ forall x, h x < 0 <-> forall g, In g gs -> g x < 0.
Proof. exact T_intersection. Qed.
Print Assumptions C24_intersection.
Theorem C24_difference : forall d ds g gs, evaluates d g -> Forall2 evaluates ds gs ->
  exists u h, Difference (d :: ds) = Ok u /\ evaluates u h /\ forall x, h x < 0 <-> g x < 0 /\ forall g', In g' gs -> 0 < g' x.
Proof. exact T_difference. Qed.
Print Assumptions C24_difference.
(** The unit square domain evaluates entry by entry; so do combinations of such domains. *)
Example C24_case : exists g, evaluates (sq false) g /\ g (Fin (1 # 2), Fin (1 # 2)) < 0 /\ 0 < g (Fin 3, Fin 3).
Proof. exists (shore_value sq_in sq_in sq_near false). split; [intros xs; apply shore_func_eval|split; reflexivity]. Qed.

(** C25.  Nests are disjoint, their union is negative where one of them is, and at a point x it is
    decided by the domain with the last covering that touches x. *)
Theorem C25_multiscale : forall ds gcs, (1 < length ds)%nat -> Forall2 scale ds gcs ->
  (forall gc x, In gc gcs -> fst gc x < 0 -> snd gc x <= 0) ->
  exists u ns h hs, multiscale ds = Ok (u, ns) /\ evaluates u h /\ Forall2 evaluates ns hs /\ length hs = length ds /\
    (forall x i j dflt, (i < j < length ds)%nat -> ~ (nth i hs dflt x < 0 /\ nth j hs dflt x < 0)) /\
    (forall x, h x < 0 <-> exists g, In g hs /\ g x < 0) /\
    (forall x k dg, (k < length ds)%nat -> snd (nth k gcs dg) x <= 0 -> (forall j, (k < j < length ds)%nat -> 0 < snd (nth j gcs dg) x) ->
       (h x < 0 <-> fst (nth k gcs dg) x < 0)) /\
    (forall x dg, (forall k, (k < length ds)%nat -> 0 < snd (nth k gcs dg) x) -> ~ h x < 0).
Proof. exact T_multiscale. Qed.
Print Assumptions C25_multiscale.
Example C25_case : exists gc, Forall2 scale [sq false; sq false] [gc; gc] /\ forall x, fst gc x < 0 -> snd gc x <= 0.
Proof.
  destruct (shore_in_covering sq_in sq_in sq_near sq_near (0, 1, 0, 1) None false) as (h & c & H1 & H2 & H3).
  - exact sq_near_ok.
  - exists (h, c). split; [repeat constructor; auto|]. intros x Hx. apply Qlt_le_weak, H3, Hx.
Qed.

(** C26.  The rectangle. *)
Theorem C26_rectangle : forall b x y, exists v, d_eval (create_bbox b) [(Fin x, Fin y)] = Ok [v] /\
  (v < 0 <-> in_open_box b x y) /\ (v == 0 <-> on_box_side b x y) /\ (0 < v <-> ~ in_closed_box b x y).
Proof. exact T_bbox. Qed.
Print Assumptions C26_rectangle.
(** An array of points is evaluated point by point. *)
Theorem C26_rectangle_batch : forall b xs, exists vs, d_eval (create_bbox b) (map (fun p => (Fin (fst p), Fin (snd p))) xs) = Ok vs /\
  Forall2 (fun p v => d_eval (create_bbox b) [(Fin (fst p), Fin (snd p))] = Ok [v]) xs vs.
Proof. exact T_bbox_batch. Qed.
Print Assumptions C26_rectangle_batch.

(** C27.  A point with a non-finite coordinate gets 1e12, and -1e12 when the domain is inverted: then it
    counts as inside. *)
Theorem C27_nonfinite : forall inb ins near near2 b crs st invert d h p,
  d = shore_domain (map inb) (map ins) (map near) (map near2) b crs st invert -> evaluates d h ->
  ~ finite_point p -> h p == if invert then -1000000000000 else 1000000000000.
Proof. exact shore_nonfinite. Qed.
Print Assumptions C27_nonfinite.
Theorem C27_inverted_refuted : exists d v, d = sq true /\ d_eval d [(NaN, Fin 0)] = Ok [v] /\ v < 0.
Proof. exact inverted_nan. Qed.
Print Assumptions C27_inverted_refuted.
Example C27_case : evaluates (sq true) (shore_value sq_in sq_in sq_near true) /\ ~ finite_point (Inf true, Fin 0).
Proof. split; [intros xs; apply shore_func_eval|]. intros (x & y & E). discriminate. Qed.

(** C58.  Sign of a shoreline domain; the domain lies in its covering unless inverted. *)
Theorem C58_shoreline_sign : forall inb ins near near2 b crs st invert, (forall p, 0 <= near p) ->
  exists h, evaluates (shore_domain (map inb) (map ins) (map near) (map near2) b crs st invert) h /\
  forall x y, let p := (Fin x, Fin y) in
    (h p < 0 <-> 0 < near p /\ if invert then (ins p && inb p)%bool = false else (ins p && inb p)%bool = true) /\
    (h p == 0 <-> near p == 0).
Proof. exact shore_sign. Qed.
Print Assumptions C58_shoreline_sign.
Theorem C58_inside_covering : forall inb ins near near2 b crs st, (forall p, 0 <= near p <= near2 p) ->
  exists h c, evaluates (shore_domain (map inb) (map ins) (map near) (map near2) b crs st false) h /\
    covers_by (shore_domain (map inb) (map ins) (map near) (map near2) b crs st false) c /\ forall p, h p < 0 -> c p < 0.
Proof. exact shore_in_covering. Qed.
Print Assumptions C58_inside_covering.
(** Inverted domains leave their covering, and then the nests of the multiscale domain overlap. *)
Theorem C58_inverted_nests_refuted : exists d1 d2 u n1 n2 p v1 v2, d1 = sq true /\ d2 = sq true /\
  multiscale [d1; d2] = Ok (u, [n1; n2]) /\ d_eval n1 [p] = Ok [v1] /\ d_eval n2 [p] = Ok [v2] /\ v1 < 0 /\ v2 < 0.
Proof. exact inverted_overlap. Qed.
Print Assumptions C58_inverted_nests_refuted.
Example C58_case : forall p, 0 <= sq_near p <= sq_near p.
Proof. exact sq_near_ok. Qed.

(** C59.  If the interior of every operand lies in its box, so does the interior of the combination. *)
Theorem C59_union_box : forall ds gs u h, Forall2 evaluates ds gs -> Forall2 bbox_sound ds gs -> Union ds = Ok u -> evaluates u h -> bbox_sound u h.
Proof. exact union_bbox_sound. Qed.
Print Assumptions C59_union_box.
Theorem C59_intersection_box : forall ds gs u h, Forall2 evaluates ds gs -> Forall2 bbox_sound ds gs -> Intersection ds = Ok u -> evaluates u h -> bbox_sound u h.
Proof. exact intersection_bbox_sound. Qed.
Print Assumptions C59_intersection_box.
Theorem C59_difference_box : forall d ds g gs u h, evaluates d g -> Forall2 evaluates ds gs -> bbox_sound d g ->
  Difference (d :: ds) = Ok u -> evaluates u h -> bbox_sound u h.
Proof. exact difference_bbox_sound. Qed.
Print Assumptions C59_difference_box.
Example C59_case : evaluates (sq false) (shore_value sq_in sq_in sq_near false) /\ bbox_sound (sq false) (shore_value sq_in sq_in sq_near false).
Proof. exact sq_sound. Qed.

(** C60.  A domain without covering (such as create_bbox) after the first makes every evaluation of the
    multiscale domain fail. *)
Theorem C60_covering_required_refuted : forall d b xs, (exists v, d_eval d xs = Ok v) -> (exists v, d_eval (create_bbox b) xs = Ok v) ->
  exists u ns, multiscale [d; create_bbox b] = Ok (u, ns) /\ d_eval u xs = Raise TypeError.
Proof. exact bbox_multiscale_crash. Qed.
Print Assumptions C60_covering_required_refuted.
Theorem C60_no_covering_fails : forall d0 d ds u ns xs, (forall s, In s (d0 :: d :: ds) -> exists v, d_eval s xs = Ok v) ->
  (forall s, In s (d :: ds) -> d_covering s = None \/ exists f v, d_covering s = Some f /\ f xs = Ok v) ->
  (exists s, In s (d :: ds) /\ d_covering s = None) ->
  multiscale (d0 :: d :: ds) = Ok (u, ns) -> d_eval u xs = Raise TypeError.
Proof. exact multiscale_no_covering. Qed.
Print Assumptions C60_no_covering_fails.
Example C60_case : (exists v, d_eval (sq false) [(Fin 5, Fin 5)] = Ok v) /\ exists v, d_eval (create_bbox (0, 2, 0, 3)) [(Fin 5, Fin 5)] = Ok v.
Proof. split; eexists; vm_compute; reflexivity. Qed.
