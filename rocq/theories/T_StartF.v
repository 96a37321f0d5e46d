(** Property theorems C206, C207 and the default start of C205: initial points on IEEE doubles. *)
From Coq Require Import List Arith ZArith Reals SpecFloat.
From Flocq Require Import Core.
From Verif Require Import M_Base M_Edges M_FixMesh M_LapF M_QualF M_Ieee M_ForceF M_ProjF M_GenF M_StartF S_FixMesh S_Double S_Ieee S_LapF S_ForceF S_GenF S_StartF P_GenF P_GenF2 P_StartF P_StartF2.
Import ListNotations.
Open Scope R_scope.

(** C206.  The lattice along one axis: lo + k h up to a rounding bound, strictly increasing, from lo to at least hi and to less than
    hi + h, both up to that bound. *)
Theorem C206_axis_partial : forall M lo hi h, good_axis M lo hi h -> exists l, mgrid1_f lo hi h = Ok l /\ (0 < length l)%nat /\
  (forall k x, nth_error l k = Some x -> finite_double x /\ Rabs (val x - (val lo + INR k * val h)) <= axis_error M) /\
  val hi - axis_error M <= val lo + INR (length l - 1) * val h < val hi + val h + axis_error M.
Proof. exact axis_ok. Qed.
Print Assumptions C206_axis_partial.
Theorem C206_strict : forall M lo hi h l, good_axis M lo hi h -> mgrid1_f lo hi h = Ok l -> forall i j a b, (i < j)%nat -> nth_error l i = Some a -> nth_error l j = Some b -> val a < val b.
Proof. exact axis_strict. Qed.
Print Assumptions C206_strict.
(** Without the rounding bound: the lattice need not reach hi, here from 0 to the double after 3 with step 1. *)
Theorem C206_cover_refuted : exists lo hi h l, good_axis 4 lo hi h /\ mgrid1_f lo hi h = Ok l /\ forall x, In x l -> val x < val hi.
Proof. exact s_cover. Qed.
Print Assumptions C206_cover_refuted.
(** And it can have one value too many, here from 0 to 0.2 with step 0.1. *)
Theorem C206_extra_refuted : exists lo hi h l x, good_axis 1 lo hi h /\ mgrid1_f lo hi h = Ok l /\ In x l /\ val hi + val h <= val x.
Proof. exact s_extra. Qed.
Print Assumptions C206_extra_refuted.

(** A box whose sides are exchanged, by more than two steps, is refused. *)
Theorem C206_exchanged : forall M lo hi h, good_axis M hi lo h -> val hi + 2 * val h + axis_error M < val lo -> mgrid1_f lo hi h = Raise ValueError.
Proof. exact exchanged_rejected. Qed.
Print Assumptions C206_exchanged.
Example C206_exchanged_case : good_axis 8 f_0 (S754_finite false 4503599627370496 (-50)) g_1 /\ val f_0 + 2 * val g_1 + axis_error 8 < val (S754_finite false 4503599627370496 (-50)).
Proof. exact exchanged_case. Qed.

(** The points: the fixed points, then lattice points with distance below geps; each was kept by a number drawn below the square of the
    ratio of some smallest size to its own; lattice points with the smallest size are all kept. *)
Theorem C206_points : forall h geps x0 x1 y0 y1 fh g fd pfix rand M, good_axis M x0 x1 h -> good_axis M y0 y1 h -> (forall p, fh p = Ok (map g p)) ->
  forall r, generate_initial_points_f h geps x0 x1 y0 y1 fh fd pfix rand = Ok r ->
  exists p2, r = pfix ++ p2 /\
    (forall q, In q p2 -> SFltb (fd q) geps = true /\ finite_point q /\ exists i j : nat,
       Rabs (val (fst q) - (val x0 + INR i * val h)) <= axis_error M /\ Rabs (val (snd q) - (val y0 + INR j * val h)) <= axis_error M /\
       val x0 + INR i * val h < val x1 + val h + axis_error M /\ val y0 + INR j * val h < val y1 + val h + axis_error M) /\
    (unit_draws rand -> (forall q, finite_point q -> plain_size (g q)) ->
     (forall q, In q p2 -> exists d q', In d rand /\ finite_point q' /\ val h <= val (g q') /\ val d < (1 + 4 * u) * (val (g q') / val (g q)) ^ 2) /\
     forall i j : nat, val x0 + INR i * val h <= val x1 -> val y0 + INR j * val h <= val y1 ->
     exists q, finite_point q /\ Rabs (val (fst q) - (val x0 + INR i * val h)) <= axis_error M /\ Rabs (val (snd q) - (val y0 + INR j * val h)) <= axis_error M /\
       (SFltb (fd q) geps = true -> (forall q', finite_point q' -> val h <= val (g q') -> val (g q) <= val (g q')) -> In q p2)).
Proof. exact points_ok. Qed.
Print Assumptions C206_points.
(** Sizes 1 at x = 0 and 2 at x = 1; the draws 1/2 are above 1/4. *)
Example C206_case : good_axis 1 f_0 s_1 s_1 /\ unit_draws [s_half; s_half; s_half; s_01] /\ (forall q, plain_size (s_size q)) /\
  generate_initial_points_f s_1 s_01 f_0 s_1 f_0 s_1 (fun p => Ok (map s_size p)) (fun _ => f_0) [(s_half, f_0)] [s_half; s_half; s_half; s_01] = Ok [(s_half, f_0); (f_0, f_0); (f_0, s_1); (s_1, s_1)].
Proof. exact s_points. Qed.

(** C207.  Thinning: a lattice point of size r is kept for a draw below (m / r)^2, up to four roundings; always if r <= m. *)
Theorem C207_kept_partial : forall m r d, plain_size m -> plain_size r -> finite_double d -> accepted_f m (d, r) = true -> val d < (1 + 4 * u) * (val m / val r) ^ 2.
Proof. exact accepted_bound. Qed.
Print Assumptions C207_kept_partial.
Theorem C207_dropped_partial : forall m r d, plain_size m -> plain_size r -> finite_double d -> accepted_f m (d, r) = false -> (1 - 4 * u) * (val m / val r) ^ 2 <= val d.
Proof. exact rejected_bound. Qed.
Print Assumptions C207_dropped_partial.
Theorem C207_smallest_partial : forall m r d, plain_size m -> plain_size r -> val r <= val m -> finite_double d -> val d < 1 -> accepted_f m (d, r) = true.
Proof. exact accepted_small. Qed.
Print Assumptions C207_smallest_partial.
(** Not for all positive sizes: squares of sizes below 2^-538 are 0, and 0 / 0 keeps nothing. *)
Theorem C207_tiny_refuted : exists m, finite_double m /\ 0 < val m /\ accepted_f m (f_0, m) = false.
Proof. exact tiny_rejected. Qed.
Print Assumptions C207_tiny_refuted.
Example C207_case : accepted_f s_1 (s_01, s_2) = true /\ accepted_f s_1 (s_half, s_2) = false /\ plain_size s_1 /\ plain_size s_2.
Proof. destruct s_points as (_ & _ & H & _). split; [vm_compute; reflexivity|]. split; [vm_compute; reflexivity|]. exact (conj (H (f_0, f_0)) (H (s_1, f_0))). Qed.

(** C205 with the default start: fixed points need not be given as initial points, the start contains them. *)
Theorem C205_default_start_partial : forall tr locked fh geps deps dt mult pfix x0 xN y0 yN kleb h rand, total_order kleb -> finite_double geps -> 0 <= val geps ->
  forall M e, M <= bpow radix2 440 -> within_size M (x0, y0) /\ within_size M (xN, yN) ->
  forall n p p' t', keeps_places tr -> finite_double dt -> Forall moderate pfix -> distinguishable pfix -> (forall x, In x pfix -> val x0 <= val (fst x) <= val xN /\ val y0 <= val (snd x) <= val yN) ->
  generate_initial_points_f h geps x0 xN y0 yN fh (fun q => bbox_f x0 xN y0 yN (fst q) (snd q)) pfix rand = Ok p ->
  generate_mesh_f tr locked (fun q => bbox_f x0 xN y0 yN (fst q) (snd q)) fh geps deps dt mult pfix kleb n p = Ok (p', t') ->
  exists q pd td p1, tr (n - 1)%nat q = Ok (pd, td) /\ length p1 = length pd /\ (forall j, nth j p1 nan2 = nth j pd nan2 \/ In (nth j p1 nan2) pfix) /\
    forall x, In x pfix -> exists i, (i < length p1)%nat /\ same_place x (pt p1 i) /\
      (Forall (within_size M) p1 -> extent_atmost p1 e -> extent_atleast p1 (bpow radix2 (-340)) ->
       forall t, In t td -> In i (corners t) -> box_depth (val x0) (val xN) (val y0) (val yN) (corner3 p1 t) < - (1 + 2 * u) * val geps - 2 * centroid_error M ->
       exists j, (j < length p')%nat /\ Rabs (val (fst (pt p' j)) - val (fst x)) <= merge_error e M /\ Rabs (val (snd (pt p' j)) - val (snd x)) <= merge_error e M).
Proof. exact start_fixed. Qed.
Print Assumptions C205_default_start_partial.
(** The unit square with step 1 and opposite corners fixed, two iterations. *)
Example C205_default_start_case : keeps_places (same_points s_t) /\ s_start = Ok [(f_0, f_0); (g_1, g_1); (f_0, f_0); (f_0, g_1); (g_1, f_0); (g_1, g_1)] /\
  generate_mesh_f (same_points s_t) no_lock unit_box g_fh g_eps deps_f g_02 L0mult_f [(f_0, f_0); (g_1, g_1)] zedge_leb 2 [(f_0, f_0); (g_1, g_1); (f_0, f_0); (f_0, g_1); (g_1, f_0); (g_1, g_1)] =
    Ok ([(f_0, f_0); (g_1, g_1); (g_1, g_low); (g_low, g_1)], [(0, 2, 3); (2, 1, 3)]%nat).
Proof. exact s_case. Qed.
