(** Property theorems C37, C39, C52, C53, C71 and C72 (grid.py, edgefx.py).  Sizes may be infinite or nan;
    finite arithmetic is exact. *)
From Coq Require Import List Arith ZArith QArith Qabs Lqa Lia.
From Verif Require Import M_Base M_Sdf M_Grid S_Grid P_Grid.
Import ListNotations.
Open Scope Q_scope.

(** C37, the part that holds: unless the box spans the globe, every further build changes nothing. *)
Theorem C37_rebuild_partial : forall g k, ~ global_box (g_bbox g) -> (1 <= k)%nat ->
  builds k g = build_interpolant g /\ g_values (builds k g) = g_values g.
Proof. exact builds_local_values. Qed.
Print Assumptions C37_rebuild_partial.

(** C37 fails for a global box: the values alternate, so whatever the grid evaluates to alternates. *)
Theorem C37_global_alternates : forall g k, global_box (g_bbox g) ->
  g_values (builds k g) = if Nat.even k then g_values g else swap_ends (g_values g).
Proof. exact builds_global. Qed.
Print Assumptions C37_global_alternates.

Theorem C37_build_twice_refuted : exists g n m q, proper_grid g n m /\ all_cells finite g n m /\ covered g n m q /\
  exists a b, eval (build_interpolant g) q = Ok a /\ eval (build_interpolant (build_interpolant g)) q = Ok b /\ ~ same_num a b.
Proof. exact build_twice_differs. Qed.
Print Assumptions C37_build_twice_refuted.

(** After one build a global grid evaluates at its first nodes to the last row and the other way round. *)
Theorem C37_global_nodes : forall g n m i j, proper_grid g n m -> all_cells finite g n m -> global_box (g_bbox g) -> (i < n)%nat -> (j < m)%nat ->
  exists v, eval (build_interpolant g) (x_of g i, y_of g j) = Ok v /\
    same_num v (value_at g (if (i =? 0)%nat then n - 1 else if (i =? n - 1)%nat then 0 else i)%nat j).
Proof. exact build_nodes_global. Qed.
Print Assumptions C37_global_nodes.

(** The function made by multiscale_sizing_function: the same answer at every call for regional grids, ... *)
Theorem C37_multiscale_repeats_partial : forall gs, Forall (fun g => ~ global_box (g_bbox g)) gs ->
  forall q q', fst (msf_eval true (snd (msf_eval true gs q)) q') = fst (msf_eval true gs q').
Proof. exact msf_repeats. Qed.
Print Assumptions C37_multiscale_repeats_partial.

(** ... but two calls at the same point differ when the coarsest grid is global. *)
Theorem C37_multiscale_refuted : exists gs q a b, fst (msf_eval true gs q) = Ok a /\
  fst (msf_eval true (snd (msf_eval true gs q)) q) = Ok b /\ ~ same_num a b.
Proof. exact msf_differs. Qed.
Print Assumptions C37_multiscale_refuted.

(** C71.  The interpolant of a regional grid: bilinear between the four surrounding nodes where the grid
    covers the point (or may extrapolate), 999999 elsewhere. *)
Theorem C71_eval : forall g n m q, proper_grid g n m -> all_cells finite g n m -> ~ global_box (g_bbox g) ->
  (g_extra g = true \/ covered g n m q -> exists v, eval (build_interpolant g) q = Ok (Fin v) /\ bilinear_at g n m q v) /\
  (g_extra g = false -> ~ covered g n m q -> eval (build_interpolant g) q = Ok (Fin 999999)).
Proof. exact eval_local. Qed.
Print Assumptions C71_eval.

(** A new grid has no interpolant and raises; after build_interpolant it gives a value everywhere. *)
Theorem C71_unbuilt : forall b dx dy v h e crs g q, make_grid b dx dy v h e crs = Ok g -> eval g q = Raise TypeError /\ exists r, eval (build_interpolant g) q = Ok r.
Proof. exact unbuilt. Qed.
Print Assumptions C71_unbuilt.

(** It reproduces the stored values at the nodes. *)
Theorem C71_nodes : forall g n m i j, proper_grid g n m -> all_cells finite g n m -> ~ global_box (g_bbox g) -> (i < n)%nat -> (j < m)%nat ->
  exists v, eval (build_interpolant g) (x_of g i, y_of g j) = Ok v /\ same_num v (value_at g i j).
Proof. exact build_nodes_local. Qed.
Print Assumptions C71_nodes.

(** It never leaves the range of the stored values at covered points. *)
Theorem C71_range : forall g n m lo hi q, proper_grid g n m -> ~ global_box (g_bbox g) ->
  all_cells (fun a => exists w, a = Fin w /\ lo <= w <= hi) g n m -> covered g n m q ->
  exists v, eval (build_interpolant g) q = Ok (Fin v) /\ lo <= v <= hi.
Proof. exact eval_range. Qed.
Print Assumptions C71_range.

(** Outside it does: a grid of positive sizes that extrapolates returns a negative size. *)
Theorem C71_extrapolation_refuted : exists g n m q v, proper_grid g n m /\ ~ global_box (g_bbox g) /\
  all_cells (fun a => exists w, a = Fin w /\ 0 < w) g n m /\ eval (build_interpolant g) q = Ok (Fin v) /\ v < 0.
Proof. exact extrapolation_negative. Qed.
Print Assumptions C71_extrapolation_refuted.

Example C71_case : proper_grid bay 3 3 /\ all_cells finite bay 3 3 /\ regional bay /\ covered bay 3 3 (1 # 2, 5 # 4) /\
  exists v, eval (build_interpolant bay) (1 # 2, 5 # 4) = Ok (Fin v) /\ v == 13 # 4.
Proof. exact bay_case. Qed.

(** C72.  The multiscale sizing function is the minimum of the grids' sizes; the coarsest grid extrapolates,
    a nest counts only inside its own nodes. *)
Theorem C72_multiscale_minimum : forall gs, Forall regional gs -> forall q, exists v vals,
  fst (msf_eval true gs q) = Ok v /\
  Forall2 (fun gf a => size_of (snd gf) (fst gf) q a) (combine gs (true :: repeat false (length gs))) vals /\
  is_minimum v (vals ++ [Fin 999999]).
Proof. exact msf_minimum. Qed.
Print Assumptions C72_multiscale_minimum.

Theorem C72_multiscale_range : forall g gs n m q lo hi, Forall regional (g :: gs) -> proper_grid g n m -> covered g n m q -> hi <= 999999 ->
  Forall (fun g => forall n m, proper_grid g n m -> all_cells (fun a => exists w, a = Fin w /\ lo <= w <= hi) g n m) (g :: gs) ->
  exists v, fst (msf_eval true (g :: gs) q) = Ok (Fin v) /\ lo <= v <= hi.
Proof. exact msf_range. Qed.
Print Assumptions C72_multiscale_range.

Example C72_case : Forall regional [bay; inlet] /\
  (exists v, fst (msf_eval true [bay; inlet] (1, 1)) = Ok (Fin v) /\ v == 1 # 2) /\
  (exists v, fst (msf_eval true [bay; inlet] (2, 2)) = Ok (Fin v) /\ v == 4).
Proof. exact multi_case. Qed.

(** C52.  For a base grid whose box does not span the globe, compute_minimum returns at every node a minimum
    of the base's value and the other grids' values there, with the smallest positive finite value as hmin;
    it raises ValueError exactly when that minimum is nowhere positive and finite. *)
Theorem C52_compute_minimum_partial : forall tr base n m, proper_grid base n m -> ~ global_box (g_bbox base) ->
  forall others, Forall (usable base) others ->
  exists v, node_minima tr base others n m v /\
    ((compute_minimum tr (base :: others) = Raise ValueError /\ none_positive v n m) \/
     (exists g h, compute_minimum tr (base :: others) = Ok g /\ proper_grid g n m /\
        g_bbox g = g_bbox base /\ g_dx g = g_dx base /\ g_dy g = g_dy base /\ g_crs g = g_crs base /\
        g_fill g = Some None /\ (forall i j, (i < n)%nat -> (j < m)%nat -> value_at g i j = v i j) /\
        g_hmin g = Some (Fin h) /\ least_positive g n m h)).
Proof. exact compute_minimum_total. Qed.
Print Assumptions C52_compute_minimum_partial.

(** A grid of the same CRS that does not overlap the base: AssertionError. *)
Theorem C52_disjoint : forall tr base n m o others, proper_grid base n m -> g_crs o = g_crs base -> ~ boxes_meet (g_bbox o) (g_bbox base) ->
  compute_minimum tr (base :: o :: others) = Raise AssertionError.
Proof. exact compute_minimum_disjoint. Qed.
Print Assumptions C52_disjoint.

(** For a global base even the minimum of the grid with itself is not the grid: the final build swaps the
    first and last rows, so a cell is larger than the input there. *)
Theorem C52_global_refuted : exists tr base n m g, proper_grid base n m /\ all_cells finite base n m /\ usable base base /\
  compute_minimum tr [base; base] = Ok g /\ exists i j, (i < n)%nat /\ (j < m)%nat /\ ~ nleq (value_at g i j) (value_at base i j).
Proof. exact compute_minimum_global. Qed.
Print Assumptions C52_global_refuted.

Example C52_case : proper_grid bay 3 3 /\ ~ global_box (g_bbox bay) /\ Forall (usable bay) [inlet] /\
  exists g, compute_minimum (fun _ _ q => q) [bay; inlet] = Ok g /\ value_at g 1 1 = Fin (1 # 2) /\ value_at g 0 0 = Fin 4 /\ g_hmin g = Some (Fin (1 # 2)).
Proof. exact minimum_case. Qed.

(** C39.  With accepted bands and a box that does not span the globe, a cell in no band is unchanged, the
    last band containing the elevation limits the size, and a cell in one band only has exactly the clamped
    size.  A nan size stays nan. *)
Theorem C39_bands_partial : forall g z bs n m, shape (g_values g) n m -> shape z n m -> ~ global_box (g_bbox g) -> Forall proper_band bs ->
  exists g', enforce_bounds g z bs = (Ok g', g') /\ shape (g_values g') n m /\
    forall i j, (i < n)%nat -> (j < m)%nat ->
      ((forall b, In b bs -> ~ in_band b (elevation z i j)) -> value_at g' i j = value_at g i j) /\
      (forall pre b post, bs = pre ++ b :: post -> in_band b (elevation z i j) -> (forall b', In b' post -> ~ in_band b' (elevation z i j)) ->
         value_at g i j <> NaN -> within_limits b (value_at g' i j)) /\
      (forall pre b post, bs = pre ++ b :: post -> in_band b (elevation z i j) ->
         (forall b', In b' pre \/ In b' post -> ~ in_band b' (elevation z i j)) -> clamped b (value_at g i j) (value_at g' i j)) /\
      (value_at g i j = NaN -> value_at g' i j = NaN).
Proof. exact enforce_local. Qed.
Print Assumptions C39_bands_partial.

(** A nan size inside a band stays outside the limits. *)
Theorem C39_nan_refuted : exists g z bs n m i j g', shape (g_values g) n m /\ shape z n m /\ ~ global_box (g_bbox g) /\ Forall proper_band bs /\
  enforce_bounds g z bs = (Ok g', g') /\ (i < n)%nat /\ (j < m)%nat /\ exists b, bs = [b] /\ in_band b (elevation z i j) /\ ~ within_limits b (value_at g' i j).
Proof. exact enforce_nan. Qed.
Print Assumptions C39_nan_refuted.

(** On a global grid the rebuild swaps the first and last rows after clamping, so a size can leave its band's limits. *)
Theorem C39_global_refuted : exists g z bs n m i j g', shape (g_values g) n m /\ shape z n m /\ all_cells finite g n m /\ Forall proper_band bs /\
  enforce_bounds g z bs = (Ok g', g') /\ (i < n)%nat /\ (j < m)%nat /\ exists b, bs = [b] /\ in_band b (elevation z i j) /\ ~ within_limits b (value_at g' i j).
Proof. exact enforce_global. Qed.
Print Assumptions C39_global_refuted.

(** A refused band raises AssertionError and leaves the caller's grid changed by the bands before it. *)
Theorem C39_refused_band : forall g z bs n m, shape (g_values g) n m -> shape z n m -> ~ Forall proper_band bs ->
  exists pre b post g', bs = pre ++ b :: post /\ Forall proper_band pre /\ ~ proper_band b /\
    enforce_bounds g z bs = (Raise AssertionError, g') /\
    forall i j, (i < n)%nat -> (j < m)%nat -> value_at g' i j = cell_bounds pre (elevation z i j) (value_at g i j).
Proof. exact enforce_refused. Qed.
Print Assumptions C39_refused_band.

Theorem C39_atomic_refuted : exists g z bs n m i j g', shape (g_values g) n m /\ shape z n m /\
  enforce_bounds g z bs = (Raise AssertionError, g') /\ (i < n)%nat /\ (j < m)%nat /\ ~ same_num (value_at g' i j) (value_at g i j).
Proof. exact enforce_not_atomic. Qed.
Print Assumptions C39_atomic_refuted.

Example C39_case : exists g', enforce_bounds bay depths [(3, 5, -10, 0); (1, 2, 0, 10)] = (Ok g', g') /\
  shape (g_values bay) 3 3 /\ shape depths 3 3 /\ Forall proper_band [(3, 5, -10, 0); (1, 2, 0, 10)] /\
  g_values g' = [[Fin 4; Fin 3; Fin 3]; [Fin 5; Fin 4; Fin 3]; [Fin 2; Fin 2; Fin 2]].
Proof. exact bands_case. Qed.

(** C53.  Exact slopes of every plane at every cell; with fewer than two rows or columns an IndexError. *)
Theorem C53_planes : forall F n m dx dy a sy sx, length F = n -> Forall (fun r => length r = m) F -> (2 <= n)%nat -> (2 <= m)%nat -> 0 < dx -> 0 < dy ->
  (forall i j, (i < n)%nat -> (j < m)%nat -> nth j (nth i F []) 0 == a + inject_Z (Z.of_nat i) * dy * sy + inject_Z (Z.of_nat j) * dx * sx) ->
  exists Fy Fx, earth_gradient F dx dy = Ok (Fy, Fx) /\
    length Fy = n /\ Forall (fun r => length r = m) Fy /\ length Fx = n /\ Forall (fun r => length r = m) Fx /\
    forall i j, (i < n)%nat -> (j < m)%nat -> nth j (nth i Fy []) 0 == sy /\ nth j (nth i Fx []) 0 == sx.
Proof. exact gradient_plane. Qed.
Print Assumptions C53_planes.

Theorem C53_too_small : forall F dx dy, (length F < 2)%nat \/ (exists r F', F = r :: F' /\ (length r < 2)%nat) -> earth_gradient F dx dy = Raise IndexError.
Proof. exact gradient_small. Qed.
Print Assumptions C53_too_small.

Example C53_case : let F := [[1; 3; 5]; [2; 4; 6]] in
  (forall i j, (i < 2)%nat -> (j < 3)%nat -> nth j (nth i F []) 0 == 1 + inject_Z (Z.of_nat i) * (1 # 2) * 2 + inject_Z (Z.of_nat j) * 4 * (1 # 2)).
Proof. exact plane_case. Qed.
