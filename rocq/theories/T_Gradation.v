(** Property theorems on enforcing a gradation on a grid of sizes (oceanmesh/edgefx.py:91-175).  [s2] and
    [se] are the square roots of 2 and of the tolerance as the limiter computes them. *)
From Coq Require Import List Arith NArith ZArith QArith Qabs.
From Verif Require Import M_Base M_GradLimit M_Sdf M_Grid M_Gradation P_Sdf S_GradLimit S_Grid S_Gradation P_Gradation.
Import ListNotations.
Open Scope Q_scope.

(** C88.  The nodes and the stored lower bound are kept; no size grows, none falls below the smallest, and
    the smallest stays. *)
Theorem C88_gradation_lowers : forall s2 se pi_d to_ll to_st g n m gr crs,
  1 <= s2 -> 0 <= se -> size_field g n m -> ~ global_box (g_bbox g) -> 0 <= gr ->
  exists g', enforce_gradation s2 se pi_d to_ll to_st g gr crs false = Ok g' /\ same_frame g g' /\ proper_grid g' n m /\
    forall i j a, (i < n)%nat -> (j < m)%nat -> size_at g i j a ->
      exists b, size_at g' i j b /\ b <= a /\ (forall lo, smallest_size g n m lo -> lo <= b /\ (a == lo -> b == lo)).
Proof. exact (fun s2 se pi_d to_ll to_st g n m gr crs H2 He => enforce_range s2 se pi_d to_ll to_st H2 He g n m gr crs). Qed.
Print Assumptions C88_gradation_lowers.
(** A negative gradation and cells that are not square are refused. *)
Theorem C88_gradation_refusals : forall s2 se pi_d to_ll to_st g gr crs st,
  (gr < 0 -> enforce_gradation s2 se pi_d to_ll to_st g gr crs st = Raise ValueError) /\
  (0 <= gr -> ~ g_dx g == g_dy g -> enforce_gradation s2 se pi_d to_ll to_st g gr crs st = Raise AssertionError).
Proof. exact enforce_refuses. Qed.
Print Assumptions C88_gradation_refusals.

(** C89.  If the limiter stops before its pass limit, side neighbours obey the gradation, and so does the
    size as a function of position. *)
Theorem C89_gradation_obeyed : forall s2 se pi_d to_ll to_st g n m gr crs g' lo l f,
  1 <= s2 -> 0 <= se -> size_field g n m -> ~ global_box (g_bbox g) -> 0 <= gr ->
  listed g n m l -> gradient_limit_flag s2 se n m 1 (g_dx g) gr (N.to_nat 10000) l = Ok (f, true) ->
  enforce_gradation s2 se pi_d to_ll to_st g gr crs false = Ok g' -> smallest_size g n m lo ->
  graded g' n m (g_dx g * gr + lo * se) /\ rate_bounded g' n m (gr + lo * se / g_dx g).
Proof. exact G_graded. Qed.
Print Assumptions C89_gradation_obeyed.
(** Sizes that already obey it on all eight neighbours are kept. *)
Theorem C89_graded_kept : forall s2 se pi_d to_ll to_st g n m gr crs lo,
  1 <= s2 -> 0 <= se -> size_field g n m -> ~ global_box (g_bbox g) -> 0 <= gr -> smallest_size g n m lo ->
  graded8 g n m (g_dx g * gr + lo * se) (g_dx g * s2 * gr + lo * se) ->
  exists g', enforce_gradation s2 se pi_d to_ll to_st g gr crs false = Ok g' /\
    forall i j a, (i < n)%nat -> (j < m)%nat -> size_at g i j a -> size_at g' i j a.
Proof. exact (fun s2 se pi_d to_ll to_st g n m gr crs lo H2 He => enforce_unchanged s2 se pi_d to_ll to_st H2 He g n m gr crs lo). Qed.
Print Assumptions C89_graded_kept.
Example C88_C89_case :
  (size_field bump_grid 3 2 /\ ~ global_box (g_bbox bump_grid) /\ plain_sizes bump_grid /\ smallest_size bump_grid 3 2 10) /\
  (listed bump_grid 3 2 bump_list /\
   gradient_limit_flag sqrt2_d sqrt_eps_d 3 2 1 100 (1 # 10) (N.to_nat 10000) bump_list = Ok (bump_out, true)) /\
  forall pi_d to_ll to_st, exists g', enforce_gradation sqrt2_d sqrt_eps_d pi_d to_ll to_st bump_grid (1 # 10) default_crs false = Ok g' /\
    exists a, size_at g' 2 1 a /\ a == 22 /\ g_crs g' <> g_crs bump_grid.
Proof. exact (conj bump_field (conj bump_listed bump_sizes)). Qed.

(** C90.  On a box around the globe neither holds: the first and the last column are exchanged after
    limiting. *)
Theorem C90_global_gradation_refuted : forall pi_d to_ll to_st, exists g n m gr g' lo l f,
  size_field g n m /\ 0 < gr /\ listed g n m l /\
  gradient_limit_flag sqrt2_d sqrt_eps_d n m 1 (g_dx g) gr (N.to_nat 10000) l = Ok (f, true) /\
  enforce_gradation sqrt2_d sqrt_eps_d pi_d to_ll to_st g gr default_crs false = Ok g' /\ smallest_size g n m lo /\
  ~ graded g' n m (g_dx g * gr + lo * sqrt_eps_d) /\
  exists i j a b, (i < n)%nat /\ (j < m)%nat /\ size_at g i j a /\ size_at g' i j b /\ a < b.
Proof. exact globe_refuted. Qed.
Print Assumptions C90_global_gradation_refuted.
(** What holds there: each size is that of the column exchanged with its own, lowered. *)
Theorem C90_global_gradation_partial : forall s2 se pi_d to_ll to_st g n m gr crs,
  1 <= s2 -> 0 <= se -> size_field g n m -> global_box (g_bbox g) -> 0 <= gr ->
  exists g', enforce_gradation s2 se pi_d to_ll to_st g gr crs false = Ok g' /\ same_frame g g' /\ proper_grid g' n m /\
    forall i j a, (i < n)%nat -> (j < m)%nat -> size_at g (opposite n i) j a ->
      exists b, size_at g' i j b /\ b <= a /\ (forall lo, smallest_size g n m lo -> lo <= b).
Proof. exact (fun s2 se pi_d to_ll to_st g n m gr crs H2 He => enforce_global s2 se pi_d to_ll to_st H2 He g n m gr crs). Qed.
Print Assumptions C90_global_gradation_partial.

(** C91.  The coordinate system of the grid is not kept: the result has the one given as argument, whose
    default is "EPSG:4326". *)
Theorem C91_crs_kept_refuted : forall pi_d to_ll to_st, exists g g',
  enforce_gradation sqrt2_d sqrt_eps_d pi_d to_ll to_st g (1 # 10) default_crs false = Ok g' /\ g_crs g' <> g_crs g.
Proof. exact crs_refuted. Qed.
Print Assumptions C91_crs_kept_refuted.
Theorem C91_crs_given_partial : forall s2 se pi_d to_ll to_st g gr crs st g',
  enforce_gradation s2 se pi_d to_ll to_st g gr crs st = Ok g' -> g_crs g' = crs.
Proof. exact crs_given. Qed.
Print Assumptions C91_crs_given_partial.

(** C92.  With the stereographic pass: the sizes come from a grid [s] over the projection plane, whose
    sizes are at most those of g there; nodes north of the equator take the size of s, and 999999 where s
    does not reach; the others keep the limited size; then all are lowered again. *)
Theorem C92_stereographic_pass : forall s2 se pi_d to_ll to_st g n m gr crs,
  1 <= s2 -> 0 <= se -> size_field g n m -> ~ global_box (g_bbox g) -> plain_sizes g -> 0 <= gr ->
  let d := g_dx g / 180 * pi_d / 2 in 0 < d -> d < 2 ->
  exists g0 s k h g', enforce_gradation s2 se pi_d to_ll to_st g gr crs false = Ok g0 /\
    enforce_gradation s2 se pi_d to_ll to_st g gr crs true = Ok g' /\ same_frame g g' /\ proper_grid g' n m /\
    proper_grid s k k /\ g_bbox s = (-1, 1, -1, 1) /\ g_dx s = d /\
    (forall i j, (i < k)%nat -> (j < k)%nat -> exists a b, eval g (to_ll (x_of s i, y_of s j)) = Ok (Fin a) /\ size_at s i j b /\ 0 <= b <= a) /\
    (forall i j, (i < n)%nat -> (j < m)%nat ->
       (y_of g j <= 0 -> size_at g0 i j (h i j)) /\
       (0 < y_of g j -> eval s (to_st (x_of g i, y_of g j)) = Ok (Fin (h i j))) /\
       (0 < y_of g j -> ~ covered s k k (to_st (x_of g i, y_of g j)) -> h i j = 999999) /\
       exists b, size_at g' i j b /\ 0 <= b <= h i j).
Proof. exact G_stereo. Qed.
Print Assumptions C92_stereographic_pass.
(** A grid with spacing 100 degrees has a plane grid of three nodes each way. *)
Example C92_case : (size_field bump_grid 3 2 /\ ~ global_box (g_bbox bump_grid) /\ plain_sizes bump_grid /\ smallest_size bump_grid 3 2 10) /\
  0 < g_dx bump_grid / 180 * (355 # 113) / 2 /\ g_dx bump_grid / 180 * (355 # 113) / 2 < 2 /\
  0 < y_of bump_grid 1.
Proof. exact (conj bump_field (conj eq_refl (conj eq_refl eq_refl))). Qed.
