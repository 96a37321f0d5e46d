(** Property theorems C197 and C198: bar forces and centroids on IEEE doubles (mesh_generator.py). *)
From Coq Require Import List Arith ZArith Reals Lra SpecFloat.
From Verif Require Import M_Base M_Edges M_FixMesh M_Ieee M_Forces M_ForceF S_Double S_Ieee S_QualF S_Forces S_ForceF P_ForceF P_ForceF2.
Import ListNotations.
Open Scope R_scope.

(** C197.  With every rounding counted, the force on each point is finite and is the sum over its bars of the wanted
    pushes up to a few rounding errors: L are the bars' lengths, L0 the wanted lengths from the sizes and the two
    medians, fx and fy the forces of the bars on their first ends.  The forces add up to nearly nothing. *)
Theorem C197_forces : forall fh m p t F, finite_double m -> 1 <= val m <= 2 -> ordinary_points p -> (forall q h x, fh q = Ok h -> In x h -> ordinary_size x) -> (Z.of_nat (length t) <= 2 ^ 23)%Z ->
  compute_forces_f fh m p t = Ok F ->
  length F = length p /\ exists bars L size L0 fx fy mL mh,
    NoDup bars /\ (forall a b, In (a, b) bars <-> (a <= b)%nat /\ undirected_side t a b) /\
    is_median (map L bars) mL /\ is_median (map size bars) mh /\
    (forall e, In e bars -> near 6 (L e) (length_or (/ 2 ^ 52) (points p) e) /\ 0 < L e /\ 0 < size e /\ near 14 (L0 e) (size e * val m * (mL / mh)) /\
       near 8 (fx e) (Rmax 0 (L0 e - L e) / L e * (px (points p) (fst e) - px (points p) (snd e))) /\
       near 8 (fy e) (Rmax 0 (L0 e - L e) / L e * (py (points p) (fst e) - py (points p) (snd e)))) /\
    (exists h, fh (map (middle p) bars) = Ok h /\ length h = length bars /\ forall k, (k < length bars)%nat -> let x := nth k h S754_nan in let e := nth k bars (0, 0)%nat in
       (is_positive x = true -> size e = val x) /\ (is_positive x = false -> exists md, is_median (positive_values h) md /\ near 4 (size e) md)) /\
    (forall i, (i < length p)%nat -> finite_double (fst (nth i F (S754_nan, S754_nan))) /\ finite_double (snd (nth i F (S754_nan, S754_nan))) /\
       Rabs (val (fst (nth i F (S754_nan, S754_nan))) - sum_over (fun e => incidence i e * fx e) bars) <= 4 * INR (bars_at i bars) * u * sum_over (fun e => Rabs (incidence i e * fx e)) bars /\
       Rabs (val (snd (nth i F (S754_nan, S754_nan))) - sum_over (fun e => incidence i e * fy e) bars) <= 4 * INR (bars_at i bars) * u * sum_over (fun e => Rabs (incidence i e * fy e)) bars) /\
    (forall D, (forall i, (bars_at i bars <= D)%nat) ->
       Rabs (sum_over (fun q => val (fst q)) F) <= 8 * INR D * u * sum_over (fun e => Rabs (fx e)) bars /\
       Rabs (sum_over (fun q => val (snd q)) F) <= 8 * INR D * u * sum_over (fun e => Rabs (fy e)) bars).
Proof. exact forces_f. Qed.
Print Assumptions C197_forces.
(** The triangle (0,0), (1,0), (0.3,0.7) with size 1 everywhere, and the code's L0mult, which is 1.2 to 15 digits. *)
Example C197_case : ordinary_points w_p /\ (forall q h x, w_h q = Ok h -> In x h -> ordinary_size x) /\ finite_double L0mult_f /\ Rabs (val L0mult_f - 6 / 5) <= / 10 ^ 15 /\
  compute_forces_f w_h L0mult_f w_p w_t = Ok w_F /\ length w_F = 3%nat /\ fst (nth 0 w_F (S754_nan, S754_nan)) = S754_finite true 6411173912011590 (-54).
Proof.
  split; [exact w_ordinary|]. split; [exact w_sizes|]. split; [exact (proj1 mult_ok)|]. split; [exact (proj2 mult_ok)|]. split; [exact w_result|]. vm_compute. split; reflexivity.
Qed.

(** A result if and only if some size is positive and finite; ValueError otherwise. *)
Theorem C197_returns : forall fh m p t h0, (forall a b, undirected_side t a b -> (a < length p)%nat /\ (b < length p)%nat) -> fh (map (middle p) (get_bars t)) = Ok h0 -> length h0 = length (get_bars t) ->
  (forall x, In x h0 -> valid_binary 53 1024 x = true) ->
  ((exists F, compute_forces_f fh m p t = Ok F) <-> exists x, In x h0 /\ positive_double x) /\
  (compute_forces_f fh m p t = Raise ValueError <-> forall x, In x h0 -> ~ positive_double x).
Proof. exact raises_f. Qed.
Print Assumptions C197_returns.
(** nan, infinity and -1 are no sizes; one size among them is enough. *)
Example C197_returns_case : let sizes := fun l (q : list (spec_float * spec_float)) => Ok l in
  compute_forces_f (sizes [S754_nan; S754_infinity false; S754_finite true 4503599627370496 (-52)]) L0mult_f w_p w_t = Raise ValueError /\
  compute_forces_f (sizes [S754_nan; S754_infinity false; w_1]) L0mult_f w_p w_t = Ok w_F.
Proof. vm_compute. split; reflexivity. Qed.

(** The sum of the forces is not exactly zero (over the real numbers it is, C35_forces_balance). *)
Theorem C197_zero_sum_refuted : exists fh p t F, ordinary_points p /\ (forall q h x, fh q = Ok h -> In x h -> ordinary_size x) /\ compute_forces_f fh L0mult_f p t = Ok F /\ sum_over (fun q => val (fst q)) F <> 0.
Proof. exact zero_sum_refuted. Qed.
Print Assumptions C197_zero_sum_refuted.

(** Finite points with extreme distances: the forces are nan and infinite. *)
Theorem C197_finite_refuted : exists p t F, Forall (fun q => finite_double (fst q) /\ finite_double (snd q)) p /\ compute_forces_f w_h L0mult_f p t = Ok F /\ In (S754_nan, S754_infinity true) F.
Proof. exact extreme. Qed.
Print Assumptions C197_finite_refuted.

(** C198.  The computed centroid is the centroid up to three rounding errors of the largest coordinate. *)
Theorem C198_centroid : forall a b c M, within_size M a -> within_size M b -> within_size M c -> M <= 2 ^ 900 ->
  finite_double (fst (centroid_f a b c)) /\ finite_double (snd (centroid_f a b c)) /\
  Rabs (val (fst (centroid_f a b c)) - fst (true_centroid a b c)) <= centroid_error M /\ Rabs (val (snd (centroid_f a b c)) - snd (true_centroid a b c)) <= centroid_error M.
Proof. exact centroid_ok. Qed.
Print Assumptions C198_centroid.
Example C198_case : (within_size 1 (f_0, f_0) /\ within_size 1 (w_1, f_0) /\ within_size 1 (f_0, w_1) /\ within_size 1 (w_1, w_1)) /\ centroid_f (f_0, f_0) (w_1, f_0) (f_0, w_1) = (S754_finite false 6004799503160661 (-54), S754_finite false 6004799503160661 (-54)).
Proof. split; [exact w_within|]. vm_compute. reflexivity. Qed.

(** It may lie outside the triangle, and outside the bounding box of its corners. *)
Theorem C198_own_box_refuted : exists a b c, within_size 1 a /\ within_size 1 b /\ within_size 1 c /\ val (fst (centroid_f a b c)) < Rmin (val (fst a)) (Rmin (val (fst b)) (val (fst c))) /\
  val (fst a) <> val (fst b) /\ val (snd a) <> val (snd c).
Proof. exact own_box_refuted. Qed.
Print Assumptions C198_own_box_refuted.

(** In a box the faces that are kept, in their order, are those whose true centroid is deeper inside than geps, apart
    from faces whose centroid is within the rounding errors of that depth. *)
Theorem C198_kept : forall p t x0 xN y0 yN geps M T, Forall (within_size M) p -> within_size M (x0, y0) -> within_size M (xN, yN) -> M <= 2 ^ 900 -> finite_double geps -> 0 <= val geps ->
  remove_triangles_outside_f p t (fun q => bbox_f x0 xN y0 yN (fst q) (snd q)) geps = Ok T ->
  exists keep, T = filter keep t /\ forall f, In f t ->
    let d := box_depth (val x0) (val xN) (val y0) (val yN) (corner3 p f) in
    (keep f = true -> d < - val geps + centroid_error M) /\ (keep f = false -> - (1 + 2 * u) * val geps - 2 * centroid_error M <= d).
Proof. exact kept_ok. Qed.
Print Assumptions C198_kept.
(** Unit box, geps = 2^-10: one face inside, one with its centroid on the border. *)
Example C198_kept_case : let two := S754_finite false 4503599627370496 (-51) in
  remove_triangles_outside_f [(f_0, f_0); (w_1, f_0); (f_0, w_1); (two, w_1)] [(0, 1, 2); (1, 3, 2)]%nat
    (fun q => bbox_f f_0 w_1 f_0 w_1 (fst q) (snd q)) (S754_finite false 4503599627370496 (-62)) = Ok [(0, 1, 2)%nat].
Proof. vm_compute. reflexivity. Qed.
