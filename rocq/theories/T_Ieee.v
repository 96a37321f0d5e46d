(** Property theorems C145-C150: functions on IEEE doubles. *)
From Coq Require Import List Arith ZArith Reals Lra Lia SpecFloat Permutation.
From Flocq Require Import Core IEEE754.BinarySingleNaN.
From Verif Require Import M_Base M_Edges M_FixMesh S_FixMesh M_Ieee S_Double S_Ieee P_FixMesh P_Ieee P_Ieee2 P_Ieee3 P_Ieee4 P_Ieee5 P_Ieee6 P_Ieee7.
Import ListNotations.
Open Scope R_scope.

(** C145.  The box distance on doubles has the exact sign for all finite arguments, also when a difference rounds or overflows. *)
Theorem C145_box_sign : forall x0 xN y0 yN px py, finite_double x0 -> finite_double xN -> finite_double y0 -> finite_double yN -> finite_double px -> finite_double py ->
  let d := bbox_f x0 xN y0 yN px py in
  (SFltb d (S754_zero false) = true <-> (val x0 < val px < val xN) /\ (val y0 < val py < val yN)) /\
  (SFltb (S754_zero false) d = true <-> ~ (val x0 <= val px <= val xN /\ val y0 <= val py <= val yN)) /\ d <> S754_nan.
Proof. exact box_signs. Qed.
Print Assumptions C145_box_sign.
(** Largest double below 1: inside; the least above 1: outside; 1: on the border. *)
Example C145_case : SFltb (bbox_f z0 f_one z0 f_one (S754_finite false 9007199254740991 (-53)) half) z0 = true /\
  SFltb z0 (bbox_f z0 f_one z0 f_one (S754_finite false 4503599627370497 (-52)) half) = true /\ bbox_f z0 f_one z0 f_one f_one half = S754_zero true /\
  finite_double half /\ bbox_f (S754_finite true 9007199254740991 971) f_one z0 f_one (S754_finite false 9007199254740991 971) half = S754_finite false 9007199254740991 971 /\
  bbox_f (S754_finite true 9007199254740991 971) (S754_finite true 9007199254740991 971) z0 f_one (S754_finite false 9007199254740991 971) half = S754_infinity false.
Proof. vm_compute. repeat split. Qed.

Theorem C145_box_value : forall x0 xN y0 yN px py, finite_double x0 -> finite_double xN -> finite_double y0 -> finite_double yN -> finite_double px -> finite_double py ->
  let e := Rmax (Rmax (Rmax (val y0 - val py) (val py - val yN)) (val x0 - val px)) (val px - val xN) in
  Rabs (rnd e) < bpow radix2 1024 -> finite_double (bbox_f x0 xN y0 yN px py) /\ val (bbox_f x0 xN y0 yN px py) = rnd e.
Proof. exact box_value. Qed.
Print Assumptions C145_box_value.
(** 0.1 - 0.3 at the left, with the rounding of the difference. *)
Example C145_value_case : bbox_f f_tenth f_one z0 f_one (S754_finite false 5404319552844595 (-54)) half = S754_finite true 7205759403792793 (-55).
Proof. vm_compute. reflexivity. Qed.

(** C146.  Coordinate vectors of grids on doubles. *)
Theorem C146_first : forall x0 dx n, finite_double x0 -> finite_double dx -> (0 < n)%nat ->
  length (vector_f x0 dx n) = n /\ exists a, nth_error (vector_f x0 dx n) 0 = Some a /\ val a = val x0.
Proof. intros x0 dx n X D N; exact (conj (vector_length x0 dx n) (vector_first x0 dx n X D N)). Qed.
Print Assumptions C146_first.
Example C146_first_case : finite_double mten /\ finite_double f_tenth /\ nth_error (vector_f mten f_tenth 3) 0 = Some mten.
Proof. vm_compute. repeat split. Qed.

Theorem C146_sorted : forall x0 dx n, finite_double x0 -> finite_double dx -> 0 <= val dx -> (Z.of_nat n <= 2 ^ 53)%Z -> Rabs (val x0) + INR n * val dx <= bpow radix2 1022 ->
  Forall finite_double (vector_f x0 dx n) /\ forall i j a b, (i <= j)%nat -> nth_error (vector_f x0 dx n) i = Some a -> nth_error (vector_f x0 dx n) j = Some b -> val a <= val b.
Proof. exact vector_sorted. Qed.
Print Assumptions C146_sorted.

Theorem C146_strict_partial : forall x0 dx n e, finite_double x0 -> finite_double dx -> (Z.of_nat n <= 2 ^ 53)%Z -> (-900 <= e <= 1022)%Z -> Rabs (val x0) + INR n * val dx <= bpow radix2 e -> bpow radix2 (e - 50) <= val dx ->
  forall i j a b, (i < j)%nat -> nth_error (vector_f x0 dx n) i = Some a -> nth_error (vector_f x0 dx n) j = Some b -> val a < val b.
Proof. exact vector_strict. Qed.
Print Assumptions C146_strict_partial.
(** 200 columns of width 0.1 from -10. *)
Example C146_strict_case : Rabs (val mten) + INR 200 * val f_tenth <= bpow radix2 5 /\ bpow radix2 (5 - 50) <= val f_tenth /\ 0 <= val f_tenth.
Proof.
  assert (E1 : val mten = -10) by (change (val mten) with (IZR (-5629499534213120) * / 562949953421312); lra).
  assert (E2 : val f_tenth = 7205759403792794 / 72057594037927936) by (change (val f_tenth) with (7205759403792794 * / 72057594037927936); lra).
  rewrite E1, E2, INR_IZR_INZ. change (Z.of_nat 200) with 200%Z. change (bpow radix2 5) with 32. change (bpow radix2 (5 - 50)) with (/ 35184372088832). rewrite Rabs_left by lra. repeat split; lra.
Qed.

(** Without the bound on the cell size neighbouring columns can be equal. *)
Theorem C146_strict_refuted : exists x0 dx n i j a b, finite_double x0 /\ finite_double dx /\ 0 < val dx /\ (i < j)%nat /\ nth_error (vector_f x0 dx n) i = Some a /\ nth_error (vector_f x0 dx n) j = Some b /\ a = b.
Proof. exact vector_tie. Qed.
Print Assumptions C146_strict_refuted.

(** C147.  The loop of create_circle on doubles ends after 63 points, at angles within 1e-14 of 0, 0.1, ..., 6.2, for every cosine, sine, centre and radius. *)
Theorem C147_circle : exists ts, length ts = 63%nat /\ nth_error ts 0 = Some (S754_zero false) /\
  (forall k t, nth_error ts k = Some t -> Rabs (val t - INR k / 10) <= / 100000000000000) /\
  forall cosf sinf cx cy r, create_circle cosf sinf cx cy r = Ok (map (fun t => (fadd (fmul r (cosf t)) cx, fadd (fmul r (sinf t)) cy)) ts).
Proof. exact circle_points_R. Qed.
Print Assumptions C147_circle.
(** With constant cosine and sine the points are the same point 63 times. *)
Example C147_case : create_circle (fun _ => f_one) (fun _ => half) f_one f_one f_one = Ok (repeat (ftwo, S754_finite false 6755399441055744 (-52)) 63).
Proof. vm_compute. reflexivity. Qed.

(** C148.  Interpolation of a constant field by inverse distances on doubles. *)
Theorem C148_constant_refuted : (exists ds, Forall finite_double ds /\ Forall (fun d => 0 < val d) ds /\ 1 < val (idw_f [f_one; f_one] ds)) /\
  (exists ds, Forall finite_double ds /\ Forall (fun d => 0 < val d) ds /\ val (idw_f [f_one; f_one] ds) < 1).
Proof. exact (conj idw_above idw_below). Qed.
Print Assumptions C148_constant_refuted.

(** What holds: the value is in the range of the data up to rounding. *)
Theorem C148_range_partial : forall zs ds lo hi, length zs = length ds -> (1 <= length ds <= 1000)%nat -> Forall (within (bpow radix2 (-200)) (bpow radix2 200)) ds ->
  bpow radix2 (-200) <= lo -> hi <= bpow radix2 200 -> Forall (within lo hi) zs ->
  finite_double (idw_f zs ds) /\ lo * ((1 - u) ^ (length ds + 1) / (1 + u) ^ (length ds - 1)) <= val (idw_f zs ds) <= hi * ((1 + u) ^ (length ds + 1) / (1 - u) ^ (length ds - 1)).
Proof. exact idw_bounds. Qed.
Print Assumptions C148_range_partial.
Example C148_case : Forall (within (bpow radix2 (-200)) (bpow radix2 200)) [f_one; f16] /\ Forall (within 1 16) [f_one; f16] /\ bpow radix2 (-200) <= 1 /\ 16 <= bpow radix2 200 /\
  idw_f [f_one; f16] [f_one; f16] = S754_finite false 8477364004462110 (-52).
Proof.
  assert (B1 : bpow radix2 (-200) <= 1) by (change 1 with (bpow radix2 0); apply bpow_le; lia).
  assert (B2 : 16 <= bpow radix2 200) by (change 16 with (bpow radix2 4); apply bpow_le; lia).
  assert (E : val f16 = 16) by (change (val f16) with (4503599627370496 * / 281474976710656); lra).
  destruct one_val as [F1 E1]. assert (F16 : finite_double f16) by (split; reflexivity).
  split; [constructor; [split; [exact F1|rewrite E1; lra]|constructor; [split; [exact F16|rewrite E; lra]|constructor]]|].
  split; [constructor; [split; [exact F1|rewrite E1; lra]|constructor; [split; [exact F16|rewrite E; lra]|constructor]]|].
  split; [exact B1|]. split; [exact B2|]. vm_compute. reflexivity.
Qed.

(** C149.  np.round on doubles, and the orientation test of fix_mesh. *)
Theorem C149_rint : forall x, finite_double x -> finite_double (f_rint x) /\ val (f_rint x) = IZR (ZnearestE (val x)) /\ sign_SF (f_rint x) = sign_SF x.
Proof. exact rint_correct. Qed.
Print Assumptions C149_rint.
(** 0.5, 1.5, 2.5 and -0.1 become 0, 2, 2 and -0. *)
Example C149_rint_case : f_rint half = z0 /\ f_rint (S754_finite false 6755399441055744 (-52)) = ftwo /\ f_rint (S754_finite false 5629499534213120 (-51)) = ftwo /\ f_rint (SFopp f_tenth) = S754_zero true.
Proof. vm_compute. repeat split. Qed.

Theorem C149_filter : forall p i j k, let q n := nth n p (S754_nan, S754_nan) in moderate (q i) -> moderate (q j) -> moderate (q k) ->
  let slack := 4 * u * permanent2 (q i) (q j) (q k) + bpow radix2 (-1072) in
  (slack < Rarea2 (q i) (q j) (q k) -> fneg_vol p (i, j, k) = false) /\ (Rarea2 (q i) (q j) (q k) < - slack -> fneg_vol p (i, j, k) = true).
Proof. exact orientation_filter. Qed.
Print Assumptions C149_filter.

Example C149_filter_case : moderate (nth 0 square nan2) /\ moderate (nth 1 square nan2) /\ moderate (nth 2 square nan2) /\
  4 * u * permanent2 (nth 0 square nan2) (nth 1 square nan2) (nth 2 square nan2) + bpow radix2 (-1072) < Rarea2 (nth 0 square nan2) (nth 1 square nan2) (nth 2 square nan2).
Proof.
  assert (B : 1 <= bpow radix2 500) by (change 1 with (bpow radix2 0); apply bpow_le; lia).
  assert (M : forall n, (n < 3)%nat -> moderate (nth n square nan2)).
  { intros n Hn. pose proof square_bounded as S. unfold bounded_points in S. rewrite Forall_forall in S. destruct (S (nth n square nan2)) as (F & X & Y); [apply nth_In; exact Hn|]. split; [exact F|]. lra. }
  split; [apply M; lia|]. split; [apply M; lia|]. split; [apply M; lia|].
  destruct square_vals as (A1 & A2 & A3 & A4 & A5 & A6). unfold permanent2, Rarea2. rewrite A1, A2, A3, A4, A5, A6.
  pose proof u_bounds as U. assert (bpow radix2 (-1072) <= u) by (unfold u; apply bpow_le; lia).
  replace ((1 - 0) * (1 - 0)) with 1 by ring. replace ((0 - 0) * (0 - 0)) with 0 by ring. rewrite Rabs_R0, Rabs_R1. lra.
Qed.

Theorem C149_exact_on_grid : forall p i j k s, let q n := nth n p (S754_nan, S754_nan) in (-400 <= s <= 400)%Z ->
  (forall n, In n [i; j; k] -> finite_point (q n) /\ on_grid s (fst (q n)) /\ on_grid s (snd (q n))) ->
  fneg_vol p (i, j, k) = true <-> Rarea2 (q i) (q j) (q k) < 0.
Proof. exact orientation_exact. Qed.
Print Assumptions C149_exact_on_grid.
Example C149_grid_case : (forall n, In n [0; 2; 1]%nat -> finite_point (nth n square nan2) /\ on_grid 0 (fst (nth n square nan2)) /\ on_grid 0 (snd (nth n square nan2))) /\
  fneg_vol square (0, 2, 1)%nat = true /\ fneg_vol square (0, 1, 2)%nat = false.
Proof.
  split; [|vm_compute; auto]. destruct one_val as [F1 E1].
  assert (G0 : on_grid 0 z0) by (exists 0%Z; split; [lia|]; unfold val; cbn; lra). assert (G1 : on_grid 0 f_one) by (exists 1%Z; split; [lia|]; rewrite E1; cbn; lra).
  assert (F0 : finite_double z0) by (split; reflexivity).
  intros n Hn. cbn [In] in Hn. destruct Hn as [<-|[<-|[<-|[]]]]; cbn [nth square fst snd]; repeat split; auto.
Qed.

(** C150.  fix_mesh on doubles: when it returns and the shape of what it returns. *)
Theorem C150_returns : forall kleb ptol, total_order kleb -> forall p ts du, p <> [] -> Forall (in_range (length p)) ts ->
  exists p' t' jx, fix_mesh_f kleb ptol p ts du = Ok (p', t', jx) /\ incl p' p /\ Forall (in_range (length p')) t' /\ no_two same_vertices t' /\
    (du = true -> forall i, (i < length p')%nat -> exists t, In t t' /\ In i (corners t)).
Proof. exact fix_f_wf. Qed.
Print Assumptions C150_returns.
Example C150_returns_case : fix_mesh_f zedge_leb f2em13 ((half, half) :: square ++ [(f_one, z0)]) [(1, 3, 2); (3, 4, 1)]%nat true =
  Ok ([(z0, z0); (z0, f_one); (f_one, z0)], [(1, 0, 2)]%nat, [0; 1; 2]%nat).
Proof. vm_compute. reflexivity. Qed.

(** Merged points are near: the tolerance times the extent, and a few roundings of the coordinates. *)
Theorem C150_near : forall kleb ptol, total_order kleb -> forall p ts du p' t' jx e M,
  Forall (in_range (length p)) ts -> bounded_points M p -> M <= bpow radix2 440 -> extent_atmost p e -> extent_atleast p (bpow radix2 (-340)) ->
  finite_double ptol -> bpow radix2 (-100) <= val ptol <= 1 -> fix_mesh_f kleb ptol p ts du = Ok (p', t', jx) ->
  exists m : nat -> nat,
    (forall i, (i < length p)%nat -> du = false \/ (exists t, In t ts /\ In i (corners t)) ->
       (m i < length p')%nat /\
       Rabs (val (fst (nth i p nan2)) - val (fst (nth (m i) p' nan2))) <= e * val ptol * (1 + 8 * u) + 6 * u * M /\
       Rabs (val (snd (nth i p nan2)) - val (snd (nth (m i) p' nan2))) <= e * val ptol * (1 + 8 * u) + 6 * u * M) /\
    (forall t, In t ts -> exists s, In s t' /\ Permutation (map m (corners t)) (corners s)) /\
    (forall s, In s t' -> exists t, In t ts /\ Permutation (map m (corners t)) (corners s)).
Proof. exact fix_f_near. Qed.
Print Assumptions C150_near.
Example C150_near_case : bounded_points 1 square /\ 1 <= bpow radix2 440 /\ extent_atmost square 1 /\ extent_atleast square (bpow radix2 (-340)) /\ finite_double f2em13 /\
  bpow radix2 (-100) <= val f2em13 <= 1 /\ fix_mesh_f zedge_leb f2em13 square [(2, 1, 0)]%nat false = Ok ([(z0, z0); (z0, f_one); (f_one, z0)], [(1, 0, 2)]%nat, [0; 2; 1]%nat).
Proof.
  destruct one_val as [F1 E1]. split; [exact square_bounded|]. split; [change 1 with (bpow radix2 0); apply bpow_le; lia|].
  split; [|split; [|split; [split; reflexivity|split]]].
  - intros a b Ha Hb. simpl in Ha, Hb. destruct Ha as [<-|[<-|[<-|[]]]], Hb as [<-|[<-|[<-|[]]]]; cbn [fst snd]; rewrite ?E1; try (change (val z0) with 0); lra.
  - exists (f_one, z0), (z0, z0). split; [simpl; auto|]. split; [simpl; auto|]. left. cbn [fst]. rewrite E1. change (val z0) with 0. rewrite Rminus_0_r. change 1 with (bpow radix2 0). apply bpow_le. lia.
  - assert (E : val f2em13 = 7922816251426434 * bpow radix2 (-95)) by reflexivity. rewrite E. change (bpow radix2 (-95)) with (/ 39614081257132168796771975168). change (bpow radix2 (-100)) with (/ 1267650600228229401496703205376). lra.
  - vm_compute. reflexivity.
Qed.

(** Orientation of the result: exact for coordinates on a grid; in general no triangle is clockwise by more than a rounding of the squared extent. *)
Theorem C150_oriented_on_grid : forall kleb ptol s, total_order kleb -> (-400 <= s <= 400)%Z -> forall p ts du p' t' jx,
  Forall (in_range (length p)) ts -> Forall (fun q => finite_point q /\ on_grid s (fst q) /\ on_grid s (snd q)) p -> fix_mesh_f kleb ptol p ts du = Ok (p', t', jx) ->
  forall a b c, In (a, b, c) t' -> 0 <= Rarea2 (nth a p' nan2) (nth b p' nan2) (nth c p' nan2).
Proof. exact fix_f_oriented_grid. Qed.
Print Assumptions C150_oriented_on_grid.

Theorem C150_oriented_partial : forall kleb ptol, total_order kleb -> forall p ts du p' t' jx e,
  Forall (in_range (length p)) ts -> bounded_points (bpow radix2 500) p -> extent_atmost p e -> fix_mesh_f kleb ptol p ts du = Ok (p', t', jx) ->
  forall a b c, In (a, b, c) t' -> - (8 * u * (e * e) + bpow radix2 (-1072)) <= Rarea2 (nth a p' nan2) (nth b p' nan2) (nth c p' nan2).
Proof. exact fix_f_oriented. Qed.
Print Assumptions C150_oriented_partial.

(** In general the result can be clockwise: here a triangle of coordinates of size ten, in every order of the points. *)
Theorem C150_oriented_refuted : exists p, Forall finite_point p /\ Rarea2 (nth 0 p nan2) (nth 1 p nan2) (nth 2 p nan2) <> 0 /\ forall kleb du, total_order kleb ->
  exists p' a b c jx, fix_mesh_f kleb f2em13 p [(0, 1, 2)%nat] du = Ok (p', [(a, b, c)], jx) /\ Rarea2 (nth a p' nan2) (nth b p' nan2) (nth c p' nan2) < 0.
Proof. exact misoriented. Qed.
Print Assumptions C150_oriented_refuted.
