(** Proofs about the stereographic projection. *)
From Coq Require Import List Reals Lra Psatz ZArith Lia.
From Verif Require Import M_Base M_Stereo.
Import ListNotations.
Open Scope R_scope.

Lemma mapM_all_ok {A B} (l : list A) (f : A -> res B) (g : A -> B) : (forall a, In a l -> f a = Ok (g a)) -> mapM f l = Ok (map g l).
Proof. induction l as [|a l IH]; intros H; [reflexivity|]. cbn [mapM map]. rewrite H by (left; reflexivity). cbn [bind]. rewrite IH by (intros; apply H; right; assumption). reflexivity. Qed.
Lemma arctan2_polar rho th : 0 < rho -> - PI < th <= PI -> arctan2 (rho * sin th) (rho * cos th) = th.
Proof.
  intros Hr [H1 H2]. pose proof PI_RGT_0 as HP. unfold arctan2.
  destruct (Rlt_le_dec th (- (PI / 2))) as [A|A].
  - assert (C : cos th < 0). { rewrite <- (cos_neg th). apply cos_lt_0; lra. } assert (S : sin th < 0) by (apply sin_lt_0_var; lra).
    assert (E : rho * sin th / (rho * cos th) = tan (th + PI)). { unfold tan. rewrite neg_sin, neg_cos. field. lra. }
    destruct (Rlt_dec 0 (rho * cos th)) as [K|_]; [nra|]. destruct (Rlt_dec (rho * cos th) 0) as [_|K]; [|nra].
    destruct (Rle_dec 0 (rho * sin th)) as [K|_]; [nra|]. rewrite E, atan_tan by lra. ring.
  - destruct (Req_dec th (- (PI / 2))) as [->|B].
    + rewrite cos_neg, cos_PI2, sin_neg, sin_PI2. rewrite Rmult_0_r. destruct (Rlt_dec 0 0); [lra|]. destruct (Rlt_dec 0 (rho * - (1))); [lra|]. destruct (Rlt_dec (rho * - (1)) 0); lra.
    + destruct (Rlt_le_dec th (PI / 2)) as [C|C].
      * assert (D : 0 < cos th) by (apply cos_gt_0; lra). destruct (Rlt_dec 0 (rho * cos th)) as [_|K]; [|nra].
        replace (rho * sin th / (rho * cos th)) with (tan th) by (unfold tan; field; lra). apply atan_tan; lra.
      * destruct (Req_dec th (PI / 2)) as [->|D].
        -- rewrite cos_PI2, sin_PI2, Rmult_0_r. destruct (Rlt_dec 0 0); [lra|]. destruct (Rlt_dec 0 (rho * 1)); lra.
        -- assert (K1 : cos th < 0) by (apply cos_lt_0; lra). assert (K2 : 0 <= sin th) by (apply sin_ge_0; lra).
           destruct (Rlt_dec 0 (rho * cos th)) as [K|_]; [nra|]. destruct (Rlt_dec (rho * cos th) 0) as [_|K]; [|nra].
           destruct (Rle_dec 0 (rho * sin th)) as [_|K]; [|nra].
           assert (E : rho * sin th / (rho * cos th) = tan (th - PI)).
           { replace (tan (th - PI)) with (sin (- (PI - th)) / cos (- (PI - th))) by (unfold tan; f_equal; f_equal; ring).
             rewrite sin_neg, cos_neg, sin_PI_x, Rtrigo_facts.cos_pi_minus. field. lra. }
           rewrite E, atan_tan by lra. ring.
Qed.
Lemma arctan2_range y x : - PI < arctan2 y x <= PI.
Proof.
  pose proof PI_RGT_0 as HP. unfold arctan2. pose proof (atan_bound (y / x)) as B.
  destruct (Rlt_dec 0 x); [lra|]. destruct (Rlt_dec x 0).
  - destruct (Rle_dec 0 y) as [K|K].
    + split; [lra|]. assert (y / x <= 0). { unfold Rdiv. assert (/ x < 0) by (apply Rinv_lt_0_compat; auto). nra. }
      destruct (Req_dec (y / x) 0) as [->|N]; [rewrite atan_0; lra|]. assert (atan (y / x) < atan 0) by (apply atan_increasing; lra). rewrite atan_0 in *. lra.
    + split; [|lra]. assert (0 < y / x). { unfold Rdiv. assert (/ x < 0) by (apply Rinv_lt_0_compat; auto). nra. }
      assert (atan 0 < atan (y / x)) by (apply atan_increasing; lra). rewrite atan_0 in *. lra.
  - destruct (Rlt_dec 0 y); [lra|]. destruct (Rlt_dec y 0); lra.
Qed.
Lemma polar_exists x y : exists th, - PI < th <= PI /\ x = sqrt (x ^ 2 + y ^ 2) * cos th /\ y = sqrt (x ^ 2 + y ^ 2) * sin th.
Proof.
  pose proof PI_RGT_0 as HP. exists (arctan2 y x). split; [apply arctan2_range|].
  assert (S : forall x, x <> 0 -> sqrt (1 + (y / x)²) = sqrt (x ^ 2 + y ^ 2) / Rabs x /\ 0 < sqrt (x ^ 2 + y ^ 2)).
  { clear x. intros x Hx. assert (0 < x ^ 2) by nra. pose proof (pow2_ge_0 y). split; [|apply sqrt_lt_R0; lra].
    replace (1 + (y / x)²) with ((x ^ 2 + y ^ 2) / x ^ 2) by (unfold Rsqr; field; auto). rewrite sqrt_div by lra. f_equal.
    rewrite <- sqrt_Rsqr_abs. f_equal. unfold Rsqr. ring. }
  unfold arctan2. destruct (Rlt_dec 0 x) as [P|P].
  - destruct (S x) as [E Q]; [lra|]. rewrite cos_atan, sin_atan, E, Rabs_right by lra. split; field; split; lra.
  - destruct (Rlt_dec x 0) as [N|N].
    + destruct (S x) as [E Q]; [lra|].
      assert (Z : x = sqrt (x ^ 2 + y ^ 2) * - cos (atan (y / x)) /\ y = sqrt (x ^ 2 + y ^ 2) * - sin (atan (y / x))).
      { rewrite cos_atan, sin_atan, E, Rabs_left by lra. split; field; split; lra. }
      destruct (Rle_dec 0 y); [rewrite neg_cos, neg_sin; exact Z|].
      replace (atan (y / x) - PI) with (- (PI - atan (y / x))) by ring. rewrite cos_neg, sin_neg, sin_PI_x, Rtrigo_facts.cos_pi_minus. exact Z.
    + assert (x = 0) by lra. subst x. replace (0 ^ 2 + y ^ 2) with (y²) by (unfold Rsqr; ring). rewrite sqrt_Rsqr_abs.
      destruct (Rlt_dec 0 y); [rewrite cos_PI2, sin_PI2, Rabs_right by lra; split; ring|].
      destruct (Rlt_dec y 0); [rewrite cos_neg, sin_neg, cos_PI2, sin_PI2, Rabs_left by lra; split; ring|].
      assert (y = 0) by lra. subst. rewrite Rabs_R0. split; ring.
Qed.
Definition rad_of (d : R) : R := d / 180 * PI.
Lemma deg_rad d : d / 180 * PI * 180 / PI = d.
Proof. pose proof PI_RGT_0. field. lra. Qed.
Lemma rad_deg d : d * 180 / PI / 180 * PI = d.
Proof. pose proof PI_RGT_0. field. lra. Qed.

Lemma sphere RR u v : 0 < RR -> norm3 (stereo_to_3d RR u v) = RR.
Proof.
  intros H. unfold norm3, stereo_to_3d. pose proof (pow2_ge_0 u). pose proof (pow2_ge_0 v).
  match goal with |- sqrt ?x = _ => replace x with (RR ^ 2) by (field; lra) end. apply sqrt_pow2. lra.
Qed.
Lemma sphere3 RR lon lat : 0 < RR -> norm3 (to_3d RR lon lat) = RR.
Proof.
  intros H. unfold norm3, to_3d. set (a := lat / 180 * PI). set (b := lon / 180 * PI).
  match goal with |- sqrt ?x = _ => replace x with (RR ^ 2) end; [apply sqrt_pow2; lra|].
  pose proof (sin2_cos2 a) as A. pose proof (sin2_cos2 b) as B. unfold Rsqr in *.
  replace ((cos a * cos b * RR) ^ 2 + (cos a * sin b * RR) ^ 2 + (sin a * RR) ^ 2) with (RR ^ 2 * ((cos a * cos a) * (sin b * sin b + cos b * cos b) + sin a * sin a)) by ring.
  rewrite B. replace (cos a * cos a * 1 + sin a * sin a) with 1 by lra. ring.
Qed.
Lemma to_lat_lon_3d_sphere RR ps : 0 < RR -> ps <> [] -> Forall (fun p => norm3 p = RR) ps ->
  to_lat_lon_3d ps = Ok (map (fun p => lat_lon_of p RR) ps).
Proof.
  intros HR Hn HF. unfold to_lat_lon_3d. destruct ps as [|p ps]; [congruence|]. cbn [map]. set (m := rmax_list _ _). clearbody m.
  apply (mapM_all_ok (p :: ps) _ (fun p => lat_lon_of p RR)). intros q Hq. rewrite Forall_forall in HF. rewrite (HF q Hq). unfold fix_zero. destruct (Req_EM_T RR 0); [lra|]. destruct (Req_EM_T RR 0); [lra|]. reflexivity.
Qed.
Lemma rmax_list_le l : forall m x, x = m \/ In x l -> x <= rmax_list m l.
Proof.
  induction l as [|y l IH]; intros m x [->|I]; cbn [rmax_list]; [lra|destruct I| |].
  - apply Rle_trans with (Rmax m y); [apply Rmax_l|apply IH; left; reflexivity].
  - destruct I as [->|I]; [|apply IH; right; exact I]. apply Rle_trans with (Rmax m x); [apply Rmax_r|apply IH; left; reflexivity].
Qed.
Lemma rmax_list_in l : forall m, rmax_list m l = m \/ In (rmax_list m l) l.
Proof.
  induction l as [|y l IH]; intros m; cbn [rmax_list]; [left; reflexivity|]. destruct (IH (Rmax m y)) as [E|I]; [|right; right; exact I].
  rewrite E. unfold Rmax. destruct (Rle_dec m y); [right; left; reflexivity|left; reflexivity].
Qed.
Lemma norm3_origin : norm3 (0, 0, 0) = 0.
Proof. unfold norm3. replace (0 ^ 2 + 0 ^ 2 + 0 ^ 2) with 0 by ring. apply sqrt_0. Qed.
Lemma norm3_pos x y z : (x, y, z) <> (0, 0, 0) -> 0 < norm3 (x, y, z).
Proof.
  intros N. unfold norm3. apply sqrt_lt_R0. destruct (Req_dec x 0) as [->|X]; [destruct (Req_dec y 0) as [->|Y]; [destruct (Req_dec z 0) as [->|Z]; [congruence|]|]|]; nra.
Qed.
Lemma some_off_origin ps q : In q ps -> q <> (0, 0, 0) ->
  exists ll, to_lat_lon_3d ps = Ok ll /\ length ll = length ps /\ forall i, nth_error ps i = Some (0, 0, 0) -> nth_error ll i = Some (0, 0).
Proof.
  intros I N. unfold to_lat_lon_3d. destruct ps as [|p ps]; [destruct I|]. cbn [map]. set (m := rmax_list _ _).
  assert (MP : 0 < m).
  { apply Rlt_le_trans with (norm3 q); [destruct q as [[x y] z]; apply norm3_pos, N|]. apply rmax_list_le. destruct I as [->|I]; [left; reflexivity|right; apply in_map, I]. }
  clearbody m. exists (map (fun p => lat_lon_of p (fix_zero m (norm3 p))) (p :: ps)). split; [|split].
  - apply (mapM_all_ok (p :: ps) _ (fun p => lat_lon_of p (fix_zero m (norm3 p)))). intros r _. cbv zeta. destruct (Req_EM_T (fix_zero m (norm3 r)) 0) as [Z|_]; [|reflexivity].
    exfalso. unfold fix_zero in Z. destruct (Req_EM_T (norm3 r) 0); [lra|contradiction].
  - apply map_length.
  - intros i Hi. rewrite nth_error_map, Hi. cbn [option_map]. f_equal. unfold fix_zero. rewrite norm3_origin. destruct (Req_EM_T 0 0) as [_|X]; [|congruence].
    unfold lat_lon_of. replace (0 / m) with 0 by (field; lra). rewrite asin_0. unfold arctan2. destruct (Rlt_dec 0 0) as [X|_]; [lra|]. f_equal; unfold Rdiv; ring.
Qed.
Lemma only_origins n : to_lat_lon_3d (repeat (0, 0, 0) (S n)) = Raise RuntimeError.
Proof.
  unfold to_lat_lon_3d. cbn [repeat map mapM]. set (m := rmax_list _ _). assert (M : m = 0).
  { destruct (rmax_list_in (map norm3 (repeat (0, 0, 0) n)) (norm3 (0, 0, 0))) as [E|I]; [unfold m; rewrite E; apply norm3_origin|].
    apply in_map_iff in I. destruct I as (x & E & I). apply repeat_spec in I. subst x. unfold m. rewrite <- E. apply norm3_origin. }
  rewrite M. unfold fix_zero. rewrite norm3_origin. destruct (Req_EM_T 0 0) as [_|X]; [|congruence]. destruct (Req_EM_T 0 0) as [_|X]; [reflexivity|congruence].
Qed.
Lemma to_lat_lon_ok RR ps : 0 < RR -> ps <> [] -> to_lat_lon RR ps = Ok (map (fun p => lat_lon_of (stereo_to_3d RR (fst p) (snd p)) RR) ps).
Proof.
  intros HR Hn. unfold to_lat_lon. rewrite (to_lat_lon_3d_sphere RR); auto.
  - now rewrite map_map.
  - destruct ps; [congruence|discriminate].
  - apply Forall_forall. intros q Hq. apply in_map_iff in Hq. destruct Hq as (x & <- & _). now apply sphere.
Qed.
(** to_stereo then stereo_to_3d is to_3d *)
Lemma stereo_3d RR lon lat : 0 < RR -> -90 < lat <= 90 -> let p := to_stereo RR (lon, lat) in stereo_to_3d RR (fst p) (snd p) = to_3d RR lon lat.
Proof.
  intros HR HL p. unfold p, to_stereo, to_3d, stereo_to_3d. cbn [fst snd]. pose proof PI_RGT_0 as HP.
  set (a := lat / 180 * PI). set (b := lon / 180 * PI). assert (Ha : - (PI / 2) < a <= PI / 2) by (unfold a; split; nra).
  assert (Hs : -1 < sin a). { assert (Z : sin (- (PI / 2)) = -1) by (rewrite sin_neg, sin_PI2; ring). rewrite <- Z. apply sin_increasing_1; lra. }
  pose proof (sin2_cos2 a) as A. pose proof (sin2_cos2 b) as B. unfold Rsqr in *.
  assert (D : (- (cos a * cos b * RR) / (RR + sin a * RR)) ^ 2 + (- (cos a * sin b * RR) / (RR + sin a * RR)) ^ 2 = (1 - sin a) / (1 + sin a)).
  { replace (RR + sin a * RR) with (RR * (1 + sin a)) by ring.
    transitivity ((cos a * cos a) * (sin b * sin b + cos b * cos b) / ((1 + sin a) * (1 + sin a))); [field; lra|].
    rewrite B. replace (cos a * cos a) with ((1 - sin a) * (1 + sin a)) by lra. field. lra. }
  rewrite D. replace (RR + sin a * RR) with (RR * (1 + sin a)) by ring. f_equal; [f_equal|]; field; lra.
Qed.
Lemma lat_lon_3d RR lon lat : 0 < RR -> -180 < lon <= 180 -> -90 < lat < 90 -> lat_lon_of (to_3d RR lon lat) RR = (lon, lat).
Proof.
  intros HR H1 H2. unfold lat_lon_of, to_3d. pose proof PI_RGT_0 as HP. set (a := lat / 180 * PI). set (b := lon / 180 * PI).
  assert (Ha : - (PI / 2) < a < PI / 2) by (unfold a; split; nra). assert (Hb : - PI < b <= PI) by (unfold b; split; nra).
  assert (Hc : 0 < cos a) by (apply cos_gt_0; lra). replace (sin a * RR / RR) with (sin a) by (field; lra). rewrite asin_sin by lra.
  replace (cos a * sin b * RR) with ((cos a * RR) * sin b) by ring. replace (cos a * cos b * RR) with ((cos a * RR) * cos b) by ring.
  rewrite arctan2_polar; auto; [|now apply Rmult_lt_0_compat]. unfold a, b. now rewrite !deg_rad.
Qed.
Lemma lat_lon_pole RR lon : 0 < RR -> lat_lon_of (to_3d RR lon 90) RR = (0, 90).
Proof.
  intros HR. unfold lat_lon_of, to_3d. pose proof PI_RGT_0 as HP. replace (90 / 180 * PI) with (PI / 2) by field. rewrite cos_PI2, sin_PI2.
  replace (0 * sin (lon / 180 * PI) * RR) with 0 by ring. replace (0 * cos (lon / 180 * PI) * RR) with 0 by ring. replace (1 * RR / RR) with 1 by (field; lra).
  rewrite asin_1. unfold arctan2. destruct (Rlt_dec 0 0); [lra|]. f_equal; field; lra.
Qed.
Lemma round_trip RR ps : 0 < RR -> ps <> [] -> Forall (fun p => -180 < fst p <= 180 /\ -90 < snd p < 90) ps ->
  to_lat_lon RR (map (to_stereo RR) ps) = Ok ps.
Proof.
  intros HR Hn HF. rewrite to_lat_lon_ok; auto; [|destruct ps; [congruence|discriminate]]. rewrite map_map. f_equal.
  rewrite <- (map_id ps) at 2. apply map_ext_in. intros [lon lat] Hp. rewrite Forall_forall in HF. destruct (HF _ Hp) as [H1 H2]. cbn [fst snd] in *.
  rewrite stereo_3d by lra. apply lat_lon_3d; auto.
Qed.
Lemma north_pole RR lon : 0 < RR -> to_lat_lon RR [to_stereo RR (lon, 90)] = Ok [(0, 90)].
Proof. intros HR. rewrite to_lat_lon_ok; auto; [|discriminate]. cbn [map]. rewrite stereo_3d by lra. now rewrite lat_lon_pole. Qed.
Lemma lat_lon_back RR x y z : 0 < RR -> norm3 (x, y, z) = RR -> let p := lat_lon_of (x, y, z) RR in
  to_3d RR (fst p) (snd p) = (x, y, z) /\ -180 < fst p <= 180 /\ -90 <= snd p <= 90.
Proof.
  intros HR Hn. pose proof PI_RGT_0 as HP. cbv zeta. unfold lat_lon_of, to_3d. cbn [fst snd]. rewrite !rad_deg.
  assert (E : x ^ 2 + y ^ 2 + z ^ 2 = RR ^ 2). { rewrite <- Hn. unfold norm3. rewrite pow2_sqrt; auto. pose proof (pow2_ge_0 x). pose proof (pow2_ge_0 y). pose proof (pow2_ge_0 z). lra. }
  assert (Hxy : x ^ 2 + y ^ 2 = RR ^ 2 * (1 - (z / RR)²)) by (unfold Rsqr; field_simplify; [lra|lra]).
  assert (Hz : -1 <= z / RR <= 1).
  { pose proof (pow2_ge_0 x). pose proof (pow2_ge_0 y). assert (0 < RR ^ 2) by nra. assert (0 <= 1 - (z / RR)²) by (apply (Rmult_le_reg_l (RR ^ 2)); auto; rewrite Rmult_0_r, <- Hxy; lra). unfold Rsqr in *. split; nra. }
  rewrite cos_asin, sin_asin by auto. assert (Es : sqrt (1 - (z / RR)²) * RR = sqrt (x ^ 2 + y ^ 2)).
  { rewrite Hxy. rewrite sqrt_mult; [rewrite sqrt_pow2 by lra; ring|nra|]. unfold Rsqr. nra. }
  split; [|split].
  - destruct (polar_exists x y) as (th & Ht & Ex & Ey).
    destruct (Req_dec (sqrt (x ^ 2 + y ^ 2)) 0) as [Z|Z].
    + rewrite Z in Ex, Ey. rewrite Z in Es. assert (x = 0) by lra. assert (y = 0) by lra. clear Ex Ey. subst x y.
      f_equal; [f_equal|].
      * replace (sqrt (1 - (z / RR)²) * cos (arctan2 0 0) * RR) with ((sqrt (1 - (z / RR)²) * RR) * cos (arctan2 0 0)) by ring. rewrite Es. ring.
      * replace (sqrt (1 - (z / RR)²) * sin (arctan2 0 0) * RR) with ((sqrt (1 - (z / RR)²) * RR) * sin (arctan2 0 0)) by ring. rewrite Es. ring.
      * field. lra.
    + assert (Q : 0 < sqrt (x ^ 2 + y ^ 2)) by (pose proof (sqrt_pos (x ^ 2 + y ^ 2)); lra).
      assert (Ea : arctan2 y x = th) by (set (s := sqrt (x ^ 2 + y ^ 2)) in *; rewrite Ex, Ey; apply arctan2_polar; auto).
      rewrite Ea. f_equal; [f_equal|field; lra].
      * replace (sqrt (1 - (z / RR)²) * cos th * RR) with ((sqrt (1 - (z / RR)²) * RR) * cos th) by ring. rewrite Es. auto.
      * replace (sqrt (1 - (z / RR)²) * sin th * RR) with ((sqrt (1 - (z / RR)²) * RR) * sin th) by ring. rewrite Es. auto.
  - pose proof (arctan2_range y x) as [B1 B2]. unfold Rdiv. assert (0 < / PI) by (apply Rinv_0_lt_compat; auto).
    split; [apply (Rmult_lt_reg_r PI)|apply (Rmult_le_reg_r PI)]; auto; rewrite ?Rmult_assoc, ?Rinv_l by lra; lra.
  - pose proof (asin_bound (z / RR)) as [B1 B2]. unfold Rdiv. split; apply (Rmult_le_reg_r PI); auto; rewrite ?Rmult_assoc, ?Rinv_l by lra; fold (z / RR); lra.
Qed.
Lemma round_trip_back RR ps : 0 < RR -> ps <> [] ->
  exists ll, to_lat_lon RR ps = Ok ll /\ map (to_stereo RR) ll = ps /\ Forall (fun p => -180 < fst p <= 180 /\ -90 < snd p <= 90) ll.
Proof.
  intros HR Hn. exists (map (fun p => lat_lon_of (stereo_to_3d RR (fst p) (snd p)) RR) ps). rewrite to_lat_lon_ok by auto.
  assert (K : forall u v, let q := lat_lon_of (stereo_to_3d RR u v) RR in to_stereo RR q = (u, v) /\ -180 < fst q <= 180 /\ -90 < snd q <= 90).
  { intros u v. pose proof (sphere RR u v HR) as S. destruct (stereo_to_3d RR u v) as [[x y] z] eqn:E. destruct (lat_lon_back RR x y z HR S) as (B1 & B2 & B3).
    cbv zeta. set (q := lat_lon_of (x, y, z) RR) in *. pose proof (pow2_ge_0 u). pose proof (pow2_ge_0 v).
    assert (Hx : x = - 2 * RR * u / (1 + (u ^ 2 + v ^ 2))) by (unfold stereo_to_3d in E; congruence).
    assert (Hy : y = - 2 * RR * v / (1 + (u ^ 2 + v ^ 2))) by (unfold stereo_to_3d in E; congruence).
    assert (Hz : z = RR * (1 - (u ^ 2 + v ^ 2)) / (1 + (u ^ 2 + v ^ 2))) by (unfold stereo_to_3d in E; congruence).
    assert (Hrz : RR + z = 2 * RR / (1 + (u ^ 2 + v ^ 2))) by (rewrite Hz; field; lra).
    split; [|split; auto].
    - unfold to_stereo. rewrite B1. rewrite Hrz, Hx, Hy. f_equal; field; lra.
    - split; [|lra]. destruct (Req_dec (snd q) (-90)) as [Z|Z]; [|lra]. exfalso.
      assert (Kz : sin (snd q / 180 * PI) * RR = z) by (unfold to_3d in B1; congruence). rewrite Z in Kz.
      replace (-90 / 180 * PI) with (- (PI / 2)) in Kz by field. rewrite sin_neg, sin_PI2 in Kz. assert (P : 0 < 2 * RR / (1 + (u ^ 2 + v ^ 2))) by (apply Rdiv_lt_0_compat; lra). lra. }
  split; auto. split.
  - rewrite map_map. rewrite <- (map_id ps) at 2. apply map_ext. intros [u v]. cbn [fst snd]. apply K.
  - apply Forall_forall. intros q Hq. apply in_map_iff in Hq. destruct Hq as ([u v] & <- & _). cbn [fst snd]. apply K.
Qed.
Lemma empty_raises RR : to_lat_lon RR [] = Raise ValueError.
Proof. reflexivity. Qed.

Lemma wrap_lon lon : exists k : Z, -180 < lon - 360 * IZR k <= 180.
Proof.
  exists (up ((lon - 180) / 360) - 1 + (if Req_EM_T (IZR (up ((lon - 180) / 360)) - (lon - 180) / 360) 1 then 0 else 1))%Z.
  pose proof (archimed ((lon - 180) / 360)) as [A B]. set (u := up ((lon - 180) / 360)) in *.
  destruct (Req_EM_T (IZR u - (lon - 180) / 360) 1) as [E|E]; rewrite ?plus_IZR, ?minus_IZR; simpl; lra.
Qed.
Lemma cos_period_Z x (k : Z) : cos (x + 2 * IZR k * PI) = cos x /\ sin (x + 2 * IZR k * PI) = sin x.
Proof.
  destruct (Z_le_gt_dec 0 k) as [H|H].
  - replace (IZR k) with (INR (Z.to_nat k)) by (rewrite INR_IZR_INZ, Z2Nat.id; auto). split; [apply cos_period|apply sin_period].
  - set (y := x + 2 * IZR k * PI). assert (E : x = y + 2 * INR (Z.to_nat (- k)) * PI) by (unfold y; rewrite INR_IZR_INZ, Z2Nat.id by lia; rewrite opp_IZR; ring).
    rewrite E. now rewrite cos_period, sin_period.
Qed.
Lemma any_longitude RR lon lat : 0 < RR -> -90 < lat < 90 ->
  exists k : Z, -180 < lon - 360 * IZR k <= 180 /\ to_lat_lon RR [to_stereo RR (lon, lat)] = Ok [(lon - 360 * IZR k, lat)].
Proof.
  intros HR HL. destruct (wrap_lon lon) as [k Hk]. exists k. split; auto. assert (T : to_lat_lon RR (map (to_stereo RR) [(lon - 360 * IZR k, lat)]) = Ok [(lon - 360 * IZR k, lat)]).
  { apply round_trip; auto. discriminate. }
  rewrite <- T.
  cbn [map]. do 2 f_equal. unfold to_stereo, to_3d. cbn [fst snd].
  assert (E : lon / 180 * PI = (lon - 360 * IZR k) / 180 * PI + 2 * IZR k * PI) by field.
  destruct (cos_period_Z ((lon - 360 * IZR k) / 180 * PI) k) as [C S]. rewrite E, C, S. reflexivity.
Qed.
