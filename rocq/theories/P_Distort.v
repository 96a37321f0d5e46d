(** Proofs about the stereographic scale factors and starting points. *)
From Coq Require Import List Arith Bool ZArith Reals Lia Lra Psatz.
From Verif Require Import M_Base M_Numpy M_Edges M_Stereo M_Generate M_Forces M_Distort S_Distort P_Stereo.
Import ListNotations.
Open Scope R_scope.

(** * The scale of the projection *)
Lemma lin_lim t : derivable_pt_lim (fun x => x / 180 * PI) t (PI / 180).
Proof.
  intros e E. exists (mkposreal 1 Rlt_0_1). intros h H _. replace ((((t + h) / 180 * PI - t / 180 * PI) / h - PI / 180)) with 0 by (field; exact H). rewrite Rabs_R0. exact E.
Qed.
Lemma comp_lim g t l : derivable_pt_lim g (t / 180 * PI) l -> derivable_pt_lim (fun x => g (x / 180 * PI)) t (l * (PI / 180)).
Proof. intros H. exact (derivable_pt_lim_comp (fun x => x / 180 * PI) g t _ _ (lin_lim t) H). Qed.
Lemma radius_lim x : 1 + sin x <> 0 -> derivable_pt_lim (fun y => cos y / (1 + sin y)) x (- / (1 + sin x)).
Proof.
  intros N. assert (A : derivable_pt_lim (fun y => 1 + sin y) x (cos x)).
  { replace (cos x) with (0 + cos x) by ring. apply (derivable_pt_lim_plus (fct_cte 1) sin); [apply derivable_pt_lim_const|apply derivable_pt_lim_sin]. }
  pose proof (derivable_pt_lim_div cos (fun y => 1 + sin y) x _ _ (derivable_pt_lim_cos x) A N) as D.
  replace (- / (1 + sin x)) with ((- sin x * (1 + sin x) - cos x * cos x) / (1 + sin x)²); [exact D|]. unfold Rsqr.
  assert (Y : cos x * cos x = 1 - sin x * sin x) by (pose proof (sin2_cos2 x) as T; unfold Rsqr in T; lra). rewrite Y. field. exact N.
Qed.
Lemma ext_lim f g x l : (forall t, f t = g t) -> derivable_pt_lim f x l -> derivable_pt_lim g x l.
Proof. intros E D e P. destruct (D e P) as (d & H). exists d. intros h N B. rewrite <- !E. apply H; assumption. Qed.
Lemma scal_lim f x l a : derivable_pt_lim f x l -> derivable_pt_lim (fun t => a * f t) x (a * l).
Proof. apply (derivable_pt_lim_scal f a x l). Qed.
Lemma stereo_x RR lon lat : 0 < RR -> fst (to_stereo RR (lon, lat)) = - (cos (lat / 180 * PI) / (1 + sin (lat / 180 * PI))) * cos (lon / 180 * PI) /\
  snd (to_stereo RR (lon, lat)) = - (cos (lat / 180 * PI) / (1 + sin (lat / 180 * PI))) * sin (lon / 180 * PI).
Proof.
  intros P. unfold to_stereo, to_3d. cbn [fst snd]. set (s := sin (lat / 180 * PI)). replace (RR + s * RR) with (RR * (1 + s)) by ring.
  unfold Rdiv. rewrite Rinv_mult. generalize (/ (1 + s)). intros i. split; field; lra.
Qed.
Lemma sin_above lat : -90 < lat <= 90 -> 0 < 1 + sin (lat / 180 * PI) /\ 0 <= cos (lat / 180 * PI).
Proof.
  intros H. pose proof PI_RGT_0 as P. assert (B : - (PI / 2) < lat / 180 * PI <= PI / 2) by (split; nra). split.
  - assert (S : sin (- (PI / 2)) < sin (lat / 180 * PI)) by (apply sin_increasing_1; lra). rewrite sin_neg, sin_PI2 in S. lra.
  - apply cos_ge_0; lra.
Qed.
Lemma sqrt_sq_abs a : 0 <= a -> sqrt (a ^ 2) = a.
Proof. intros H. apply sqrt_pow2. exact H. Qed.
Lemma conformal_at RR lon lat : 0 < RR -> -90 < lat <= 90 -> scale_at (to_stereo RR) lon lat (PI / 180 / (1 + sin (lat / 180 * PI))).
Proof.
  intros P H. destruct (sin_above lat H) as (S & C). set (ph := lat / 180 * PI) in *. set (la := lon / 180 * PI). set (r := cos ph / (1 + sin ph)).
  exists (- r * (- sin la * (PI / 180))), (- r * (cos la * (PI / 180))), (- cos la * (- / (1 + sin ph) * (PI / 180))), (- sin la * (- / (1 + sin ph) * (PI / 180))).
  pose proof PI_RGT_0 as Pp. assert (T : sin la * sin la + cos la * cos la = 1) by (pose proof (sin2_cos2 la) as T; unfold Rsqr in T; exact T).
  assert (I : 0 < / (1 + sin ph)) by (apply Rinv_0_lt_compat, S).
  split; [|split; [|split; [|split; [|split; [|split]]]]].
  - apply (ext_lim (fun t => - r * cos (t / 180 * PI))); [intros t; rewrite (proj1 (stereo_x RR t lat P)); reflexivity|]. apply scal_lim, comp_lim, derivable_pt_lim_cos.
  - apply (ext_lim (fun t => - r * sin (t / 180 * PI))); [intros t; rewrite (proj2 (stereo_x RR t lat P)); reflexivity|]. apply scal_lim, comp_lim, derivable_pt_lim_sin.
  - apply (ext_lim (fun t => - cos la * (fun y => cos y / (1 + sin y)) (t / 180 * PI))); [intros t; rewrite (proj1 (stereo_x RR lon t P)); fold la; ring|]. apply scal_lim, (comp_lim (fun y => cos y / (1 + sin y))), radius_lim. fold ph. lra.
  - apply (ext_lim (fun t => - sin la * (fun y => cos y / (1 + sin y)) (t / 180 * PI))); [intros t; rewrite (proj2 (stereo_x RR lon t P)); fold la; ring|]. apply scal_lim, (comp_lim (fun y => cos y / (1 + sin y))), radius_lim. fold ph. lra.
  - replace ((- r * (- sin la * (PI / 180))) ^ 2 + (- r * (cos la * (PI / 180))) ^ 2) with ((PI / 180 / (1 + sin ph) * cos ph) ^ 2).
    + apply sqrt_sq_abs. apply Rmult_le_pos; [|exact C]. unfold Rdiv. apply Rmult_le_pos; lra.
    + unfold r, Rdiv. transitivity ((PI * / 180 * / (1 + sin ph) * cos ph) ^ 2 * (sin la * sin la + cos la * cos la)); [rewrite T; ring|ring].
  - replace ((- cos la * (- / (1 + sin ph) * (PI / 180))) ^ 2 + (- sin la * (- / (1 + sin ph) * (PI / 180))) ^ 2) with ((PI / 180 / (1 + sin ph)) ^ 2).
    + apply sqrt_sq_abs. unfold Rdiv. apply Rmult_le_pos; lra.
    + unfold Rdiv. transitivity ((PI * / 180 * / (1 + sin ph)) ^ 2 * (sin la * sin la + cos la * cos la)); [rewrite T; ring|ring].
  - ring.
Qed.
Lemma scale_unique f lon lat k k' : scale_at f lon lat k -> scale_at f lon lat k' -> k = k'.
Proof.
  intros (_ & _ & vx & vy & _ & _ & A & B & _ & N & _) (_ & _ & vx' & vy' & _ & _ & A' & B' & _ & N' & _).
  rewrite (uniqueness_limite _ _ _ _ A A'), (uniqueness_limite _ _ _ _ B B') in N. congruence.
Qed.
Lemma dist_is_scale RR lon lat : 0 < RR -> -90 < lat <= 90 -> exists k, stereo_distortion_dist lat = Some k /\ scale_at (to_stereo RR) lon lat (k / 2).
Proof.
  intros P H. destruct (sin_above lat H) as (S & _). unfold stereo_distortion_dist. destruct (Req_EM_T (1 + sin (lat / 180 * PI)) 0) as [Z|Z]; [lra|].
  eexists. split; [reflexivity|]. replace (_ / 2) with (PI / 180 / (1 + sin (lat / 180 * PI))) by (field; lra). apply conformal_at; assumption.
Qed.
Lemma distortion_cos lat : stereo_distortion lat = 2 / (1 + cos (lat / 180 * PI)).
Proof. unfold stereo_distortion. replace ((lat + 90) / 180 * PI) with (PI / 2 + lat / 180 * PI) by field. rewrite <- cos_sin. reflexivity. Qed.
Lemma distortion_even lat : stereo_distortion (- lat) = stereo_distortion lat.
Proof. rewrite !distortion_cos. replace (- lat / 180 * PI) with (- (lat / 180 * PI)) by field. rewrite cos_neg. reflexivity. Qed.
Lemma distortion_agrees lat : -90 < lat < 90 -> (stereo_distortion lat = 2 / (1 + sin (lat / 180 * PI)) <-> lat = 45).
Proof.
  intros H. rewrite distortion_cos. destruct (sin_above lat ltac:(lra)) as (S & _). pose proof PI_RGT_0 as P.
  assert (B : - (PI / 2) < lat / 180 * PI < PI / 2) by (split; nra). assert (C : 0 < cos (lat / 180 * PI)) by (apply cos_gt_0; lra).
  set (x := lat / 180 * PI) in *. split.
  - intros E. assert (Q : cos x = sin x).
    { assert (X : (1 + cos x) = (1 + sin x)); [|lra]. assert (Y : 2 * (1 + sin x) = 2 * (1 + cos x)); [|lra].
      replace (2 * (1 + sin x)) with (2 / (1 + cos x) * (1 + cos x) * (1 + sin x)) by (field; lra). rewrite E. field. lra. }
    assert (T : tan x = tan (PI / 4)) by (rewrite tan_PI4; unfold tan; rewrite Q; apply Rinv_r; lra).
    assert (X : x = PI / 4) by (apply tan_inj; try assumption; lra). unfold x in X. apply (Rmult_eq_reg_r (PI / 180)); [|lra]. replace (lat * (PI / 180)) with (lat / 180 * PI) by field. rewrite X. field.
  - intros ->. unfold x. replace (45 / 180 * PI) with (PI / 4) by field. rewrite cos_PI4, sin_PI4. reflexivity.
Qed.
Lemma distortion_no_scale c : exists lat, -90 < lat < 90 /\ forall RR lon k, 0 < RR -> scale_at (to_stereo RR) lon lat k -> stereo_distortion lat <> c * k.
Proof.
  pose proof PI_RGT_0 as P.
  destruct (Req_dec (stereo_distortion 0) (c * (PI / 180 / (1 + sin (0 / 180 * PI))))) as [E|E].
  - exists 30. split; [lra|]. intros RR lon k PR K. rewrite (scale_unique _ _ _ _ _ K (conformal_at RR lon 30 PR ltac:(lra))). intros F.
    rewrite distortion_cos in E, F. replace (0 / 180 * PI) with 0 in E by field. rewrite cos_0, sin_0 in E. replace (30 / 180 * PI) with (PI / 6) in F by field. rewrite sin_PI6, cos_PI6 in F.
    assert (Z : c * (PI / 180) = 1) by lra. replace (c * (PI / 180 / (1 + 1 / 2))) with (c * (PI / 180) / (1 + 1 / 2)) in F by field. rewrite Z in F.
    assert (R3 : 0 < sqrt 3) by (apply sqrt_lt_R0; lra). assert (S3 : sqrt 3 * sqrt 3 = 3) by (apply sqrt_sqrt; lra).
    assert (X : 2 * (1 + 1 / 2) = 1 + sqrt 3 / 2).
    { replace (2 * (1 + 1 / 2)) with (2 / (1 + sqrt 3 / 2) * (1 + sqrt 3 / 2) * (1 + 1 / 2)) by (field; lra). rewrite F. field. }
    nra.
  - exists 0. split; [lra|]. intros RR lon k PR K. rewrite (scale_unique _ _ _ _ _ K (conformal_at RR lon 0 PR ltac:(lra))). exact E.
Qed.

(** * The starting points *)
Lemma rceil_lt x k : (Z.of_nat k < rceil x)%Z <-> INR k < x.
Proof.
  unfold rceil. destruct (archimed (- x)) as (A & B). rewrite INR_IZR_INZ. split.
  - intros H. assert (Q : (up (- x) <= - Z.of_nat k)%Z) by lia. apply IZR_le in Q. rewrite opp_IZR in Q. lra.
  - intros H. assert (Q : IZR (up (- x)) < IZR (1 - Z.of_nat k)) by (rewrite minus_IZR; lra). apply lt_IZR in Q. lia.
Qed.
Lemma axis_In lo hi h x : 0 < h -> In x (axis lo hi h) <-> exists k, x = lo + INR k * h /\ x < hi + h.
Proof.
  intros P. unfold axis. rewrite in_map_iff.
  assert (G : forall k, In k (seq 0 (Z.to_nat (rceil ((hi + h - lo) / h)))) <-> lo + INR k * h < hi + h).
  { intros k. rewrite in_seq. cbn [Nat.add]. transitivity (Z.of_nat k < rceil ((hi + h - lo) / h))%Z; [lia|]. rewrite rceil_lt. split; intros H.
    - apply (Rmult_lt_compat_r h) in H; [|exact P]. replace ((hi + h - lo) / h * h) with (hi + h - lo) in H by (field; lra). lra.
    - apply (Rmult_lt_reg_r h); [exact P|]. replace ((hi + h - lo) / h * h) with (hi + h - lo) by (field; lra). lra. }
  split.
  - intros (k & <- & I). apply G in I. exists k. tauto.
  - intros (k & -> & L). exists k. split; [reflexivity|]. apply G, L.
Qed.
Lemma lattice_In h p : 0 < h -> In p (globe_lattice h) <-> place h p.
Proof.
  intros P. unfold globe_lattice, place. rewrite in_flat_map. split.
  - intros (x & X & Y). apply in_map_iff in Y. destruct Y as (y & <- & Y). apply axis_In in X; [|exact P]. apply axis_In in Y; [|exact P]. destruct X as (i & -> & A), Y as (j & -> & B). exists i, j. cbn [fst snd]. tauto.
  - intros (i & j & -> & A & B). cbn [fst snd] in *. exists (-180 + INR i * h). split; [apply axis_In; [exact P|]; exists i; tauto|]. apply in_map_iff. eexists. split; [reflexivity|]. apply axis_In; [exact P|]. exists j. tauto.
Qed.
Lemma mask_In {A} (l : list A) (m : list bool) x : In x (take_mask l m) -> In x l.
Proof. unfold take_mask. rewrite in_map_iff. intros ((y & b) & <- & I). apply filter_In in I. eapply in_combine_l, I. Qed.
Lemma mask_map {A} (l : list A) f : take_mask l (map f l) = filter f l.
Proof. unfold take_mask. induction l as [|a l IH]; [reflexivity|]. cbn. destruct (f a); cbn; rewrite IH; reflexivity. Qed.
Lemma mask_true {A} (l : list A) m : length m = length l -> (forall b, In b m -> b = true) -> take_mask l m = l.
Proof.
  unfold take_mask. revert m. induction l as [|a l IH]; intros [|b m] L H; try discriminate; [reflexivity|]. cbn. rewrite (H b) by (left; reflexivity). cbn. f_equal. apply IH; [cbn in L; lia|]. intros c I. apply H. right. exact I.
Qed.
Lemma rltb_true a b : rltb a b = true <-> a < b.
Proof. unfold rltb. destruct (Rlt_dec a b); split; intros; try assumption; try reflexivity; try discriminate; contradiction. Qed.
Lemma start_sound fh g rand h geps pfix r x : 0 < h -> stereo_initial_points fh (fun l => Ok (pointwise g l)) rand h geps pfix = Ok r ->
  exists q, r = pfix ++ q /\ (In x q -> g x < geps /\ exists p, place h p /\ x = to_stereo 1 p).
Proof.
  intros P. unfold stereo_initial_points. destruct (to_lat_lon 1 _) as [ll| |]; cbn [bind]; try discriminate. destruct (fh ll) as [s| |]; cbn [bind]; try discriminate.
  destruct (_ =? _)%nat; [|discriminate]. destruct (rmin_array _) as [m| |]; cbn [bind]; try discriminate. destruct (_ =? _)%nat; [|discriminate].
  unfold bool_index at 1. destruct (_ =? _)%nat; cbn [bind]; [|discriminate]. set (p1 := take_mask (map (to_stereo 1) (globe_lattice h)) _). unfold bool_index. destruct (_ =? _)%nat; cbn [bind]; [|discriminate].
  intros E. injection E as <-. unfold pointwise. rewrite map_map, mask_map. eexists. split; [reflexivity|]. intros I. apply filter_In in I. destruct I as (I & L). apply rltb_true in L. split; [exact L|].
  apply mask_In in I. apply in_map_iff in I. destruct I as (p & <- & I). exists p. split; [apply lattice_In; assumption|reflexivity].
Qed.
Lemma globe_nonempty h : 0 < h -> globe_lattice h <> [].
Proof. intros P E. assert (X : In (-180, -89) (globe_lattice h)) by (apply lattice_In; [exact P|]; exists 0%nat, 0%nat; cbn; split; [f_equal; lra|lra]). rewrite E in X. destruct X. Qed.
Lemma place_cos h p : 0 < h < 91 -> place h p -> 1 <= stereo_distortion (snd p).
Proof.
  intros H (i & j & -> & _ & B). cbn [snd] in *. rewrite distortion_cos. pose proof (pos_INR j) as Pj. pose proof PI_RGT_0 as P. set (la := -89 + INR j * h) in *.
  assert (L : -89 <= la < 180) by (unfold la in *; split; [|lra]; pose proof (Rmult_le_pos (INR j) h Pj ltac:(lra)); lra).
  pose proof (COS_bound (la / 180 * PI)) as (_ & C1). assert (C2 : -1 < cos (la / 180 * PI)).
  { destruct (Rle_lt_dec 0 la) as [Z|Z].
    - rewrite <- cos_PI. apply cos_decreasing_1; nra.
    - assert (0 <= cos (la / 180 * PI)) by (apply cos_ge_0; nra). lra. }
  apply (Rmult_le_reg_r (1 + cos (la / 180 * PI))); [lra|]. replace (2 / (1 + cos (la / 180 * PI)) * (1 + cos (la / 180 * PI))) with 2 by (field; lra). lra.
Qed.
Lemma fold_min l a c : c <= a -> (forall r, In r l -> c <= r) -> c <= fold_left Rmin l a.
Proof. revert a. induction l as [|b l IH]; intros a A H; [exact A|]. cbn. apply IH; [apply Rmin_glb; [exact A|apply H; left; reflexivity]|intros r I; apply H; right; exact I]. Qed.
Lemma combine_In_l {A B} (l : list A) (m : list B) a b : In (a, b) (combine l m) -> In a l /\ In b m.
Proof. intros H. split; [eapply in_combine_l, H|eapply in_combine_r, H]. Qed.
Lemma start_all s g h geps pfix : 0 < h < 91 -> (forall p, h <= s p) ->
  stereo_initial_points (fun l => Ok (pointwise s l)) (fun l => Ok (pointwise g l)) (repeat 0 (length (globe_lattice h))) h geps pfix =
  Ok (pfix ++ filter (fun x => rltb (g x) geps) (map (to_stereo 1) (globe_lattice h))).
Proof.
  intros P S. unfold stereo_initial_points. rewrite to_lat_lon_ok; [|lra|intros E; apply map_eq_nil in E; revert E; apply globe_nonempty; lra]. cbn [bind]. unfold pointwise. rewrite !map_length, Nat.eqb_refl.
  match goal with |- context [combine (map s ?x) (globe_lattice h)] => set (sv := map s x) end. set (r0 := map _ (combine sv (globe_lattice h))).
  assert (L0 : length r0 = length (globe_lattice h)) by (unfold r0, sv; rewrite map_length, combine_length, !map_length; lia).
  assert (G : forall r, In r r0 -> h <= r).
  { intros r I. apply in_map_iff in I. destruct I as ((a & p) & <- & I). cbn [fst snd]. apply combine_In_l in I. destruct I as (I & J). apply in_map_iff in I. destruct I as (z & <- & _).
    apply lattice_In in J; [|lra]. pose proof (place_cos h p P J) as D. pose proof (S z) as Sz. nra. }
  assert (F : filter (fun r => rleb h r) r0 = r0).
  { clearbody r0. clear L0. induction r0 as [|r l IH]; [reflexivity|]. cbn. unfold rleb at 1. destruct (Rle_dec h r) as [Z|Z]; [|destruct (Z (G r (or_introl eq_refl)))]. f_equal. apply IH. intros q I. apply G. right. exact I. }
  rewrite F. assert (N : r0 <> []) by (intros E; rewrite E in L0; cbn in L0; destruct (globe_lattice h) eqn:Z; [apply (globe_nonempty h ltac:(lra) Z)|discriminate]).
  destruct (rmin_array r0) as [m| |] eqn:M; [|destruct r0; [destruct (N eq_refl)|discriminate]|destruct r0; discriminate]. cbn [bind].
  assert (Pm : h <= m) by (destruct r0 as [|r l]; [discriminate|]; injection M as <-; apply fold_min; [apply G; left; reflexivity|intros q I; apply G; right; exact I]).
  assert (L1 : length (combine sv (globe_lattice h)) = length (globe_lattice h)) by (unfold sv; rewrite combine_length, !map_length; lia).
  rewrite repeat_length, L1, Nat.eqb_refl. unfold bool_index at 1. rewrite !map_length, combine_length, repeat_length, L0, Nat.min_id, Nat.eqb_refl. cbn [bind].
  rewrite mask_true.
  - unfold bool_index. rewrite !map_length, Nat.eqb_refl. cbn [bind]. rewrite map_map, mask_map. reflexivity.
  - rewrite !map_length, combine_length, repeat_length, L0. lia.
  - intros b I. apply in_map_iff in I. destruct I as ((u & r) & <- & I). cbn [fst snd]. apply combine_In_l in I. destruct I as (I & J). apply repeat_spec in I. subst u. unfold raccepted. destruct (Req_EM_T r 0) as [Z|Z]; [reflexivity|].
    apply rltb_true. specialize (G r J). apply Rdiv_lt_0_compat; apply pow_lt; lra.
Qed.
Lemma axis_ends n h : 0 < h -> INR n * h = 360 -> exists mid, axis (-180) 180 h = -180 :: mid ++ [180].
Proof.
  intros P E. unfold axis. assert (C : rceil ((180 + h - -180) / h) = Z.of_nat (S n)).
  { replace ((180 + h - -180) / h) with (INR (S n)) by (rewrite S_INR; replace (180 + h - -180) with (INR n * h + h) by lra; field; lra).
    assert (A : (Z.of_nat n < rceil (INR (S n)))%Z) by (apply rceil_lt; rewrite S_INR; lra). assert (B : ~ (Z.of_nat (S n) < rceil (INR (S n)))%Z) by (rewrite rceil_lt; lra). lia. }
  rewrite C, Nat2Z.id. destruct n as [|n]; [cbn in E; lra|]. exists (map (fun k => -180 + INR k * h) (seq 1 n)). rewrite seq_S. rewrite map_app. cbn [seq map app Nat.add]. f_equal; [cbn; lra|]. f_equal. f_equal. rewrite E. lra.
Qed.
Lemma ends_meet lat : to_stereo 1 (-180, lat) = to_stereo 1 (180, lat).
Proof.
  unfold to_stereo, to_3d. cbn [fst snd]. replace (-180 / 180 * PI) with (- PI) by field. replace (180 / 180 * PI) with PI by field. rewrite cos_neg, sin_neg, sin_PI, Ropp_0. reflexivity.
Qed.
Lemma nodup_apart {A} (a b : list A) x : NoDup (a ++ b) -> In x a -> In x b -> False.
Proof. induction a as [|y a IH]; cbn; intros D I J; [destruct I|]. inversion D as [|? ? N D']; subst. destruct I as [->|I]; [apply N, in_app_iff; right; exact J|apply IH; assumption]. Qed.
Lemma start_twice n h s g geps pfix : (4 <= n)%nat -> INR n * h = 360 -> (forall p, h <= s p) -> (forall x, g x < geps) ->
  exists r, stereo_initial_points (fun l => Ok (pointwise s l)) (fun l => Ok (pointwise g l)) (repeat 0 (length (globe_lattice h))) h geps pfix = Ok r /\ ~ NoDup r.
Proof.
  intros N E S G. assert (Pn : 4 <= INR n) by (apply (le_INR 4) in N; cbn in N; lra). assert (P : 0 < h < 91) by (split; nra).
  eexists. split; [apply start_all; assumption|]. replace (filter (fun x => rltb (g x) geps) (map (to_stereo 1) (globe_lattice h))) with (map (to_stereo 1) (globe_lattice h)).
  2:{ symmetry. generalize (map (to_stereo 1) (globe_lattice h)). induction l as [|x l IH]; [reflexivity|]. cbn. rewrite (proj2 (rltb_true _ _) (G x)), IH. reflexivity. }
  unfold globe_lattice. destruct (axis_ends n h ltac:(lra) E) as (mid & ->). cbn [flat_map]. rewrite flat_map_app. cbn [flat_map]. rewrite app_nil_r.
  assert (A : In (-89) (axis (-89) 89 h)) by (apply axis_In; [lra|]; exists 0%nat; cbn; lra). set (ys := axis (-89) 89 h) in *. rewrite !map_app, !app_assoc. intros D.
  refine (nodup_apart _ _ (to_stereo 1 (180, -89)) D _ _).
  - rewrite !in_app_iff. left. right. rewrite <- ends_meet. apply in_map, in_map_iff. exists (-89). tauto.
  - apply in_map, in_map_iff. exists (-89). tauto.
Qed.
Lemma start_complete s g h geps pfix : 0 < h < 91 -> (forall p, h <= s p) ->
  exists r, stereo_initial_points (fun l => Ok (pointwise s l)) (fun l => Ok (pointwise g l)) (repeat 0 (length (globe_lattice h))) h geps pfix = Ok (pfix ++ r) /\
    forall p, place h p -> g (to_stereo 1 p) < geps -> In (to_stereo 1 p) r.
Proof.
  intros P S. eexists. split; [apply start_all; assumption|]. intros p Pl G. apply filter_In. split; [apply in_map, lattice_In; [lra|exact Pl]|apply rltb_true, G].
Qed.
