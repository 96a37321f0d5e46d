(** Property theorems on the stereographic scale factors and starting points. *)
From Coq Require Import List Arith Bool ZArith Reals Lia Lra.
From Verif Require Import M_Base M_Numpy M_Edges M_Stereo M_Generate M_Forces M_Distort S_Distort P_Stereo P_Distort.
Import ListNotations.
Open Scope R_scope.

(** C127.  The factor applied to sizes when computing forces is twice the scale of the projection, at every latitude.  Missing: the factor
    applied when placing the starting points is no constant multiple of the scale; it is even in the latitude, and agrees with 2 / (1 + sin) at
    45 degrees only. *)
Theorem C127_forces_partial : forall RR lon lat, 0 < RR -> -90 < lat <= 90 -> exists k, stereo_distortion_dist lat = Some k /\ scale_at (to_stereo RR) lon lat (k / 2).
Proof. exact dist_is_scale. Qed.
Print Assumptions C127_forces_partial.
Theorem C127_scale_unique : forall f lon lat k k', scale_at f lon lat k -> scale_at f lon lat k' -> k = k'.
Proof. exact scale_unique. Qed.
Print Assumptions C127_scale_unique.
Theorem C127_start_refuted : forall c, exists lat, -90 < lat < 90 /\ forall RR lon k, 0 < RR -> scale_at (to_stereo RR) lon lat k -> stereo_distortion lat <> c * k.
Proof. exact distortion_no_scale. Qed.
Print Assumptions C127_start_refuted.
Theorem C127_start_even : forall lat, stereo_distortion (- lat) = stereo_distortion lat.
Proof. exact distortion_even. Qed.
Print Assumptions C127_start_even.
Theorem C127_start_agrees : forall lat, -90 < lat < 90 -> (stereo_distortion lat = 2 / (1 + sin (lat / 180 * PI)) <-> lat = 45).
Proof. exact distortion_agrees. Qed.
Print Assumptions C127_start_agrees.
Example C127_case : stereo_distortion 0 = 1 /\ scale_at (to_stereo 6378137) 12 0 (PI / 180).
Proof.
  split.
  - unfold stereo_distortion. replace ((0 + 90) / 180 * PI) with (PI / 2) by field. rewrite sin_PI2. lra.
  - pose proof (conformal_at 6378137 12 0 ltac:(lra) ltac:(lra)) as H. replace (0 / 180 * PI) with 0 in H by field. rewrite sin_0 in H. replace (PI / 180 / (1 + 0)) with (PI / 180) in H by field. exact H.
Qed.

(** C128.  The starting points of a global mesh are the fixed ones, then projections of lattice places with distance below geps, all of them when the
    draws are zero and the sizes at least h.  Missing: when the step divides the full circle, the date line's points come twice. *)
Theorem C128_sound : forall fh g rand h geps pfix r x, 0 < h -> stereo_initial_points fh (fun l => Ok (pointwise g l)) rand h geps pfix = Ok r ->
  exists q, r = pfix ++ q /\ (In x q -> g x < geps /\ exists p, place h p /\ x = to_stereo 1 p).
Proof. exact start_sound. Qed.
Print Assumptions C128_sound.
Theorem C128_complete_partial : forall s g h geps pfix, 0 < h < 91 -> (forall p, h <= s p) ->
  exists r, stereo_initial_points (fun l => Ok (pointwise s l)) (fun l => Ok (pointwise g l)) (repeat 0 (length (globe_lattice h))) h geps pfix = Ok (pfix ++ r) /\
    forall p, place h p -> g (to_stereo 1 p) < geps -> In (to_stereo 1 p) r.
Proof. exact start_complete. Qed.
Print Assumptions C128_complete_partial.
Theorem C128_distinct_refuted : forall n h s g geps pfix, (4 <= n)%nat -> INR n * h = 360 -> (forall p, h <= s p) -> (forall x, g x < geps) ->
  exists r, stereo_initial_points (fun l => Ok (pointwise s l)) (fun l => Ok (pointwise g l)) (repeat 0 (length (globe_lattice h))) h geps pfix = Ok r /\ ~ NoDup r.
Proof. exact start_twice. Qed.
Print Assumptions C128_distinct_refuted.
(** Places past the pole occur. *)
Example C128_case : place 3 (-180, 91) /\ place 3 (-177, -89) /\ INR 120 * 3 = 360.
Proof.
  split; [exists 0%nat, 60%nat; cbn [fst snd]; rewrite (INR_IZR_INZ 60); cbn; split; [f_equal; lra|lra]|].
  split; [exists 1%nat, 0%nat; cbn [fst snd INR]; split; [f_equal; lra|lra]|]. rewrite INR_IZR_INZ. cbn. lra.
Qed.
