(** C168-C171: the arithmetic of the sizing functions on IEEE doubles. *)
From Coq Require Import List ZArith Reals Bool SpecFloat.
From Flocq Require Import Core.
From Verif Require Import M_Base M_FixMesh M_LimitF M_LapF M_SizeF S_Double S_LimitF S_Ieee S_SizeF P_SizeF.
Import ListNotations.
Open Scope R_scope.

(** ** C168 *)
(** Sizes from distances to the shoreline: no larger than the bound, no smaller than h0 unless the bound is, h0 on the shoreline, never
    smaller further away, and h0 + rate * distance up to the bound and two roundings. *)
Theorem C168_distance : forall h0 rate hi n dis, amount h0 -> amount rate -> bound_ok hi -> all_finite dis ->
  length (distance_sizes_f h0 rate hi n dis) = length (distances n dis) /\
  forall i d v, entry (distances n dis) i d -> entry (distance_sizes_f h0 rate hi n dis) i v ->
    size v /\ within_cap hi v /\ (cap_above h0 hi -> no_more h0 v) /\
    (cap_above h0 hi -> d = 0 -> amount v /\ val v = val h0) /\
    (forall j d' v', entry (distances n dis) j d' -> entry (distance_sizes_f h0 rate hi n dis) j v' -> d <= d' -> no_more v v') /\
    (val h0 + val rate * d <= bpow radix2 1000 ->
      amount v /\ Rabs (val v - capped hi (val h0 + val rate * d)) <= 4 * u * (val h0 + val rate * d) + bpow radix2 (-1074)).
Proof. exact distance_ok. Qed.
Print Assumptions C168_distance.
(** A missing distance gives a missing size, whatever the bound. *)
Theorem C168_nan : forall h0 rate hi n l i, entry l i S754_nan -> entry (distance_sizes_f h0 rate hi n (Some l)) i S754_nan.
Proof. exact distance_nan. Qed.
Print Assumptions C168_nan.
(** h0 = 1, rate 0.15, distances 0, -2 and 6, bound 1.5. *)
Example C168_case : let rate := S754_finite false 5404319552844595 (-55) in let six := S754_finite false 6755399441055744 (-50) in let hi := S754_finite false 6755399441055744 (-52) in
  distance_sizes_f f_one rate (Some hi) 0 (Some [f_zero; SFopp ftwo; six]) = [f_one; S754_finite false 5854679515581645 (-52); hi] /\
  valid_binary 53 1024 rate = true /\ valid_binary 53 1024 six = true /\ valid_binary 53 1024 hi = true.
Proof. vm_compute. auto. Qed.

(** ** C169 *)
(** Sizes from wavelengths: within the bounds, never smaller over deeper water, up to five roundings the wavelength by wl; hmin is the bound,
    or the smallest size if that is below the upper bound. *)
Theorem C169_wavelength : forall period gravity wl mpd lo hi depths,
  positive period -> positive gravity -> positive wl -> positive_opt mpd -> bound_ok lo -> bound_ok hi -> Forall finite_double depths -> (lo = None -> depths <> []) ->
  exists sizes hmin, wavelength_sizes_f period gravity wl mpd lo hi depths = Ok (sizes, hmin) /\ length sizes = length depths /\
  (forall l, lo = Some l -> hmin = l) /\
  (lo = None -> (cap_above hmin hi -> In hmin sizes /\ forall v, In v sizes -> no_more hmin v)) /\
  forall i z v, entry depths i z -> entry sizes i v ->
    size v /\ within_cap hi v /\ (forall l, lo = Some l -> cap_above l hi -> no_more l v) /\
    (forall j z' v', entry depths j z' -> entry sizes j v' -> wave_depth z <= wave_depth z' -> no_more v v') /\
    (ordinary (val period) -> ordinary (val gravity) -> ordinary (val wl) -> ordinary_opt mpd -> Rabs (val z) <= 2 ^ 100 ->
      amount v /\ Rabs (val v - capped hi (floored lo (wave_size period gravity wl mpd z))) <= 8 * u * wave_size period gravity wl mpd z).
Proof. exact wavelength_ok. Qed.
Print Assumptions C169_wavelength.
(** Without a lower bound hmin is taken before the upper bound is applied, and can exceed every size. *)
Theorem C169_hmin_refuted : exists period gravity wl hi depths sizes hmin,
  positive period /\ positive gravity /\ positive wl /\ amount hi /\ Forall finite_double depths /\ depths <> [] /\
  wavelength_sizes_f period gravity wl None None (Some hi) depths = Ok (sizes, hmin) /\ forall v, In v sizes -> val v < val hmin.
Proof. exact wavelength_hmin_above. Qed.
Print Assumptions C169_hmin_refuted.
(** A missing depth gives a missing size, whatever the bounds, and without a lower bound a missing hmin. *)
Theorem C169_nan : forall period gravity wl mpd lo hi depths i, entry depths i S754_nan ->
  exists sizes hmin, wavelength_sizes_f period gravity wl mpd lo hi depths = Ok (sizes, hmin) /\ entry sizes i S754_nan /\ (lo = None -> hmin = S754_nan).
Proof. exact wavelength_nan. Qed.
Print Assumptions C169_nan.
(** Period 2 s, gravity 9.81, wl 1, depths 0, -0.5 and 100, bounds 7 and 50. *)
Example C169_case : let g := S754_finite false 5522539043063071 (-49) in let h := S754_finite false 7036874417766400 (-46) in
  let lo := S754_finite false 7881299347898368 (-50) in let hi := S754_finite false 7036874417766400 (-47) in
  wavelength_sizes_f ftwo g f_one None (Some lo) (Some hi) [f_zero; S754_finite true 4503599627370496 (-53); h] = Ok ([lo; lo; hi], lo) /\
  wavelength_sizes_f ftwo g f_one None None (Some hi) [f_zero; S754_finite true 4503599627370496 (-53); h]
    = Ok ([S754_finite false 7052844075474498 (-50); S754_finite false 7052844075474498 (-50); hi], S754_finite false 7052844075474498 (-50)) /\
  valid_binary 53 1024 g = true /\ valid_binary 53 1024 h = true /\ valid_binary 53 1024 lo = true /\ valid_binary 53 1024 hi = true.
Proof. vm_compute. repeat split. Qed.

(** ** C170 *)
(** Sizes from slopes: within the bounds, never smaller over deeper water or flatter ground, up to eight roundings the formula; hmin is the
    bound, or the larger grid spacing. *)
Theorem C170_slope : forall cutoff sp mpd lo hi dx dy nodes,
  finite_double cutoff -> positive sp -> positive_opt mpd -> bound_ok lo -> bound_ok hi -> amount dx -> amount dy ->
  Forall (fun n => finite_double (fst n) /\ amount (snd n) /\ val (snd n) <= bpow radix2 1000) nodes ->
  let r := slope_sizes_f cutoff sp mpd lo hi dx dy nodes in
  length (fst r) = length nodes /\ amount (snd r) /\ (forall l, lo = Some l -> snd r = l) /\ (lo = None -> val (snd r) = Rmax (val dx) (val dy)) /\
  forall i z bs v, entry nodes i (z, bs) -> entry (fst r) i v ->
    size v /\ within_cap hi v /\ (cap_above (snd r) hi -> no_more (snd r) v) /\
    (forall j z' bs' v', entry nodes j (z', bs') -> entry (fst r) j v' -> slope_depth cutoff z <= slope_depth cutoff z' -> val bs' <= val bs -> no_more v v') /\
    (Rabs (val cutoff) <= 2 ^ 100 -> ordinary (val sp) -> ordinary_opt mpd -> Rabs (val z) <= 2 ^ 100 -> val bs <= 2 ^ 100 ->
      amount v /\ Rabs (val v - capped hi (floored (Some (snd r)) (slope_size cutoff sp mpd z bs))) <= 8 * u * slope_size cutoff sp mpd z bs).
Proof. exact slope_ok. Qed.
Print Assumptions C170_slope.
(** A missing elevation or slope gives a missing size, whatever the bounds. *)
Theorem C170_nan : forall cutoff sp mpd lo hi dx dy nodes i z bs, entry nodes i (z, bs) -> z = S754_nan \/ bs = S754_nan ->
  entry (fst (slope_sizes_f cutoff sp mpd lo hi dx dy nodes)) i S754_nan.
Proof. exact slope_nan. Qed.
Print Assumptions C170_nan.
(** Cutoff -50, slope parameter 20; an elevation of 3 on flat ground, and -100 on a slope of 1. *)
Example C170_case : let c := S754_finite true 7036874417766400 (-47) in let sp := S754_finite false 5629499534213120 (-48) in
  let three := S754_finite false 6755399441055744 (-51) in let z := S754_finite true 7036874417766400 (-46) in let hi := S754_finite false 4503599627370496 (-42) in
  slope_sizes_f c sp None None (Some hi) f_one ftwo [(three, f_zero); (z, f_one)] = ([hi; S754_finite false 8842797189151270 (-48)], ftwo) /\
  forallb (valid_binary 53 1024) [c; sp; three; z; hi] = true.
Proof. vm_compute. auto. Qed.

(** ** C171 *)
(** Resampling a line at half the edge length: for lines up to 2^50 edge lengths it ends after at most 4 len / h + 1 points, the first at 0,
    each a quarter to three quarters of an edge length after the one before, the last as close to the end, each where it should be up to rounding. *)
Theorem C171_resample : forall len h, finite_double len -> 0 <= val len <= bpow radix2 1000 -> finite_double h -> bpow radix2 (-1000) <= val h <= bpow radix2 1000 ->
  val len <= bpow radix2 50 * val h ->
  exists l, (forall fuel, 4 * val len <= (INR fuel - 1) * val h -> (0 < fuel)%nat -> resample_line_f fuel len h = Ok l) /\
    Forall (fun x => amount x /\ val x < val len) l /\ (0 < val len -> entry l 0 f_zero) /\
    steps_within (val h / 4) (3 / 4 * val h) l /\ (0 < val len -> val len <= val (last l S754_nan) + 3 / 4 * val h) /\
    (forall i x, entry l i x -> Rabs (val x - INR i * (val h / 2)) <= INR i * (u * (val len + val h / 2))) /\
    INR (length l) * val h <= 4 * val len + val h.
Proof. exact resample_ok. Qed.
Print Assumptions C171_resample.
(** It does not end for every line: with length 2^54 and edge length 1 the distance stops growing at 2^53. *)
Theorem C171_ends_refuted : exists len h, finite_double len /\ 0 < val len /\ positive h /\ forall fuel, resample_line_f fuel len h = OutOfFuel.
Proof. exact resample_refuted. Qed.
Print Assumptions C171_ends_refuted.
(** Nor does it with an edge length of zero. *)
Theorem C171_zero : forall len fuel, finite_double len -> 0 < val len -> resample_line_f fuel len f_zero = OutOfFuel.
Proof. exact resample_zero. Qed.
Print Assumptions C171_zero.
(** A line of length 2 with edge length 0.7. *)
Example C171_case : let h := S754_finite false 6305039478318694 (-53) in
  (match resample_line_f 13 ftwo h with Ok l => length l | _ => 0 end = 6)%nat /\ valid_binary 53 1024 h = true.
Proof. vm_compute. auto. Qed.
