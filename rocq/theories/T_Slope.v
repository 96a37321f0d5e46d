(** Theorems about filters, slopes and wavelengths. *)
From Coq Require Import List Arith ZArith QArith Qabs Qreals Reals String.
From Verif Require Import M_Base M_Sdf M_Grid S_Grid M_Slope S_Slope P_Slope.
Import ListNotations.
Open Scope R_scope.

(** C99: the four filters are smoothings and differences at the scales asked for; anything else is refused. *)
Theorem C99_lowpass : forall gauss z d, 0 < d -> forall w kind, reads kind "lowpass" -> filt2 gauss z d (Scalar w) kind = Ok (gauss z (scale d w)).
Proof. exact filter_low. Qed.
Print Assumptions C99_lowpass.
Theorem C99_highpass : forall gauss z n m d, array z n m -> (1 <= n)%nat -> 0 < d -> forall w kind, reads kind "highpass" ->
  exists v, filt2 gauss z d (Scalar w) kind = Ok v /\ difference v z (gauss z (scale d w)) n m.
Proof. exact filter_high. Qed.
Print Assumptions C99_highpass.
Theorem C99_bandpass : forall gauss z n m d, array z n m -> (1 <= n)%nat -> 0 < d -> forall u v kind, reads kind "bandpass" ->
  exists hp, filt2 gauss z d (Array [u; v]) kind = Ok (gauss hp (scale d (Rmin u v))) /\ difference hp z (gauss z (scale d (Rmax u v))) n m.
Proof. exact filter_band. Qed.
Print Assumptions C99_bandpass.
Theorem C99_refused : forall gauss z d wl kind,
  (~ reads kind "lowpass" /\ ~ reads kind "highpass" /\ ~ reads kind "bandpass" /\ ~ reads kind "bandstop") \/
  ((reads kind "lowpass" \/ reads kind "highpass") /\ (exists l, wl = Array l)) \/
  ((reads kind "bandpass" \/ reads kind "bandstop") /\ (forall u v, wl <> Array [u; v])) ->
  filt2 gauss z d wl kind = Raise TypeError.
Proof. exact filter_type. Qed.
Print Assumptions C99_refused.
Example C99_case : keeps_shape flat /\ averages flat /\ array ripple 2 2 /\ reads "LowPass" "lowpass" /\
  filt2 flat ripple 1 (Scalar 4) "LowPass" = Ok [[0; 0]; [0; 0]] /\ filt2 flat ripple 1 (Array [4; 8]) "Lowpass" = Raise TypeError.
Proof. exact filter_case. Qed.

(** C100: a bandstop filter keeps what is longer than the band and what is shorter (lowpass of the larger wavelength plus
    highpass of the smaller).  It subtracts the short part: a field with short waves only comes out with the opposite sign. *)
Theorem C100_bandstop_refuted : exists g z n m d u v r, keeps_shape g /\ averages g /\ array z n m /\ 0 < d /\
  filt2 g z d (Scalar (Rmin u v)) "highpass" = Ok z /\ filt2 g z d (Scalar (Rmax u v)) "lowpass" = Ok (rtab n m (fun _ _ => 0)) /\
  filt2 g z d (Array [u; v]) "bandstop" = Ok r /\ (1 <= n)%nat /\ (1 <= m)%nat /\
  (forall i j, (i < n)%nat -> (j < m)%nat -> at_ r i j = - at_ z i j /\ at_ z i j <> 0).
Proof. exact stop_inverts. Qed.
Print Assumptions C100_bandstop_refuted.
Theorem C100_bandstop_exact : forall gauss, keeps_shape gauss -> forall z n m d, array z n m -> (1 <= n)%nat -> 0 < d -> forall u v kind, reads kind "bandstop" ->
  exists r hp, filt2 gauss z d (Array [u; v]) kind = Ok r /\ difference hp z (gauss z (scale d (Rmin u v))) n m /\
    difference r (gauss z (scale d (Rmax u v))) hp n m.
Proof. exact filter_stop. Qed.
Print Assumptions C100_bandstop_exact.
(** What is missing is the sign of the short part; a constant field is kept. *)
Theorem C100_bandstop_partial : forall g z n m d u v c kind, keeps_shape g -> averages g -> array z n m -> (1 <= n)%nat -> (1 <= m)%nat -> 0 < d ->
  reads kind "bandstop" -> (forall i j, (i < n)%nat -> (j < m)%nat -> at_ z i j = c) ->
  exists r, filt2 g z d (Array [u; v]) kind = Ok r /\ array r n m /\ forall i j, (i < n)%nat -> (j < m)%nat -> at_ r i j = c.
Proof. exact stop_constant. Qed.
Print Assumptions C100_bandstop_partial.
Example C100_case : keeps_shape flat /\ averages flat.
Proof. exact (conj flat_shape flat_averages). Qed.

(** C101: slope sizes at every node, with and without lowpass, highpass or bandpass filter, in metres and in degrees. *)
Theorem C101_slope_sizes : forall gauss d n m param quotient lo hi cutoff kind cutoffs f, keeps_shape gauss -> proper_dem d n m -> x_unit d <> 0 ->
  slope_source gauss d cutoff n m kind quotient cutoffs f ->
  exists g h, slope_sizing gauss d param quotient lo hi cutoff kind cutoffs 1 = Ok g /\ lowest d lo h /\ same_lattice d g n m h /\ r_extra g = true /\
    forall i j, (i < n)%nat -> (j < m)%nat -> exists s, gradient_length n m (x_step d) (y_step d) (at_ f) i j s /\
      at_ (r_values g) i j = limited h hi (slope_target d param (used_depth d cutoff i j) s).
Proof. exact slope_fine. Qed.
Print Assumptions C101_slope_sizes.
Example C101_case : proper_dem (shelf true coast_box) 3 3 /\ x_unit (shelf true coast_box) <> 0 /\
  exists f, slope_source flat (shelf true coast_box) (-50) 3 3 "lowpass" 50 (Scalar 1000) f.
Proof. exact slope_case. Qed.

(** C102: over a plane sea bed the size is 2 pi / param times depth over slope. *)
Theorem C102_plane : forall gauss d n m param quotient lo hi cutoff kind cutoffs a px py, keeps_shape gauss -> proper_dem d n m -> d_geo d = false ->
  unfiltered kind quotient -> cutoff <= -1 ->
  (forall i j, (i < n)%nat -> (j < m)%nat -> at_ (d_z d) i j = a + INR i * Q2R (d_dx d) * px + INR j * Q2R (d_dy d) * py /\ at_ (d_z d) i j <= cutoff) ->
  exists g h, slope_sizing gauss d param quotient lo hi cutoff kind cutoffs 1 = Ok g /\ lowest d lo h /\ same_lattice d g n m h /\
    forall i j, (i < n)%nat -> (j < m)%nat ->
      at_ (r_values g) i j = limited h hi (2 * PI / param * Rabs (at_ (d_z d) i j) / (sqrt (px * px + py * py) + 1 / 10 ^ 10)).
Proof. exact slope_plane. Qed.
Print Assumptions C102_plane.
Example C102_case : proper_dem (shelf false coast_box) 3 3 /\ d_geo (shelf false coast_box) = false /\ unfiltered "off" 50 /\
  forall i j, (i < 3)%nat -> (j < 3)%nat ->
    at_ shelf_z i j = -100 + INR i * Q2R (d_dx (shelf false coast_box)) * (-30) + INR j * Q2R (d_dy (shelf false coast_box)) * (-10) /\ at_ shelf_z i j <= -50.
Proof. exact plane_case. Qed.

(** C103: whatever the filter and the coarsening, the sizes obey the limits and hmin is the lower one. *)
Theorem C103_limits : forall gauss d param quotient lo hi cutoff kind cutoffs coarsen g,
  slope_sizing gauss d param quotient lo hi cutoff kind cutoffs coarsen = Ok g ->
  lowest d lo (r_hmin g) /\ Forall (Forall (in_limits (r_hmin g) hi)) (r_values g).
Proof. exact slope_bounds. Qed.
Print Assumptions C103_limits.
Example C103_case : proper_dem (shelf false coast_box) 3 3 /\ (b0 (d_box (shelf false coast_box)) < b1 (d_box (shelf false coast_box)))%Q /\
  (b2 (d_box (shelf false coast_box)) < b3 (d_box (shelf false coast_box)))%Q /\
  exists g, slope_sizing flat (shelf false coast_box) 20 50 None (Some 100) (-50) "off" (Scalar 1000) 1 = Ok g.
Proof. exact coarse_case. Qed.

(** C104: a coarser lattice samples the sizes of the fine one, with the same lower bound and outside behaviour; only positive whole
    numbers are accepted.  The outside behaviour is not the same. *)
Theorem C104_coarser : forall gauss d n m param quotient lo hi cutoff kind cutoffs c g, proper_dem d n m -> (b0 (d_box d) < b1 (d_box d))%Q ->
  (b2 (d_box d) < b3 (d_box d))%Q -> (2 <= c)%nat ->
  slope_sizing gauss d param quotient lo hi cutoff kind cutoffs 1 = Ok g ->
  exists g' n' m', slope_sizing gauss d param quotient lo hi cutoff kind cutoffs (inject_Z (Z.of_nat c)) = Ok g' /\
    r_box g' = d_box d /\ (r_dx g' == inject_Z (Z.of_nat c) * d_dx d)%Q /\ (r_dy g' == inject_Z (Z.of_nat c) * d_dy d)%Q /\
    r_hmin g' = r_hmin g /\ r_crs g' = r_crs g /\ array (r_values g') n' m' /\
    steps_in (b0 (d_box d)) (b1 (d_box d)) (r_dx g') n' /\ steps_in (b2 (d_box d)) (b3 (d_box d)) (r_dy g') m' /\
    forall i j, (i < n')%nat -> (j < m')%nat -> (i * c < n)%nat -> (j * c < m)%nat -> at_ (r_values g') i j = at_ (r_values g) (i * c) (j * c).
Proof. exact slope_coarse. Qed.
Print Assumptions C104_coarser.
Theorem C104_extrapolates_refuted : exists d n m g g', proper_dem d n m /\
  slope_sizing flat d 20 50 None None (-50) "off" (Scalar 1000) 1 = Ok g /\ r_extra g = true /\
  slope_sizing flat d 20 50 None None (-50) "off" (Scalar 1000) 2 = Ok g' /\ r_extra g' = false.
Proof. exact coarse_not_extrapolating. Qed.
Print Assumptions C104_extrapolates_refuted.
Theorem C104_refused : forall gauss d param quotient lo hi cutoff kind cutoffs c, (c < 1)%Q \/ (forall k, ~ (c == inject_Z k)%Q) ->
  slope_sizing gauss d param quotient lo hi cutoff kind cutoffs c = Raise ValueError.
Proof. exact slope_refused. Qed.
Print Assumptions C104_refused.
Example C104_case : proper_dem (shelf false coast_box) 3 3 /\ (b0 (d_box (shelf false coast_box)) < b1 (d_box (shelf false coast_box)))%Q /\
  (b2 (d_box (shelf false coast_box)) < b3 (d_box (shelf false coast_box)))%Q /\
  exists g, slope_sizing flat (shelf false coast_box) 20 50 None (Some 100) (-50) "off" (Scalar 1000) 1 = Ok g.
Proof. exact coarse_case. Qed.

(** C105: the Rossby radius filters give the slopes of the smoothed sea bed.  They do not: the result never depends on the smoothing,
    on the radius or on its kind. *)
Theorem C105_smoothing_refuted : forall gauss gauss' d sx sy q q' barot barot' z n m bs bs', array z n m -> (2 <= n)%nat -> (1 <= m)%nat -> sx <> 0 -> sy <> 0 ->
  (b2 (d_box d) < b3 (d_box d))%Q -> rossby_filter gauss d sx sy q barot z = Ok bs -> rossby_filter gauss' d sx sy q' barot' z = Ok bs' -> bs = bs'.
Proof. exact rossby_no_smoothing. Qed.
Print Assumptions C105_smoothing_refuted.
Theorem C105_sizes_refuted : forall gauss gauss' d n m param q q' lo hi cutoff kind kind' cutoffs cutoffs' c g g', proper_dem d n m -> x_unit d <> 0 ->
  (b2 (d_box d) < b3 (d_box d))%Q -> rossby_kind kind -> rossby_kind kind' -> 0 < q -> 0 < q' ->
  slope_sizing gauss d param q lo hi cutoff kind cutoffs c = Ok g -> slope_sizing gauss' d param q' lo hi cutoff kind' cutoffs' c = Ok g' -> g = g'.
Proof. exact rossby_same_sizes. Qed.
Print Assumptions C105_sizes_refuted.
(** What it returns: the slopes of the data as they are, taken within blocks of columns. *)
Theorem C105_exact : forall gauss d sx sy quotient barot z n m bs, array z n m -> (2 <= n)%nat -> (1 <= m)%nat -> sx <> 0 -> sy <> 0 ->
  (b2 (d_box d) < b3 (d_box d))%Q -> rossby_filter gauss d sx sy quotient barot z = Ok bs ->
  array bs n m /\ exists w, block_size n m (b3 (d_box d) - b2 (d_box d)) w /\
    forall i j, (i < n)%nat -> (j < m)%nat -> exists s e, block_of w m j s e /\ (2 <= e - s)%nat /\
      gradient_length n (e - s) sx sy (fun k l => at_ z k (s + l)) i (j - s) (at_ bs i j).
Proof. exact rossby_slopes. Qed.
Print Assumptions C105_exact.
Theorem C105_returns : forall gauss d sx sy quotient barot z n m, array z n m -> (2 <= n)%nat -> (1 <= m)%nat -> sx <> 0 -> sy <> 0 ->
  (b2 (d_box d) < b3 (d_box d))%Q ->
  (b0 (d_box d) + inject_Z (Z.of_nat (n - 1)) * d_dx d <= 179)%Q ->
  (b2 (d_box d) + inject_Z (Z.of_nat (m - 1)) * Qabs (d_dy d) <= 89)%Q ->
  (forall w j s e, block_size n m (b3 (d_box d) - b2 (d_box d)) w -> (j < m)%nat -> block_of w m j s e -> (2 <= e - s)%nat) ->
  exists bs, rossby_filter gauss d sx sy quotient barot z = Ok bs.
Proof. exact rossby_returns. Qed.
Print Assumptions C105_returns.
Example C105_case : exists d n m z bs, array z n m /\ (2 <= n)%nat /\ (1 <= m)%nat /\ (b2 (d_box d) < b3 (d_box d))%Q /\
  rossby_filter flat d 100 100 50 true z = Ok bs.
Proof. exact rossby_case. Qed.

(** C106: the Rossby filters, marked as not implemented, are refused or else work on every lattice.  Neither holds: calls are accepted, and fail
    on projected lattices, around the globe and wherever a block has one column. *)
Theorem C106_not_refused_refuted : exists d n m q g, proper_dem d n m /\ x_unit d <> 0 /\ 0 < q /\
  slope_sizing flat d 20 q None None (-50) "barotropic" (Scalar 1000) 1 = Ok g.
Proof. exact rossby_not_refused. Qed.
Print Assumptions C106_not_refused_refuted.
Theorem C106_projected_refuted : forall gauss d sx sy quotient barot z n m bs, array z n m -> (2 <= n)%nat -> (1 <= m)%nat -> sx <> 0 -> sy <> 0 ->
  (10 * inject_Z (Z.of_nat m) <= b3 (d_box d) - b2 (d_box d))%Q ->
  rossby_filter gauss d sx sy quotient barot z <> Ok bs.
Proof. exact rossby_projected. Qed.
Print Assumptions C106_projected_refuted.
Theorem C106_narrow_refuted : forall gauss d sx sy quotient barot z n m bs w j s e, array z n m -> (2 <= n)%nat -> (1 <= m)%nat -> sx <> 0 -> sy <> 0 ->
  (b2 (d_box d) < b3 (d_box d))%Q -> block_size n m (b3 (d_box d) - b2 (d_box d)) w -> (j < m)%nat -> block_of w m j s e -> (e - s < 2)%nat ->
  rossby_filter gauss d sx sy quotient barot z <> Ok bs.
Proof. exact rossby_narrow. Qed.
Print Assumptions C106_narrow_refuted.
Theorem C106_wraps_refuted : forall gauss d sx sy quotient z n m, array z n m -> (2 <= n)%nat -> (1 <= m)%nat -> 0 < sy -> 0 < quotient -> sy * quotient <= 10000 ->
  (b2 (d_box d) < b3 (d_box d))%Q -> (b0 (d_box d) < -179)%Q -> (179 < b0 (d_box d) + inject_Z (Z.of_nat (n - 1)) * d_dx d)%Q ->
  rossby_filter gauss d sx sy quotient true z = Raise TypeError.
Proof. exact rossby_wraps. Qed.
Print Assumptions C106_wraps_refuted.
Theorem C106_global_refuted : exists d n m q, array (d_z d) n m /\ (2 <= n)%nat /\ (2 <= m)%nat /\ d_geo d = true /\ 0 < q /\
  forall gauss, slope_sizing gauss d 20 q None None (-50) "barotropic" (Scalar 1000) 1 = Raise TypeError.
Proof. exact rossby_global. Qed.
Print Assumptions C106_global_refuted.
Example C106_case : array shelf_z 3 3 /\ (10 * inject_Z (Z.of_nat 3) <= b3 (0, 300, 0, 300)%Q - b2 (0, 300, 0, 300)%Q)%Q.
Proof. exact projected_case. Qed.

(** C107: the documented filter "bandstop" is applied.  It is not: the sizes are those without any filter. *)
Theorem C107_bandstop_refuted : forall gauss gauss' d param q lo hi cutoff cutoffs cutoffs' c,
  slope_sizing gauss d param q lo hi cutoff "bandstop" cutoffs c = slope_sizing gauss' d param q lo hi cutoff "off" cutoffs' c.
Proof. exact stop_ignored. Qed.
Print Assumptions C107_bandstop_refuted.
(** Exactly the kinds that mention "pass" and the Rossby filters do anything. *)
Theorem C107_exact : forall gauss gauss' d param q lo hi cutoff kind cutoffs cutoffs' c, unfiltered kind q ->
  slope_sizing gauss d param q lo hi cutoff kind cutoffs c = slope_sizing gauss' d param q lo hi cutoff "off" cutoffs' c.
Proof. exact same_as_off. Qed.
Print Assumptions C107_exact.
Example C107_case : unfiltered "bandstop" 50.
Proof. exact (unfiltered_stop 50). Qed.

(** C108: wavelength sizes: the shallow-water wavelength over wl, within the limits. *)
Theorem C108_wavelengths : forall d n m wl lo hi period gravity crs, proper_dem d n m -> crs <> epsg4326 ->
  exists g, wavelength_sizing d wl lo hi period gravity crs = Ok g /\ r_box g = d_box d /\ r_dx g = d_dx d /\ r_dy g = d_dy d /\
    array (r_values g) n m /\ r_crs g = crs /\ r_extra g = true /\
    let size i j := wave_length period gravity (at_ (d_z d) i j) / wl in
    match lo with Some l => r_hmin g = l | None => least (r_hmin g) size n m end /\
    forall i j, (i < n)%nat -> (j < m)%nat ->
      at_ (r_values g) i j = match lo with Some l => limited l hi (size i j) | None => match hi with Some u => Rmin u (size i j) | None => size i j end end.
Proof. exact wave_metres. Qed.
Print Assumptions C108_wavelengths.
Example C108_case : proper_dem (shelf true tropic_box) 3 3 /\ d_geo (shelf true tropic_box) = true /\ at_ (d_z (shelf true tropic_box)) 1 1 = -140.
Proof. exact wave_case. Qed.

(** C109: for elevations in degrees the sizes are the wavelengths in degrees, for others in the DEM's own unit.  Neither holds: the latitude is taken
    for radians, and the crs argument decides, not the DEM. *)
Theorem C109_latitude_refuted : exists d n m g, proper_dem d n m /\ d_geo d = true /\ r_crs g = d_crs d /\
  wavelength_sizing d 10 None None 44712 9.81 epsg4326 = Ok g /\
  forall i j, (i < n)%nat -> (j < m)%nat -> at_ (r_values g) i j < wave_length 44712 9.81 (at_ (d_z d) i j) / 10 / lat_metres (middle (d_box d)).
Proof. exact wave_latitude. Qed.
Print Assumptions C109_latitude_refuted.
Theorem C109_projected_refuted : exists d n m g, proper_dem d n m /\ d_geo d = false /\ wavelength_sizing d 10 None None 44712 9.81 epsg4326 = Ok g /\
  forall i j, (i < n)%nat -> (j < m)%nat -> 110571 * at_ (r_values g) i j < wave_length 44712 9.81 (at_ (d_z d) i j) / 10.
Proof. exact wave_wrong_crs. Qed.
Print Assumptions C109_projected_refuted.
Theorem C109_geographic_refuted : exists d n m g crs, proper_dem d n m /\ d_geo d = true /\ crs <> epsg4326 /\ wavelength_sizing d 10 None None 44712 9.81 crs = Ok g /\
  forall i j, (i < n)%nat -> (j < m)%nat -> at_ (r_values g) i j = wave_length 44712 9.81 (at_ (d_z d) i j) / 10.
Proof. exact wave_other_degrees. Qed.
Print Assumptions C109_geographic_refuted.
(** With EPSG:4326 the size is within 1.02 percent. *)
Theorem C109_degrees_partial : forall d n m wl period gravity, proper_dem d n m -> d_geo d = true -> 0 < wl -> 0 <= period ->
  exists g, wavelength_sizing d wl None None period gravity epsg4326 = Ok g /\ array (r_values g) n m /\
    forall i j, (i < n)%nat -> (j < m)%nat ->
      let size := wave_length period gravity (at_ (d_z d) i j) / wl / lat_metres (middle (d_box d)) in
      Rabs (at_ (r_values g) i j - size) <= 102 / 10000 * size.
Proof. exact wave_degrees. Qed.
Print Assumptions C109_degrees_partial.
Example C109_case : proper_dem (shelf true tropic_box) 3 3 /\ d_geo (shelf true tropic_box) = true /\ at_ (d_z (shelf true tropic_box)) 1 1 = -140.
Proof. exact wave_case. Qed.

(** C110: hmin of the wavelength sizes is a lower bound of them.  Not with an upper limit below the smallest wavelength size. *)
Theorem C110_hmin_refuted : exists d n m g u, proper_dem d n m /\ wavelength_sizing d 10 None (Some u) 44712 9.81 2 = Ok g /\ 0 < u /\
  forall i j, (i < n)%nat -> (j < m)%nat -> at_ (r_values g) i j < r_hmin g.
Proof. exact wave_hmin_above. Qed.
Print Assumptions C110_hmin_refuted.
Theorem C110_hmin_partial : forall d n m wl lo hi period gravity crs g, proper_dem d n m -> wavelength_sizing d wl lo hi period gravity crs = Ok g ->
  match hi with Some u => r_hmin g <= u | None => True end ->
  forall i j, (i < n)%nat -> (j < m)%nat -> r_hmin g <= at_ (r_values g) i j /\ match hi with Some u => at_ (r_values g) i j <= u | None => True end.
Proof. exact wave_hmin. Qed.
Print Assumptions C110_hmin_partial.
Example C110_case : proper_dem (shelf true tropic_box) 3 3 /\ d_geo (shelf true tropic_box) = true /\ at_ (d_z (shelf true tropic_box)) 1 1 = -140.
Proof. exact wave_case. Qed.
