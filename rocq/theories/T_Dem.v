(** Property theorems C48, C49, C76, C77, C79, C80, C155 (geodata.py: reading elevation rasters). *)
From Coq Require Import List Arith Bool ZArith QArith Qabs Lia.
From Verif Require Import M_Base M_Sdf M_Grid M_Dem S_Grid S_Dem P_Dem.
Import ListNotations.
Open Scope Q_scope.

(** ** C48 *)
(** Whatever part of the raster is read, row r and column c end at index (c, nrows - 1 - r); on a global box the
    first and the last column change places (grid.py:510-512). *)
Theorem C48_raster_index : forall tr rw xo nc src region crs ex g, dem tr rw xo nc src region crs ex = Ok g ->
  (region = None \/ nc = false) ->
  (forall nr k, shape (r_data src) nr k -> (1 <= nr)%nat -> shape (g_values g) k nr /\
      (~ global_box (g_bbox g) -> forall r c, (r < nr)%nat -> (c < k)%nat -> cleaned (r_nodata src) (pixel (r_data src) r c) (value_at g c (nr - 1 - r))) /\
      (global_box (g_bbox g) -> forall r c, (r < nr)%nat -> (c < k)%nat -> cleaned (r_nodata src) (pixel (r_data src) r (exchanged k c)) (value_at g c (nr - 1 - r)))) \/
  (region <> None /\ exists b d, rw src b = Ok d /\
    forall nr k, rect d nr k -> (1 <= nr)%nat -> shape (g_values g) k nr /\
      (~ global_box (g_bbox g) -> forall r c, (r < nr)%nat -> (c < k)%nat -> stored_for (r_nodata src) (entry d r c) (value_at g c (nr - 1 - r))) /\
      (global_box (g_bbox g) -> forall r c, (r < nr)%nat -> (c < k)%nat -> stored_for (r_nodata src) (entry d r (exchanged k c)) (value_at g c (nr - 1 - r)))).
Proof. exact raster_stored. Qed.
Print Assumptions C48_raster_index.

(** The xarray fallback puts the values where they belong if x ascends and y descends ... *)
Theorem C48_fallback_descending_y : forall tr rw a isnc src rb rc rs crs ex g nxa nya xlo dx ylo dy, dem tr rw (Some a) isnc src (Some (rb, rc)) crs ex = Ok g ->
  by_fallback tr src rb rc rs -> xr_shape a nxa nya -> uniform_axis (xa_x a) xlo dx nxa -> uniform_axis (xa_y a) ylo dy nya -> ~ global_box (g_bbox g) -> 0 < dx -> dy < 0 ->
  exists n m, shape (g_values g) n m /\ (2 <= n)%nat /\ (2 <= m)%nat /\
  (forall i j, (i < n)%nat -> (j < m)%nat -> exists i' j', (i' < nxa)%nat /\ (j' < nya)%nat /\ x_of g i == nth i' (xa_x a) 0 /\ y_of g j == nth j' (xa_y a) 0 /\ cleaned (r_nodata src) (xr_value a i' j') (value_at g i j)) /\
  (forall i' j', (i' < nxa)%nat -> (j' < nya)%nat -> in_box rs (nth i' (xa_x a) 0, nth j' (xa_y a) 0) ->
     exists i j, (i < n)%nat /\ (j < m)%nat /\ x_of g i == nth i' (xa_x a) 0 /\ y_of g j == nth j' (xa_y a) 0).
Proof. exact fallback_right. Qed.
Print Assumptions C48_fallback_descending_y.

(** ... but upside down if y ascends: node (i, j) holds the value of the mirrored row. *)
Theorem C48_fallback_ascending_y : forall tr rw a isnc src rb rc rs crs ex g nxa nya xlo dx ylo dy, dem tr rw (Some a) isnc src (Some (rb, rc)) crs ex = Ok g ->
  by_fallback tr src rb rc rs -> xr_shape a nxa nya -> uniform_axis (xa_x a) xlo dx nxa -> uniform_axis (xa_y a) ylo dy nya -> ~ global_box (g_bbox g) -> 0 < dx -> 0 < dy ->
  exists i0 j0 n m, shape (g_values g) n m /\ (2 <= n)%nat /\ (2 <= m)%nat /\ forall i j, (i < n)%nat -> (j < m)%nat ->
    x_of g i == nth (i0 + i) (xa_x a) 0 /\ y_of g j == nth (j0 + j) (xa_y a) 0 /\ cleaned (r_nodata src) (xr_value a (i0 + i) (j0 + (m - 1 - j))) (value_at g i j).
Proof. exact fallback_upside. Qed.
Print Assumptions C48_fallback_ascending_y.

Theorem C48_fallback_refuted : exists a g, dem same_crs no_window (Some a) true pixel_space (Some ((-1, 2, -1, 2), 1%nat)) 1 false = Ok g /\
  xr_shape a 2 2 /\ uniform_axis (xa_x a) 0 1 2 /\ uniform_axis (xa_y a) 0 1 2 /\
  x_of g 0 == nth 0 (xa_x a) 0 /\ y_of g 0 == nth 0 (xa_y a) 0 /\ ~ same_num (value_at g 0 0) (xr_value a 0 0).
Proof. exact fallback_refuted. Qed.
Print Assumptions C48_fallback_refuted.

Example C48_case : exists g, dem same_crs no_window None false small_raster None 1 false = Ok g /\ shape (r_data small_raster) 2 3 /\ ~ global_box (g_bbox g) /\
  value_at g 0 0 = Fin 4 /\ value_at g 0 1 = Fin 1 /\ value_at g 2 1 = NaN.
Proof. eexists. split; [vm_compute; reflexivity|]. split; [split; [reflexivity|repeat constructor]|]. split; [intros [H _]; vm_compute in H; discriminate|]. repeat split. Qed.
Example C48_case_fallback : exists g, dem same_crs no_window (Some lat_descending) true pixel_space (Some ((-1, 2, -1, 2), 1%nat)) 1 false = Ok g /\
  by_fallback same_crs pixel_space (-1, 2, -1, 2) 1 (-1, 2, -1, 2) /\ xr_shape lat_descending 2 2 /\ uniform_axis (xa_x lat_descending) 0 1 2 /\ uniform_axis (xa_y lat_descending) 1 (-1) 2 /\
  ~ global_box (g_bbox g) /\ value_at g 0 0 = Fin 1 /\ value_at g 1 1 = Fin 4.
Proof.
  eexists. split; [vm_compute; reflexivity|]. split.
  - split; [reflexivity|]. split; [|split; [discriminate|reflexivity]]. intro O. apply overlaps_iff in O. vm_compute in O. discriminate.
  - split; [split; [reflexivity|repeat constructor]|]. split; [split; [reflexivity|intros [|[|i]] I; [reflexivity|reflexivity|lia]]|].
    split; [split; [reflexivity|intros [|[|i]] I; [reflexivity|reflexivity|lia]]|]. split; [intros [H _]; vm_compute in H; discriminate|]. split; reflexivity.
Qed.
Example C48_case_upside : exists g, dem same_crs no_window (Some lat_ascending) true pixel_space (Some ((-1, 2, -1, 2), 1%nat)) 1 false = Ok g /\
  uniform_axis (xa_y lat_ascending) 0 1 2 /\ ~ global_box (g_bbox g) /\ xr_value lat_ascending 0 0 = Fin 1 /\ value_at g 0 0 = Fin 3.
Proof.
  eexists. split; [vm_compute; reflexivity|]. split; [split; [reflexivity|intros [|[|i]] I; [reflexivity|reflexivity|lia]]|].
  split; [intros [H _]; vm_compute in H; discriminate|]. split; reflexivity.
Qed.

(** ** C49 *)
Theorem C49_refuted : exists tr sd bb crs n s b, In s sd /\ usable s b /\ s_crs s = Some crs /\ overlapping bb b /\
  pick_target tr sd (Some (bb, crs)) = Some n /\ forall s' b', In s' sd -> s_name s' = n -> usable s' b' -> ~ overlapping bb b'.
Proof. exact pick_refuted. Qed.
Print Assumptions C49_refuted.

(** The region has no influence on the choice. *)
Theorem C49_region_ignored : forall tr sd want, pick_target tr sd want = pick_target tr sd None.
Proof. exact pick_ignores. Qed.
Print Assumptions C49_region_ignored.

(** Exactly: the first of the usable sub-datasets of largest area (in the units of its own bounds). *)
Theorem C49_largest_wins : forall tr sd want n, pick_target tr sd want = Some n ->
  exists l s b l', sd = l ++ s :: l' /\ n = s_name s /\ usable s b /\ -1 < area_of b /\
    (forall s' b', In s' sd -> usable s' b' -> area_of b' <= area_of b) /\ (forall s' b', In s' l -> usable s' b' -> area_of b' < area_of b).
Proof. exact pick_largest. Qed.
Print Assumptions C49_largest_wins.

Theorem C49_container_iff : forall tr sd want, pick_target tr sd want = None <-> forall s b, In s sd -> usable s b -> area_of b <= -1.
Proof. exact pick_none. Qed.
Print Assumptions C49_container_iff.

(** So the intended choice is made if only overlapping sub-datasets are the largest. *)
Theorem C49_prefers_overlap_partial : forall tr sd bb crs n, pick_target tr sd (Some (bb, crs)) = Some n ->
  (forall s b, In s sd -> usable s b -> s_crs s = Some crs /\ (overlapping bb b \/ exists s' b', In s' sd /\ usable s' b' /\ overlapping bb b' /\ area_of b < area_of b')) ->
  exists s b, In s sd /\ n = s_name s /\ usable s b /\ overlapping bb b.
Proof. exact pick_partial. Qed.
Print Assumptions C49_prefers_overlap_partial.

(** The overlap test: some point is strictly inside both. *)
Theorem C49_overlap_test : forall a b, bbox_overlaps_bounds a b = true <-> overlapping a b.
Proof. exact overlaps_iff. Qed.
Print Assumptions C49_overlap_test.

Example C49_case : usable gulf (0, 1, 0, 1) /\ overlapping (0, 1, 0, 1) (0, 1, 0, 1) /\ pick_target same_crs [gulf] (Some ((0, 1, 0, 1), 1%nat)) = Some 1%nat.
Proof. split; [repeat split; cbn; lia|]. split; [exists (1 # 2, 1 # 2); repeat split; reflexivity|reflexivity]. Qed.

(** ** C76 *)
(** A whole file: the values sit half a pixel west and half a pixel south of the pixel centres. *)
Theorem C76_nodes_at_pixel_corners : forall tr rw xo isnc src crs ex nr nc, georeferenced src nr nc -> ~ global_box (r_bounds src) ->
  exists g, dem tr rw xo isnc src None crs ex = Ok g /\ shape (g_values g) nc nr /\ g_bbox g = r_bounds src /\
    (forall r c, (r < nr)%nat -> (c < nc)%nat -> cleaned (r_nodata src) (pixel (r_data src) r c) (value_at g c (nr - 1 - r)) /\
       x_of g c == centre_x src c - r_px src * (1 # 2) /\ y_of g (nr - 1 - r) == centre_y src r + r_py src * (1 # 2)).
Proof. exact whole_file. Qed.
Print Assumptions C76_nodes_at_pixel_corners.

(** A point within the raster but in its last column or row of pixels has no elevation. *)
Theorem C76_last_pixels_undefined : forall tr rw xo isnc src crs nr nc g p, georeferenced src nr nc -> dem tr rw xo isnc src None crs false = Ok g ->
  b1 (r_bounds src) - r_px src < fst p \/ b3 (r_bounds src) + r_py src < snd p -> eval g p = Ok (Fin 999999).
Proof. exact last_column. Qed.
Print Assumptions C76_last_pixels_undefined.

(** A raster without georeference is stretched so that the outermost pixels sit on the edges of the region. *)
Theorem C76_synthetic : forall tr rw xo isnc src rb rc crs ex g nr nc, dem tr rw xo isnc src (Some (rb, rc)) crs ex = Ok g ->
  r_crs src = None -> ~ overlapping rb (r_bounds src) -> shape (r_data src) nr nc -> (2 <= nr)%nat -> (2 <= nc)%nat ->
  g_bbox g = rb /\ x_of g 0 == b0 rb /\ x_of g (nc - 1) == b1 rb /\ y_of g 0 == b2 rb /\ (b2 rb < b3 rb -> y_of g (nr - 1) == b3 rb) /\ g_crs g = rc.
Proof. exact synthetic. Qed.
Print Assumptions C76_synthetic.

(** The grid has the file's CRS if the file is georeferenced, else the requested one. *)
Theorem C76_crs : forall tr rw xo isnc src region crs ex g, dem tr rw xo isnc src region crs ex = Ok g ->
  match r_crs src with
  | Some c => r_ident src = false -> g_crs g = c
  | None => g_crs g = match region with Some (_, c) => c | None => crs end
  end.
Proof. exact dem_crs. Qed.
Print Assumptions C76_crs.

(** A clipped read covers what region and file have in common. *)
Theorem C76_window_extent : forall tr rw xo src rb rc crs ex g, dem tr rw xo false src (Some (rb, rc)) crs ex = Ok g -> r_crs src <> None -> r_ident src = false ->
  exists rs, transform_bbox_to_src tr rb (r_crs src) (Some rc) = Ok rs /\ forall p, strictly_in (g_bbox g) p <-> strictly_in rs p /\ strictly_in (r_bounds src) p.
Proof. exact window_box. Qed.
Print Assumptions C76_window_extent.

Theorem C76_refuted : georeferenced small_raster 2 3 /\ exists g, dem same_crs no_window None false small_raster None 1 false = Ok g /\
  ~ x_of g 0 == centre_x small_raster 0 /\ eval g (centre_x small_raster 2, centre_y small_raster 1) = Ok (Fin 999999).
Proof. exact half_pixel. Qed.
Print Assumptions C76_refuted.
Example C76_case_synthetic : exists g, dem same_crs no_window None false {| r_bounds := (0, 3, 0, 2); r_px := 1; r_py := 1; r_ident := true; r_crs := None; r_nodata := None; r_data := [[Fin 1; Fin 2]; [Fin 4; Fin 5]] |} (Some ((10, 20, 30, 50), 1%nat)) 1 false = Ok g /\
  ~ overlapping (10, 20, 30, 50) (0, 3, 0, 2) /\ x_of g 1 == 20 /\ y_of g 1 == 50.
Proof. eexists. split; [vm_compute; reflexivity|]. split; [intro O; apply overlaps_iff in O; vm_compute in O; discriminate|]. split; reflexivity. Qed.
Example C76_case_window : exists g, dem same_crs (fun _ _ => Ok [[(Fin 1, false); (Fin 2, false)]; [(Fin 4, false); (Fin 5, false)]]) None false small_raster (Some ((1, 9, 0, 9), 1%nat)) 1 false = Ok g /\ g_bbox g = (1, 3, 0, 2).
Proof. eexists. split; vm_compute; reflexivity. Qed.

(** ** C77 *)
Theorem C77_geographic_iff : forall b, infer_crs_from_coordinates b = true <-> (Qabs (b0 b) <= 180 /\ Qabs (b1 b) <= 180 /\ Qabs (b2 b) <= 180 /\ Qabs (b3 b) <= 180).
Proof. exact infer_iff. Qed.
Print Assumptions C77_geographic_iff.
Example C77_case : infer_crs_from_coordinates (-75, -70, 40, 41) = true /\ infer_crs_from_coordinates (0, 170, 0, 170) = true /\ infer_crs_from_coordinates (0, 359, -10, 10) = false.
Proof. repeat split. Qed.

(** ** C79 *)
Theorem C79_axis_aligned_partial : forall tr bb s d, axis_aligned (tr d s) -> s <> d ->
  exists b, transform_bbox_to_src tr bb (Some s) (Some d) = Ok b /\ forall p q, in_box bb p -> tr d s p = Ok q -> in_box b q.
Proof. exact transform_monotone. Qed.
Print Assumptions C79_axis_aligned_partial.
Theorem C79_same_crs : forall tr bb c, transform_bbox_to_src tr bb (Some c) (Some c) = Ok bb.
Proof. exact transform_same. Qed.
Print Assumptions C79_same_crs.
(** Between different systems the box is made from two opposite corners and comes out ordered. *)
Theorem C79_ordered : forall tr bb s d b, transform_bbox_to_src tr bb (Some s) (Some d) = Ok b -> s <> d -> b0 b <= b1 b /\ b2 b <= b3 b.
Proof. exact transform_ordered. Qed.
Print Assumptions C79_ordered.
Example C79_case_ordered : transform_bbox_to_src (fun _ _ p => Ok (- fst p, - snd p)) (0, 1, 2, 5) (Some 1%nat) (Some 2%nat) = Ok (-1, 0, -5, -2).
Proof. reflexivity. Qed.
Theorem C79_refuted : exists tr bb s d b p q, transform_bbox_to_src tr bb (Some s) (Some d) = Ok b /\ in_box bb p /\ tr d s p = Ok q /\ ~ in_box b q.
Proof. exact transform_refuted. Qed.
Print Assumptions C79_refuted.
Example C79_case : axis_aligned (fun p => Ok (3 * fst p + 1, 2 * snd p)).
Proof. exists (fun x => 3 * x + 1), (fun y => 2 * y). repeat split; intros x y H; [apply Qplus_le_compat; [|apply Qle_refl]|]; apply Qmult_le_l; try reflexivity; exact H. Qed.

(** ** C80 *)
Theorem C80_flip : forall g n m, shape (g_values g) n m -> shape (g_values (flip g)) n m /\ g_bbox (flip g) = g_bbox g /\ 
  (~ global_box (g_bbox g) -> forall i j, (i < n)%nat -> (j < m)%nat -> negative_of (value_at g i j) (value_at (flip g) i j)) /\
  (global_box (g_bbox g) -> forall i j, (i < n)%nat -> (j < m)%nat -> negative_of (value_at g (exchanged n i) j) (value_at (flip g) i j)).
Proof. exact flip_spec. Qed.
Print Assumptions C80_flip.
Example C80_case : exists g, dem same_crs no_window None false small_raster None 1 false = Ok g /\ shape (g_values g) 3 2 /\ ~ global_box (g_bbox g) /\ value_at (flip g) 0 0 = Fin (-4) /\ value_at (flip g) 2 1 = NaN.
Proof. eexists. split; [vm_compute; reflexivity|]. split; [split; [reflexivity|repeat constructor]|]. split; [intros [H _]; vm_compute in H; discriminate|]. split; reflexivity. Qed.


(** ** C155 *)
(** A file read as a whole: around a missing pixel the elevation is nan. *)
Theorem C155_whole_file : forall tr rw xo isnc src crs ex nr nc r c n g, georeferenced src nr nc -> ~ global_box (r_bounds src) -> dem tr rw xo isnc src None crs ex = Ok g -> (2 <= nr)%nat -> (2 <= nc)%nat ->
  r_nodata src = Some n -> n <> NaN -> (r < nr)%nat -> (c < nc)%nat -> same_num (pixel (r_data src) r c) n ->
  forall q, covered g nc nr q -> Qabs (fst q - x_of g c) < g_dx g -> Qabs (snd q - y_of g (nr - 1 - r)) < g_dy g -> eval g q = Ok NaN.
Proof. exact missing_nan. Qed.
Print Assumptions C155_whole_file.

(** A file clipped to a region is read as a masked array: what is masked keeps its number, only what equals nodata and
    is not masked becomes nan. *)
Theorem C155_clipped_values : forall tr rw xo src rb rc crs ex g, dem tr rw xo false src (Some (rb, rc)) crs ex = Ok g -> r_crs src <> None -> r_ident src = false ->
  exists b d, rw src b = Ok d /\ forall nr k, rect d nr k -> (1 <= nr)%nat -> shape (g_values g) k nr /\ 0 < g_dx g /\ 0 < g_dy g /\ g_fill g = Some (if ex then None else Some (Fin 999999)) /\
    (~ global_box (g_bbox g) -> forall r c, (r < nr)%nat -> (c < k)%nat -> stored_for (r_nodata src) (entry d r c) (value_at g c (nr - 1 - r))).
Proof. exact window_read. Qed.
Print Assumptions C155_clipped_values.

(** So if every missing pixel is masked, the elevation evaluated there is the number in the file. *)
Theorem C155_clipped_keeps_numbers : forall tr rw xo src rb rc crs ex g, dem tr rw xo false src (Some (rb, rc)) crs ex = Ok g -> r_crs src <> None -> r_ident src = false -> ~ global_box (g_bbox g) ->
  exists b d, rw src b = Ok d /\ forall nr k, rect d nr k -> (2 <= nr)%nat -> (2 <= k)%nat -> (forall r c, (r < nr)%nat -> (c < k)%nat -> finite (fst (entry d r c))) ->
    (forall r c, (r < nr)%nat -> (c < k)%nat -> snd (entry d r c) = true \/ match r_nodata src with Some n => ~ same_num (fst (entry d r c)) n | None => True end) ->
    forall r c, (r < nr)%nat -> (c < k)%nat -> exists v, eval g (x_of g c, y_of g (nr - 1 - r)) = Ok v /\ same_num v (fst (entry d r c)).
Proof. exact window_keeps. Qed.
Print Assumptions C155_clipped_keeps_numbers.

(** The intended property fails: the code -9 is returned as an elevation and blended with its neighbours. *)
Theorem C155_refuted : exists g, dem same_crs masked_window None false small_raster (Some ((1, 9, 0, 9), 1%nat)) 1 false = Ok g /\ ~ global_box (g_bbox g) /\
  (exists d, masked_window small_raster (1, 3, 0, 2) = Ok d /\ rect d 2 2 /\ masks_nodata (Fin (-9)) d /\ same_num (fst (entry d 0 1)) (Fin (-9))) /\ r_nodata small_raster = Some (Fin (-9)) /\
  eval g (x_of g 1, y_of g 1) = Ok (Fin (-9)) /\ exists v, eval g (3 # 2, 1) = Ok (Fin v) /\ v == -4.
Proof. exact clipped_refuted. Qed.
Print Assumptions C155_refuted.

(** The values keep the mask of the window, transposed and flipped like the numbers; a whole file has none. *)
Theorem C155_mask : forall tr rw xo src rb rc crs k, dem_mask tr rw xo false src (Some (rb, rc)) crs = Ok (Some k) ->
  exists b d, rw src b = Ok d /\ forall nr nc, rect d nr nc -> (1 <= nr)%nat -> ~ global_box b -> rect k nc nr /\
    forall r c, (r < nr)%nat -> (c < nc)%nat -> nth (nr - 1 - r) (nth c k []) false = snd (entry d r c).
Proof. exact dem_mask_spec. Qed.
Print Assumptions C155_mask.

Example C155_case : exists g, dem same_crs no_window None false small_raster None 1 false = Ok g /\ georeferenced small_raster 2 3 /\ ~ global_box (r_bounds small_raster) /\
  same_num (pixel (r_data small_raster) 0 2) (Fin (-9)) /\ covered g 3 2 (3 # 2, 1 # 2) /\ eval g (3 # 2, 1 # 2) = Ok NaN.
Proof.
  eexists. split; [vm_compute; reflexivity|]. split; [exact (proj1 half_pixel)|]. split; [intros [H _]; vm_compute in H; discriminate|]. split; [reflexivity|].
  split; [unfold covered, x_of, y_of, node; cbn; repeat split; discriminate|vm_compute; reflexivity].
Qed.
Example C155_case_mask : dem_mask same_crs masked_window None false small_raster (Some ((1, 9, 0, 9), 1%nat)) 1 = Ok (Some [[false; false]; [false; true]]).
Proof. reflexivity. Qed.
