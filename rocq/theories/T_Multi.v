(** Property theorems on multiscale_sizing_function, Grid.reproject_to and Grid.get_border. *)
From Coq Require Import List Arith Bool ZArith QArith Qabs Lia Lqa.
From Verif Require Import M_Base M_Sdf M_Grid M_Blend M_Multi S_Grid S_Blend S_Multi P_Grid P_Blend P_Multi.
Import ListNotations.
Open Scope Q_scope.

(** C129.  A list of grids is accepted only in order of descending step.  The loop ends; the new grids have the places, steps and reference systems of
    the grids given, and the last is the last grid given. *)
Theorem C129_frames : forall idw units w gs n o, multiscale_sizing idw units w gs = Ok (n, o) ->
  gs <> [] /\ steps_descend gs /\ Forall2 same_frame gs n /\ Forall2 same_frame gs o /\ (forall d, last n d = set_extra (last gs d) true /\ last o d = last n d).
Proof. exact multi_frames. Qed.
Print Assumptions C129_frames.
Theorem C129_refused : forall idw units w gs, (gs = [] -> multiscale_sizing idw units w gs = Raise IndexError) /\ (~ steps_descend gs -> multiscale_sizing idw units w gs = Raise AssertionError).
Proof. exact multi_fails. Qed.
Print Assumptions C129_refused.
Theorem C129_ends : forall idw units w gs, (forall k q, idw k q <> OutOfFuel) -> multiscale_sizing idw units w gs <> OutOfFuel.
Proof. exact multi_fuel. Qed.
Print Assumptions C129_ends.
Example C129_case : steps_descend [sea; inlet] /\ exists n o, multiscale_sizing idw_first (fun _ => true) 1 [sea; inlet] = Ok (n, o) /\ length n = 2%nat.
Proof. split; [apply descending_iff; reflexivity|]. do 2 eexists. split; [vm_compute; reflexivity|reflexivity]. Qed.

(** C130.  Sizes of the new grids, and values of the function made of them on the first grid's nodes' span, stay within any range that holds the sizes given. *)
Theorem C130_grids : forall idw units w lo hi gs n o, range_preserving idw -> - (999) < lo -> Forall (sizes_within lo hi) gs -> Forall (fun g => ~ global_box (g_bbox g)) gs ->
  multiscale_sizing idw units w gs = Ok (n, o) -> Forall (sizes_within lo hi) n.
Proof. exact multi_within. Qed.
Print Assumptions C130_grids.
Theorem C130_function : forall idw units w lo hi g gs n o N M q, range_preserving idw -> - (999) < lo -> hi <= 999999 -> Forall (sizes_within lo hi) (g :: gs) -> Forall (fun g => ~ global_box (g_bbox g)) (g :: gs) ->
  multiscale_sizing idw units w (g :: gs) = Ok (n, o) -> proper_grid g N M -> covered g N M q -> exists v, fst (msf_eval true n q) = Ok (Fin v) /\ lo <= v <= hi.
Proof. exact multi_function. Qed.
Print Assumptions C130_function.
Example C130_case : range_preserving idw_first /\ Forall (sizes_within (1 # 2) 4) [sea; inlet] /\ Forall (fun g => ~ global_box (g_bbox g)) [sea; inlet] /\ covered sea 5 5 (1 # 3, 1 # 3) /\
  exists n o, multiscale_sizing idw_first (fun _ => true) 1 [sea; inlet] = Ok (n, o).
Proof.
  destruct sea_proper as (P & C & I & _). split; [exact idw_first_range|]. split; [|split; [|split; [|do 2 eexists; vm_compute; reflexivity]]].
  - repeat constructor; [exists 5%nat, 5%nat; split; [exact P|exact C]|exists 3%nat, 3%nat; split; [apply inlet_regional|exact I]].
  - repeat constructor; intros (A & _); revert A; vm_compute; discriminate.
  - unfold covered, x_of, y_of. repeat split; vm_compute; discriminate.
Qed.

(** C131.  The grids the caller gave keep their sizes and least sizes.  Missing: when a grid spans the globe its rows are exchanged in place, and flags of the
    caller's grids are changed always. *)
Theorem C131_sizes_partial : forall idw units w gs n o, Forall (fun g => ~ global_box (g_bbox g)) gs -> multiscale_sizing idw units w gs = Ok (n, o) -> Forall2 (fun g x => g_values x = g_values g /\ g_hmin x = g_hmin g) gs o.
Proof. exact multi_own. Qed.
Print Assumptions C131_sizes_partial.
Theorem C131_sizes_refuted : exists gs n o g x, multiscale_sizing idw_first (fun _ => true) 1 gs = Ok (n, o) /\ nth_error gs 0 = Some g /\ nth_error o 0 = Some x /\ hd_error n = Some x /\ g_values x <> g_values g.
Proof. exact values_changed. Qed.
Print Assumptions C131_sizes_refuted.
Theorem C131_flag_refuted : exists gs n o g x, multiscale_sizing idw_first (fun _ => true) 1 gs = Ok (n, o) /\ nth_error gs 1 = Some g /\ nth_error o 1 = Some x /\ g_extra g = false /\ g_extra x = true.
Proof. exact flag_changed. Qed.
Print Assumptions C131_flag_refuted.
Example C131_case : Forall (fun g => ~ global_box (g_bbox g)) [sea; inlet] /\ exists n o, multiscale_sizing idw_first (fun _ => true) 1 [sea; inlet] = Ok (n, o) /\ n <> o.
Proof. split; [repeat constructor; intros (A & _); revert A; vm_compute; discriminate|]. do 2 eexists. split; [vm_compute; reflexivity|]. intros E. injection E. discriminate. Qed.

(** C132.  The blending zone is as many cells of the finer grid as fit in the width given, a cell's size being its step in metres: 111000 to the degree, one to any
    unit of a projected system.  Missing: not when that unit is the foot. *)
Theorem C132_width_partial : forall units w f, 0 < g_dx f -> most_cells (blend_cells units w f) (if units (g_crs f) then g_dx f else g_dx f * 111000) w.
Proof. exact blend_cells_most. Qed.
Print Assumptions C132_width_partial.
Theorem C132_feet_refuted : forall units, units (g_crs bay) = true -> exists w f, g_crs f = g_crs bay /\ 0 < g_dx f /\ ~ most_cells (blend_cells units w f) (g_dx f * (3048 # 10000)) w.
Proof. exact feet. Qed.
Print Assumptions C132_feet_refuted.
Example C132_case : 0 < g_dx inlet /\ most_cells 2 (1 # 2) (5 # 4) /\ ~ most_cells 1 (1 # 2) (5 # 4).
Proof. split; [reflexivity|]. split; [split; [vm_compute; discriminate|reflexivity]|]. intros H. destruct H as [_ B]. revert B. vm_compute. discriminate. Qed.

(** C133.  A reprojected grid has the frame of the target and at each node the size the grid gives at the node's place in its own system; it is what compute_minimum
    uses.  Missing: its least size is the target's when both have one system. *)
Theorem C133_frame : forall tr g t r, reproject_to tr g t = Ok r -> same_frame t r /\ g_hmin r = if (g_crs g =? g_crs t)%nat then g_hmin t else g_hmin g.
Proof. exact reproject_frame. Qed.
Print Assumptions C133_frame.
Theorem C133_values_partial : forall tr g t r n m i j, proper_grid t n m -> ~ global_box (g_bbox t) -> g_crs g <> g_crs t -> reproject_to tr g t = Ok r -> (i < n)%nat -> (j < m)%nat ->
  eval g (tr (g_crs t) (g_crs g) (x_of t i, y_of t j)) = Ok (value_at r i j).
Proof. exact reproject_values. Qed.
Print Assumptions C133_values_partial.
Theorem C133_minimum : forall tr base other, aligned tr base other = (let! r := reproject_to tr other base in Ok (g_values r)).
Proof. exact aligned_reproject. Qed.
Print Assumptions C133_minimum.
Theorem C133_least_refuted : exists g t r, proper_grid g 2 2 /\ proper_grid t 2 2 /\ least_positive g 2 2 1 /\ least_positive t 2 2 5 /\ g_hmin g = Some (Fin 1) /\ g_hmin t = Some (Fin 5) /\
  (forall tr, reproject_to tr g t = Ok r) /\ g_hmin r = Some (Fin 5) /\ least_positive r 2 2 1.
Proof. exact reproject_hmin. Qed.
Print Assumptions C133_least_refuted.

Example C133_case : proper_grid sea 5 5 /\ ~ global_box (g_bbox sea) /\ exists g r, g_crs g <> g_crs sea /\ reproject_to (fun _ _ q => (fst q / 2, snd q / 2)) g sea = Ok r /\ exists v, value_at r 4 4 = Fin v /\ v == 57 # 32.
Proof.
  split; [apply sea_proper|]. split; [intros (A & _); revert A; vm_compute; discriminate|].
  exists (build_interpolant {| g_bbox := (-1, 3, -1, 3); g_dx := 4; g_dy := 4; g_values := [[Fin 1; Fin 1]; [Fin 1; Fin 3]]; g_hmin := None; g_extra := true; g_crs := 7%nat; g_fill := None |}).
  eexists. split; [discriminate|]. split; [vm_compute; reflexivity|]. eexists. split; [vm_compute; reflexivity|]. reflexivity.
Qed.

(** C134.  The border of an array of at least two rows and columns is one round of neighbouring cells, each border cell once.  An array of one row comes twice. *)
Theorem C134_round : forall (A : Type) (arr : list (list A)) n m d, length arr = n -> Forall (fun r => length r = m) arr -> (2 <= n)%nat -> (2 <= m)%nat ->
  exists path, length path = (2 * n + 2 * m - 4)%nat /\ NoDup path /\ (forall p, In p path <-> on_border n m p) /\
    (forall k, (k < length path)%nat -> beside (nth k path (0, 0)%nat) (nth (S k mod length path) path (0, 0)%nat)) /\ get_border arr = map (fun p => nth (snd p) (nth (fst p) arr []) d) path.
Proof. exact @border_total. Qed.
Print Assumptions C134_round.
Theorem C134_row_refuted : forall (A : Type) (a b : A) r, get_border [a :: r ++ [b]] = (a :: r ++ [b]) ++ rev r ++ [a].
Proof. exact @border_row. Qed.
Print Assumptions C134_row_refuted.
Example C134_case : get_border [[1; 2; 3]; [4; 5; 6]; [7; 8; 9]]%nat = [1; 2; 3; 6; 9; 8; 7; 4]%nat.
Proof. reflexivity. Qed.
