(** Property theorem C73 (grid.py: blend_into).  [idw] is the inverse-distance interpolation (C38). *)
From Coq Require Import List Arith ZArith QArith Qabs.
From Verif Require Import M_Base M_Sdf M_Grid M_Blend S_Grid S_Blend P_Grid P_Blend.
Import ListNotations.
Open Scope Q_scope.

(** A node of the coarse grid outside the padded nest keeps its value, a node whose nearest padded node
    belongs to the nest takes the nest's value, and the remaining ones (exactly those) take the
    interpolation of all the others.  hmin is the minimum over the interpolated cells only. *)
Theorem C73_blend : forall idw fine coarse n m N M w, proper_grid fine n m -> proper_grid coarse N M -> g_extra fine = false ->
  all_cells no_code fine n m -> all_cells no_code coarse N M -> (forall known qs l, idw known qs = Ok l -> length l = length qs) ->
  forall r, box_inside (g_bbox fine) (g_bbox coarse) -> blend_into idw fine coarse w = Ok r ->
    proper_grid r N M /\ g_bbox r = g_bbox coarse /\ g_dx r = g_dx coarse /\ g_dy r = g_dy coarse /\ g_crs r = g_crs coarse /\
    exists (t : nat -> nat -> option num) known asks answers,
      (forall i j, (i < N)%nat -> (j < M)%nat -> taken fine coarse n m w i j (t i j)) /\
      (forall i j v, (i < N)%nat -> (j < M)%nat -> t i j = Some v -> value_at r i j = v /\ In (place coarse i j, v) known) /\
      (forall p v, In (p, v) known -> exists i j, (i < N)%nat /\ (j < M)%nat /\ p = place coarse i j /\ t i j = Some v) /\
      (forall i j, (i < N)%nat -> (j < M)%nat -> t i j = None ->
         exists k, nth_error asks k = Some (place coarse i j) /\ nth_error answers k = Some (value_at r i j)) /\
      (asks = [] -> answers = [] /\ exists h, g_hmin r = Some h /\ is_minimum h (map snd known)) /\
      (asks <> [] -> idw known asks = Ok answers /\ length answers = length asks /\ exists h, g_hmin r = Some h /\ is_minimum h answers).
Proof. exact blend_total. Qed.
Print Assumptions C73_blend.

(** The result stays within the range of the two grids. *)
Theorem C73_range : forall idw fine coarse n m N M w lo hi r, proper_grid fine n m -> proper_grid coarse N M -> g_extra fine = false -> - (999) < lo ->
  all_cells (in_range lo hi) fine n m -> all_cells (in_range lo hi) coarse N M -> range_preserving idw ->
  box_inside (g_bbox fine) (g_bbox coarse) -> blend_into idw fine coarse w = Ok r ->
  all_cells (in_range lo hi) r N M /\ exists h, g_hmin r = Some h /\ in_range lo hi h.
Proof. exact blend_range. Qed.
Print Assumptions C73_range.

(** But hmin is not a lower bound of the sizes. *)
Theorem C73_hmin_refuted : exists idw fine coarse n m N M w lo hi r h i j, range_preserving idw /\ proper_grid fine n m /\ proper_grid coarse N M /\ g_extra fine = false /\
  0 < lo /\ all_cells (in_range lo hi) fine n m /\ all_cells (in_range lo hi) coarse N M /\ box_inside (g_bbox fine) (g_bbox coarse) /\
  blend_into idw fine coarse w = Ok r /\ g_hmin r = Some h /\ (i < N)%nat /\ (j < M)%nat /\ ~ nleq h (value_at r i j).
Proof. exact blend_hmin. Qed.
Print Assumptions C73_hmin_refuted.

(** A nest that is not strictly inside is ignored. *)
Theorem C73_not_inside : forall idw fine coarse w, ~ box_inside (g_bbox fine) (g_bbox coarse) -> blend_into idw fine coarse w = Ok coarse.
Proof. exact blend_outside. Qed.
Print Assumptions C73_not_inside.

(** A nest that extrapolates wipes out the coarse values: the result does not depend on them. *)
Theorem C73_extrapolating_nest : forall idw fine coarse N M v w, g_extra fine = true -> shape (g_values coarse) N M -> shape v N M -> (0 < N)%nat ->
  box_inside (g_bbox fine) (g_bbox coarse) -> blend_into idw fine (set_values coarse v) w = blend_into idw fine coarse w.
Proof. exact blend_extrapolating. Qed.
Print Assumptions C73_extrapolating_nest.

Example C73_case : proper_grid inlet 3 3 /\ proper_grid sea 5 5 /\ g_extra inlet = false /\ all_cells no_code inlet 3 3 /\ all_cells no_code sea 5 5 /\
  box_inside (g_bbox inlet) (g_bbox sea) /\
  exists r, blend_into idw_first inlet sea 1 = Ok r /\ value_at r 2 2 = Fin (1 # 2) /\ value_at r 0 0 = Fin 4.
Proof. exact blend_case. Qed.
