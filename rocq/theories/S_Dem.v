(** What reading an elevation raster is meant to do. *)
From Coq Require Import List Arith Bool ZArith QArith Qabs.
From Verif Require Import M_Base M_Sdf M_Grid M_Dem S_Grid.
Import ListNotations.
Open Scope Q_scope.

(** Pixel in row [r] (from the top) and column [c] of a raster. *)
Definition pixel (d : list (list num)) (r c : nat) : num := nth c (nth r d []) NaN.
(** The stored value: missing data become nan. *)
Definition cleaned (nodata : option num) (v w : num) : Prop :=
  match nodata with
  | Some c => (same_num v c /\ ~ v = NaN /\ w = NaN) \/ ((~ same_num v c \/ v = NaN) /\ w = v)
  | None => w = v
  end.
(** An entry of a masked array and the value stored for it: what is masked keeps its number. *)
Definition stored_for (nodata : option num) (c : num * bool) (w : num) : Prop :=
  if snd c then w = fst c else cleaned nodata (fst c) w.
Definition rect {A} (v : list (list A)) (n m : nat) : Prop := length v = n /\ Forall (fun r => length r = m) v.
(** Entry in row [r] and column [c] of a masked array. *)
Definition entry (d : list (list (num * bool))) (r c : nat) : num * bool := nth c (nth r d []) (NaN, false).
(** What rasterio masks if the file has only a nodata number: the entries equal to it. *)
Definition masks_nodata (nodata : num) (d : list (list (num * bool))) : Prop :=
  Forall (Forall (fun c : num * bool => snd c = true <-> same_num (fst c) nodata)) d.
(** Minus a float. *)
Definition negative_of (v w : num) : Prop := match v with Fin q => w = Fin (- q) | Inf s => w = Inf (negb s) | NaN => w = NaN end.
(** Column numbers with the first and the last exchanged. *)
Definition exchanged (n i : nat) : nat := if (i =? 0)%nat then (n - 1)%nat else if (i =? n - 1)%nat then 0%nat else i.
(** Bounds, pixel size and number of pixels agree. *)
Definition georeferenced (s : raster) (nr nc : nat) : Prop :=
  shape (r_data s) nr nc /\ (1 <= nr)%nat /\ (1 <= nc)%nat /\ 0 < r_px s /\ r_py s < 0 /\
  b1 (r_bounds s) == b0 (r_bounds s) + inject_Z (Z.of_nat nc) * r_px s /\
  b3 (r_bounds s) == b2 (r_bounds s) - inject_Z (Z.of_nat nr) * r_py s.
Definition centre_x (s : raster) (c : nat) : Q := b0 (r_bounds s) + (inject_Z (Z.of_nat c) + (1 # 2)) * r_px s.
Definition centre_y (s : raster) (r : nat) : Q := b3 (r_bounds s) + (inject_Z (Z.of_nat r) + (1 # 2)) * r_py s.
(** n coordinates from [lo] in steps of [d] (negative for a descending axis). *)
Definition uniform_axis (l : list Q) (lo d : Q) (n : nat) : Prop :=
  length l = n /\ forall i, (i < n)%nat -> nth i l 0 == lo + inject_Z (Z.of_nat i) * d.
(** The value a data array holds for x number i and y number j. *)
Definition xr_value (a : xarr) (i j : nat) : num := if xa_xfirst a then nth j (nth i (xa_values a) []) NaN else nth i (nth j (xa_values a) []) NaN.
Definition xr_shape (a : xarr) (nx ny : nat) : Prop := if xa_xfirst a then shape (xa_values a) nx ny else shape (xa_values a) ny nx.

(** C49: a sub-dataset that can be used, with its extent and area. *)
Definition usable (sd : sds) (b : Q * Q * Q * Q) : Prop :=
  s_opens sd = true /\ (1 < s_width sd)%nat /\ (1 < s_height sd)%nat /\
  s_bounds sd = (Fin (b0 b), Fin (b1 b), Fin (b2 b), Fin (b3 b)).
Definition area_of (b : Q * Q * Q * Q) : Q := (b1 b - b0 b) * (b3 b - b2 b).
Definition strictly_in (b : Q * Q * Q * Q) (p : Q * Q) : Prop := b0 b < fst p < b1 b /\ b2 b < snd p < b3 b.
Definition overlapping (a b : Q * Q * Q * Q) : Prop := exists p, strictly_in a p /\ strictly_in b p.

(** C79: [q] lies in the closed box. *)
Definition in_box (b : Q * Q * Q * Q) (p : Q * Q) : Prop := b0 b <= fst p <= b1 b /\ b2 b <= snd p <= b3 b.
(** A coordinate change that treats x and y separately and keeps their order. *)
Definition axis_aligned (f : Q * Q -> res (Q * Q)) : Prop :=
  exists u v, (forall x y, x <= y -> u x <= u y) /\ (forall x y, x <= y -> v x <= v y) /\ forall p, f p = Ok (u (fst p), v (snd p)).

(** The file is georeferenced but, in its own coordinates, does not touch the region [rs]. *)
Definition by_fallback tr (src : raster) (rb : box) (rc : nat) (rs : box) : Prop :=
  transform_bbox_to_src tr rb (r_crs src) (Some rc) = Ok rs /\ ~ overlapping rs (r_bounds src) /\ r_crs src <> None /\ r_ident src = false.
