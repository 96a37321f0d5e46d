(** Theorems about boxes and regions (C40, C42, C64). *)
From Coq Require Import List Bool ZArith QArith Lqa.
From Verif Require Import M_Base M_Sdf M_Region S_Region P_Region.
Import ListNotations.
Open Scope Q_scope.

(** C40.  bbox_contains is a preorder, and for an outer box that is not world-like it is geometric containment. *)
Theorem C40_reflexive : forall b, bbox_contains b b = true.
Proof. exact contains_refl. Qed.
Print Assumptions C40_reflexive.
Theorem C40_transitive : forall a b c, bbox_contains a b = true -> bbox_contains b c = true -> bbox_contains a c = true.
Proof. exact contains_trans. Qed.
Print Assumptions C40_transitive.
Theorem C40_geometric : forall o i, ~ world_like o -> (exists p, in_box i p) ->
  (bbox_contains o i = true <-> forall p, in_box i p -> in_box o p).
Proof. exact contains_points. Qed.
Print Assumptions C40_geometric.
Theorem C40_exact : forall o i, bbox_contains o i = true <-> world_like o \/ within o i.
Proof. exact contains_iff. Qed.
Print Assumptions C40_exact.
(** A world-like box "contains" a box that it does not meet. *)
Theorem C40_world_like_refuted : bbox_contains (-150, 150, -75, 75) (160, 170, 80, 85) = true /\
  forall p, in_box (160, 170, 80, 85) p -> ~ in_box (-150, 150, -75, 75) p.
Proof. split; [reflexivity|]. intros [x y]. unfold in_box. cbn. lra. Qed.
Print Assumptions C40_world_like_refuted.
Example C40_case : ~ world_like (-10, 20, 30, 50) /\ in_box (0, 5, 35, 40) (1, 36) /\
  bbox_contains (-10, 20, 30, 50) (0, 5, 35, 40) = true /\ bbox_contains (-10, 20, 30, 50) (0, 25, 35, 40) = false.
Proof. split; [unfold world_like; lra|split; [unfold in_box; cbn; lra|split; reflexivity]]. Qed.

(** C42.  Whatever is assigned and transformed, with whatever failures, the stored tuple is never reversed. *)
Theorem C42_ordered : forall crs user (parse : user -> res crs) crs_eq transformer e c r os,
  Region parse e c = Ok r -> ordered (r_bbox (run parse crs_eq transformer r os)).
Proof. intros crs user parse crs_eq transformer e c r os H. apply run_ordered. apply Region_ok in H. destruct H as (-> & _ & H). exact H. Qed.
Print Assumptions C42_ordered.
(** transform_to either raises and leaves the region as it was, or does nothing because the systems are equal, or changes box and system together. *)
Theorem C42_atomic : forall crs user (parse : user -> res crs) crs_eq transformer (r : region crs) c,
  match transform_to parse crs_eq transformer r c with
  | (r', Ok tt) => exists d, parse c = Ok d /\
      ((crs_eq (r_crs r) d = true /\ r' = r) \/
       (crs_eq (r_crs r) d = false /\ r_crs r' = d /\ exists f, transformer (r_crs r) d = Ok f /\ moved f (r_bbox r) = Ok (r_bbox r') /\ ordered (r_bbox r')))
  | (r', _) => r' = r
  end.
Proof. exact @transform_spec. Qed.
Print Assumptions C42_atomic.
Theorem C42_setter_atomic : forall crs (r : region crs) e,
  match set_bbox r e with
  | (r', Ok tt) => r_bbox r' = e /\ r_crs r' = r_crs r /\ ordered e
  | (r', _) => r' = r
  end.
Proof. exact @set_bbox_spec. Qed.
Print Assumptions C42_setter_atomic.
(** Not rejected: a NaN, and more than four values; the latter makes transform_to raise. *)
Theorem C42_nan_refuted : exists e : extent, (forall crs user (parse : user -> res crs) c d, parse c = Ok d -> Region parse e c = Ok {| r_bbox := e; r_crs := d |}) /\
  e = Box [NaN; Fin 1; Fin 0; Fin 1].
Proof. exists (Box [NaN; Fin 1; Fin 0; Fin 1]). split; [|reflexivity]. intros crs user parse c d H. unfold Region. cbn. now rewrite H. Qed.
Print Assumptions C42_nan_refuted.
(** Two systems 0 and 1; from 0 to 1 the coordinates are doubled, from 1 to 0 everything is sent to infinity. *)
Definition ex_parse (n : nat) : res nat := if Nat.leb n 1 then Ok n else Raise ValueError.
Definition ex_tr (a b : nat) : res (pt -> pt) :=
  if Nat.eqb a 0 then Ok (fun p => match p with (Fin x, Fin y) => (Fin (2 * x), Fin (2 * y)) | q => q end)
  else Ok (fun p => match p with (Fin x, Fin y) => (Fin (- x), Fin (- y)) | q => q end).
Example C42_case : exists r r', Region ex_parse (Box [Fin 1; Fin 2; Fin 3; Fin 5]) 0%nat = Ok r /\
  run ex_parse Nat.eqb ex_tr r [TransformTo 0%nat; TransformTo 7%nat; SetBbox (Box [Fin 3; Fin 1; Fin 0; Fin 1]); TransformTo 1%nat] = r' /\
  r_crs r' = 1%nat /\ transform_to ex_parse Nat.eqb ex_tr r' 0%nat = (r', Raise ValueError).
Proof. eexists. eexists. split; [reflexivity|]. split; [reflexivity|split; reflexivity]. Qed.

(** C64.  The new box contains the image of the old one when the transformation is separable and increasing ... *)
Theorem C64_separable_partial : forall g h x0 x1 y0 y1, (forall x y, x <= y -> g x <= g y) -> (forall x y, x <= y -> h x <= h y) ->
  x0 <= x1 -> y0 <= y1 -> forall (f : pt -> pt), (forall x y, f (Fin x, Fin y) = (Fin (g x), Fin (h y))) ->
  forall crs user (parse : user -> res crs) crs_eq transformer (r : region crs) c d, parse c = Ok d -> crs_eq (r_crs r) d = false -> transformer (r_crs r) d = Ok f ->
  r_bbox r = Box [Fin x0; Fin x1; Fin y0; Fin y1] ->
  exists r', transform_to parse crs_eq transformer r c = (r', Ok tt) /\ r_crs r' = d /\ r_bbox r' = Box [Fin (g x0); Fin (g x1); Fin (h y0); Fin (h y1)] /\
    forall x y, in_box (x0, x1, y0, y1) (x, y) -> in_box (g x0, g x1, h y0, h y1) (g x, h y).
Proof. exact separable. Qed.
Print Assumptions C64_separable_partial.
(** ... and not otherwise: under (x, y) -> (x - y, x + y) the unit square becomes a box of width zero, and under
    (x, y) -> (-y, x) the call raises ValueError. *)
Definition tilt (p : pt) : pt := match p with (Fin x, Fin y) => (Fin (x - y), Fin (x + y)) | q => q end.
Definition quarter (p : pt) : pt := match p with (Fin x, Fin y) => (Fin (- y), Fin x) | q => q end.
Definition unit_region : region nat := {| r_bbox := Box [Fin 0; Fin 1; Fin 0; Fin 1]; r_crs := 0%nat |}.
Theorem C64_refuted :
  (exists a b c d, transform_to ex_parse Nat.eqb (fun _ _ => Ok tilt) unit_region 1%nat =
     ({| r_bbox := Box [Fin a; Fin b; Fin c; Fin d]; r_crs := 1%nat |}, Ok tt) /\
     in_box (0, 1, 0, 1) (1, 0) /\ tilt (Fin 1, Fin 0) = (Fin 1, Fin 1) /\ ~ in_box (a, b, c, d) (1, 1)) /\
  transform_to ex_parse Nat.eqb (fun _ _ => Ok quarter) unit_region 1%nat = (unit_region, Raise ValueError).
Proof.
  split; [|reflexivity]. do 4 eexists. split; [reflexivity|]. split; [unfold in_box; cbn; lra|]. split; [reflexivity|]. unfold in_box. cbn. lra.
Qed.
Print Assumptions C64_refuted.
