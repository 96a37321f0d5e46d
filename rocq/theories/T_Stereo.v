(** Theorems about the stereographic projection (C41). *)
From Coq Require Import List Reals ZArith Lra.
From Verif Require Import M_Base M_Stereo P_Stereo.
Import ListNotations.
Open Scope R_scope.

(** C41.  Both round trips are exact, and the intermediate points lie on the sphere. *)
Theorem C41_there_and_back : forall RR ps, 0 < RR -> ps <> [] -> Forall (fun p => -180 < fst p <= 180 /\ -90 < snd p < 90) ps ->
  to_lat_lon RR (map (to_stereo RR) ps) = Ok ps.
Proof. exact round_trip. Qed.
Print Assumptions C41_there_and_back.
Theorem C41_back_and_there : forall RR ps, 0 < RR -> ps <> [] ->
  exists ll, to_lat_lon RR ps = Ok ll /\ map (to_stereo RR) ll = ps /\ Forall (fun p => -180 < fst p <= 180 /\ -90 < snd p <= 90) ll.
Proof. exact round_trip_back. Qed.
Print Assumptions C41_back_and_there.
Theorem C41_on_sphere : forall RR u v, 0 < RR -> let '(x, y, z) := stereo_to_3d RR u v in sqrt (x ^ 2 + y ^ 2 + z ^ 2) = RR.
Proof. exact sphere. Qed.
Print Assumptions C41_on_sphere.
(** A longitude outside (-180, 180] comes back wrapped; the longitude of the north pole is lost; an empty array raises. *)
Theorem C41_wraps : forall RR lon lat, 0 < RR -> -90 < lat < 90 ->
  exists k : Z, -180 < lon - 360 * IZR k <= 180 /\ to_lat_lon RR [to_stereo RR (lon, lat)] = Ok [(lon - 360 * IZR k, lat)].
Proof. exact any_longitude. Qed.
Print Assumptions C41_wraps.
Theorem C41_north_pole : forall RR lon, 0 < RR -> to_lat_lon RR [to_stereo RR (lon, 90)] = Ok [(0, 90)].
Proof. exact north_pole. Qed.
Print Assumptions C41_north_pole.
Theorem C41_empty : forall RR, to_lat_lon RR [] = Raise ValueError.
Proof. exact empty_raises. Qed.
Print Assumptions C41_empty.
(** Given points in space, one at the origin comes out as (0, 0) if any other point is given; otherwise it is not a number. *)
Theorem C41_origin : forall ps q, In q ps -> q <> (0, 0, 0) ->
  exists ll, to_lat_lon_3d ps = Ok ll /\ length ll = length ps /\ forall i, nth_error ps i = Some (0, 0, 0) -> nth_error ll i = Some (0, 0).
Proof. exact some_off_origin. Qed.
Print Assumptions C41_origin.
Theorem C41_only_origins : forall n, to_lat_lon_3d (repeat (0, 0, 0) (S n)) = Raise RuntimeError.
Proof. exact only_origins. Qed.
Print Assumptions C41_only_origins.
Example C41_case : Forall (fun p => -180 < fst p <= 180 /\ -90 < snd p < 90) [(180, -45); (12.5, 89)] /\
  to_lat_lon 6378137 (map (to_stereo 6378137) [(180, -45); (12.5, 89)]) = Ok [(180, -45); (12.5, 89)].
Proof.
  assert (H : Forall (fun p => -180 < fst p <= 180 /\ -90 < snd p < 90) [(180, -45); (12.5, 89)]) by (repeat constructor; cbn; lra).
  split; [exact H|]. apply C41_there_and_back; [lra|discriminate|exact H].
Qed.
