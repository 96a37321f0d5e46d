(** Specification vocabulary for maps from the sphere (longitude and latitude in degrees) to the plane. *)
From Coq Require Import List Reals.
Import ListNotations.
Open Scope R_scope.

(** At a place the map stretches all directions alike, by [k] plane units per degree of arc. *)
Definition scale_at (f : R * R -> R * R) (lon lat k : R) : Prop :=
  exists ux uy vx vy,
    derivable_pt_lim (fun t => fst (f (t, lat))) lon ux /\ derivable_pt_lim (fun t => snd (f (t, lat))) lon uy /\
    derivable_pt_lim (fun t => fst (f (lon, t))) lat vx /\ derivable_pt_lim (fun t => snd (f (lon, t))) lat vy /\
    sqrt (ux ^ 2 + uy ^ 2) = k * cos (lat / 180 * PI) /\ sqrt (vx ^ 2 + vy ^ 2) = k /\ ux * vx + uy * vy = 0.
(** An array function that treats its points one by one. *)
Definition pointwise (g : R * R -> R) (l : list (R * R)) : list R := map g l.
(** The place (i, j) of the lattice of step [h] from (-180, -89), up to one step past (180, 89). *)
Definition place (h : R) (p : R * R) : Prop :=
  exists i j : nat, p = (-180 + INR i * h, -89 + INR j * h) /\ fst p < 180 + h /\ snd p < 89 + h.
