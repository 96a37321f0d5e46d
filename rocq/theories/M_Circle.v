(** Model of create_circle_coords (oceanmesh/geodata.py:422-447) over the reals; the arc resolution in degrees is
    rational. *)
From Coq Require Import List Arith ZArith QArith Qround Qreals Reals.
From Verif Require Import M_Base.
Import ListNotations.
Open Scope R_scope.

(** np.arange(0, 360 + arc_res, arc_res): ceil((360 + arc_res) / arc_res) values, none if that is not positive
    (geodata.py:436); a step of 0 raises. *)
Definition arange_len (arc : Q) : nat := Z.to_nat (Qceiling ((360 + arc) / arc)).
Definition angle (arc : Q) (k : nat) : R := Q2R (inject_Z (Z.of_nat k) * arc) * PI / 180.
(** geodata.py:438-445. *)
Definition circle_point (radius : R) (center : R * R) (arc : Q) (k : nat) : R * R :=
  (fst center + radius * cos (angle arc k), snd center + radius * sin (angle arc k)).
Definition create_circle_coords (radius : R) (center : R * R) (arc : Q) : res (list (R * R)) :=
  if Qeq_bool arc 0 then Raise ValueError
  else Ok (map (circle_point radius center arc) (seq 0 (arange_len arc))).
