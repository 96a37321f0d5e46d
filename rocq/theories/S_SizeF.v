(** Specification vocabulary for sizes on doubles, independent of the model. *)
From Coq Require Import List ZArith Reals SpecFloat.
From Verif Require Import S_Double S_LimitF.
Import ListNotations.
Open Scope R_scope.

Notation inf := (S754_infinity false).
(** A size: a non-negative double or infinity; the order of sizes. *)
Definition size (x : spec_float) : Prop := amount x \/ x = inf.
Definition no_more (x y : spec_float) : Prop := (size x /\ y = inf) \/ (amount x /\ amount y /\ val x <= val y).
(** A positive double. *)
Definition positive (x : spec_float) : Prop := finite_double x /\ 0 < val x.
(** An upper bound, if there is one. *)
Definition within_cap (hi : option spec_float) (v : spec_float) : Prop := forall h, hi = Some h -> no_more v h.
Definition cap_above (x : spec_float) (hi : option spec_float) : Prop := forall h, hi = Some h -> no_more x h.
(** A number of ordinary magnitude. *)
Definition ordinary (x : R) : Prop := / 2 ^ 100 <= x <= 2 ^ 100.
Definition bound_ok (b : option spec_float) : Prop := forall h, b = Some h -> amount h.
(** Bounds on reals: first from below, then from above. *)
Definition capped (hi : option spec_float) (e : R) : R := match hi with Some h => Rmin e (val h) | None => e end.
Definition floored (lo : option spec_float) (e : R) : R := match lo with Some l => Rmax e (val l) | None => e end.
(** The distances a size is computed from: those found, or 999 everywhere when there is no shoreline in the grid. *)
Definition distances (n : nat) (dis : option (list spec_float)) : list R := match dis with Some l => map (fun d => Rabs (val d)) l | None => repeat 999 n end.
Definition all_finite (dis : option (list spec_float)) : Prop := forall l, dis = Some l -> Forall finite_double l.
(** Depths count as at least one metre. *)
Definition wave_depth (z : spec_float) : R := Rmax 1 (Rabs (val z)).
Definition per (m : option spec_float) (x : R) : R := match m with Some m => x / val m | None => x end.
Definition wave_size (period gravity wl : spec_float) (mpd : option spec_float) (z : spec_float) : R :=
  per mpd (val period * sqrt (val gravity * wave_depth z) / val wl).
(** Elevations are cut off above, and then count as at least one metre of depth. *)
Definition slope_depth (cutoff z : spec_float) : R := Rmax 1 (- Rmin (val cutoff) (val z)).
Definition pi64 : R := 884279719003555 / 281474976710656.
Definition slope_size (cutoff sp : spec_float) (mpd : option spec_float) (z bs : spec_float) : R :=
  per mpd (2 * pi64 / val sp * slope_depth cutoff z / (val bs + / 10 ^ 10)).
Definition ordinary_opt (m : option spec_float) : Prop := forall x, m = Some x -> finite_double x /\ ordinary (val x).
Definition positive_opt (m : option spec_float) : Prop := forall x, m = Some x -> positive x.
(** Entry by entry. *)
Definition entry {A} (l : list A) (i : nat) (x : A) : Prop := nth_error l i = Some x.
(** Positions along a line: consecutive ones are between [a] and [b] apart. *)
Definition steps_within (a b : R) (l : list spec_float) : Prop :=
  forall i x y, entry l i x -> entry l (S i) y -> val x + a <= val y <= val x + b.
