(** What densifying is meant to do on doubles, stated without the model's functions. *)
From Coq Require Import List Arith ZArith Reals SpecFloat.
From Flocq Require Import Core.
From Verif Require Import S_Double S_Ieee S_LapF.
Import ListNotations.
Open Scope R_scope.

(** The length allowed: at least 2^-20 of the largest coordinate. *)
Definition good_length (M : R) (d : spec_float) : Prop := finite_double d /\ / 2 ^ 900 <= val d <= M /\ M <= 2 ^ 20 * val d /\ M <= 2 ^ 400.
(** Rows are points with coordinates of at most M, or delimiters. *)
Definition plain_row (M : R) (r : spec_float * spec_float) : Prop := r = nan2 \/ finite_point r /\ Rabs (val (fst r)) <= M /\ Rabs (val (snd r)) <= M.
(** The larger of the two differences of coordinates. *)
Definition span (p q : spec_float * spec_float) : R := Rmax (Rabs (val (fst q) - val (fst p))) (Rabs (val (snd q) - val (snd p))).
Definition same_row (p q : spec_float * spec_float) : Prop := p = q \/ finite_point p /\ finite_point q /\ val (fst p) = val (fst q) /\ val (snd p) = val (snd q).
(** Distance of [r] from the point a fraction [t] of the way from [p] to [q]. *)
Definition near_along (e : R) (p q : spec_float * spec_float) (t : R) (r : spec_float * spec_float) : Prop :=
  finite_point r /\ Rabs (val (fst r) - (val (fst p) + t * (val (fst q) - val (fst p)))) <= e /\ Rabs (val (snd r) - (val (snd p) + t * (val (snd q) - val (snd p)))) <= e.
(** Bound of the roundings. *)
Definition cut_error (M : R) : R := 20 * u * M.
(** [out] is [poly] with the segments that end at a marked point cut into [n] equal pieces, [n] the fewest such that no piece is longer
    than [d], up to rounding, and all others left alone. *)
Inductive densified_f (M d : R) : list (spec_float * spec_float) -> list bool -> list (spec_float * spec_float) -> Prop :=
| densf_nil : densified_f M d [] [] []
| densf_one : forall r m, densified_f M d [r] [m] [r]
| densf_keep : forall a b rest m m' ms out, m' = false \/ a = nan2 \/ b = nan2 ->
    densified_f M d (b :: rest) (m' :: ms) out -> densified_f M d (a :: b :: rest) (m :: m' :: ms) (a :: out)
| densf_cut : forall p p' q rest m ms mids out, finite_point p -> finite_point q -> same_row p p' ->
    span p q <= INR (S (length mids)) * d + cut_error M ->
    (mids = [] \/ INR (length mids) * d < span p q + cut_error M) ->
    (forall j r, nth_error mids j = Some r -> near_along (cut_error M) p q (INR (S j) / INR (S (length mids))) r) ->
    densified_f M d (q :: rest) (true :: ms) out -> densified_f M d (p :: q :: rest) (m :: true :: ms) (p' :: mids ++ out).
(** [a] can be obtained from [b] by leaving out rows. *)
Inductive kept_rows : list (spec_float * spec_float) -> list (spec_float * spec_float) -> Prop :=
| keptr_nil : forall l, kept_rows [] l
| keptr_skip : forall x a b, kept_rows a b -> kept_rows a (x :: b)
| keptr_take : forall x y a b, same_row x y -> kept_rows a b -> kept_rows (x :: a) (y :: b).
