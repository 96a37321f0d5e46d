(** What the shoreline helpers are meant to do, stated without the model's functions. *)
From Coq Require Import List Arith Bool ZArith QArith Qabs.
Import ListNotations.
Open Scope Q_scope.

(** C43: a part is one or more points followed by the delimiter. *)
Definition part (p : list (option (Q * Q))) : Prop := exists q qs, p = map Some (q :: qs) ++ [None].

(** C44. *)
Definition pt_eq (p q : Q * Q) : Prop := fst p == fst q /\ snd p == snd q.
Definition row_eq (a b : option (Q * Q)) : Prop :=
  match a, b with Some p, Some q => pt_eq p q | None, None => True | _, _ => False end.
(** The point a fraction [t] of the way from [p] to [q]. *)
Definition along (p q : Q * Q) (t : Q) : Q * Q := (fst p + t * (fst q - fst p), snd p + t * (snd q - snd p)).
(** Both coordinates of the segment change by at most [d]. *)
Definition span_le (p q : Q * Q) (d : Q) : Prop := Qabs (fst q - fst p) <= d /\ Qabs (snd q - snd p) <= d.
Definition frac (j n : nat) : Q := inject_Z (Z.of_nat j) / inject_Z (Z.of_nat n).
(** [mids] cut the segment from [p] to [q] in [S (length mids)] equal pieces. *)
Definition equal_pieces (p q : Q * Q) (mids : list (option (Q * Q))) : Prop :=
  forall j r, nth_error mids j = Some r -> exists m, r = Some m /\ pt_eq m (along p q (frac (S j) (S (length mids)))).
(** The fewest pieces such that no piece is longer than [d]. *)
Definition fewest_pieces (d : Q) (p q : Q * Q) (k : nat) : Prop :=
  span_le p q (inject_Z (Z.of_nat (S k)) * d) /\ forall j, (j < k)%nat -> ~ span_le p q (inject_Z (Z.of_nat (S j)) * d).
(** [out] is [poly] with the segments that end at a marked point cut as needed and all others left alone. *)
Inductive densified (d : Q) : list (option (Q * Q)) -> list bool -> list (option (Q * Q)) -> Prop :=
| dens_nil : densified d [] [] []
| dens_one : forall r r' m, row_eq r r' -> densified d [r] [m] [r']
| dens_keep : forall a a' b rest m m' ms out, row_eq a a' -> (m' = false \/ a = None \/ b = None) ->
    densified d (b :: rest) (m' :: ms) out -> densified d (a :: b :: rest) (m :: m' :: ms) (a' :: out)
| dens_cut : forall p a' q rest m ms mids out, row_eq (Some p) a' ->
    fewest_pieces d p q (length mids) -> equal_pieces p q mids ->
    densified d (Some q :: rest) (true :: ms) out -> densified d (Some p :: Some q :: rest) (m :: true :: ms) (a' :: mids ++ out).
(** [a] can be obtained from [b] by leaving out rows. *)
Inductive kept : list (option (Q * Q)) -> list (option (Q * Q)) -> Prop :=
| kept_nil : forall l, kept [] l
| kept_skip : forall x a b, kept a b -> kept a (x :: b)
| kept_take : forall x y a b, row_eq x y -> kept a b -> kept (x :: a) (y :: b).

(** C45: cutting the corners of an open line once. *)
Definition corner_cut (ps qs : list (Q * Q)) : Prop :=
  length qs = (2 * length ps)%nat /\
  (forall p, nth_error ps 0 = Some p -> exists q, nth_error qs 0 = Some q /\ pt_eq q p) /\
  (forall p, nth_error ps (length ps - 1) = Some p -> exists q, nth_error qs (2 * length ps - 1) = Some q /\ pt_eq q p) /\
  (forall i p p', nth_error ps i = Some p -> nth_error ps (S i) = Some p' ->
     (exists q, nth_error qs (2 * i + 1) = Some q /\ pt_eq q (along p p' (1 # 4))) /\
     (exists q, nth_error qs (2 * i + 2) = Some q /\ pt_eq q (along p p' (3 # 4)))).
Inductive corners_cut : nat -> list (Q * Q) -> list (Q * Q) -> Prop :=
| cut_0 : forall ps, corners_cut 0 ps ps
| cut_S : forall k ps qs rs, corner_cut ps qs -> corners_cut k qs rs -> corners_cut (S k) ps rs.
(** Every half plane that contains [ps] contains [qs]: [qs] lies in the convex hull of [ps]. *)
Definition in_hull (ps qs : list (Q * Q)) : Prop :=
  forall a b c, (forall p, In p ps -> a * fst p + b * snd p <= c) -> forall q, In q qs -> a * fst q + b * snd q <= c.

(** C46: the points without those equal to the one before. *)
Inductive no_repeats : list (Q * Q) -> list (Q * Q) -> Prop :=
| nr_nil : no_repeats [] []
| nr_one : forall p, no_repeats [p] [p]
| nr_drop : forall p q l r, pt_eq p q -> no_repeats (q :: l) r -> no_repeats (p :: q :: l) r
| nr_keep : forall p q l r, ~ pt_eq p q -> no_repeats (q :: l) r -> no_repeats (p :: q :: l) (p :: r).
Inductive no_repeats_1d : list Q -> list Q -> Prop :=
| nr1_nil : no_repeats_1d [] []
| nr1_one : forall p, no_repeats_1d [p] [p]
| nr1_drop : forall p q l r, p == q -> no_repeats_1d (q :: l) r -> no_repeats_1d (p :: q :: l) r
| nr1_keep : forall p q l r, ~ p == q -> no_repeats_1d (q :: l) r -> no_repeats_1d (p :: q :: l) (p :: r).

(** C47, C74: twice the signed area of the closed polygon through the points (positive when
    counter-clockwise), as the sum over the edges including the one back to the first point. *)
Fixpoint edge_sum (first : Q * Q) (ps : list (Q * Q)) : Q :=
  match ps with
  | [] => 0
  | [p] => fst p * snd first - fst first * snd p
  | p :: ((q :: _) as t) => (fst p * snd q - fst q * snd p) + edge_sum first t
  end.
Definition area2 (ps : list (Q * Q)) : Q := match ps with [] => 0 | p :: _ => edge_sum p ps end.
Definition turn (a b c : Q * Q) : Q := (fst b - fst a) * (snd c - snd a) - (fst c - fst a) * (snd b - snd a).
(** A corner with a turn of at most 1e-8 counts as straight. *)
Definition flat (a b c : Q * Q) : Prop := Qabs (turn a b c) <= 1 # 100000000.
(** The points are in convex position, in counter-clockwise or clockwise order. *)
Definition convex_ccw (ps : list (Q * Q)) : Prop :=
  forall i j k a b c, (i < j < k)%nat -> nth_error ps i = Some a -> nth_error ps j = Some b -> nth_error ps k = Some c -> 0 <= turn a b c.
Definition convex_cw (ps : list (Q * Q)) : Prop :=
  forall i j k a b c, (i < j < k)%nat -> nth_error ps i = Some a -> nth_error ps j = Some b -> nth_error ps k = Some c -> turn a b c <= 0.
(** A simple polygon: edges that are not neighbours have no common point and neighbours are not folded back. *)
Definition edges_of (ps : list (Q * Q)) : list ((Q * Q) * (Q * Q)) := combine ps (tl ps ++ firstn 1 ps).
Definition common (e f : (Q * Q) * (Q * Q)) : Prop :=
  exists t u, 0 <= t <= 1 /\ 0 <= u <= 1 /\ pt_eq (along (fst e) (snd e) t) (along (fst f) (snd f) u).
Definition simple_polygon (ps : list (Q * Q)) : Prop :=
  forall i j e f, (i < j)%nat -> nth_error (edges_of ps) i = Some e -> nth_error (edges_of ps) j = Some f ->
    (j <> S i -> ~ (i = 0%nat /\ S j = length ps) -> ~ common e f) /\
    (j = S i -> ~ turn (fst e) (snd e) (snd f) == 0) /\
    (i = 0%nat /\ S j = length ps -> ~ turn (fst f) (snd f) (snd e) == 0).

(** C75: two boxes (xmin, xmax, ymin, ymax) have interior points in common. *)
Definition inside_box (b : Q * Q * Q * Q) (p : Q * Q) : Prop :=
  let '(x0, x1, y0, y1) := b in x0 < fst p < x1 /\ y0 < snd p < y1.
