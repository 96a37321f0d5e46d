(** Specification vocabulary for blending a fine grid into a coarse one. *)
From Coq Require Import List Arith ZArith QArith Qabs.
From Verif Require Import M_Base M_Sdf M_Grid S_Grid.
Import ListNotations.
Open Scope Q_scope.

(** Among the lattice places lo + b d with l <= b <= h, number a is as close to x as any. *)
Definition lattice_nearest (lo d : Q) (l h : Z) (x : Q) (a : Z) : Prop :=
  (l <= a <= h)%Z /\ forall b, (l <= b <= h)%Z -> Qabs (x - (lo + inject_Z a * d)) <= Qabs (x - (lo + inject_Z b * d)).
(** q lies within the fine grid's nodes extended by w steps on each side. *)
Definition within_pad (fine : grid) (n m w : nat) (q : Q * Q) : Prop :=
  let s := inject_Z (Z.of_nat w) in
  x_of fine 0 - s * g_dx fine <= fst q <= x_of fine (n - 1) + s * g_dx fine /\
  y_of fine 0 - s * g_dy fine <= snd q <= y_of fine (m - 1) + s * g_dy fine.
Definition place (g : grid) (i j : nat) : Q * Q := (x_of g i, y_of g j).
Definition box_inside (f c : Q * Q * Q * Q) : Prop := b0 c < b0 f /\ b1 f < b1 c /\ b2 c < b2 f /\ b3 f < b3 c.
(** Neither of the two codes the code uses inside its arrays. *)
Definition no_code (a : num) : Prop := ~ same_num a (Fin (-99999)) /\ ~ same_num a (Fin (-999)).
(** [v] is what node (i, j) of the coarse grid takes before blending: None marks the padding zone. *)
Definition taken (fine coarse : grid) (n m w i j : nat) (v : option num) : Prop :=
  (~ within_pad fine n m w (place coarse i j) -> v = Some (value_at coarse i j)) /\
  (within_pad fine n m w (place coarse i j) ->
     exists a b, lattice_nearest (b0 (g_bbox fine)) (g_dx fine) (- Z.of_nat w) (Z.of_nat n - 1 + Z.of_nat w) (x_of coarse i) a /\
       lattice_nearest (b2 (g_bbox fine)) (g_dy fine) (- Z.of_nat w) (Z.of_nat m - 1 + Z.of_nat w) (y_of coarse j) b /\
       ((0 <= a < Z.of_nat n /\ 0 <= b < Z.of_nat m)%Z -> v = Some (value_at fine (Z.to_nat a) (Z.to_nat b))) /\
       (~ (0 <= a < Z.of_nat n /\ 0 <= b < Z.of_nat m)%Z -> v = None)).
(** Answers stay within the range of the known values, one per query. *)
Definition range_preserving (idw : list ((Q * Q) * num) -> list (Q * Q) -> res (list num)) : Prop :=
  forall known qs l, idw known qs = Ok l -> length l = length qs /\
    forall lo hi, (forall p a, In (p, a) known -> exists v, a = Fin v /\ lo <= v <= hi) -> forall a, In a l -> exists v, a = Fin v /\ lo <= v <= hi.
