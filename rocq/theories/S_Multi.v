(** Specification vocabulary for lists of grids and for borders of arrays. *)
From Coq Require Import List Arith ZArith QArith.
From Verif Require Import M_Base M_Sdf M_Grid S_Grid.
Import ListNotations.
Open Scope Q_scope.

(** Same place, steps and CRS. *)
Definition same_frame (a b : grid) : Prop := g_bbox b = g_bbox a /\ g_dx b = g_dx a /\ g_dy b = g_dy a /\ g_crs b = g_crs a.
(** A grid scipy can interpolate whose sizes are finite and within two limits. *)
Definition sizes_within (lo hi : Q) (g : grid) : Prop :=
  exists n m, proper_grid g n m /\ all_cells (fun a => exists v, a = Fin v /\ lo <= v <= hi) g n m.
(** Each step is at most the one before. *)
Definition steps_descend (gs : list grid) : Prop := forall i a b, nth_error gs i = Some a -> nth_error gs (S i) = Some b -> g_dx b <= g_dx a.
(** [c] cells of size [s] are the most that fit in a width. *)
Definition most_cells (c : Z) (s width : Q) : Prop := inject_Z c * s <= width /\ width < (inject_Z c + 1) * s.
(** Index pairs on the border of an n by m array. *)
Definition on_border (n m : nat) (p : nat * nat) : Prop :=
  (fst p < n)%nat /\ (snd p < m)%nat /\ (fst p = 0 \/ S (fst p) = n \/ snd p = 0 \/ S (snd p) = m)%nat.
(** Neighbours along a row or a column. *)
Definition beside (p q : nat * nat) : Prop :=
  (fst p = fst q /\ (S (snd p) = snd q \/ S (snd q) = snd p) \/ snd p = snd q /\ (S (fst p) = fst q \/ S (fst q) = fst p))%nat.
