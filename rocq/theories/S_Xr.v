(** What the NetCDF fallback is meant to do, stated without the model's functions. *)
From Coq Require Import String List Arith Bool ZArith QArith.
From Verif Require Import M_Base M_Sdf M_Xr.
Import ListNotations.
Open Scope string_scope.
Open Scope list_scope.

(** The value at an index depends on the array's own dimensions only. *)
Definition labelled {A} (v : arr A) : Prop := forall e e', (forall d, In d (a_dims v) -> e d = e' d) -> a_at v e = a_at v e'.
(** The assignments that give [d] the index [i], all other dimensions 0. *)
Definition only (d : string) (i : nat) (e : index) : Prop := e d = i /\ forall s, s <> d -> e s = 0%nat.
Definition only2 (d d' : string) (i j : nat) (e : index) : Prop := e d = i /\ e d' = j /\ forall s, s <> d -> s <> d' -> e s = 0%nat.
(** The first of the names that names a coordinate of the file. *)
Definition first_name (names : list string) (ds : dataset) (n : string) : Prop :=
  exists before after, names = before ++ n :: after /\ In n (map fst (ds_coords ds)) /\ forall m, In m before -> ~ In m (map fst (ds_coords ds)).
(** Coordinates have distinct names and distinct dimensions, and so have variables. *)
Definition well_formed (ds : dataset) : Prop :=
  NoDup (map fst (ds_coords ds)) /\ (forall n c, In (n, c) (ds_coords ds) -> NoDup (a_dims c) /\ labelled c) /\ (forall n v, In (n, v) (ds_vars ds) -> NoDup (a_dims v) /\ labelled v).
(** The first variable of two or more dimensions. *)
Definition first_raster (ds : dataset) (v : arr num) : Prop :=
  exists before n after, ds_vars ds = before ++ (n, v) :: after /\ (2 <= List.length (a_dims v))%nat /\ forall m w, In (m, w) before -> (List.length (a_dims w) < 2)%nat.
(** All dimensions of the coordinate [n] are dimensions of the variable, so that the variable has the coordinate. *)
Definition carried (ds : dataset) (v : arr num) (n : string) : Prop := forall c, In (n, c) (ds_coords ds) -> forall d, In d (a_dims c) -> In d (a_dims v).
(** The values of a coordinate along its dimension, and when a range meets them: the two have more than a point in common as intervals, and a value is in the range. *)
Definition on_axis (ds : dataset) (d : string) (c : arr Q) (x : Q) : Prop := exists i e, (i < ds_size ds d)%nat /\ only d i e /\ x = a_at c e.
Definition crosses (ds : dataset) (d : string) (c : arr Q) (lo hi : Q) : Prop :=
  (lo < hi)%Q /\ (exists x, on_axis ds d c x /\ (x < hi)%Q) /\ (exists x, on_axis ds d c x /\ (lo < x)%Q) /\
  (exists x y, on_axis ds d c x /\ on_axis ds d c y /\ (x < y)%Q) /\ (exists x, on_axis ds d c x /\ (lo <= x <= hi)%Q).
