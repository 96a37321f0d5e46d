(** Specification vocabulary for metadata of domains, plots, total bounds and coordinate arrays. *)
From Coq Require Import List Arith QArith Qabs.
From Verif Require Import M_Sdf.
Import ListNotations.
Open Scope Q_scope.

(** [c] is the CRS of the first domain that has one; None when no domain has one. *)
Definition first_known (ds : list domain) (c : option nat) : Prop :=
  match c with
  | None => forall d, In d ds -> d_crs d = None
  | Some k => exists a d b, ds = a ++ d :: b /\ d_crs d = Some k /\ forall e, In e a -> d_crs e = None
  end.
Definition metadata_of (ds : list domain) (d : domain) : Prop :=
  first_known ds (d_crs d) /\ (d_stereo d = true <-> exists e, In e ds /\ d_stereo e = true).

(** Boxes grown by a margin. *)
Definition in_margin (b : Q * Q * Q * Q) (m : Q) (p : Q * Q) : Prop :=
  let '(x0, x1, y0, y1) := b in (x0 - m <= fst p <= x1 + m) /\ (y0 - m <= snd p <= y1 + m).
Definition proper_box (b : Q * Q * Q * Q) : Prop := let '(x0, x1, y0, y1) := b in x0 <= x1 /\ y0 <= y1.

(** Twice the area enclosed by a ring of points, positive when counter-clockwise. *)
Fixpoint shoelace (l : list (Q * Q)) : Q :=
  match l with
  | p :: ((q :: _) as r) => fst p * snd q - fst q * snd p + shoelace r
  | _ => 0
  end.

(** [m] is the least (greatest) of the finite numbers [l]. *)
Definition least (l : list num) (m : num) : Prop := exists a, m = Fin a /\ (exists b, In (Fin b) l /\ a == b) /\ forall b, In (Fin b) l -> a <= b.
Definition greatest (l : list num) (m : num) : Prop := exists a, m = Fin a /\ (exists b, In (Fin b) l /\ a == b) /\ forall b, In (Fin b) l -> b <= a.
Definition all_finite (l : list num) : Prop := forall x, In x l -> exists q, x = Fin q.
