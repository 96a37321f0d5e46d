(** Model of oceanmesh/idw.py: inverse-distance-weighted interpolation over the reals. *)
From Coq Require Import List Arith Bool Reals.
From Verif Require Import M_Base.
Import ListNotations.
Open Scope R_scope.

(** One row of the answer of scipy's cKDTree.query (idw.py:87): pairs of a distance and an index, nearest
    first.  Where there are fewer than nnear data points the row is filled with an infinite distance
    (None) and the index n, the number of data points. *)
Definition answer : Type := list (option R * nat).

(** idw.py:96: 1 / dist**p, 0 for an infinite distance (p is a natural number here, as at all call sites;
    dist**0 is 1 for every dist). *)
Definition weight (p : nat) (d : option R) : R :=
  match d with Some r => 1 / r ^ p | None => if (p =? 0)%nat then 1 else 0 end.
Fixpoint sum (l : list R) : R := match l with [] => 0 | x :: r => x + sum r end.
(** np.dot. *)
Fixpoint dot (a b : list R) : R := match a, b with x :: a', y :: b' => x * y + dot a' b' | _, _ => 0 end.

(** idw.py:90-105, one query point; weights=None, stat=0.  The constant is 1e-10 (line 93). *)
Definition eps_same : R := / 10 ^ 10.
Definition idw_one (z : list R) (nnear p : nat) (row : answer) : res R :=
  match row with
  | [] => Raise IndexError
  | (d0, i0) :: _ =>
      if (nnear =? 1)%nat then get z i0
      else if match d0 with Some r => if Rlt_dec r eps_same then true else false | None => false end then get z i0
      else
        let w := map (fun a => weight p (fst a)) row in
        let s := sum w in
        let! zs := mapM (fun a => get z (snd a)) row in
        Ok (dot (map (fun x => x / s) w) zs)
  end.
(** idw.py:70-71, 78-106: the constructor's check, [query] = tree.query, [self.z[0]] fails on empty data. *)
Definition idw_call {P : Type} (query : list P -> nat -> P -> answer) (X : list P) (z : list R) (nnear p : nat) (q : list P) : res (list R) :=
  if (length X =? length z)%nat then
    if (length z =? 0)%nat then Raise IndexError else mapM (fun x => idw_one z nnear p (query X nnear x)) q
  else Raise AssertionError.
