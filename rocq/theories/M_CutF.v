(** Model of the corner cutting of shorelines on IEEE doubles (oceanmesh/geodata.py:637-652).  M_Shore has
    the same function on exact rationals. *)
From Coq Require Import List Arith Bool ZArith SpecFloat.
From Verif Require Import M_Base M_FixMesh M_Shore.
Import ListNotations.

(** A row of the array of coordinates; nan and infinities are possible. *)
Notation fpoint := (spec_float * spec_float)%type.
(** The constants of geodata.py:649. *)
Definition f_3_4 : spec_float := S754_finite false 6755399441055744 (-53).
Definition f_1_4 : spec_float := S754_finite false 4503599627370496 (-54).
(** geodata.py:649 in one coordinate: two rounded products and a rounded sum. *)
Definition mix1_f (x y : spec_float) : spec_float := fadd (fmul x f_3_4) (fmul y f_1_4).
Definition mix_f (p q : fpoint) : fpoint := (mix1_f (fst p) (fst q), mix1_f (snd p) (snd q)).
(** geodata.py:643-649, for any way of mixing two rows: L is every row twice, R the row it is mixed with.
    R[0] = L[0] raises for an array without rows. *)
Definition cut_pass {A : Type} (mix : A -> A -> A) (coords : list A) : res (list A) :=
  match coords with
  | [] => Raise IndexError
  | p0 :: _ =>
      let L := twice coords in
      let R := map (fun i =>
                 if (i =? 0)%nat then nth 0 L p0
                 else if (i =? length L - 1)%nat then last L p0
                 else if Nat.even i then nth (i - 1) L p0
                 else nth (i + 1) L p0)
               (seq 0 (length L)) in
      Ok (map (fun pq => mix (fst pq) (snd pq)) (combine L R))
  end.
(** geodata.py:642: the loop over refinements. *)
Fixpoint cut_loop {A : Type} (mix : A -> A -> A) (refinements : nat) (coords : list A) : res (list A) :=
  match refinements with
  | O => Ok coords
  | S k => let! c := cut_pass mix coords in cut_loop mix k c
  end.
(** geodata.py:637-652 on doubles. *)
Definition chaikin_f (refinements : nat) (coords : list fpoint) : res (list fpoint) := cut_loop mix_f refinements coords.
