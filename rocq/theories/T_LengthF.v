(** Theorems on the circumference of rings in double precision: C214. *)
From Coq Require Import List Arith ZArith Reals SpecFloat.
From Verif Require Import M_Base M_FixMesh M_LengthF S_Double S_Ieee S_AreaF S_LengthF P_AreaF2 P_LengthF P_LengthF2.
Import ListNotations.
Open Scope R_scope.

(** C214: a ring closed by its last point, or whose ends are further apart than np.isclose forgives, gets its circumference up to
    (2n + 10) u, for every way of adding.  Missing: rings with ends apart but closer than that; see C214_bound and C214_refuted. *)
Theorem C214_circumference_partial sum : sum_contract sum -> forall a l z, INR (length (a :: l)) <= 2 ^ 50 -> Forall moderate_point (a :: l) -> z = last (a :: l) a ->
  (val (fst a) = val (fst z) /\ val (snd a) = val (snd z)) \/ apart (fst a) (fst z) \/ apart (snd a) (snd z) ->
  exists v, poly_length_f sum (a :: l) = Ok v /\ finite_double v /\ Rabs (val v - perimeter (a :: l)) <= length_error (a :: l).
Proof. exact (length_exact sum). Qed.
Print Assumptions C214_circumference_partial.

(** C214: in every case the answer is the circumference or lacks the closing edge. *)
Theorem C214_bound sum : sum_contract sum -> forall l, l <> [] -> INR (length l) <= 2 ^ 50 -> Forall moderate_point l -> exists v, poly_length_f sum l = Ok v /\ finite_double v /\
  (Rabs (val v - perimeter l) <= length_error l \/ Rabs (val v - (perimeter l - closing l)) <= length_error l).
Proof. exact (length_bound sum). Qed.
Print Assumptions C214_bound.

(** C214: a nan anywhere makes the answer nan, never an error. *)
Theorem C214_nan sum : sum_contract sum -> forall l, (exists p, In p l /\ (fst p = S754_nan \/ snd p = S754_nan)) -> poly_length_f sum l = Ok S754_nan.
Proof. exact (length_nan sum). Qed.
Print Assumptions C214_nan.

(** Adding from left to right keeps the contract. *)
Theorem C214_contract : sum_contract sum_seq.
Proof. exact seq_sum. Qed.
Print Assumptions C214_contract.

(** C214 fails for small rings far from the origin: a corner that is not closed passes as closed and gets 55 % of its circumference. *)
Theorem C214_refuted : Forall moderate_point corner /\ closing corner > / 1024 /\ exists v, poly_length_f sum_seq corner = Ok v /\ val v = 5 / 4096 /\ val v <= 6 / 10 * perimeter corner.
Proof. exact corner_short. Qed.
Print Assumptions C214_refuted.

Example C214_case : Forall moderate_point block /\ Forall moderate_point open_block /\ block <> [] /\ INR (length block) <= 2 ^ 50 /\ last block (a1, b1) = (a1, b1) /\ perimeter block = 1 /\ perimeter open_block = 1 /\ apart b1 (snd (last open_block (a1, b1))) /\
  poly_length_f sum_seq block = poly_length_f sum_seq open_block.
Proof. exact block_lengths. Qed.
