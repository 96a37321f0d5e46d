(** Theorems on areas of rings in double precision: C213. *)
From Coq Require Import List Arith ZArith Reals SpecFloat.
From Verif Require Import M_Base M_FixMesh M_Shore M_AreaF S_Double S_Ieee S_AreaF P_AreaF P_AreaF2.
Import ListNotations.
Open Scope R_scope.

(** C213: _poly_area is within (n + 2) u times the sum of the products of the exact area, for every way of adding. *)
Theorem C213_area dot : dot_contract dot -> forall l, l <> [] -> INR (length l) <= 2 ^ 50 -> Forall moderate_point l ->
  finite_double (poly_area_f dot (map fst l) (map snd l)) /\ Rabs (val (poly_area_f dot (map fst l) (map snd l)) - ring_area l) <= area_error l.
Proof. exact (area_close dot). Qed.
Print Assumptions C213_area.

(** C213: islands whose area differs from the limit by more than that are kept and dropped as they should.  Missing: areas closer to
    the limit; see the refutations. *)
Theorem C213_decides_partial dot : dot_contract dot -> forall l areamin, l <> [] -> INR (length l) <= 2 ^ 50 -> Forall moderate_point l -> finite_double areamin ->
  (val areamin + area_error l <= ring_area l -> large_enough_f dot areamin l = true) /\ (ring_area l + area_error l < val areamin -> large_enough_f dot areamin l = false).
Proof. exact (area_decides dot). Qed.
Print Assumptions C213_decides_partial.

(** C213: for up to 1000 points in degrees the error is below 4e-6 square degrees. *)
Theorem C213_degrees l : l <> [] -> INR (length l) <= 1000 -> Forall (fun p => Rabs (val (fst p)) <= 180 /\ Rabs (val (snd p)) <= 90) l -> area_error l <= 4 / 10 ^ 6.
Proof. exact (degrees_error l). Qed.
Print Assumptions C213_degrees.

(** C213: a ring with a nan is dropped. *)
Theorem C213_nan dot : dot_contract dot -> forall l areamin, (exists p, In p l /\ (fst p = S754_nan \/ snd p = S754_nan)) -> large_enough_f dot areamin l = false.
Proof. exact (area_nan dot). Qed.
Print Assumptions C213_nan.

(** Adding from left to right keeps the contract. *)
Theorem C213_contract : dot_contract dot_seq.
Proof. exact seq_contract. Qed.
Print Assumptions C213_contract.

(** C213 fails near the limit: a square of four times the least area is dropped, ... *)
Theorem C213_dropped_refuted : Forall moderate_point square /\ finite_double min50 /\ ring_area square = 4 * val min50 /\ large_enough_f dot_seq min50 square = false.
Proof. exact square_dropped. Qed.
Print Assumptions C213_dropped_refuted.

(** ... and a triangle of a thousand millionth of the least area is kept. *)
Theorem C213_kept_refuted : Forall moderate_point speck /\ finite_double min40 /\ 1000000000 * ring_area speck < val min40 /\ large_enough_f dot_seq min40 speck = true.
Proof. exact speck_kept. Qed.
Print Assumptions C213_kept_refuted.

Example C213_case : Forall moderate_point block /\ finite_double area_0_004 /\ val area_0_004 + area_error block <= ring_area block /\ block <> [] /\ INR (length block) <= 1000.
Proof. exact block_case. Qed.
