(** IEEE binary64 as in Coq's SpecFloat, and what its numbers mean as reals (Flocq). *)
From Coq Require Import ZArith Reals SpecFloat.
From Flocq Require Import Core IEEE754.BinarySingleNaN.
Open Scope R_scope.

(** A finite double: a bounded canonical number or a zero. *)
Definition finite_double (x : spec_float) : Prop := valid_binary 53 1024 x = true /\ is_finite_SF x = true.
Definition val (x : spec_float) : R := SF2R radix2 x.
(** Rounding to nearest, ties to even, with subnormal numbers and without largest number. *)
Definition rnd (x : R) : R := round radix2 (FLT_exp (-1074) 53) ZnearestE x.
Definition representable (x : R) : Prop := generic_format radix2 (FLT_exp (-1074) 53) x.
Definition huge : R := bpow radix2 1024.
