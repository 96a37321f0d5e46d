(** Theorems about corner cutting of shorelines on IEEE doubles. *)
From Coq Require Import List Arith ZArith Reals SpecFloat.
From Flocq Require Import Core IEEE754.BinarySingleNaN.
From Verif Require Import M_Base M_Shore S_Double S_Ieee M_CutF S_CutF P_CutF.
Import ListNotations.
Open Scope R_scope.

(** ** C158 *)
(** Every number of passes over every line of finite points: no overflow, the ends stay bit by bit, every new
    point lies in the box of its two points and near the exact one. *)
Theorem C158_corners : forall k ps, ps <> [] -> Forall finite_point ps -> exists qs, chaikin_f k ps = Ok qs /\ cut_times k ps qs.
Proof. exact chaikin_f_ok. Qed.
Print Assumptions C158_corners.

Theorem C158_facts : forall k ps qs, cut_times k ps qs -> Forall finite_point ps ->
  length qs = (length ps * 2 ^ k)%nat /\ Forall finite_point qs /\ nth_error qs 0 = nth_error ps 0 /\ nth_error qs (length qs - 1) = nth_error ps (length ps - 1).
Proof. exact times_facts. Qed.
Print Assumptions C158_facts.

Theorem C158_box : forall k ps qs, cut_times k ps qs -> forall xmin xmax ymin ymax,
  (forall p, In p ps -> xmin <= val (fst p) <= xmax /\ ymin <= val (snd p) <= ymax) ->
  forall q, In q qs -> xmin <= val (fst q) <= xmax /\ ymin <= val (snd q) <= ymax.
Proof. exact times_box. Qed.
Print Assumptions C158_box.

(** A ring that closes bit by bit still does. *)
Theorem C158_closed : forall k ps qs, cut_times k ps qs -> ps <> [] -> Forall finite_point ps -> nth_error ps 0 = nth_error ps (length ps - 1) ->
  nth_error qs 0 = nth_error qs (length qs - 1).
Proof. exact ring_closed. Qed.
Print Assumptions C158_closed.

(** The same list of operations as in the model on exact numbers (C45). *)
Theorem C158_same_code : forall k l, chaikin k l = cut_loop mix k l.
Proof. exact loop_same. Qed.
Print Assumptions C158_same_code.

(** 0.1 is a double whose three quarters are rounded; the ring (0.1, 1), (1, 1), (0.1, 1) keeps it. *)
Example C158_case : let d := S754_finite false 7205759403792794 (-56) in let i := S754_finite false 4503599627370496 (-52) in
  exists qs, chaikin_f 3 [(d, i); (i, i); (d, i)] = Ok qs /\ length qs = 24%nat /\ nth_error qs 0 = Some (d, i) /\ nth_error qs 23 = Some (d, i) /\
  Forall finite_point [(d, i); (i, i); (d, i)].
Proof. eexists. split; [vm_compute; reflexivity|]. split; [reflexivity|]. split; [reflexivity|]. split; [reflexivity|]. repeat constructor. Qed.
