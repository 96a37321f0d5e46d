(** Theorems on unions, intersections and differences of domains in double precision: C215. *)
From Coq Require Import List Arith ZArith SpecFloat.
From Verif Require Import M_Base M_FixMesh M_QualF M_Ieee M_DensifyF M_SetF S_SetF P_SetF.
Import ListNotations.

(** C215: however domains are combined, a point passes a threshold exactly when logic says so, for all functions whose values are
    numbers; and so does its negative. *)
Theorem C215_sets_partial mn mx : min_contract mn -> max_contract mx -> forall x g, number g -> forall d, complete d -> numbers x d ->
  exists v, eval_f mn mx x d = Ok v /\ number v /\ (SFltb v g = true <-> within g x d) /\ (SFltb (SFopp v) g = true <-> off g x d).
Proof. exact (sets_right mn mx). Qed.
Print Assumptions C215_sets_partial.

(** C215: one nan anywhere makes the value nan, so the point passes no threshold; never an exception. *)
Theorem C215_nan mn mx : min_contract mn -> max_contract mx -> forall x d, complete d -> some_nan x d -> eval_f mn mx x d = Ok S754_nan.
Proof. exact (sets_nan mn mx). Qed.
Print Assumptions C215_nan.

(** C215: a combination has a value exactly when every list has an element and every domain a function; otherwise it is an exception. *)
Theorem C215_complete mn mx x d : (exists v, eval_f mn mx x d = Ok v) <-> complete d.
Proof. exact (eval_complete mn mx x d). Qed.
Print Assumptions C215_complete.

(** One complete domain and two that are not, with their exceptions. *)
Example C215_complete_case mn mx x f : complete (UnionD [Plain (Some f)]) /\ ~ complete (UnionD [Plain (Some f); IntersectionD []]) /\ ~ complete (DifferenceD [Plain (Some f); Plain None]) /\
  eval_f mn mx x (UnionD [Plain (Some f); IntersectionD []]) = Raise ValueError /\ eval_f mn mx x (DifferenceD [Plain (Some f); Plain None]) = Raise TypeError.
Proof. exact (incomplete_case mn mx x f). Qed.

(** C215: a multiscale domain holds the points of some domain that are outside the coverings of all later ones. *)
Theorem C215_multiscale mn mx x g l : min_contract mn -> max_contract mx -> number g -> 1 < length l -> Forall (ready x) l ->
  exists u ns v, multiscale_f l = Ok (u, ns) /\ length ns = length l /\ eval_f mn mx x u = Ok v /\ (SFltb v g = true <-> owned g x l).
Proof. exact (multiscale_owned mn mx x g l). Qed.
Print Assumptions C215_multiscale.

(** C215: no two nests hold a point, at thresholds not above zero and when every domain lies in its covering. *)
Theorem C215_disjoint g x l i j a b : number g -> SFleb g (S754_zero false) = true ->
  Forall (fun s => exists c, snd s = Some c /\ number (c x) /\ (within g x (fst s) -> SFltb (c x) (S754_zero false) = true)) l -> i < j ->
  nth_error (nests_f l) i = Some a -> nth_error (nests_f l) j = Some b -> within g x a -> within g x b -> False.
Proof. exact (nests_disjoint g x l i j a b). Qed.
Print Assumptions C215_disjoint.

(** C215: a limit of the common box bounds all numbers if the first one is a number, and is nan if the first one is nan. *)
Theorem C215_box_low l : (forall r, l = S754_nan :: r -> py_min_f l = Ok S754_nan) /\
  (forall a r, l = a :: r -> number a -> Forall (fun y => valid_binary 53 1024 y = true) r -> exists m, py_min_f l = Ok m /\ In m l /\ forall y, In y l -> number y -> SFleb m y = true).
Proof. exact (py_min_first l). Qed.
Print Assumptions C215_box_low.
Theorem C215_box_high l : (forall r, l = S754_nan :: r -> py_max_f l = Ok S754_nan) /\
  (forall a r, l = a :: r -> number a -> Forall (fun y => valid_binary 53 1024 y = true) r -> exists m, py_max_f l = Ok m /\ In m l /\ forall y, In y l -> number y -> SFleb y m = true).
Proof. exact (py_max_first l). Qed.
Print Assumptions C215_box_high.

(** numpy's functions, with ties decided as in its source, keep the contracts. *)
Theorem C215_minimum : min_contract np_minimum.
Proof. exact minimum_contract. Qed.
Print Assumptions C215_minimum.
Theorem C215_maximum : max_contract np_maximum.
Proof. exact maximum_contract. Qed.
Print Assumptions C215_maximum.

(** C215 fails on the seam: a point of the outer box that is on the side of the inner one, hence in no nest, is outside the union. *)
Theorem C215_seam_refuted : Forall (ready (n1, n15)) two /\ SFltb (outer (n1, n15)) n0 = true /\ SFltb (inner (n1, n15)) n0 = false /\
  exists u ns v, multiscale_f two = Ok (u, ns) /\ eval_f np_minimum np_maximum (n1, n15) u = Ok v /\ SFltb v n0 = false.
Proof. exact seam. Qed.
Print Assumptions C215_seam_refuted.

(** C215 fails for nan: a point of one box is lost from the union with a box with a nan. *)
Theorem C215_nan_refuted : complete (UnionD [Plain (Some outer); Plain (Some broken)]) /\ SFltb (outer (n3, n3)) n0 = true /\
  eval_f np_minimum np_maximum (n3, n3) (UnionD [Plain (Some outer); Plain (Some broken)]) = Ok S754_nan.
Proof. exact lost. Qed.
Print Assumptions C215_nan_refuted.

Example C215_case : number n0 /\ complete ring /\ numbers (n3, n3) ring /\ numbers (n15, n15) ring /\ eval_f np_minimum np_maximum (n3, n3) ring = Ok (SFopp n1) /\
  eval_f np_minimum np_maximum (n15, n15) ring = Ok (S754_finite false 4503599627370496 (-53)) /\
  Forall (ready (n3, n3)) two /\ Forall (fun s => exists c, snd s = Some c /\ number (c (n15, n15)) /\ (within n0 (n15, n15) (fst s) -> SFltb (c (n15, n15)) n0 = true)) two.
Proof. exact ring_case. Qed.
