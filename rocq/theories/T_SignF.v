(** Theorems on signed distances to shorelines in double precision: C216. *)
From Coq Require Import List Arith Bool ZArith Reals SpecFloat.
From Flocq Require Import Core.
From Verif Require Import M_Base M_FixMesh M_LapF M_PipF M_QualF M_SignF S_Double S_Ieee S_Inpoly S_PipF S_SignF P_PipF P_SignF.
Import ListNotations.
Open Scope R_scope.

(** C216: further than the tolerance and the rounding from every side, the value is exactly the distance the tree reports, negative
    exactly where the even-odd rule holds for the outline and for the outline with the islands; the inverted value is its negative.  Missing:
    points closer to a side, where the kernel decides by its tolerance (C162), and sides flatter than 2^-500; see C216_refuted. *)
Theorem C216_sea_partial near : (forall rows q, finite_point q -> finite_double (near rows q) /\ 0 <= val (near rows q)) ->
  forall M ftol, finite_double ftol -> 0 <= val ftol <= bpow radix2 500 -> M <= bpow radix2 500 -> forall q inner boxes,
  atmost M q -> boxes <> [] -> Forall shut_f inner -> Forall shut_f boxes -> clear_of_all (val ftol) M q (inner ++ boxes) ->
  let d := val (near (concat (inner ++ boxes)) q) in
  exists v w, value_f near ftol (rows_f inner) (rows_f boxes) false q = Ok v /\ finite_double v /\ Rabs (val v) = d /\
    (val v < 0 <-> 0 < d /\ inside_f q boxes /\ inside_f q (inner ++ boxes)) /\
    value_f near ftol (rows_f inner) (rows_f boxes) true q = Ok w /\ finite_double w /\ val w = - val v.
Proof. exact (value_sea near). Qed.
Print Assumptions C216_sea_partial.

(** C216: the same for the covering, which knows the outline only. *)
Theorem C216_covering_partial near : (forall rows q, finite_point q -> finite_double (near rows q) /\ 0 <= val (near rows q)) ->
  forall M ftol, finite_double ftol -> 0 <= val ftol <= bpow radix2 500 -> M <= bpow radix2 500 -> forall q boxes,
  atmost M q -> boxes <> [] -> Forall shut_f boxes -> clear_of_all (val ftol) M q boxes ->
  let d := val (near (concat boxes) q) in
  exists v, covering_f near ftol (rows_f boxes) q = Ok v /\ finite_double v /\ Rabs (val v) = d /\ (val v < 0 <-> 0 < d /\ inside_f q boxes).
Proof. exact (covering_sea near). Qed.
Print Assumptions C216_covering_partial.

(** C216: a query that is nan or infinite is 10^12 outside, and 10^12 inside an inverted domain. *)
Theorem C216_nonfinite near ftol inner boxes q : Forall (Forall finite_point) (inner ++ boxes) -> boxes <> [] -> isfinite_f (fst q) && isfinite_f (snd q) = false ->
  exists v w c, value_f near ftol (rows_f inner) (rows_f boxes) false q = Ok v /\ val v = 10 ^ 12 /\
    value_f near ftol (rows_f inner) (rows_f boxes) true q = Ok w /\ val w = - 10 ^ 12 /\ covering_f near ftol (rows_f boxes) q = Ok c /\ val c = 10 ^ 12.
Proof. exact (value_nonfinite near ftol inner boxes q). Qed.
Print Assumptions C216_nonfinite.

(** C216: the domain lies in its covering, whatever the rows and the query: where the value is negative the covering is negative too,
    unless the query lies on the outline. *)
Theorem C216_in_covering near ftol inner boubox q v : (forall rows q, finite_point q -> finite_double (near rows q) /\ 0 <= val (near rows q)) ->
  valid_binary 53 1024 (fst q) = true -> valid_binary 53 1024 (snd q) = true -> value_f near ftol inner boubox false q = Ok v -> val v < 0 -> 0 < val (near (proper boubox) q) ->
  exists c, covering_f near ftol boubox q = Ok c /\ val c = - val (near (proper boubox) q).
Proof. exact (value_covered near ftol inner boubox q v). Qed.
Print Assumptions C216_in_covering.

(** The same triangle and query meet the hypotheses. *)
Example C216_in_covering_case : let q := (f_one, f_one) in exists v, value_f near_1 c_ftol (rows_f []) (rows_f [tri_ring]) false q = Ok v /\ val v < 0 /\ 0 < val (near_1 (proper (rows_f [tri_ring])) q) /\ (forall rows q, finite_point q -> finite_double (near_1 rows q) /\ 0 <= val (near_1 rows q)).
Proof. exact covered_case. Qed.

(** C216 fails for a side that rises by the least double: a point more than 1/2 away from every side and outside has a negative value. *)
Theorem C216_refuted : let q := (SFopp f_one, f_zero) in
  shut_f flat_ring /\ Forall (atmost 1) flat_ring /\ atmost 1 q /\ (forall s, In s (sides flat_ring) -> clear_of (/ 2) q s) /\ ~ inside_f q [flat_ring] /\
  value_f near_1 c_ftol (rows_f []) (rows_f [flat_ring]) false q = Ok (SFopp f_one) /\ covering_f near_1 c_ftol (rows_f [flat_ring]) q = Ok (SFopp f_one).
Proof. exact flat_sea. Qed.
Print Assumptions C216_refuted.

(** The triangle (0, 0), (4, 0), (0, 4) as outline, and as outline and island; the query (1, 1). *)
Example C216_case : let q := (f_one, f_one) in
  atmost 4 q /\ [tri_ring] <> [] /\ Forall shut_f [tri_ring] /\ clear_of_all (val c_ftol) 4 q ([] ++ [tri_ring]) /\ clear_of_all (val c_ftol) 4 q ([tri_ring] ++ [tri_ring]) /\
  value_f near_1 c_ftol (rows_f []) (rows_f [tri_ring]) false q = Ok (SFopp f_one) /\ value_f near_1 c_ftol (rows_f [tri_ring]) (rows_f [tri_ring]) false q = Ok f_one.
Proof. exact sea_case. Qed.
