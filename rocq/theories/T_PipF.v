(** Theorems about the compiled point-in-polygon kernel on IEEE doubles. *)
From Coq Require Import List Arith ZArith Reals SpecFloat.
From Flocq Require Import Core.
From Verif Require Import M_LapF M_PipF S_Double S_Ieee S_Inpoly S_PipF P_PipF.
Import ListNotations.
Open Scope R_scope.

(** ** C161 *)
(** A query further than the tolerance and the rounding from every edge gets the exact even-odd answer and is
    not reported on the boundary.  Partial: no edge rises by less than 2^-500 without being level. *)
Theorem C161_even_odd_partial : forall M ftol node edge vert i q,
  finite_double ftol -> 0 <= val ftol <= bpow radix2 500 -> M <= bpow radix2 500 ->
  (forall e, In e edge -> (fst e < length node)%nat /\ (snd e < length node)%nat) -> Forall (atmost M) node ->
  nth_error vert i = Some q -> atmost M q ->
  (forall s, In s (segments node edge) -> not_flat s /\ clear_of (margin (val ftol) M) q s) ->
  exists b, odd_many (crossesR q) b (segments node edge) /\ nth_error (inpoly_fast_f ftol node edge vert) i = Some (b, false).
Proof. exact fast_clear. Qed.
Print Assumptions C161_even_odd_partial.

(** Without that restriction it fails: a query at distance more than 1/2 from every edge, outside, is reported inside. *)
Theorem C161_even_odd_refuted : let q := (SFopp f_one, f_zero) in
  Forall (atmost 1) flat3 /\ atmost 1 q /\ (forall s, In s (segments flat3 ring3) -> clear_of (/ 2) q s) /\
  odd_many (crossesR q) false (segments flat3 ring3) /\ inpoly_fast_f c_ftol flat3 ring3 [q] = [(true, false)].
Proof. exact flat_wrong. Qed.
Print Assumptions C161_even_odd_refuted.

Theorem C161_length : forall ftol node edge vert, length (inpoly_fast_f ftol node edge vert) = length vert.
Proof. exact fast_length. Qed.
Print Assumptions C161_length.

Theorem C161_nonfinite : forall ftol node edge vert i q, nth_error vert i = Some q -> ~ finite_point q ->
  valid_binary 53 1024 (fst q) = true -> valid_binary 53 1024 (snd q) = true ->
  nth_error (inpoly_fast_f ftol node edge vert) i = Some (false, false).
Proof. exact fast_nonfinite. Qed.
Print Assumptions C161_nonfinite.

(** The triangle (0, 0), (4, 0), (0, 4) and the query (1, 1). *)
Example C161_case : finite_double c_ftol /\ 0 <= val c_ftol <= bpow radix2 500 /\ 4 <= bpow radix2 500 /\
  (forall e, In e ring3 -> (fst e < length tri)%nat /\ (snd e < length tri)%nat) /\ Forall (atmost 4) tri /\ atmost 4 (f_one, f_one) /\
  (forall s, In s (segments tri ring3) -> not_flat s /\ clear_of (margin (val c_ftol) 4) (f_one, f_one) s) /\
  inpoly_fast_f c_ftol tri ring3 [(f_one, f_one); (c_four, c_four)] = [(true, false); (false, false)].
Proof. exact tri_case. Qed.
Example C161_nan_case : nth_error (inpoly_fast_f c_ftol tri ring3 [(f_one, S754_nan); (f_one, f_one)]) 0 = Some (false, false).
Proof. reflexivity. Qed.

(** ** C162 *)
(** A query exactly on an edge is reported on the boundary when the tolerance is at least 2^-46 times the size of
    the coordinates.  Partial: the default tolerance 5e-14 is below that for coordinates above 3.6. *)
Theorem C162_on_edge_partial : forall M ftol node edge vert i q s,
  finite_double ftol -> bpow radix2 (-46) * M <= val ftol <= bpow radix2 500 -> M <= bpow radix2 500 ->
  (forall e, In e edge -> (fst e < length node)%nat /\ (snd e < length node)%nat) -> Forall (atmost M) node ->
  nth_error vert i = Some q -> atmost M q -> In s (segments node edge) -> not_short s -> on_segmentR q s ->
  nth_error (inpoly_fast_f ftol node edge vert) i = Some (true, true).
Proof. exact fast_on. Qed.
Print Assumptions C162_on_edge_partial.

(** With the default tolerance, in degrees: a point exactly on an edge is reported outside and not on the boundary. *)
Theorem C162_on_edge_refuted : Forall (atmost 180) deg3 /\ atmost 180 degq /\
  (exists s, In s (segments deg3 ring3) /\ on_segmentR degq s /\ not_short s) /\ inpoly_fast_f c_ftol deg3 ring3 [degq] = [(false, false)].
Proof. exact deg_wrong. Qed.
Print Assumptions C162_on_edge_refuted.

(** Whatever is reported on the boundary is within the tolerance and the rounding of some edge. *)
Theorem C162_near : forall M ftol node edge vert i q st,
  finite_double ftol -> 0 <= val ftol -> M <= bpow radix2 500 ->
  (forall e, In e edge -> (fst e < length node)%nat /\ (snd e < length node)%nat) -> Forall (atmost M) node ->
  nth_error vert i = Some q -> atmost M q -> nth_error (inpoly_fast_f ftol node edge vert) i = Some (st, true) ->
  st = true /\ exists s, In s (segments node edge) /\ ~ clear_of (margin (val ftol) M) q s.
Proof. exact fast_near. Qed.
Print Assumptions C162_near.

(** The middle of the long side of that triangle, with the tolerance 1/2. *)
Example C162_case : finite_double c_half /\ bpow radix2 (-46) * 4 <= val c_half <= bpow radix2 500 /\ atmost 4 (c_two, c_two) /\
  on_segmentR (c_two, c_two) ((c_four, f_zero), (f_zero, c_four)) /\ In ((c_four, f_zero), (f_zero, c_four)) (segments tri ring3) /\ not_short ((c_four, f_zero), (f_zero, c_four)).
Proof. exact mid_case. Qed.
Example C162_case_run : inpoly_fast_f c_half tri ring3 [(c_two, c_two)] = [(true, true)].
Proof. vm_compute. reflexivity. Qed.
