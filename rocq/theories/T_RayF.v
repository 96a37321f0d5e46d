(** Theorems about the python ray caster on IEEE doubles. *)
From Coq Require Import List Arith ZArith Reals SpecFloat.
From Flocq Require Import Core.
From Verif Require Import M_LapF M_PipF M_RayF S_Double S_Ieee S_Inpoly S_PipF S_RayF P_PipF P_RayF.
Import ListNotations.
Open Scope R_scope.

(** ** C172 *)
(** A query further from every edge than the tolerance and the rounding gets the exact even-odd answer and is not
    reported on the boundary.  Edges whose ends coincide do not matter.  Partial: the edges close, every other edge
    has length at least 2^-100, and an edge that is not level rises by more than the tolerance. *)
Theorem C172_even_odd_partial : forall M ftol node edge vert i q,
  finite_double ftol -> 0 <= val ftol <= bpow radix2 100 -> M <= bpow radix2 100 -> (3 <= length node)%nat ->
  (forall e, In e edge -> (fst e < length node)%nat /\ (snd e < length node)%nat) -> closed_edges edge -> Forall (atmost M) node ->
  nth_error vert i = Some q -> atmost M q ->
  (forall s, In s (segments node edge) -> rises (val ftol) s /\ ((RX (fst s) = RX (snd s) /\ RY (fst s) = RY (snd s)) \/ (long_edge s /\ far_of (ray_margin (val ftol) M s) q s))) ->
  exists b, odd_many (crossesR q) b (segments node edge) /\ nth_error (inpoly_ray_f ftol node edge vert) i = Some (b, false).
Proof. exact ray_clear. Qed.
Print Assumptions C172_even_odd_partial.

(** An edge that rises by 2^-45, below the default tolerance, is not counted: a query at distance 1/5 outside is
    reported inside.  The compiled kernel is right there. *)
Theorem C172_even_odd_refuted : let q := (SFopp f_one, f_zero) in
  Forall (atmost 2) low4 /\ atmost 2 q /\ closed_edges ring4 /\ (forall s, In s (segments low4 ring4) -> far_of (/ 5) q s /\ / 2 <= length_of s) /\
  odd_many (crossesR q) false (segments low4 ring4) /\ inpoly_ray_f c_ftol low4 ring4 [q] = [(true, false)] /\ inpoly_fast_f c_ftol low4 ring4 [q] = [(false, false)].
Proof. exact low_wrong. Qed.
Print Assumptions C172_even_odd_refuted.

(** Without closed edges the box decides: one vertical edge to the right of the query is crossed, the answer is outside. *)
Theorem C172_open_refuted : let q := (SFopp f_one, f_one) in let e := [(2, 0)]%nat in
  Forall (atmost 4) tri /\ atmost 4 q /\ (forall s, In s (segments tri e) -> rises (val c_ftol) s /\ long_edge s /\ far_of (ray_margin (val c_ftol) 4 s) q s) /\
  odd_many (crossesR q) true (segments tri e) /\ inpoly_ray_f c_ftol tri e [q] = [(false, false)] /\ inpoly_fast_f c_ftol tri e [q] = [(true, false)].
Proof. exact open_wrong. Qed.
Print Assumptions C172_open_refuted.

Theorem C172_length : forall ftol node edge vert, length (inpoly_ray_f ftol node edge vert) = length vert.
Proof. exact ray_length. Qed.
Print Assumptions C172_length.

(** The triangle (0, 0), (4, 0), (0, 4) and the query (1, 1). *)
Example C172_case : finite_double c_ftol /\ 0 <= val c_ftol <= bpow radix2 100 /\ 4 <= bpow radix2 100 /\ (3 <= length tri)%nat /\
  (forall e, In e ring3 -> (fst e < length tri)%nat /\ (snd e < length tri)%nat) /\ closed_edges ring3 /\ Forall (atmost 4) tri /\ atmost 4 (f_one, f_one) /\
  (forall s, In s (segments tri ring3) -> rises (val c_ftol) s /\ long_edge s /\ far_of (ray_margin (val c_ftol) 4 s) (f_one, f_one) s) /\
  inpoly_ray_f c_ftol tri ring3 [(f_one, f_one); (c_four, c_four)] = [(true, false); (false, false)].
Proof. exact tri_ray. Qed.

(** ** C173 *)
(** A query exactly on an edge is reported on the boundary when the tolerance is at least 2^-48 times the size of the
    coordinates.  Partial: the default tolerance 5e-14 is below that for coordinates above 14. *)
Theorem C173_on_edge_partial : forall M ftol node edge vert i q s,
  finite_double ftol -> bpow radix2 (-48) * M <= val ftol <= bpow radix2 100 -> M <= bpow radix2 100 -> (3 <= length node)%nat ->
  (forall e, In e edge -> (fst e < length node)%nat /\ (snd e < length node)%nat) -> Forall (atmost M) node ->
  nth_error vert i = Some q -> atmost M q -> In s (segments node edge) -> long_edge s -> on_segmentR q s ->
  nth_error (inpoly_ray_f ftol node edge vert) i = Some (true, true).
Proof. exact ray_on_edge. Qed.
Print Assumptions C173_on_edge_partial.

(** In metres with the default tolerance a point exactly on an edge is not reported on the boundary. *)
Theorem C173_on_edge_refuted : Forall (atmost 700000) met3 /\ atmost 700000 metq /\
  (exists s, In s (segments met3 ring3) /\ on_segmentR metq s /\ long_edge s) /\ exists b, inpoly_ray_f c_ftol met3 ring3 [metq] = [(b, false)].
Proof. exact met_wrong. Qed.
Print Assumptions C173_on_edge_refuted.

(** Whatever is reported on the boundary is within the margin of some edge; the margin has the tolerance divided by the
    length of the edge, because the code compares the tolerance with a squared length. *)
Theorem C173_near : forall M ftol node edge vert i q st,
  finite_double ftol -> 0 <= val ftol <= bpow radix2 100 -> M <= bpow radix2 100 ->
  (forall e, In e edge -> (fst e < length node)%nat /\ (snd e < length node)%nat) -> Forall (atmost M) node ->
  (forall s, In s (segments node edge) -> (RX (fst s) = RX (snd s) /\ RY (fst s) = RY (snd s)) \/ long_edge s) ->
  nth_error vert i = Some q -> atmost M q -> nth_error (inpoly_ray_f ftol node edge vert) i = Some (st, true) ->
  st = true /\ exists s, In s (segments node edge) /\ ~ far_of (ray_margin (val ftol) M s) q s.
Proof. exact ray_reported. Qed.
Print Assumptions C173_near.

(** So a query at distance 1/65 from the polygon, outside it, is reported inside and on the boundary with the default tolerance: one edge
    has length 2^-40.  The compiled kernel reports it outside. *)
Theorem C173_short_edge_refuted : let q := (c_32, f_zero) in
  Forall (atmost 1) short4 /\ atmost 1 q /\ closed_edges ring4 /\ (forall s, In s (segments short4 ring4) -> far_of (/ 65) q s /\ long_edge s /\ rises (val c_ftol) s) /\
  odd_many (crossesR q) false (segments short4 ring4) /\ inpoly_ray_f c_ftol short4 ring4 [q] = [(true, true)] /\ inpoly_fast_f c_ftol short4 ring4 [q] = [(false, false)].
Proof. exact short_wrong. Qed.
Print Assumptions C173_short_edge_refuted.

(** The middle of the long side of the triangle, with the tolerance 1/2. *)
Example C173_case : finite_double c_half /\ bpow radix2 (-48) * 4 <= val c_half <= bpow radix2 100 /\ atmost 4 (c_two, c_two) /\
  on_segmentR (c_two, c_two) ((c_four, f_zero), (f_zero, c_four)) /\ In ((c_four, f_zero), (f_zero, c_four)) (segments tri ring3) /\ long_edge ((c_four, f_zero), (f_zero, c_four)).
Proof. exact tri_on. Qed.
Example C173_case_run : inpoly_ray_f c_half tri ring3 [(c_two, c_two)] = [(true, true)].
Proof. vm_compute. reflexivity. Qed.

(** ** C174 *)
(** The two kernels agree away from the edges.  Partial: under the restrictions of C172; the refutations of C172 and C173 show
    queries far from every edge on which they differ. *)
Theorem C174_kernels_agree_partial : forall M ftol node edge vert i q,
  finite_double ftol -> 0 <= val ftol <= bpow radix2 100 -> M <= bpow radix2 100 -> (3 <= length node)%nat ->
  (forall e, In e edge -> (fst e < length node)%nat /\ (snd e < length node)%nat) -> closed_edges edge -> Forall (atmost M) node ->
  nth_error vert i = Some q -> atmost M q ->
  (forall s, In s (segments node edge) -> rises (val ftol) s /\ long_edge s /\ far_of (ray_margin (val ftol) M s) q s) ->
  nth_error (inpoly_ray_f ftol node edge vert) i = nth_error (inpoly_fast_f ftol node edge vert) i.
Proof. exact both_agree. Qed.
Print Assumptions C174_kernels_agree_partial.

Theorem C174_kernels_agree_refuted :
  (let q := (SFopp f_one, f_zero) in inpoly_ray_f c_ftol low4 ring4 [q] <> inpoly_fast_f c_ftol low4 ring4 [q] /\ (forall s, In s (segments low4 ring4) -> far_of (/ 5) q s)) /\
  (let q := (c_32, f_zero) in inpoly_ray_f c_ftol short4 ring4 [q] <> inpoly_fast_f c_ftol short4 ring4 [q] /\ (forall s, In s (segments short4 ring4) -> far_of (/ 65) q s)).
Proof. exact kernels_differ. Qed.
Print Assumptions C174_kernels_agree_refuted.
Example C174_case : nth_error (inpoly_ray_f c_ftol tri ring3 [(f_one, f_one)]) 0 = Some (true, false).
Proof. vm_compute. reflexivity. Qed.
