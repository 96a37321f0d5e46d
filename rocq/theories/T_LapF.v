(** Theorems about mesh smoothing on IEEE doubles. *)
From Coq Require Import List Arith Bool ZArith Reals SpecFloat.
From Flocq Require Import Core.
From Verif Require Import M_Base S_Double S_Edges S_FixMesh S_Adjacency S_Clean S_Ieee M_LapF S_LapF P_LapF.
Import ListNotations.
Open Scope R_scope.

(** ** C159 *)
(** Any doubles, also infinite ones and nan: the faces, the boundary and one vertex for every pin are kept bit by bit; with
    finite coordinates that vertex is nearest to the pin. *)
Theorem C159_kept : forall tol k pfix p ts, all_used (length p) ts -> has_boundary ts -> pfix <> Some [] -> (Z.of_nat (length ts) <= 2 ^ 50)%Z ->
  exists p', laplacian2_f tol k pfix p ts = Ok (p', ts) /\ length p' = length p /\
    (forall w v, on_boundary ts w v -> pt p' v = pt p v) /\
    (forall x, In x (pinned pfix) -> exists i, (i < length p)%nat /\ pt p' i = pt p i /\ (moderate x -> Forall moderate p -> nearest_rounded x p i)).
Proof. exact lap_f_ok. Qed.
Print Assumptions C159_kept.

(** A pin at the place of a vertex holds that vertex if the others are 2^-500 away. *)
Theorem C159_pinned : forall tol k pfix p ts x v, all_used (length p) ts -> has_boundary ts -> (Z.of_nat (length ts) <= 2 ^ 50)%Z -> In x (pinned pfix) ->
  moderate x -> Forall moderate p -> (v < length p)%nat -> same_place x (pt p v) -> (forall w, (w < length p)%nat -> w <> v -> apart x (pt p w)) ->
  exists p', laplacian2_f tol k pfix p ts = Ok (p', ts) /\ pt p' v = pt p v.
Proof. exact lap_f_pinned. Qed.
Print Assumptions C159_pinned.

(** The result is reached by at most k sweeps, each of which moves every free vertex to the mean of its neighbours up to
    rounding; if the loop stopped early, the last sweep made no edge longer by the tolerance (C160). *)
Theorem C159_sweeps : forall tol k pfix p ts N M, all_used (length p) ts -> has_boundary ts -> pfix <> Some [] -> Forall nondegenerate ts -> degree_atmost N (length p) ts ->
  (Z.of_nat (N + 2) <= 2 ^ 26)%Z -> 2 * INR k * (INR (N + 2) * u) <= 1 -> bounded_points M p -> 0 <= M <= bpow radix2 500 -> Forall moderate (pinned pfix) -> finite_double tol ->
  exists pins p' flag, laplacian2_flag tol k pfix p ts = Ok (p', flag) /\ laplacian2_f tol k pfix p ts = Ok (p', ts) /\ Forall2 (fun x i => nearest_rounded x p i) (pinned pfix) pins /\
    let B := M + drift N k M in
    (flag = false /\ sweeps ts (stays ts pins) B k p p' \/
     flag = true /\ exists i q, (i < k)%nat /\ sweeps ts (stays ts pins) B i p q /\ sweep_step ts (stays ts pins) B q p' /\ grew_less ts (val tol) q p').
Proof. exact lap_f_sweeps. Qed.
Print Assumptions C159_sweeps.

(** The box of the mesh grows by rounding errors only. *)
Theorem C159_box_partial : forall tol k pfix p ts N xlo xhi ylo yhi M, all_used (length p) ts -> has_boundary ts -> pfix <> Some [] -> Forall nondegenerate ts -> degree_atmost N (length p) ts ->
  (Z.of_nat (N + 2) <= 2 ^ 26)%Z -> 2 * INR k * (INR (N + 2) * u) <= 1 -> (forall x, In x p -> within xlo xhi (fst x) /\ within ylo yhi (snd x)) ->
  Rabs xlo <= M -> Rabs xhi <= M -> Rabs ylo <= M -> Rabs yhi <= M -> M <= bpow radix2 900 ->
  exists p', laplacian2_f tol k pfix p ts = Ok (p', ts) /\
    forall x, In x p' -> within (xlo - drift N k M) (xhi + drift N k M) (fst x) /\ within (ylo - drift N k M) (yhi + drift N k M) (snd x).
Proof. exact lap_f_box. Qed.
Print Assumptions C159_box_partial.

(** It does grow. *)
Theorem C159_box_refuted : exists tol p ts, all_used (length p) ts /\ has_boundary ts /\ Forall nondegenerate ts /\ Forall finite_point p /\
  exists p' x, laplacian2_f tol 1 None p ts = Ok (p', ts) /\ In x p' /\ forall y, In y p -> val (fst y) < val (fst x).
Proof. exact lap_f_leaves. Qed.
Print Assumptions C159_box_refuted.

(** A vertex in no face: the mesh comes back as it was.  No boundary: IndexError.  An empty list of pins: IndexError. *)
Theorem C159_unused : forall tol k pfix p ts v, Forall (in_range (length p)) ts -> has_boundary ts -> (v < length p)%nat ->
  ~ (exists t, In t ts /\ In v (corners t)) -> laplacian2_f tol k pfix p ts = Ok (p, ts).
Proof. exact lap_f_unused. Qed.
Print Assumptions C159_unused.
Theorem C159_closed : forall tol k pfix p ts, Forall (in_range (length p)) ts -> ~ has_boundary ts -> laplacian2_f tol k pfix p ts = Raise IndexError.
Proof. exact lap_f_closed. Qed.
Print Assumptions C159_closed.
Theorem C159_no_pins : forall tol k p ts, all_used (length p) ts -> has_boundary ts -> (Z.of_nat (length ts) <= 2 ^ 50)%Z -> laplacian2_f tol (S k) (Some []) p ts = Raise IndexError.
Proof. exact lap_f_no_pins. Qed.
Print Assumptions C159_no_pins.
Example C159_refuses_case : laplacian2_f tol_001 3 None (hub_p ++ [(f_zero, f_zero)]) hub_t = Ok (hub_p ++ [(f_zero, f_zero)], hub_t) /\
  laplacian2_f tol_001 3 None hub_p [(0, 1, 2); (0, 2, 3); (0, 3, 1); (1, 3, 2)]%nat = Raise IndexError /\
  laplacian2_f tol_001 3 (Some []) hub_p hub_t = Raise IndexError.
Proof. vm_compute. repeat split; reflexivity. Qed.

(** A mesh of a hub and three rim vertices meets the hypotheses, with twenty sweeps and a pin at (0, 1). *)
Example C159_case : all_used (length hub_p) hub_t /\ has_boundary hub_t /\ Forall nondegenerate hub_t /\ degree_atmost 6 (length hub_p) hub_t /\
  2 * INR 20 * (INR (6 + 2) * u) <= 1 /\ bounded_points 100 hub_p /\ 0 <= 100 <= bpow radix2 500 /\ finite_double tol_001 /\ Forall moderate (pinned (Some [(f_zero, f_one)])).
Proof. exact hub_case. Qed.

(** ** C160 *)
(** If the loop stops early, the last sweep made no edge longer by the tolerance, as computed. *)
Theorem C160_growth_partial : forall tol k pfix p ts N M p', all_used (length p) ts -> has_boundary ts -> pfix <> Some [] -> Forall nondegenerate ts -> degree_atmost N (length p) ts ->
  (Z.of_nat (N + 2) <= 2 ^ 26)%Z -> 2 * INR k * (INR (N + 2) * u) <= 1 -> bounded_points M p -> 0 <= M <= bpow radix2 500 -> Forall moderate (pinned pfix) -> finite_double tol ->
  laplacian2_flag tol k pfix p ts = Ok (p', true) ->
  exists pins q, sweep_step ts (stays ts pins) (M + drift N k M) q p' /\ grew_less ts (val tol) q p'.
Proof. exact lap_f_growth. Qed.
Print Assumptions C160_growth_partial.
(** The loop stops at the default tolerance of one percent after a sweep in which an edge lost a quarter of its length:
    the code takes the largest growth, not the largest change. *)
Theorem C160_refuted : exists p ts, all_used (length p) ts /\ has_boundary ts /\ Forall nondegenerate ts /\ Forall moderate p /\
  exists p' t a b, laplacian2_flag tol_001 20 None p ts = Ok (p', true) /\ In t ts /\ In a (corners t) /\ In b (corners t) /\ a <> b /\
    length_of (pt p' a) (pt p' b) < 3 / 4 * length_of (pt p a) (pt p b).
Proof. exact lap_f_shrinks. Qed.
Print Assumptions C160_refuted.
