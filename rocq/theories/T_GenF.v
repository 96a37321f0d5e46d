(** Property theorems C202, C203: the iterations of generate_mesh on IEEE doubles. *)
From Coq Require Import List Arith ZArith Reals SpecFloat.
From Flocq Require Import Core.
From Verif Require Import M_Base M_FixMesh M_LapF M_QualF M_Ieee M_ForceF M_ProjF M_GenF S_Double S_Ieee S_LapF S_GenF P_GenF.
Import ListNotations.
Open Scope R_scope.

(** C202.  Fixed points that are among the first points, not outside the domain and the same or 2^-500 apart, are among the points
    of the last iteration, whatever the forces, the sizes, the further locked points and the number of iterations are. *)
Theorem C202_fixed_partial : forall tr locked fd fh geps deps dt m pfix n p p' t', keeps_places tr -> finite_double dt -> same_outside fd -> Forall moderate pfix -> distinguishable pfix ->
  (forall x, In x pfix -> SFltb (S754_zero false) (fd x) = false) -> (forall x, In x pfix -> present p x) ->
  mesh_loop_f tr locked fd fh geps deps dt m pfix n 0 p = Ok (p', t') -> Forall moderate p' /\ forall x, In x pfix -> present p' x.
Proof. exact fixed_kept_f. Qed.
Print Assumptions C202_fixed_partial.

(** For a box the condition on the domain is that they are in it, edges included. *)
Theorem C202_box_partial : forall tr locked fh geps deps dt m pfix x0 xN y0 yN n p p' t', finite_double x0 -> finite_double xN -> finite_double y0 -> finite_double yN -> keeps_places tr -> finite_double dt ->
  Forall moderate pfix -> distinguishable pfix -> (forall x, In x pfix -> val x0 <= val (fst x) <= val xN /\ val y0 <= val (snd x) <= val yN) -> (forall x, In x pfix -> present p x) ->
  mesh_loop_f tr locked (fun q => bbox_f x0 xN y0 yN (fst q) (snd q)) fh geps deps dt m pfix n 0 p = Ok (p', t') -> forall x, In x pfix -> present p' x.
Proof. exact loop_box. Qed.
Print Assumptions C202_box_partial.
(** Two iterations in the unit square with the opposite corners fixed: they stay, (1, 0) is pushed out and ends at
    (1, -0.04), half way back (C199). *)
Example C202_case : keeps_places (same_points g_t) /\ Forall moderate [(f_0, f_0); (g_1, g_1)] /\ distinguishable [(f_0, f_0); (g_1, g_1)] /\ finite_double g_02 /\ (forall x, In x [(f_0, f_0); (g_1, g_1)] -> present g_p x) /\
  exists p' t', g_run 1 [(f_0, f_0); (g_1, g_1)] g_p = Ok (p', t') /\ nth 0 p' nan2 = (f_0, f_0) /\ nth 3 p' nan2 = (g_1, g_1) /\ nth 1 p' nan2 = (g_1, S754_finite true 5764607523034234 (-57)).
Proof. exact g_case. Qed.

(** Fixed points closer than that are lost: the square of their distance rounds to 0, and one takes the place of the other. *)
Theorem C202_close_refuted : exists pfix p p' t', keeps_places (same_points g_t) /\ Forall moderate pfix /\ (forall x, In x pfix -> 0 <= val (fst x) <= 1 /\ 0 <= val (snd x) <= 1) /\ (forall x, In x pfix -> present p x) /\
  g_run 1 pfix p = Ok (p', t') /\ exists x, In x pfix /\ ~ present p' x.
Proof. exact lost_fixed. Qed.
Print Assumptions C202_close_refuted.

(** C203.  One move: a fixed vertex that is not outside keeps its coordinates. *)
Theorem C203_fixed : forall fd fh deps dt m p t fixed q i, finite_double dt -> same_outside fd -> move_step_f fd fh deps dt m p t fixed = Ok q -> In i fixed -> (i < length p)%nat -> moderate (pt p i) -> SFltb (S754_zero false) (fd (pt p i)) = false ->
  length q = length p /\ finite_point (pt q i) /\ same_place (pt p i) (pt q i).
Proof. exact step_fixed. Qed.
Print Assumptions C203_fixed.

(** A free vertex moves by the time step times its force, up to one rounding of the place and three of the move. *)
Theorem C203_free : forall dt p F fixed q i, finite_double dt -> move_f dt p F fixed = Ok q -> ~ In i fixed -> (i < length p)%nat -> moderate (pt p i) -> moderate (nth i F nan2) -> Rabs (val dt) <= bpow radix2 300 ->
  finite_point (pt q i) /\
  Rabs (val (fst (pt q i)) - (val (fst (pt p i)) + val dt * val (fst (nth i F nan2)))) <= u * Rabs (val (fst (pt p i))) + 3 * u * Rabs (val dt * val (fst (nth i F nan2))) + bpow radix2 (-1073) /\
  Rabs (val (snd (pt q i)) - (val (snd (pt p i)) + val dt * val (snd (nth i F nan2)))) <= u * Rabs (val (snd (pt p i))) + 3 * u * Rabs (val dt * val (snd (nth i F nan2))) + bpow radix2 (-1073).
Proof. exact move_free. Qed.
Print Assumptions C203_free.
(** A pull of (1, 2) on (1, 1) with step 0.2 gives 1.2 and 1.4; the fixed (0, 0) stays. *)
Example C203_case : move_f g_02 [(f_0, f_0); (g_1, g_1)] [(g_1, g_1); (g_1, ftwo)] [0%nat] =
  Ok [(f_0, f_0); (S754_finite false 5404319552844595 (-52), S754_finite false 6305039478318694 (-52))].
Proof. vm_compute. reflexivity. Qed.
