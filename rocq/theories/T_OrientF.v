(** Theorems about the orientation of an outline of doubles.  [turn a b c] is twice the signed area of a triangle; the linear algebra
    library is any that keeps [det_contract]. *)
From Coq Require Import List Arith ZArith Reals SpecFloat.
From Verif Require Import M_Base M_FixMesh M_QualF M_Ieee M_ForceF M_OrientF S_Double S_Ieee S_OrientF P_OrientF P_OrientF2.
Import ListNotations.
Open Scope R_scope.

(** The first turn that is clear decides, if those before it are straight; the point after it must exist. *)
Theorem C209_decides_partial : forall ratio elim magnitude, det_contract ratio elim magnitude -> forall p k a b c e, Forall tame p ->
  nth_error p k = Some a -> nth_error p (S k) = Some b -> nth_error p (S (S k)) = Some c -> nth_error p (S (S (S k))) = Some e ->
  (forall j a' b' c', (j < k)%nat -> nth_error p j = Some a' -> nth_error p (S j) = Some b' -> nth_error p (S (S j)) = Some c' -> straight_turn a' b' c') -> clear_turn a b c ->
  exists r, is_path_ccw_f ratio elim magnitude p = Ok r /\ (r = true <-> 0 < turn a b c).
Proof. exact decides. Qed.
Print Assumptions C209_decides_partial.
(** An outline of which all turns are straight raises. *)
Theorem C209_raises_partial : forall ratio elim magnitude, det_contract ratio elim magnitude -> forall p, Forall tame p ->
  (forall j a b c e, nth_error p j = Some a -> nth_error p (S j) = Some b -> nth_error p (S (S j)) = Some c -> nth_error p (S (S (S j))) = Some e -> straight_turn a b c) ->
  is_path_ccw_f ratio elim magnitude p = Raise RuntimeError.
Proof. exact raises. Qed.
Print Assumptions C209_raises_partial.
(** Boxes of an area above the tolerance, both ways round. *)
Theorem C209_box : forall ratio elim magnitude x0 x1 y0 y1, det_contract ratio elim magnitude -> tame (x0, y0) -> tame (x1, y1) -> val x0 < val x1 -> val y0 < val y1 ->
  / 10 ^ 8 * (1 + / 2 ^ 19) <= (val x1 - val x0) * (val y1 - val y0) ->
  is_path_ccw_f ratio elim magnitude [(x0, y0); (x1, y0); (x1, y1); (x0, y1); (x0, y0)] = Ok true /\ is_path_ccw_f ratio elim magnitude [(x0, y0); (x0, y1); (x1, y1); (x1, y0); (x0, y0)] = Ok false.
Proof. exact box_ccw. Qed.
Print Assumptions C209_box.
(** A convex outline in metres, counter-clockwise by far more than the tolerance, that is taken for clockwise: its second point is nearly
    on the line from the first to the third. *)
Theorem C209_decides_refuted : exists a b c e, 0 < turn a b c /\ 0 < turn b c e /\ 0 < turn c e a /\ 0 < turn e a b /\ / 10 ^ 8 * 100 < turn a b c /\ Forall tame [a; b; c; e; a] /\
  (forall ratio elim magnitude, ratio = fdiv \/ ratio = by_reciprocal -> elim = plain_elim -> magnitude_contract magnitude -> is_path_ccw_f ratio elim magnitude [a; b; c; e; a] = Ok false).
Proof. exact outline_refuted. Qed.
Print Assumptions C209_decides_refuted.
(** With a nan among the first three abscissas the answer is clockwise, and nothing is raised. *)
Theorem C209_nan : forall ratio elim magnitude, det_contract ratio elim magnitude -> forall a b c e t,
  fst a = S754_nan \/ fst b = S754_nan \/ fst c = S754_nan /\ is_zero_f (fsub (fst b) (fst a)) = false -> is_path_ccw_f ratio elim magnitude (a :: b :: c :: e :: t) = Ok false.
Proof. exact nan_row. Qed.
Print Assumptions C209_nan.
(** Division, or multiplication by the reciprocal, and products rounded before the difference keep the contract. *)
Theorem C209_contract : det_contract fdiv plain_elim plain_magnitude /\ det_contract by_reciprocal plain_elim plain_magnitude.
Proof. exact plain_contract. Qed.
Print Assumptions C209_contract.

Example C209_case : Forall tame [m_a; (fst m_b, f_0); m_b; m_e; m_a] /\ clear_turn m_a (fst m_b, f_0) m_b /\ 0 < turn m_a (fst m_b, f_0) m_b /\ straight_turn m_a (f_one, f_one) (f_2, f_2).
Proof. exact clear_case. Qed.
