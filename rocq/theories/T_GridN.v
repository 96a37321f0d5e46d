(** Theorems about interpolation between values that are not finite (C71). *)
From Coq Require Import List Arith ZArith QArith.
From Verif Require Import M_Base M_Sdf M_Grid S_Grid S_GridN P_GridN.
Import ListNotations.
Open Scope Q_scope.

(** Inside a cell a missing corner value, or corner values of plus and minus infinity, give nan; infinities of one sign give that infinity. *)
Theorem C71_not_finite : forall g n m i j q, proper_grid g n m -> ~ global_box (g_bbox g) -> (S i < n)%nat -> (S j < m)%nat -> inside_cell g i j q ->
  let cs := corner_values g i j in
  (In NaN cs -> eval (build_interpolant g) q = Ok NaN) /\
  (In (Inf true) cs -> In (Inf false) cs -> eval (build_interpolant g) q = Ok NaN) /\
  (forall s, In (Inf s) cs -> ~ In NaN cs -> ~ In (Inf (negb s)) cs -> eval (build_interpolant g) q = Ok (Inf s)).
Proof. exact inside_eval. Qed.
Print Assumptions C71_not_finite.
(** The stored value is not reproduced at a node whose upper neighbours are not all finite: the result is nan. *)
Theorem C71_beside_infinite : forall g n m i j, proper_grid g n m -> ~ global_box (g_bbox g) -> (S i < n)%nat -> (S j < m)%nat ->
  ~ finite (value_at g i (S j)) \/ ~ finite (value_at g (S i) j) \/ ~ finite (value_at g (S i) (S j)) ->
  eval (build_interpolant g) (x_of g i, y_of g j) = Ok NaN.
Proof. exact node_beside. Qed.
Print Assumptions C71_beside_infinite.
Example C71_case_infinite : proper_grid gap_grid 3 2 /\ ~ global_box (g_bbox gap_grid) /\ inside_cell gap_grid 0 0 (1 # 2, 1 # 2) /\
  corner_values gap_grid 0 0 = [Fin 1; Inf true; Fin 2; Fin 3] /\ value_at gap_grid 0 0 = Fin 1 /\
  eval (build_interpolant gap_grid) (1 # 2, 1 # 2) = Ok (Inf true) /\ eval (build_interpolant gap_grid) (3 # 2, 1 # 2) = Ok NaN /\
  eval (build_interpolant gap_grid) (0, 0) = Ok NaN.
Proof. exact gap_case. Qed.
