(** The Rossby filters near the pole (C106). *)
From Coq Require Import List Arith ZArith QArith Qabs Qreals Reals String.
From Verif Require Import M_Base M_Sdf M_Grid S_Grid M_Slope S_Slope P_Slope P_Slope2.
Import ListNotations.
Open Scope R_scope.

(** On a lattice that ends north of 89 degrees the call fails with TypeError exactly if the Rossby radius at some node is so large that the smoothing
    window of its block would reach the last column. *)
Theorem C106_pole_refuted : forall gauss d sx sy q barot z n m, array z n m -> (2 <= n)%nat -> (1 <= m)%nat -> sx <> 0 -> 0 < sy -> 0 < q ->
  (b2 (d_box d) < b3 (d_box d))%Q ->
  (b0 (d_box d) + inject_Z (Z.of_nat (n - 1)) * d_dx d <= 179)%Q ->
  (89 < b2 (d_box d) + inject_Z (Z.of_nat (m - 1)) * Qabs (d_dy d))%Q ->
  forall w, block_size n m (b3 (d_box d) - b2 (d_box d)) w ->
  (forall j s e, (j < m)%nat -> block_of w m j s e -> (2 <= e - s)%nat) ->
  (past_the_end (b2 (d_box d)) (Qabs (d_dy d)) m w (sy * q) barot (at_ z) n -> rossby_filter gauss d sx sy q barot z = Raise TypeError) /\
  (~ past_the_end (b2 (d_box d)) (Qabs (d_dy d)) m w (sy * q) barot (at_ z) n -> exists bs, rossby_filter gauss d sx sy q barot z = Ok bs).
Proof. exact rossby_pole. Qed.
Print Assumptions C106_pole_refuted.
Example C106_pole_case : forall gauss, rossby_filter gauss (shelf true polar_box) 100 100 50 true shelf_z = Raise TypeError.
Proof. exact pole_case. Qed.
