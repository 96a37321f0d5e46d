(** Proofs about interpolation between values that are not finite. *)
From Coq Require Import List Arith Bool ZArith QArith Qabs Qround Lia Lqa.
From Verif Require Import M_Base M_Sdf P_Sdf M_Grid S_Grid S_GridN P_Grid.
Import ListNotations.
Open Scope Q_scope.

Lemma Qz_lt a b : inject_Z a < inject_Z b -> (a < b)%Z.
Proof. rewrite <- Zlt_Qlt. auto. Qed.

Lemma locate_inside lo d n x i : 0 < d -> (S i < n)%nat -> node lo d i < x < node lo d (S i) ->
  exists s, locate lo d n x = (i, s) /\ 0 < s < 1.
Proof.
  intros Hd Hi [H1 H2]. destruct (locate_spec lo d n x Hd) as (k & s & E & Hk & Hx & S0 & S1 & S2 & S3 & _); [lia|].
  unfold node in *. rewrite Hx in H1, H2.
  assert (A1 : inject_Z (Z.of_nat i) < inject_Z (Z.of_nat k) + s). { apply (Qmult_lt_r _ _ d Hd). lra. }
  assert (A2 : inject_Z (Z.of_nat k) + s < inject_Z (Z.of_nat (S i))). { apply (Qmult_lt_r _ _ d Hd). lra. }
  assert (Ei : inject_Z (Z.of_nat (S i)) == inject_Z (Z.of_nat i) + 1) by (rewrite Nat2Z.inj_succ; unfold Z.succ; rewrite inject_Z_plus; reflexivity).
  assert (P0 : 0 <= inject_Z (Z.of_nat i)) by (change 0 with (inject_Z 0); rewrite <- Zle_Qle; lia).
  assert (K0 : 0 <= s). { destruct S2 as [|Hk0]; auto. rewrite Hk0 in A1. change (inject_Z (Z.of_nat 0)) with 0 in A1. lra. }
  assert (K1 : s < 1).
  { destruct S3 as [|Ek]; auto. subst k. assert (L : inject_Z (Z.of_nat (S i)) <= inject_Z (Z.of_nat (n - 2)) + 1).
    { assert (inject_Z (Z.of_nat (n - 2)) + 1 == inject_Z (Z.of_nat (n - 2) + 1)) as -> by (rewrite inject_Z_plus; reflexivity). rewrite <- Zle_Qle. lia. }
    lra. }
  assert (k = i). { assert (Z.of_nat i < Z.of_nat k + 1)%Z. { apply Qz_lt. rewrite inject_Z_plus. change (inject_Z 1) with 1. lra. }
    assert (Z.of_nat k < Z.of_nat i + 1)%Z. { apply Qz_lt. rewrite inject_Z_plus. change (inject_Z 1) with 1. lra. } lia. }
  subst k. exists s. split; auto. split; [|lra]. lra.
Qed.

Lemma locate_node lo d n i : 0 < d -> (S i < n)%nat -> exists s, locate lo d n (node lo d i) = (i, s) /\ s == 0.
Proof.
  intros Hd Hi. destruct (locate_spec lo d n (node lo d i) Hd) as (k & s & E & Hk & _ & _ & _ & _ & S3 & Hn); [lia|].
  destruct (Hn i) as [[A B]|[A B]]; [lia|reflexivity|subst k; eauto|]. destruct S3 as [S3|S3]; [lra|]. subst. lia.
Qed.

Lemma eval_lin g n m q : proper_grid g n m -> ~ global_box (g_bbox g) -> covered g n m q ->
  eval (build_interpolant g) q = Ok (lin_value g (fst q) (snd q)).
Proof.
  intros Hp Hg Hc. assert (E : is_global g = false). { destruct (is_global g) eqn:E; auto. apply is_global_iff in E. contradiction. }
  unfold eval. rewrite build_fill.
  assert (Hl : lin_value (build_interpolant g) = lin_value g) by (unfold build_interpolant; rewrite E; reflexivity).
  assert (Ho : out_of_grid (build_interpolant g) = out_of_grid g) by (unfold build_interpolant; rewrite E; reflexivity).
  unfold with_fill. rewrite Hl, Ho. pose proof (covered_iff g n m (fst q) (snd q) Hp) as Hq. rewrite <- surjective_pairing in Hq.
  apply Hq in Hc. rewrite Hc. destruct (g_extra g); auto.
Qed.

Lemma node_le lo d i k : 0 < d -> (i <= k)%nat -> node lo d i <= node lo d k.
Proof.
  intros Hd H. unfold node. assert (inject_Z (Z.of_nat i) <= inject_Z (Z.of_nat k)) by (rewrite <- Zle_Qle; lia).
  assert (inject_Z (Z.of_nat i) * d <= inject_Z (Z.of_nat k) * d) by (apply Qmult_le_compat_r; lra). lra.
Qed.

Lemma pos_scale w a : 0 < w -> nscale w a = match a with Fin x => Fin (w * x) | x => x end.
Proof.
  intros H. destruct a; simpl; auto. destruct (Qeq_bool w 0) eqn:E; [apply Qeq_bool_iff in E; lra|].
  destruct (Qle_bool 0 w) eqn:L; auto. exfalso. assert (Qle_bool 0 w = true) by (apply Qle_bool_iff; lra). congruence.
Qed.

Lemma inside_eval g n m i j q : proper_grid g n m -> ~ global_box (g_bbox g) -> (S i < n)%nat -> (S j < m)%nat -> inside_cell g i j q ->
  let cs := corner_values g i j in
  (In NaN cs -> eval (build_interpolant g) q = Ok NaN) /\
  (In (Inf true) cs -> In (Inf false) cs -> eval (build_interpolant g) q = Ok NaN) /\
  (forall s, In (Inf s) cs -> ~ In NaN cs -> ~ In (Inf (negb s)) cs -> eval (build_interpolant g) q = Ok (Inf s)).
Proof.
  intros Hp Hg Hi Hj [Hx Hy]. assert (Hc : covered g n m q).
  { destruct Hp as (_ & _ & _ & Hdx & Hdy). unfold covered, x_of, y_of in *.
    pose proof (node_le (b0 (g_bbox g)) (g_dx g) 0 i Hdx ltac:(lia)). pose proof (node_le (b0 (g_bbox g)) (g_dx g) (S i) (n - 1) Hdx ltac:(lia)).
    pose proof (node_le (b2 (g_bbox g)) (g_dy g) 0 j Hdy ltac:(lia)). pose proof (node_le (b2 (g_bbox g)) (g_dy g) (S j) (m - 1) Hdy ltac:(lia)). lra. }
  rewrite (eval_lin g n m q Hp Hg Hc). destruct Hp as (Hs & Hn & Hm & Hdx & Hdy). destruct (shape_ny g n m Hs) as [En Em]; [lia|].
  destruct (locate_inside (b0 (g_bbox g)) (g_dx g) n (fst q) i Hdx Hi Hx) as (s & E1 & Hs0).
  destruct (locate_inside (b2 (g_bbox g)) (g_dy g) m (snd q) j Hdy Hj Hy) as (t & E2 & Ht0).
  unfold lin_value. rewrite En, Em, (Qabs_eq _ Hdy), E1, E2. unfold corner_values, value_at, cell.
  assert (P : forall a b, 0 < a -> 0 < b -> 0 < a * b) by (intros a b A B; apply Qmult_lt_0_compat; auto).
  rewrite !pos_scale by (apply P; lra).
  generalize (nth j (nth i (g_values g) []) NaN) (nth (S j) (nth i (g_values g) []) NaN) (nth j (nth (S i) (g_values g) []) NaN) (nth (S j) (nth (S i) (g_values g) []) NaN).
  intros a b c d. cbv zeta. simpl. split; [|split].
  - intros H. destruct a as [?|[]|], b as [?|[]|], c as [?|[]|], d as [?|[]|]; simpl; auto; exfalso; intuition discriminate.
  - intros H1 H2. destruct a as [?|[]|], b as [?|[]|], c as [?|[]|], d as [?|[]|]; simpl; auto; exfalso; intuition discriminate.
  - intros u H1 H2 H3. destruct u; destruct a as [?|[]|], b as [?|[]|], c as [?|[]|], d as [?|[]|]; simpl in *; auto; exfalso; intuition discriminate.
Qed.

Lemma zero_scale w a : w == 0 -> nscale w a = match a with Fin x => Fin (w * x) | _ => NaN end.
Proof. intros H. destruct a; simpl; auto. apply Qeq_bool_iff in H. now rewrite H. Qed.

Lemma node_beside g n m i j : proper_grid g n m -> ~ global_box (g_bbox g) -> (S i < n)%nat -> (S j < m)%nat ->
  ~ finite (value_at g i (S j)) \/ ~ finite (value_at g (S i) j) \/ ~ finite (value_at g (S i) (S j)) ->
  eval (build_interpolant g) (x_of g i, y_of g j) = Ok NaN.
Proof.
  intros Hp Hg Hi Hj H. assert (Hc : covered g n m (x_of g i, y_of g j)).
  { destruct Hp as (_ & _ & _ & Hdx & Hdy). unfold covered, x_of, y_of in *. cbn [fst snd].
    pose proof (node_le (b0 (g_bbox g)) (g_dx g) 0 i Hdx ltac:(lia)). pose proof (node_le (b0 (g_bbox g)) (g_dx g) i (n - 1) Hdx ltac:(lia)).
    pose proof (node_le (b2 (g_bbox g)) (g_dy g) 0 j Hdy ltac:(lia)). pose proof (node_le (b2 (g_bbox g)) (g_dy g) j (m - 1) Hdy ltac:(lia)). lra. }
  rewrite (eval_lin g n m _ Hp Hg Hc). destruct Hp as (Hs & Hn & Hm & Hdx & Hdy). destruct (shape_ny g n m Hs) as [En Em]; [lia|].
  destruct (locate_node (b0 (g_bbox g)) (g_dx g) n i Hdx Hi) as (s & E1 & Hs0).
  destruct (locate_node (b2 (g_bbox g)) (g_dy g) m j Hdy Hj) as (t & E2 & Ht0).
  unfold lin_value. cbn [fst snd]. unfold x_of, y_of. rewrite En, Em, (Qabs_eq _ Hdy), E1, E2. unfold value_at, cell in *.
  rewrite (zero_scale ((1 - s) * t)) by (rewrite Ht0; ring). rewrite (zero_scale (s * (1 - t))) by (rewrite Hs0; ring).
  rewrite (zero_scale (s * t)) by (rewrite Hs0; ring). rewrite (pos_scale ((1 - s) * (1 - t))) by (rewrite Hs0, Ht0; reflexivity).
  revert H.
  generalize (nth j (nth i (g_values g) []) NaN) (nth (S j) (nth i (g_values g) []) NaN) (nth j (nth (S i) (g_values g) []) NaN) (nth (S j) (nth (S i) (g_values g) []) NaN).
  intros a b c d H. unfold finite in H.
  destruct a as [?|[]|], b as [?|[]|], c as [?|[]|], d as [?|[]|]; simpl; auto; exfalso; destruct H as [H|[H|H]]; apply H; eauto.
Qed.

(** A grid with an unlimited size at one node and a missing one at another. *)
Definition gap_grid : grid :=
  {| g_bbox := (0, 2, 0, 1); g_dx := 1; g_dy := 1; g_values := [[Fin 1; Inf true]; [Fin 2; Fin 3]; [NaN; Fin 5]]; g_hmin := None; g_extra := false; g_crs := 0%nat; g_fill := None |}.
Lemma gap_case : proper_grid gap_grid 3 2 /\ ~ global_box (g_bbox gap_grid) /\ inside_cell gap_grid 0 0 (1 # 2, 1 # 2) /\
  corner_values gap_grid 0 0 = [Fin 1; Inf true; Fin 2; Fin 3] /\ value_at gap_grid 0 0 = Fin 1 /\
  eval (build_interpolant gap_grid) (1 # 2, 1 # 2) = Ok (Inf true) /\ eval (build_interpolant gap_grid) (3 # 2, 1 # 2) = Ok NaN /\
  eval (build_interpolant gap_grid) (0, 0) = Ok NaN.
Proof.
  split; [repeat split; simpl; try lia; try lra; repeat constructor|]. split; [intros H; destruct H; discriminate|].
  split; [split; split; reflexivity|]. repeat split.
Qed.
