(** Proofs about grids. *)
From Coq Require Import List Arith Bool ZArith QArith Qabs Qround Lia Lqa.
From Verif Require Import M_Base M_Sdf P_Sdf M_Grid S_Grid.
Import ListNotations.
Open Scope Q_scope.

Lemma inject_Z_minus a b : inject_Z (a - b) == inject_Z a - inject_Z b.
Proof. unfold Z.sub, Qminus. rewrite inject_Z_plus, inject_Z_opp. reflexivity. Qed.
Lemma Qabs_eq q : 0 < q -> Qabs q = q.
Proof. destruct q as [n d]. unfold Qlt, Qabs. simpl. intros H. f_equal. apply Z.abs_eq. lia. Qed.

(** * Locating a point *)
Lemma locate_spec lo d n x : 0 < d -> (2 <= n)%nat ->
  exists i s, locate lo d n x = (i, s) /\ (S i < n)%nat /\ x == lo + (inject_Z (Z.of_nat i) + s) * d /\
    (lo <= x -> 0 <= s) /\ (x <= lo + inject_Z (Z.of_nat n - 1) * d -> s <= 1) /\
    (0 <= s \/ i = 0%nat) /\ (s < 1 \/ i = (n - 2)%nat) /\
    (forall k, (k < n)%nat -> x == node lo d k -> (s == 0 /\ i = k) \/ (s == 1 /\ S i = k)).
Proof.
  intros Hd Hn. unfold locate. set (w := (x - lo) / d). set (f := Qfloor w).
  set (i := Z.to_nat (Z.max 0 (Z.min f (Z.of_nat n - 2)))). exists i, ((x - (lo + inject_Z (Z.of_nat i) * d)) / d).
  assert (Hw : x == lo + w * d) by (unfold w; field; lra).
  assert (Hs : (x - (lo + inject_Z (Z.of_nat i) * d)) / d == w - inject_Z (Z.of_nat i)) by (unfold w; field; lra).
  set (s := (x - (lo + inject_Z (Z.of_nat i) * d)) / d) in *.
  assert (Hf1 : inject_Z f <= w) by apply Qfloor_le. assert (Hf2 : w < inject_Z (f + 1)) by apply Qlt_floor.
  assert (Hi : Z.of_nat i = Z.max 0 (Z.min f (Z.of_nat n - 2))) by (unfold i; lia).
  assert (Hin : (S i < n)%nat) by lia.
  assert (Hlow : lo <= x -> 0 <= w).
  { intros H. unfold w. apply Qle_shift_div_l; [exact Hd|]. lra. }
  assert (Hhigh : x <= lo + inject_Z (Z.of_nat n - 1) * d -> w <= inject_Z (Z.of_nat n - 1)).
  { intros H. unfold w. apply Qle_shift_div_r; [exact Hd|]. lra. }
  assert (Hpos : 0 <= w -> 0 <= s).
  { intros H. rewrite Hs. assert (Hle : (Z.of_nat i <= f)%Z).
    { assert (0 <= f)%Z; [|lia]. apply Qfloor_resp_le in H. exact H. }
    rewrite Zle_Qle in Hle. lra. }
  assert (Hle1 : w <= inject_Z (Z.of_nat n - 1) -> s <= 1).
  { intros H. rewrite Hs. destruct (Z_le_gt_dec f (Z.of_nat n - 2)) as [Hc|Hc].
    - assert (Hle : (f <= Z.of_nat i)%Z) by lia. rewrite Zle_Qle in Hle. rewrite inject_Z_plus in Hf2. change (inject_Z 1) with 1 in Hf2. lra.
    - assert (Z.of_nat i = Z.of_nat n - 2)%Z as -> by lia.
      rewrite inject_Z_minus in *. change (inject_Z 2) with 2. change (inject_Z 1) with 1 in H. lra. }
  assert (Hlt1 : s < 1 \/ i = (n - 2)%nat).
  { destruct (Z_le_gt_dec f (Z.of_nat n - 2)) as [Hc|Hc]; [left|right; lia].
    rewrite Hs. assert (Hle : (f <= Z.of_nat i)%Z) by lia. rewrite Zle_Qle in Hle.
    rewrite inject_Z_plus in Hf2. change (inject_Z 1) with 1 in Hf2. lra. }
  assert (Hge0 : 0 <= s \/ i = 0%nat).
  { destruct (Z_le_gt_dec 0 f) as [Hc|Hc]; [left|right; lia]. apply Hpos. rewrite Zle_Qle in Hc. change (inject_Z 0) with 0 in Hc. lra. }
  split; [reflexivity|]. split; [exact Hin|]. split; [rewrite Hs; lra|].
  split; [auto|]. split; [auto|]. split; [auto|]. split; [auto|].
  intros k Hk Hx. unfold node in Hx.
  assert (Hwk : w == inject_Z (Z.of_nat k)).
  { unfold w. rewrite Hx. field. lra. }
  assert (Hfk : f = Z.of_nat k).
  { unfold f. rewrite (Qfloor_comp _ _ Hwk). apply Qfloor_Z. }
  destruct (Nat.eq_dec k (n - 1)) as [E|E].
  - right. assert (S i = k) by lia. split; [|assumption]. rewrite Hs, Hwk. subst k.
    assert (Z.of_nat (n - 1) = Z.of_nat i + 1)%Z as -> by lia. rewrite inject_Z_plus. change (inject_Z 1) with 1. ring.
  - left. assert (i = k) by lia. split; [|assumption]. rewrite Hs, Hwk. subst i. rewrite H. ring.
Qed.

Lemma near_index_spec lo d n x : 0 < d -> (2 <= n)%nat -> nearest_node lo d n x (near_index lo d n x).
Proof.
  intros Hd Hn. destruct (locate_spec lo d n x Hd Hn) as (i & s & E & Hi & Hx & _ & _ & H0 & H1 & _).
  unfold near_index. rewrite E. unfold nearest_node, node.
  (* distances in units of d *)
  assert (Hdist : forall b, Qabs (x - (lo + inject_Z (Z.of_nat b) * d)) == Qabs (inject_Z (Z.of_nat i) + s - inject_Z (Z.of_nat b)) * d).
  { intros b. rewrite Hx. rewrite <- (Qabs_pos d) at 3 by lra. rewrite <- Qabs_Qmult. apply Qabs_wd. ring. }
  assert (Hb : forall b, (b <= i)%nat \/ (S i <= b)%nat) by (intros; lia).
  destruct (Qle_bool s (1 # 2)) eqn:Es.
  - apply Qle_bool_iff in Es. split; [lia|]. intros b Hbn. rewrite !Hdist. apply Qmult_le_compat_r; [|lra].
    setoid_replace (inject_Z (Z.of_nat i) + s - inject_Z (Z.of_nat i)) with s by ring.
    destruct (Hb b) as [Hle|Hle].
    + destruct (Nat.eq_dec b i) as [->|Hne].
      * setoid_replace (inject_Z (Z.of_nat i) + s - inject_Z (Z.of_nat i)) with s by ring. apply Qle_refl.
      * assert (Hs0 : 0 <= s) by (destruct H0; [assumption|lia]).
        assert (Hq : inject_Z (Z.of_nat b) <= inject_Z (Z.of_nat i)) by (rewrite <- Zle_Qle; lia).
        rewrite !Qabs_pos by lra. lra.
    + assert (Hq : inject_Z (Z.of_nat i) + 1 <= inject_Z (Z.of_nat b)).
      { change 1 with (inject_Z 1). rewrite <- inject_Z_plus, <- Zle_Qle. lia. }
      rewrite (Qabs_neg (inject_Z (Z.of_nat i) + s - inject_Z (Z.of_nat b))) by lra.
      apply Qabs_Qle_condition. split; lra.
  - assert (Hs : 1 # 2 < s). { apply Qnot_le_lt. intros Hc. apply Qle_bool_iff in Hc. congruence. }
    split; [lia|]. intros b Hbn. rewrite !Hdist. apply Qmult_le_compat_r; [|lra].
    assert (Hi1 : inject_Z (Z.of_nat (S i)) == inject_Z (Z.of_nat i) + 1).
    { change 1 with (inject_Z 1). rewrite <- inject_Z_plus. rewrite Nat2Z.inj_succ. reflexivity. }
    rewrite Hi1. setoid_replace (inject_Z (Z.of_nat i) + s - (inject_Z (Z.of_nat i) + 1)) with (s - 1) by ring.
    destruct (Hb b) as [Hle|Hle].
    + assert (Hq : inject_Z (Z.of_nat b) <= inject_Z (Z.of_nat i)) by (rewrite <- Zle_Qle; lia).
      rewrite (Qabs_pos (inject_Z (Z.of_nat i) + s - inject_Z (Z.of_nat b))) by lra.
      apply Qabs_Qle_condition. split; lra.
    + destruct (Nat.eq_dec b (S i)) as [->|Hne].
      * rewrite Hi1. setoid_replace (inject_Z (Z.of_nat i) + s - (inject_Z (Z.of_nat i) + 1)) with (s - 1) by ring. apply Qle_refl.
      * assert (Hs1 : s < 1) by (destruct H1; [assumption|lia]).
        assert (Hq : inject_Z (Z.of_nat i) + 1 <= inject_Z (Z.of_nat b)).
        { change 1 with (inject_Z 1). rewrite <- inject_Z_plus, <- Zle_Qle. lia. }
        rewrite !Qabs_neg by lra. lra.
Qed.

Lemma outside_spec lo d n x : outside lo d n x = false <-> lo <= x <= lo + inject_Z (Z.of_nat n - 1) * d.
Proof.
  unfold outside. rewrite orb_false_iff, !negb_false_iff, !Qle_bool_iff. reflexivity.
Qed.

(** * Shapes *)
Lemma shape_ny g n m : shape (g_values g) n m -> (0 < n)%nat -> nx g = n /\ ny g = m.
Proof.
  intros [H1 H2] Hn. unfold nx, ny. split; auto. destruct (g_values g) as [|r v]; simpl in *; [lia|]. now inversion H2.
Qed.

Lemma node_at lo d k : node lo d k == lo + inject_Z (Z.of_nat k) * d.
Proof. reflexivity. Qed.

(** * Linear interpolation *)
Lemma convex s a b lo hi : 0 <= s <= 1 -> lo <= a <= hi -> lo <= b <= hi -> lo <= (1 - s) * a + s * b <= hi.
Proof.
  intros Hs Ha Hb.
  assert (P : forall u v, 0 <= u -> 0 <= v -> 0 <= u * v) by (intros; apply Qmult_le_0_compat; auto).
  pose proof (P (1 - s) (a - lo)). pose proof (P s (b - lo)). pose proof (P (1 - s) (hi - a)). pose proof (P s (hi - b)).
  assert (E1 : (1 - s) * a + s * b == (1 - s) * (a - lo) + s * (b - lo) + lo) by ring.
  assert (E2 : (1 - s) * a + s * b == hi - ((1 - s) * (hi - a) + s * (hi - b))) by ring.
  split; [rewrite E1|rewrite E2]; lra.
Qed.

Lemma lin_eq g x y i s j t a b c d :
  locate (b0 (g_bbox g)) (g_dx g) (nx g) x = (i, s) -> locate (b2 (g_bbox g)) (Qabs (g_dy g)) (ny g) y = (j, t) ->
  value_at g i j = Fin a -> value_at g i (S j) = Fin b -> value_at g (S i) j = Fin c -> value_at g (S i) (S j) = Fin d ->
  exists r, lin_value g x y = Fin r /\ r == (1 - s) * ((1 - t) * a + t * b) + s * ((1 - t) * c + t * d).
Proof.
  intros E1 E2 Ha Hb Hc Hd. unfold lin_value. rewrite E1, E2. unfold cell. unfold value_at in *.
  rewrite Ha, Hb, Hc, Hd. cbn [nscale nadd]. eexists. split; [reflexivity|]. ring.
Qed.

Lemma lin_range g n m lo hi q : proper_grid g n m ->
  all_cells (fun a => exists v, a = Fin v /\ lo <= v <= hi) g n m -> covered g n m q ->
  exists r, lin_value g (fst q) (snd q) = Fin r /\ lo <= r <= hi.
Proof.
  intros (Hs & Hn & Hm & Hdx & Hdy) Hc [[Hx1 Hx2] [Hy1 Hy2]]. destruct (shape_ny g n m Hs) as [En Em]; [lia|].
  unfold x_of, y_of, node in *. cbn [Z.of_nat] in Hx1, Hy1. change (inject_Z 0) with 0 in Hx1, Hy1.
  destruct (locate_spec (b0 (g_bbox g)) (g_dx g) n (fst q) Hdx Hn) as (i & s & E1 & Hi & _ & S0 & S1 & _).
  destruct (locate_spec (b2 (g_bbox g)) (g_dy g) m (snd q) Hdy Hm) as (j & t & E2 & Hj & _ & T0 & T1 & _).
  destruct (Hc i j) as (a & Ha & Ra); try lia. destruct (Hc i (S j)) as (b & Hb & Rb); try lia.
  destruct (Hc (S i) j) as (c & Hcc & Rc); try lia. destruct (Hc (S i) (S j)) as (d & Hd & Rd); try lia.
  destruct (lin_eq g (fst q) (snd q) i s j t a b c d) as (r & Er & Hr); auto; try (now rewrite ?En, ?Em, ?(Qabs_eq _ Hdy)).
  exists r. split; auto. rewrite Hr. apply convex.
  - split; [apply S0; lra|]. apply S1. assert (Z.of_nat n - 1 = Z.of_nat (n - 1))%Z as -> by lia. exact Hx2.
  - apply convex; auto. split; [apply T0; lra|]. apply T1. assert (Z.of_nat m - 1 = Z.of_nat (m - 1))%Z as -> by lia. exact Hy2.
  - apply convex; auto. split; [apply T0; lra|]. apply T1. assert (Z.of_nat m - 1 = Z.of_nat (m - 1))%Z as -> by lia. exact Hy2.
Qed.

Lemma lin_node g n m i j : proper_grid g n m -> all_cells finite g n m -> (i < n)%nat -> (j < m)%nat ->
  same_num (lin_value g (x_of g i) (y_of g j)) (value_at g i j).
Proof.
  intros (Hs & Hn & Hm & Hdx & Hdy) Hc Hi Hj. destruct (shape_ny g n m Hs) as [En Em]; [lia|].
  destruct (locate_spec (b0 (g_bbox g)) (g_dx g) n (x_of g i) Hdx Hn) as (i' & s & E1 & Hi' & _ & _ & _ & _ & _ & Hs').
  destruct (locate_spec (b2 (g_bbox g)) (g_dy g) m (y_of g j) Hdy Hm) as (j' & t & E2 & Hj' & _ & _ & _ & _ & _ & Ht').
  destruct (Hc i' j') as (a & Ha); try lia. destruct (Hc i' (S j')) as (b & Hb); try lia.
  destruct (Hc (S i') j') as (c & Hcc); try lia. destruct (Hc (S i') (S j')) as (d & Hd); try lia.
  destruct (lin_eq g (x_of g i) (y_of g j) i' s j' t a b c d) as (r & Er & Hr); auto; try (now rewrite ?En, ?Em, ?(Qabs_eq _ Hdy)).
  rewrite Er.
  destruct (Hs' i Hi (Qeq_refl _)) as [[S1 <-]|[S1 <-]]; destruct (Ht' j Hj (Qeq_refl _)) as [[T1 <-]|[T1 <-]];
    [rewrite Ha|rewrite Hb|rewrite Hcc|rewrite Hd]; simpl; rewrite Hr, S1, T1; ring.
Qed.

(** * build_interpolant *)
Lemma swap_ends_length {A} (l : list A) : length (swap_ends l) = length l.
Proof.
  destruct l as [|x r]; auto. simpl. destruct (rev r) as [|z k] eqn:E.
  - apply (f_equal (@length A)) in E. rewrite rev_length in E. simpl in *. lia.
  - apply (f_equal (@length A)) in E. rewrite rev_length in E. simpl in *. rewrite app_length, rev_length. simpl. lia.
Qed.
Lemma swap_ends_shape {A} (l : list A) : (2 <= length l)%nat -> exists x k z, l = x :: k ++ [z] /\ swap_ends l = z :: k ++ [x].
Proof.
  destruct l as [|x r]; simpl; [lia|]. intros H. destruct (rev r) as [|z k] eqn:E.
  - apply (f_equal (@length A)) in E. rewrite rev_length in E. simpl in E. lia.
  - exists x, (rev k), z. split; auto. f_equal. rewrite <- (rev_involutive r), E. reflexivity.
Qed.
Lemma swap_ends_swap {A} (x z : A) k : swap_ends (x :: k ++ [z]) = z :: k ++ [x].
Proof. simpl. rewrite rev_app_distr. simpl. now rewrite rev_involutive. Qed.
Lemma swap_ends_invol {A} (l : list A) : swap_ends (swap_ends l) = l.
Proof.
  destruct (le_lt_dec 2 (length l)) as [H|H].
  - destruct (swap_ends_shape l H) as (x & k & z & -> & E). rewrite E. apply swap_ends_swap.
  - destruct l as [|x [|y l]]; simpl in *; auto; lia.
Qed.
Lemma swap_ends_nth {A} (l : list A) i d : (2 <= length l)%nat -> (i < length l)%nat ->
  nth i (swap_ends l) d = nth (if i =? 0 then length l - 1 else if i =? length l - 1 then 0 else i)%nat l d.
Proof.
  intros H Hi. destruct (swap_ends_shape l H) as (x & k & z & -> & ->).
  simpl length in *. rewrite app_length in *. simpl in *.
  replace (length k + 1 - 0)%nat with (S (length k)) by lia.
  destruct i as [|i].
  - simpl. rewrite app_nth2 by lia. now rewrite Nat.sub_diag.
  - change (S i =? 0)%nat with false. cbv iota. destruct (Nat.eqb_spec (S i) (S (length k))) as [E|E].
    + assert (i = length k) as -> by lia. simpl. rewrite app_nth2 by lia. now rewrite Nat.sub_diag.
    + simpl. rewrite !app_nth1 by lia. reflexivity.
Qed.

Lemma is_global_iff g : is_global g = true <-> global_box (g_bbox g).
Proof. unfold is_global, global_box. rewrite andb_true_iff, !Qeq_bool_iff. reflexivity. Qed.
Lemma build_values g : g_values (build_interpolant g) = if is_global g then swap_ends (g_values g) else g_values g.
Proof. unfold build_interpolant. destruct (is_global g); reflexivity. Qed.
Lemma build_bbox g : g_bbox (build_interpolant g) = g_bbox g.
Proof. unfold build_interpolant. destruct (is_global g); reflexivity. Qed.
Lemma build_fill g : g_fill (build_interpolant g) = Some (if g_extra g then None else Some (Fin 999999)).
Proof. unfold build_interpolant. destruct (is_global g); reflexivity. Qed.
Lemma build_global g : is_global (build_interpolant g) = is_global g.
Proof. unfold is_global. now rewrite build_bbox. Qed.
Lemma build_fields g : g_dx (build_interpolant g) = g_dx g /\ g_dy (build_interpolant g) = g_dy g /\ g_extra (build_interpolant g) = g_extra g
  /\ g_hmin (build_interpolant g) = g_hmin g /\ g_crs (build_interpolant g) = g_crs g.
Proof. unfold build_interpolant. destruct (is_global g); repeat split; reflexivity. Qed.

Fixpoint builds (k : nat) (g : grid) : grid := match k with O => g | S k' => build_interpolant (builds k' g) end.

(** Not a global box: building any number of times (at least once) is the same as building once. *)
Lemma builds_local g k : ~ global_box (g_bbox g) -> (1 <= k)%nat -> builds k g = build_interpolant g.
Proof.
  intros Hg Hk. assert (E : is_global g = false). { destruct (is_global g) eqn:E; auto. apply is_global_iff in E. contradiction. }
  induction k as [|k IH]; [lia|]. destruct k as [|k]; [reflexivity|]. cbn [builds] in *. rewrite IH by lia.
  unfold build_interpolant at 1. rewrite build_global, E. destruct (build_fields g) as (_ & _ & -> & _).
  unfold build_interpolant. rewrite E. reflexivity.
Qed.
(** A global box: the values alternate. *)
Lemma builds_global g k : global_box (g_bbox g) ->
  g_values (builds k g) = if Nat.even k then g_values g else swap_ends (g_values g).
Proof.
  intros Hg. apply is_global_iff in Hg.
  assert (Hgk : forall k, is_global (builds k g) = true) by (induction k0; [exact Hg|cbn [builds]; now rewrite build_global]).
  induction k as [|k IH]; [reflexivity|]. cbn [builds]. rewrite build_values, Hgk, IH.
  rewrite Nat.even_succ, <- Nat.negb_even. destruct (Nat.even k); simpl; auto. apply swap_ends_invol.
Qed.

Lemma proper_build g n m : proper_grid g n m -> proper_grid (build_interpolant g) n m.
Proof.
  intros (Hs & Hn & Hm & Hdx & Hdy). destruct (build_fields g) as (E1 & E2 & _). unfold proper_grid. rewrite E1, E2.
  split; [|auto]. rewrite build_values. destruct (is_global g); auto. destruct Hs as [H1 H2]. split; [now rewrite swap_ends_length|].
  rewrite Forall_forall in *. intros r Hr. apply H2. destruct (swap_ends_shape (g_values g)) as (x & k & z & F1 & F2); [lia|].
  rewrite F2 in Hr. rewrite F1. simpl in *. rewrite in_app_iff in *. simpl in *. tauto.
Qed.

(** What the interpolant gives at the nodes after one build. *)
Lemma build_nodes g n m i j : proper_grid g n m -> all_cells finite g n m -> (i < n)%nat -> (j < m)%nat ->
  exists v, eval (build_interpolant g) (x_of g i, y_of g j) = Ok v /\
    same_num v (value_at g (if is_global g then if i =? 0 then n - 1 else if i =? n - 1 then 0 else i else i)%nat j).
Proof.
  intros Hp Hc Hi Hj. assert (Hp' := proper_build g n m Hp).
  assert (Hv : forall i j, (i < n)%nat -> value_at (build_interpolant g) i j = value_at g (if is_global g then if i =? 0 then n - 1 else if i =? n - 1 then 0 else i else i)%nat j).
  { intros i0 j0 Hi0. unfold value_at. rewrite build_values. destruct (is_global g); auto.
    destruct Hp as ((Hl & _) & Hn & _). rewrite swap_ends_nth by lia. now rewrite Hl. }
  assert (Hc' : all_cells finite (build_interpolant g) n m).
  { intros i0 j0 Hi0 Hj0. rewrite Hv by exact Hi0. apply Hc; auto. destruct Hp as (_ & Hn & _).
    destruct (is_global g); auto. destruct (i0 =? 0)%nat; [lia|]. destruct (i0 =? n - 1)%nat; lia. }
  assert (Hx : x_of (build_interpolant g) i = x_of g i) by (unfold x_of; now rewrite build_bbox, (proj1 (build_fields g))).
  assert (Hy : y_of (build_interpolant g) j = y_of g j) by (unfold y_of; now rewrite build_bbox, (proj1 (proj2 (build_fields g)))).
  pose proof (lin_node _ _ _ i j Hp' Hc' Hi Hj) as Hl. rewrite Hx, Hy, Hv in Hl by exact Hi.
  unfold eval. rewrite build_fill. eexists. split; [reflexivity|]. cbn [fst snd].
  replace (with_fill _ _ _ _ _) with (lin_value (build_interpolant g) (x_of g i) (y_of g j)); [exact Hl|].
  unfold with_fill. destruct (g_extra g); auto.
  assert (Ho : out_of_grid (build_interpolant g) (x_of g i) (y_of g j) = false); [|now rewrite Ho].
  destruct Hp' as (Hs & Hn & Hm & Hdx & Hdy). destruct (shape_ny _ n m Hs) as [En Em]; [lia|].
  unfold out_of_grid. rewrite En, Em, (Qabs_eq _ Hdy). rewrite orb_false_iff, !outside_spec.
  rewrite <- Hx, <- Hy. unfold x_of, y_of, node.
  assert (Z1 : forall k a d, (k < a)%nat -> 0 < d -> 0 <= inject_Z (Z.of_nat k) * d /\ inject_Z (Z.of_nat k) * d <= inject_Z (Z.of_nat a - 1) * d).
  { intros k a d Hk Hd. split.
    - apply Qmult_le_0_compat; [|lra]. change 0 with (inject_Z 0). rewrite <- Zle_Qle. lia.
    - apply Qmult_le_compat_r; [|lra]. rewrite <- Zle_Qle. lia. }
  pose proof (Z1 i n _ Hi Hdx). pose proof (Z1 j m _ Hj Hdy). lra.
Qed.

(** * The bilinear form *)
Lemma bilinear g n m q : proper_grid g n m -> all_cells finite g n m ->
  exists v, lin_value g (fst q) (snd q) = Fin v /\ bilinear_at g n m q v.
Proof.
  intros (Hs & Hn & Hm & Hdx & Hdy) Hc. destruct (shape_ny g n m Hs) as [En Em]; [lia|].
  destruct (locate_spec (b0 (g_bbox g)) (g_dx g) n (fst q) Hdx Hn) as (i & s & E1 & Hi & Hx & S0 & S1 & _).
  destruct (locate_spec (b2 (g_bbox g)) (g_dy g) m (snd q) Hdy Hm) as (j & t & E2 & Hj & Hy & T0 & T1 & _).
  destruct (Hc i j) as (a & Ha); try lia. destruct (Hc i (S j)) as (b & Hb); try lia.
  destruct (Hc (S i) j) as (c & Hcc); try lia. destruct (Hc (S i) (S j)) as (d & Hd); try lia.
  destruct (lin_eq g (fst q) (snd q) i s j t a b c d) as (r & Er & Hr); auto; try (now rewrite ?En, ?Em, ?(Qabs_eq _ Hdy)).
  exists r. split; auto. exists i, j, s, t, a, b, c, d.
  assert (Hk : forall k, inject_Z (Z.of_nat (S k)) == inject_Z (Z.of_nat k) + 1).
  { intros k. change 1 with (inject_Z 1). rewrite <- inject_Z_plus. rewrite Nat2Z.inj_succ. reflexivity. }
  repeat split; auto.
  - rewrite Hx. unfold x_of, node. rewrite (Hk i). ring.
  - rewrite Hy. unfold y_of, node. rewrite (Hk j). ring.
  - apply S0. destruct H as [[H _] _]. unfold x_of, node in H. simpl in H. change (inject_Z 0) with 0 in H. lra.
  - apply S1. destruct H as [[_ H] _]. unfold x_of, node in H. assert (Z.of_nat n - 1 = Z.of_nat (n - 1))%Z as -> by lia. exact H.
  - apply T0. destruct H as [_ [H _]]. unfold y_of, node in H. simpl in H. change (inject_Z 0) with 0 in H. lra.
  - apply T1. destruct H as [_ [_ H]]. unfold y_of, node in H. assert (Z.of_nat m - 1 = Z.of_nat (m - 1))%Z as -> by lia. exact H.
  - rewrite Hr. ring.
Qed.

Lemma covered_iff g n m x y : proper_grid g n m -> (out_of_grid g x y = false <-> covered g n m (x, y)).
Proof.
  intros (Hs & Hn & Hm & Hdx & Hdy). destruct (shape_ny _ n m Hs) as [En Em]; [lia|].
  unfold out_of_grid. rewrite En, Em, (Qabs_eq _ Hdy). rewrite orb_false_iff, !outside_spec.
  unfold covered, x_of, y_of, node. cbn [fst snd Z.of_nat]. change (inject_Z 0) with 0.
  replace (Z.of_nat (n - 1)) with (Z.of_nat n - 1)%Z by lia. replace (Z.of_nat (m - 1)) with (Z.of_nat m - 1)%Z by lia.
  split; intros [[] []]; repeat split; lra.
Qed.

Lemma covered_build g n m q : covered (build_interpolant g) n m q <-> covered g n m q.
Proof.
  unfold covered, x_of, y_of. rewrite build_bbox. destruct (build_fields g) as (-> & -> & _). reflexivity.
Qed.

Lemma eval_local g n m q : proper_grid g n m -> all_cells finite g n m -> ~ global_box (g_bbox g) ->
  (g_extra g = true \/ covered g n m q -> exists v, eval (build_interpolant g) q = Ok (Fin v) /\ bilinear_at g n m q v) /\
  (g_extra g = false -> ~ covered g n m q -> eval (build_interpolant g) q = Ok (Fin 999999)).
Proof.
  intros Hp Hc Hg. assert (E : is_global g = false). { destruct (is_global g) eqn:E; auto. apply is_global_iff in E. contradiction. }
  unfold eval. rewrite build_fill.
  assert (Hl : lin_value (build_interpolant g) = lin_value g) by (unfold build_interpolant; rewrite E; reflexivity).
  assert (Ho : out_of_grid (build_interpolant g) = out_of_grid g) by (unfold build_interpolant; rewrite E; reflexivity).
  unfold with_fill. rewrite Hl, Ho. destruct (bilinear g n m q Hp Hc) as (v & Hv & Hb).
  pose proof (covered_iff g n m (fst q) (snd q) Hp) as Hq. rewrite <- surjective_pairing in Hq. split.
  - intros H. exists v. split; auto. rewrite Hv. destruct (g_extra g); auto.
    destruct H as [H|H]; [discriminate|]. apply Hq in H. now rewrite H.
  - intros H1 H2. rewrite H1. destruct (out_of_grid g (fst q) (snd q)) eqn:Eo; auto. exfalso. now apply H2, Hq.
Qed.

(** * Minimum of floats *)
Lemma nleq_refl a : a <> NaN -> nleq a a.
Proof. destruct a as [q|[]|]; simpl; intros; try lra; auto; congruence. Qed.
Lemma nleq_trans a b c : nleq a b -> nleq b c -> nleq a c.
Proof. destruct a as [q|[]|], b as [r|[]|], c as [s|[]|]; simpl; intros; try lra; auto; contradiction. Qed.
Lemma nlt_nleq a b : nlt a b = true -> nleq a b.
Proof.
  destruct a as [q|[]|], b as [r|[]|]; simpl; intros; auto; try discriminate.
  apply negb_true_iff in H. assert (~ r <= q) by (intros Hc; apply Qle_bool_iff in Hc; congruence). lra.
Qed.
Lemma nlt_false a b : nlt b a = false -> a <> NaN -> b <> NaN -> nleq a b.
Proof.
  destruct a as [q|[]|], b as [r|[]|]; simpl; intros; auto; try discriminate; try congruence.
  apply negb_false_iff in H. now apply Qle_bool_iff.
Qed.
Lemma nmin_nan a b : nmin a b = NaN <-> a = NaN \/ b = NaN.
Proof.
  unfold nmin. split.
  - destruct (is_nan a || is_nan b) eqn:E.
    + intros _. destruct a, b; auto; discriminate.
    + destruct (nlt b a); intros ->; destruct a || destruct b; discriminate.
  - intros [-> | ->]; simpl; auto. now rewrite orb_true_r.
Qed.
Lemma nmin_cases a b : a <> NaN -> b <> NaN -> (nmin a b = a \/ nmin a b = b) /\ nleq (nmin a b) a /\ nleq (nmin a b) b.
Proof.
  intros Ha Hb. assert (E : is_nan a || is_nan b = false) by (destruct a, b; try congruence; reflexivity).
  unfold nmin. rewrite E. destruct (nlt b a) eqn:El.
  - split; auto. split; [now apply nlt_nleq|now apply nleq_refl].
  - split; auto. split; [now apply nleq_refl|now apply nlt_false].
Qed.
Lemma classic_nan (a : num) : a = NaN \/ a <> NaN.
Proof. destruct a; auto; right; discriminate. Qed.
Lemma fold_nmin l : forall a, is_minimum (fold_left nmin l a) (a :: l).
Proof.
  assert (Hnan : forall l, fold_left nmin l NaN = NaN).
  { induction l0 as [|b l0 IH]; simpl; auto. }
  induction l as [|b l IH]; intros a; simpl.
  - destruct (classic_nan a) as [Ha|Ha]; [left|right].
    + split; auto. now left.
    + split; [intros [E|[]]; contradiction|]. split; [now left|]. intros x [<-|[]]. now apply nleq_refl.
  - destruct (classic_nan a) as [Ha|Ha]; [|destruct (classic_nan b) as [Hb|Hb]].
    + left. subst. split; [now left|]. unfold nmin. simpl. apply Hnan.
    + left. subst b. split; [right; now left|]. replace (nmin a NaN) with NaN; [apply Hnan|]. symmetry. apply nmin_nan. auto.
    + destruct (nmin_cases a b Ha Hb) as (Hor & L1 & L2).
      assert (Hn : nmin a b <> NaN) by (rewrite nmin_nan; tauto).
      destruct (IH (nmin a b)) as [[Hin Hm]|(Hin & Hm & Hle)].
      * left. split; auto. destruct Hin as [Hin|Hin]; [congruence|simpl; auto].
      * right. split; [|split].
        -- simpl in *. tauto.
        -- destruct Hm as [<-|Hm]; [|simpl; auto]. destruct Hor as [->| ->]; simpl; auto.
        -- intros x [<-|[<-|Hx]]; [eapply nleq_trans; [apply Hle; now left|auto]..|apply Hle; now right].
Qed.

(** * compute_minimum *)
Lemma tabulate_shape n m f : shape (tabulate n m f) n m.
Proof.
  unfold tabulate. split; [now rewrite map_length, seq_length|]. apply Forall_forall. intros r Hr. apply in_map_iff in Hr.
  destruct Hr as (i & <- & _). now rewrite map_length, seq_length.
Qed.
Lemma tabulate_cell n m f i j : (i < n)%nat -> (j < m)%nat -> cell (tabulate n m f) i j = f i j.
Proof.
  intros Hi Hj. unfold cell, tabulate.
  rewrite (nth_indep _ [] (map (fun j => f 0%nat j) (seq 0 m))) by now rewrite map_length, seq_length.
  rewrite (map_nth (fun i => map (fun j => f i j) (seq 0 m)) (seq 0 n) 0%nat i), seq_nth by exact Hi. simpl.
  rewrite (nth_indep _ NaN (f i 0%nat)) by now rewrite map_length, seq_length.
  rewrite (map_nth (fun j => f i j) (seq 0 m) 0%nat j), seq_nth by exact Hj. reflexivity.
Qed.
Lemma mapM_Forall2 {A B} (f : A -> res B) l : forall l', mapM f l = Ok l' -> Forall2 (fun a b => f a = Ok b) l l'.
Proof.
  induction l as [|a l IH]; simpl; intros l' H; [injection H as <-; constructor|].
  destruct (f a) eqn:E; simpl in H; try discriminate. destruct (mapM f l) eqn:E2; simpl in H; try discriminate.
  injection H as <-. constructor; auto.
Qed.
Lemma mapM_ok {A B} (f : A -> res B) (l : list A) : (forall a, In a l -> exists b, f a = Ok b) -> exists l', mapM f l = Ok l'.
Proof.
  induction l as [|a l IH]; simpl; intros H; [eauto|]. destruct (H a) as [b ->]; [now left|]. cbn [bind].
  destruct IH as [l' ->]; [intros; apply H; now right|]. simpl. eauto.
Qed.
Lemma mapM_seq {B} (f : nat -> res B) n l d : mapM f (seq 0 n) = Ok l -> length l = n /\ forall i, (i < n)%nat -> f i = Ok (nth i l d).
Proof.
  intros H. apply mapM_Forall2 in H.
  assert (G : forall k s l, Forall2 (fun a b => f a = Ok b) (seq s k) l -> length l = k /\ forall i, (i < k)%nat -> f (s + i)%nat = Ok (nth i l d)).
  { induction k as [|k IH]; simpl; intros s l0 H0.
    { inversion H0. split; [auto|lia]. }
    inversion H0 as [|? y ? l1 Hy Hl]; subst. destruct (IH _ _ Hl) as [L1 L2]. split; [simpl; lia|]. intros [|i] Hi; [now rewrite Nat.add_0_r|].
    simpl. rewrite <- L2 by lia. f_equal. lia. }
  destruct (G _ _ _ H) as [H1 H2]. split; auto.
Qed.

Lemma interpolate_cell_spec base o n m no mo i j : proper_grid base n m -> proper_grid o no mo ->
  (i < n)%nat -> (j < m)%nat -> sample_nearest base o no mo i j (interpolate_cell o base i j).
Proof.
  intros (_ & _ & _ & _ & Hdyb) Hpo Hi Hj. pose proof (covered_iff o no mo (x_of base i) (y_of base j) Hpo) as Hq.
  destruct Hpo as (Hs & Hn & Hm & Hdx & Hdy). destruct (shape_ny o no mo Hs) as [En Em]; [lia|].
  unfold sample_nearest, interpolate_cell. 
  assert (Ex : node_x base i = x_of base i) by reflexivity.
  assert (Ey : node_y base j = y_of base j) by (unfold node_y, y_of, node; now rewrite (Qabs_eq _ Hdyb)).
  rewrite Ex, Ey. cbn [fst snd]. split.
  - intros H. exists (near_index (b0 (g_bbox o)) (g_dx o) no (x_of base i)), (near_index (b2 (g_bbox o)) (g_dy o) mo (y_of base j)).
    split; [now apply near_index_spec|]. split; [now apply near_index_spec|].
    unfold near_value. rewrite En, Em, (Qabs_eq _ Hdy). destruct (g_extra o).
    + reflexivity.
    + destruct H as [H|H]; [discriminate|]. apply Hq in H. unfold with_fill. rewrite H. unfold value_at, cell.
      match goal with |- context [neq_bool ?x _] => destruct x end; reflexivity.
  - intros He Hn'. rewrite He. unfold with_fill. destruct (out_of_grid o (x_of base i) (y_of base j)).
    + reflexivity.
    + exfalso. now apply Hn', Hq.
Qed.


Lemma interpolate_to_ok o base n m : proper_grid base n m ->
  (interpolate_to o base = Raise AssertionError /\ boxes_overlap (g_bbox o) (g_bbox base) = false) \/
  (boxes_overlap (g_bbox o) (g_bbox base) = true /\ exists g, interpolate_to o base = Ok g /\ g_values g = tabulate n m (interpolate_cell o base)).
Proof.
  intros (Hs & Hn & Hm & Hdx & Hdy). destruct (shape_ny base n m Hs) as [En Em]; [lia|].
  unfold interpolate_to. destruct (boxes_overlap _ _); [right|left; auto]. split; auto. rewrite En, Em. unfold make_grid.
  assert (E1 : Qle_bool (g_dx base) 0 = false). { destruct (Qle_bool (g_dx base) 0) eqn:E; auto. apply Qle_bool_iff in E. lra. }
  assert (E2 : Qle_bool (g_dy base) 0 = false). { destruct (Qle_bool (g_dy base) 0) eqn:E; auto. apply Qle_bool_iff in E. lra. }
  rewrite E1, E2. simpl. eexists. split; reflexivity.
Qed.

Lemma positive_finite_In v q : In q (positive_finite v) <-> 0 < q /\ exists r, In r v /\ In (Fin q) r.
Proof.
  unfold positive_finite. rewrite in_flat_map. split.
  - intros (a & Ha & Hq). rewrite in_concat in Ha. destruct Ha as (r & Hr & Ha). destruct a as [w|s|]; try (now destruct Hq).
    destruct (Qle_bool w 0) eqn:E; simpl in Hq; [destruct Hq|]. destruct Hq as [->|[]].
    split; [|now exists r]. apply Qnot_le_lt. intros Hc. apply Qle_bool_iff in Hc. congruence.
  - intros (Hq & r & Hr & Hi). exists (Fin q). split; [rewrite in_concat; now exists r|].
    destruct (Qle_bool q 0) eqn:E; [apply Qle_bool_iff in E; lra|]. simpl. auto.
Qed.
Lemma cells_In v n m a : shape v n m -> ((exists r, In r v /\ In a r) <-> exists i j, (i < n)%nat /\ (j < m)%nat /\ cell v i j = a).
Proof.
  intros [H1 H2]. rewrite Forall_forall in H2. split.
  - intros (r & Hr & Ha). pose proof (H2 r Hr) as Hl. destruct (In_nth _ _ [] Hr) as (i & Hi & <-). destruct (In_nth _ _ NaN Ha) as (j & Hj & <-).
    exists i, j. repeat split; lia.
  - intros (i & j & Hi & Hj & <-). exists (nth i v []). assert (Hr : In (nth i v []) v) by (apply nth_In; lia).
    split; auto. apply nth_In. rewrite H2; auto.
Qed.
Lemma py_min_In l m : py_min l = Ok m -> In m l.
Proof.
  unfold py_min. destruct l as [|a l]; [discriminate|]. intros H. injection H as <-. 
  set (f := fun m y : Q => if Qle_bool m y then m else y).
  assert (G : forall l a, In (fold_left f l a) (a :: l)).
  { induction l0 as [|b l0 IH]; intros x; [now left|]. cbn [fold_left]. destruct (IH (f x b)) as [E|E]; [|now right; right].
    rewrite <- E. unfold f. destruct (Qle_bool x b); simpl; auto. }
  apply G.
Qed.

Lemma boxes_meet_iff a b : boxes_overlap a b = true <-> boxes_meet a b.
Proof.
  unfold boxes_overlap, boxes_meet. rewrite !andb_true_iff, !negb_true_iff.
  assert (E : forall x y, Qle_bool x y = false <-> y < x).
  { intros x y. split; intros H.
    - apply Qnot_le_lt. intros Hc. apply Qle_bool_iff in Hc. congruence.
    - destruct (Qle_bool x y) eqn:Ex; auto. apply Qle_bool_iff in Ex. lra. }
  rewrite !E. tauto.
Qed.

Section Minimum.
  Variable tr : nat -> nat -> Q * Q -> Q * Q.
  Variable base : grid.
  Variables n m : nat.
  Hypothesis Hp : proper_grid base n m.
  Hypothesis Hg : ~ global_box (g_bbox base).

  Lemma steps_ok : Qle_bool (g_dx base) 0 || Qle_bool (g_dy base) 0 = false.
  Proof.
    destruct Hp as (_ & _ & _ & Hdx & Hdy).
    assert (E1 : Qle_bool (g_dx base) 0 = false). { destruct (Qle_bool (g_dx base) 0) eqn:E; auto. apply Qle_bool_iff in E. lra. }
    assert (E2 : Qle_bool (g_dy base) 0 = false). { destruct (Qle_bool (g_dy base) 0) eqn:E; auto. apply Qle_bool_iff in E. lra. }
    now rewrite E1, E2.
  Qed.

  Lemma aligned_spec o : usable base o ->
    exists v, aligned tr base o = Ok v /\ forall i j, (i < n)%nat -> (j < m)%nat -> sample tr base o i j (cell v i j).
  Proof.
    intros ((no & mo & Hpo) & Hsame & Hdiff). unfold aligned. destruct (Nat.eqb_spec (g_crs o) (g_crs base)) as [Ec|Ec].
    - destruct (interpolate_to_ok o base n m Hp) as [[_ E]|(_ & g & -> & Ev)].
      { specialize (Hsame Ec). apply boxes_meet_iff in Hsame. congruence. }
      cbn [bind]. eexists. split; [reflexivity|]. intros i j Hi Hj. split; [|contradiction]. intros _ no' mo' Hpo'.
      rewrite Ev, tabulate_cell by assumption. eapply interpolate_cell_spec; eauto.
    - specialize (Hdiff Ec). destruct Hp as (Hs & Hn & Hm & Hdx & Hdy). destruct (shape_ny base n m Hs) as [En Em]; [lia|]. rewrite En, Em.
      assert (He : forall q, exists a, eval o q = Ok a). { intros q. unfold eval. destruct (g_fill o); [eauto|contradiction]. }
      destruct (mapM_ok (fun i => mapM (fun j => eval o (tr (g_crs base) (g_crs o) (node_x base i, node_y base j))) (seq 0 m)) (seq 0 n)) as [rows Er].
      { intros i _. apply mapM_ok. intros j _. apply He. }
      rewrite Er. cbn [bind]. unfold make_grid. rewrite steps_ok. cbn [bind]. eexists. split; [reflexivity|].
      intros i j Hi Hj. split; [congruence|]. intros _. rewrite build_values.
      unfold is_global. cbn [g_bbox g_values]. fold (is_global base).
      destruct (is_global base) eqn:Eg; [apply is_global_iff in Eg; contradiction|].
      destruct (mapM_seq _ n rows [] Er) as [_ Hr]. specialize (Hr i Hi). destruct (mapM_seq _ m _ NaN Hr) as [_ Hc]. specialize (Hc j Hj).
      unfold cell. rewrite <- Hc. f_equal. f_equal. unfold x_of, y_of, node, node_x, node_y. now rewrite (Qabs_eq _ Hdy).
  Qed.

  Lemma compute_minimum_total others : Forall (usable base) others ->
    exists v, node_minima tr base others n m v /\
      ((compute_minimum tr (base :: others) = Raise ValueError /\ none_positive v n m) \/
       (exists g h, compute_minimum tr (base :: others) = Ok g /\ proper_grid g n m /\
          g_bbox g = g_bbox base /\ g_dx g = g_dx base /\ g_dy g = g_dy base /\ g_crs g = g_crs base /\
          g_fill g = Some None /\ (forall i j, (i < n)%nat -> (j < m)%nat -> value_at g i j = v i j) /\
          g_hmin g = Some (Fin h) /\ least_positive g n m h)).
  Proof.
    intros Hu. assert (Hs := proj1 Hp). assert (Hn : (2 <= n)%nat) by apply Hp. destruct (shape_ny base n m Hs) as [En Em]; [lia|].
    destruct (mapM_ok (aligned tr base) others) as [vs Ev].
    { intros o Ho. rewrite Forall_forall in Hu. destruct (aligned_spec o (Hu o Ho)) as (v & Hv & _). eauto. }
    set (mv := min_values n m vs (g_values base)).
    assert (Hsh : shape mv n m) by apply tabulate_shape.
    exists (cell mv). split.
    - intros i j Hi Hj. exists (map (fun v => cell v i j) vs). split.
      + apply mapM_Forall2 in Ev. clear - Ev Hu Hp Hg Hi Hj. induction Ev as [|o v others vs Hv _ IH]; [constructor|].
        inversion Hu; subst. simpl. constructor; auto. destruct (aligned_spec o) as (v' & Hv' & Hs); auto. assert (v' = v) as -> by congruence. auto.
      + unfold mv, min_values. rewrite tabulate_cell by assumption. apply (fold_nmin _ (value_at base i j)).
    - unfold compute_minimum. rewrite Ev. cbn [bind]. rewrite En, Em. fold mv.
      destruct (py_min (positive_finite mv)) as [h|e|] eqn:Eh; cbn [bind].
      + right. unfold make_grid. rewrite steps_ok. cbn [bind].
        set (g := {| g_bbox := _ |}). exists (build_interpolant g), h.
        assert (Hgv : g_values (build_interpolant g) = mv).
        { rewrite build_values. unfold is_global, g. cbn [g_bbox g_values]. fold (is_global base).
          destruct (is_global base) eqn:Eg; [apply is_global_iff in Eg; contradiction|]. reflexivity. }
        split; [reflexivity|]. destruct (build_fields g) as (F1 & F2 & F3 & F4 & F5).
        split; [apply proper_build; split; [exact Hsh|apply Hp]|].
        rewrite F1, F2, F4, F5, build_bbox, build_fill. repeat (split; [reflexivity|]).
        split; [intros; unfold value_at; rewrite Hgv; reflexivity|]. split; [reflexivity|].
        pose proof (py_min_In _ _ Eh) as Hin. apply positive_finite_In in Hin. destruct Hin as (H0 & Hin).
        apply (cells_In mv n m _ Hsh) in Hin. unfold least_positive, value_at. rewrite Hgv.
        split; [assumption|]. split; [exact Hin|]. intros i j w Hi Hj Hw Hw0.
        apply (py_min_spec _ _ Eh). apply positive_finite_In. split; auto. apply (cells_In mv n m _ Hsh). exists i, j. auto.
      + left. unfold py_min in Eh. destruct (positive_finite mv) eqn:El; [|discriminate]. split; [congruence|].
        intros i j w Hi Hj Hw. apply Qnot_lt_le. intros Hc. assert (Hin : In w (positive_finite mv)); [|rewrite El in Hin; destruct Hin].
        apply positive_finite_In. split; auto. apply (cells_In mv n m _ Hsh). exists i, j. auto.
      + unfold py_min in Eh. destruct (positive_finite mv); discriminate.
  Qed.
End Minimum.

(** * Elevation bounds *)
Definition bands_ok (bs : list bound) : Prop := Forall proper_band bs.
Definition step_values (b : bound) (z v : list (list num)) : list (list num) :=
  map (fun p => map (fun q => clamp_cell b (fst q) (snd q)) (combine (fst p) (snd p))) (combine z v).
Lemma nth_map_combine {A B C} (f : A * B -> C) (la : list A) (lb : list B) i da db dc : length la = length lb -> (i < length la)%nat ->
  nth i (map f (combine la lb)) dc = f (nth i la da, nth i lb db).
Proof.
  intros Hl Hi. rewrite (nth_indep _ dc (f (da, db))) by (rewrite map_length, combine_length; lia).
  rewrite map_nth. now rewrite combine_nth.
Qed.
Lemma step_shape b z v n m : shape z n m -> shape v n m -> shape (step_values b z v) n m.
Proof.
  intros [Z1 Z2] [V1 V2]. unfold step_values. split; [rewrite map_length, combine_length; lia|].
  apply Forall_forall. intros r Hr. apply in_map_iff in Hr. destruct Hr as ([a c] & <- & Hin). rewrite map_length, combine_length. simpl.
  rewrite Forall_forall in *. rewrite (Z2 a), (V2 c); [lia|eapply in_combine_r; eauto|eapply in_combine_l; eauto].
Qed.
Lemma step_cell b z v n m i j : shape z n m -> shape v n m -> (i < n)%nat -> (j < m)%nat ->
  cell (step_values b z v) i j = clamp_cell b (elevation z i j) (cell v i j).
Proof.
  intros [Z1 Z2] [V1 V2] Hi Hj. rewrite Forall_forall in *. unfold cell, elevation, step_values.
  rewrite (nth_map_combine _ z v i [] []) by lia. cbn [fst snd].
  assert (Lz : length (nth i z []) = m) by (apply Z2, nth_In; lia). assert (Lv : length (nth i v []) = m) by (apply V2, nth_In; lia).
  rewrite (nth_map_combine _ (nth i z []) (nth i v []) j NaN NaN) by lia. reflexivity.
Qed.
Fixpoint cell_bounds (bs : list bound) (z h : num) : num :=
  match bs with [] => h | b :: r => cell_bounds r z (clamp_cell b z h) end.
Lemma apply_bounds_ok bs : forall z v n m, shape z n m -> shape v n m -> bands_ok bs ->
  exists v', apply_bounds bs z v = (v', true) /\ shape v' n m /\
    forall i j, (i < n)%nat -> (j < m)%nat -> cell v' i j = cell_bounds bs (elevation z i j) (cell v i j).
Proof.
  induction bs as [|b bs IH]; intros z v n m Hz Hv Hb; simpl.
  - exists v. auto.
  - inversion Hb as [|? ? Hb1 Hb2]; subst. destruct b as [[[a c] lo] hi]. unfold proper_band in Hb1.
    assert (E1 : Qle_bool c a = false). { destruct (Qle_bool c a) eqn:E; auto. apply Qle_bool_iff in E. lra. }
    assert (E2 : Qle_bool hi lo = false). { destruct (Qle_bool hi lo) eqn:E; auto. apply Qle_bool_iff in E. lra. }
    rewrite E1, E2. simpl. fold (step_values (a, c, lo, hi) z v).
    destruct (IH z (step_values (a, c, lo, hi) z v) n m) as (v' & H1 & H2 & H3); auto; [now apply step_shape|].
    exists v'. split; auto. split; auto. intros i j Hi Hj. rewrite H3 by assumption. now rewrite (step_cell _ z v n m).
Qed.
(** The first band refused: the bands before it have been applied. *)
Lemma apply_bounds_stop pre b post : forall z v n m, shape z n m -> shape v n m -> bands_ok pre -> ~ proper_band b ->
  exists v', apply_bounds (pre ++ b :: post) z v = (v', false) /\ shape v' n m /\
    forall i j, (i < n)%nat -> (j < m)%nat -> cell v' i j = cell_bounds pre (elevation z i j) (cell v i j).
Proof.
  induction pre as [|b' bs IH]; intros z v n m Hz Hv Hb Hn; simpl.
  - exists v. destruct b as [[[a c] lo] hi]. unfold proper_band in Hn.
    assert (E : Qle_bool c a || Qle_bool hi lo = true).
    { apply orb_true_iff. rewrite !Qle_bool_iff. destruct (Qlt_le_dec a c); [|auto]. destruct (Qlt_le_dec lo hi); [|auto]. tauto. }
    rewrite E. auto.
  - inversion Hb as [|? ? Hb1 Hb2]; subst. destruct b' as [[[a c] lo] hi]. unfold proper_band in Hb1.
    assert (E1 : Qle_bool c a = false). { destruct (Qle_bool c a) eqn:E; auto. apply Qle_bool_iff in E. lra. }
    assert (E2 : Qle_bool hi lo = false). { destruct (Qle_bool hi lo) eqn:E; auto. apply Qle_bool_iff in E. lra. }
    rewrite E1, E2. simpl. fold (step_values (a, c, lo, hi) z v).
    destruct (IH z (step_values (a, c, lo, hi) z v) n m) as (v' & H1 & H2 & H3); auto; [now apply step_shape|].
    exists v'. split; auto. split; auto. intros i j Hi Hj. rewrite H3 by assumption. now rewrite (step_cell _ z v n m).
Qed.

Lemma nlt_iff a b : nlt a b = true <-> nleq a b /\ ~ nleq b a.
Proof.
  destruct a as [q|[]|], b as [r|[]|]; simpl; try (split; [discriminate|tauto]); try tauto.
  rewrite negb_true_iff. split.
  - intros H. assert (~ r <= q) by (intros Hc; apply Qle_bool_iff in Hc; congruence). split; lra.
  - intros [_ H]. destruct (Qle_bool r q) eqn:E; auto. apply Qle_bool_iff in E. contradiction.
Qed.
Lemma nle_iff a b : nle a b = true <-> nleq a b.
Proof.
  unfold nle. rewrite orb_true_iff, nlt_iff.
  destruct a as [q|[]|], b as [r|[]|]; simpl; try tauto; try (split; [intros [[? ?]|?]; auto; discriminate|auto]; fail).
  - rewrite Qeq_bool_iff. destruct (Qlt_le_dec q r); split; intros; lra.
Qed.
Lemma in_band_iff a c lo hi z : nlt (Fin lo) z && nle z (Fin hi) = true <-> in_band (a, c, lo, hi) z.
Proof.
  rewrite andb_true_iff, nlt_iff, nle_iff. destruct z as [q|[]|]; simpl; try tauto. split; [intros [[H1 H2] H3]; lra|intros H; repeat split; lra].
Qed.
Lemma clamp_in b z h : proper_band b -> in_band b z -> clamped b h (clamp_cell b z h).
Proof.
  destruct b as [[[a c] lo] hi]. intros [Hac _] Hz. unfold clamp_cell.
  apply (in_band_iff a c lo hi) in Hz. rewrite Hz. cbn [andb]. unfold clamped.
  destruct (nlt h (Fin a)) eqn:E1.
  - apply nlt_iff in E1. destruct h as [q|s|]; [left; tauto|left; tauto|simpl in E1; tauto].
  - assert (N1 : h <> NaN -> nleq (Fin a) h). { intros. now apply nlt_false. }
    destruct (nle (Fin c) h) eqn:E2.
    + apply nle_iff in E2. destruct h as [q|s|]; [right; left; auto..|]. simpl in E2. contradiction.
    + assert (N2 : ~ nleq (Fin c) h) by (rewrite <- nle_iff; congruence).
      destruct h as [q|s|]; [right; right; repeat split; auto; apply N1; discriminate..|reflexivity].
Qed.
Lemma clamp_out b z h : ~ in_band b z -> clamp_cell b z h = h.
Proof.
  destruct b as [[[a c] lo] hi]. intros Hz. unfold clamp_cell.
  destruct (nlt (Fin lo) z && nle z (Fin hi)) eqn:E; [apply (in_band_iff a c) in E; contradiction|]. reflexivity.
Qed.
Lemma clamped_nan b h h' : clamped b h h' -> (h = NaN <-> h' = NaN).
Proof. destruct b as [[[a c] lo] hi]. unfold clamped. destruct h; intuition congruence. Qed.
Lemma clamped_limits b h h' : proper_band b -> clamped b h h' -> h <> NaN -> within_limits b h'.
Proof.
  destruct b as [[[a c] lo] hi]. intros [Hac _]. unfold clamped, within_limits. intros H Hn.
  assert (G : (~ nleq (Fin a) h /\ h' = Fin a) \/ (nleq (Fin c) h /\ h' = Fin c) \/ (nleq (Fin a) h /\ ~ nleq (Fin c) h /\ h' = h)).
  { destruct h; auto. congruence. }
  destruct G as [[_ ->]|[[_ ->]|(H1 & H2 & ->)]]; [simpl; split; lra..|].
  split; [assumption|]. destruct h as [q|[]|]; simpl in *; try tauto. lra.
Qed.
Lemma in_band_dec b z : {in_band b z} + {~ in_band b z}.
Proof.
  destruct b as [[[a c] lo] hi]. destruct (nlt (Fin lo) z && nle z (Fin hi)) eqn:E; [left|right]; rewrite <- (in_band_iff a c); congruence.
Qed.
Lemma cell_bounds_nan bs z : bands_ok bs -> forall h, cell_bounds bs z h = NaN <-> h = NaN.
Proof.
  induction 1 as [|b bs Hb _ IH]; intros h; simpl; [reflexivity|]. rewrite IH. destruct (in_band_dec b z) as [Hz|Hz].
  - symmetry. eapply clamped_nan. now apply clamp_in.
  - now rewrite clamp_out.
Qed.
Lemma cell_bounds_out bs z : (forall b, In b bs -> ~ in_band b z) -> forall h, cell_bounds bs z h = h.
Proof.
  induction bs as [|b bs IH]; simpl; intros H h; auto. rewrite clamp_out by (apply H; now left). apply IH. intros; apply H; now right.
Qed.
Lemma cell_bounds_app p q z h : cell_bounds (p ++ q) z h = cell_bounds q z (cell_bounds p z h).
Proof. revert h. induction p; simpl; auto. Qed.
Lemma cell_bounds_last pre b post z h : bands_ok (pre ++ b :: post) -> in_band b z -> (forall b', In b' post -> ~ in_band b' z) -> h <> NaN ->
  within_limits b (cell_bounds (pre ++ b :: post) z h).
Proof.
  intros Hok Hb Hpost Hn. apply Forall_app in Hok. destruct Hok as [Hpre Hok]. inversion Hok; subst.
  rewrite cell_bounds_app. simpl. rewrite cell_bounds_out by exact Hpost.
  eapply clamped_limits; [assumption|apply clamp_in; assumption|]. now rewrite cell_bounds_nan.
Qed.
Lemma cell_bounds_one pre b post z h : bands_ok (pre ++ b :: post) -> in_band b z -> (forall b', In b' pre \/ In b' post -> ~ in_band b' z) ->
  clamped b h (cell_bounds (pre ++ b :: post) z h).
Proof.
  intros Hok Hb Ho. apply Forall_app in Hok. destruct Hok as [Hpre Hok]. inversion Hok; subst.
  rewrite cell_bounds_app. simpl. rewrite !cell_bounds_out by auto. now apply clamp_in.
Qed.

Lemma enforce_local g z bs n m : shape (g_values g) n m -> shape z n m -> ~ global_box (g_bbox g) -> Forall proper_band bs ->
  exists g', enforce_bounds g z bs = (Ok g', g') /\ shape (g_values g') n m /\
    forall i j, (i < n)%nat -> (j < m)%nat ->
      (* in no band: unchanged *)
      ((forall b, In b bs -> ~ in_band b (elevation z i j)) -> value_at g' i j = value_at g i j) /\
      (* otherwise the last band that contains the elevation decides *)
      (forall pre b post, bs = pre ++ b :: post -> in_band b (elevation z i j) -> (forall b', In b' post -> ~ in_band b' (elevation z i j)) ->
         value_at g i j <> NaN -> within_limits b (value_at g' i j)) /\
      (* in one band only: exactly the clamped size *)
      (forall pre b post, bs = pre ++ b :: post -> in_band b (elevation z i j) ->
         (forall b', In b' pre \/ In b' post -> ~ in_band b' (elevation z i j)) -> clamped b (value_at g i j) (value_at g' i j)) /\
      (value_at g i j = NaN -> value_at g' i j = NaN).
Proof.
  intros Hs Hz Hg Hb. destruct (apply_bounds_ok bs z (g_values g) n m Hz Hs Hb) as (v' & E & Hs' & Hc).
  unfold enforce_bounds. rewrite E. eexists. split; [reflexivity|].
  assert (Ev : g_values (build_interpolant (set_values g v')) = v').
  { rewrite build_values. destruct (is_global (set_values g v')) eqn:Eg; [|reflexivity]. apply is_global_iff in Eg. contradiction. }
  rewrite Ev. split; auto. intros i j Hi Hj. unfold value_at. rewrite Ev. change (nth j (nth i v' []) NaN) with (cell v' i j). rewrite Hc by assumption.
  change (nth j (nth i (g_values g) []) NaN) with (cell (g_values g) i j). split; [|split; [|split]].
  - intros Hno. now apply cell_bounds_out.
  - intros pre b post -> H1 H2 H3. now apply cell_bounds_last.
  - intros pre b post -> H1 H2. now apply cell_bounds_one.
  - now apply cell_bounds_nan.
Qed.
(** A refused band. *)
Lemma enforce_refused g z bs n m : shape (g_values g) n m -> shape z n m -> ~ Forall proper_band bs ->
  exists pre b post g', bs = pre ++ b :: post /\ Forall proper_band pre /\ ~ proper_band b /\
    enforce_bounds g z bs = (Raise AssertionError, g') /\
    forall i j, (i < n)%nat -> (j < m)%nat -> value_at g' i j = cell_bounds pre (elevation z i j) (value_at g i j).
Proof.
  intros Hs Hz Hb.
  assert (Hsplit : exists pre b post, bs = pre ++ b :: post /\ Forall proper_band pre /\ ~ proper_band b).
  { clear - Hb. induction bs as [|b bs IH]; [exfalso; now apply Hb|].
    assert (D : proper_band b \/ ~ proper_band b).
    { destruct b as [[[a c] lo] hi]. simpl. destruct (Qlt_le_dec a c); [|right; lra]. destruct (Qlt_le_dec lo hi); [left; lra|right; lra]. }
    destruct D as [D|D].
    - destruct IH as (pre & b' & post & -> & H1 & H2); [intros Hc; apply Hb; now constructor|].
      exists (b :: pre), b', post. split; [reflexivity|]. split; auto.
    - exists [], b, bs. auto. }
  destruct Hsplit as (pre & b & post & -> & H1 & H2).
  destruct (apply_bounds_stop pre b post z (g_values g) n m Hz Hs H1 H2) as (v' & E & Hs' & Hc).
  exists pre, b, post, (set_values g v'). split; [reflexivity|]. split; [assumption|]. split; [assumption|]. split.
  - unfold enforce_bounds. unfold bound in *. now rewrite E.
  - intros i j Hi Hj. apply Hc; auto.
Qed.

(** * Finite differences *)
Lemma map_seq_nth {A} (f : nat -> A) n i d : (i < n)%nat -> nth i (map f (seq 0 n)) d = f i.
Proof. intros H. rewrite (nth_indep _ d (f 0%nat)) by now rewrite map_length, seq_length. now rewrite map_nth, seq_nth. Qed.
Lemma diff_axis_line n d f a s k : (2 <= n)%nat -> 0 < d -> (k < n)%nat -> (forall i, (i < n)%nat -> f i == a + inject_Z (Z.of_nat i) * d * s) ->
  diff_axis n d f k == s.
Proof.
  intros Hn Hd Hk Hf. assert (Hd0 : ~ d == 0) by lra.
  assert (Hi : forall i, inject_Z (Z.of_nat (i + 1)) == inject_Z (Z.of_nat i) + 1).
  { intros i. change 1 with (inject_Z 1). rewrite <- inject_Z_plus. now replace (Z.of_nat (i + 1)) with (Z.of_nat i + 1)%Z by lia. }
  unfold diff_axis. destruct (Nat.eqb_spec k 0) as [->|H0].
  - rewrite !Hf by lia. change (Z.of_nat 1) with 1%Z. change (Z.of_nat 0) with 0%Z. change (inject_Z 1) with 1. change (inject_Z 0) with 0. field. exact Hd0.
  - destruct (Nat.eqb_spec k (n - 1)) as [->|H1].
    + rewrite !Hf by lia. replace (n - 1)%nat with ((n - 2) + 1)%nat by lia. rewrite Hi. field. exact Hd0.
    + rewrite !Hf by lia. replace (Z.of_nat (k + 1)) with (Z.of_nat (k - 1 + 1 + 1))%Z by lia. rewrite !Hi. field. exact Hd0.
Qed.
Lemma gradient_plane F n m dx dy a sy sx : length F = n -> Forall (fun r => length r = m) F -> (2 <= n)%nat -> (2 <= m)%nat -> 0 < dx -> 0 < dy ->
  (forall i j, (i < n)%nat -> (j < m)%nat -> nth j (nth i F []) 0 == a + inject_Z (Z.of_nat i) * dy * sy + inject_Z (Z.of_nat j) * dx * sx) ->
  exists Fy Fx, earth_gradient F dx dy = Ok (Fy, Fx) /\
    length Fy = n /\ Forall (fun r => length r = m) Fy /\ length Fx = n /\ Forall (fun r => length r = m) Fx /\
    forall i j, (i < n)%nat -> (j < m)%nat -> nth j (nth i Fy []) 0 == sy /\ nth j (nth i Fx []) 0 == sx.
Proof.
  intros Hl Hr Hn Hm Hdx Hdy Hp. unfold earth_gradient. rewrite Hl.
  assert (Em : match F with [] => 0%nat | r :: _ => length r end = m) by (destruct F; simpl in *; [lia|]; now inversion Hr).
  rewrite Em. assert (E1 : (n <? 2)%nat = false) by (apply Nat.ltb_ge; lia). assert (E2 : (m <? 2)%nat = false) by (apply Nat.ltb_ge; lia).
  rewrite E1, E2. simpl orb. cbv iota zeta. eexists _, _. split; [reflexivity|].
  assert (Hsh : forall (f : nat -> nat -> Q), length (map (fun i => map (fun j => f i j) (seq 0 m)) (seq 0 n)) = n /\
    Forall (fun r => length r = m) (map (fun i => map (fun j => f i j) (seq 0 m)) (seq 0 n))).
  { intros f. split; [now rewrite map_length, seq_length|]. apply Forall_forall. intros r Hrr. apply in_map_iff in Hrr. destruct Hrr as (? & <- & _).
    now rewrite map_length, seq_length. }
  split; [apply (Hsh (fun i j => _))|]. split; [apply (Hsh (fun i j => _))|]. split; [apply (Hsh (fun i j => _))|]. split; [apply (Hsh (fun i j => _))|].
  intros i j Hi Hj. rewrite !(map_seq_nth _ n i) by assumption. rewrite !(map_seq_nth _ m j) by assumption. unfold fcell. split.
  - apply (diff_axis_line n dy _ (a + inject_Z (Z.of_nat j) * dx * sx) sy); try assumption; intros k Hk; rewrite Hp by assumption; ring.
  - apply (diff_axis_line m dx _ (a + inject_Z (Z.of_nat i) * dy * sy) sx); try assumption; intros k Hk; rewrite Hp by assumption; ring.
Qed.
Lemma gradient_small F dx dy : (length F < 2)%nat \/ (exists r F', F = r :: F' /\ (length r < 2)%nat) -> earth_gradient F dx dy = Raise IndexError.
Proof.
  intros H. unfold earth_gradient. destruct H as [H|(r & F' & -> & H)].
  - apply Nat.ltb_lt in H. now rewrite H.
  - apply Nat.ltb_lt in H. rewrite H, orb_true_r. reflexivity.
Qed.

(** * The multiscale sizing function *)
Lemma nmin_minimum a b l : is_minimum b l -> is_minimum (nmin a b) (a :: l).
Proof.
  intros Hb. destruct (classic_nan a) as [Ha|Ha]; [|destruct (classic_nan b) as [Hbn|Hbn]].
  - left. split; [now left|]. apply nmin_nan. auto.
  - left. destruct Hb as [[H1 H2]|(H1 & H2 & _)].
    + split; [now right|]. apply nmin_nan. auto.
    + subst. contradiction.
  - destruct Hb as [[H1 H2]|(H1 & H2 & H3)]; [congruence|]. right.
    destruct (nmin_cases a b Ha Hbn) as (Hor & L1 & L2). split; [simpl; tauto|]. split.
    + destruct Hor as [->| ->]; simpl; auto.
    + intros x [<-|Hx]; auto. eapply nleq_trans; eauto.
Qed.
Lemma regional_build g f : regional g -> regional (set_extra g f).
Proof. intros [(n & m & Hp & Hc) Hg]. split; [exists n, m; split; assumption|assumption]. Qed.
Lemma rebuild g f f' : ~ global_box (g_bbox g) -> build_interpolant (set_extra (build_interpolant (set_extra g f)) f') = build_interpolant (set_extra g f').
Proof.
  intros Hg. assert (E : is_global g = false). { destruct (is_global g) eqn:E; auto. apply is_global_iff in E. contradiction. }
  assert (E' : forall f, is_global (set_extra g f) = false) by (intros; exact E).
  unfold build_interpolant at 2. rewrite E'. cbn [g_extra].
  unfold build_interpolant. rewrite E'. unfold is_global. cbn [set_extra set_fill g_bbox g_extra]. fold (is_global g). rewrite E. reflexivity.
Qed.
Lemma msf_again gs : Forall (fun g => ~ global_box (g_bbox g)) gs -> forall f q q', msf_eval f (snd (msf_eval f gs q)) q' = msf_eval f gs q'.
Proof.
  induction 1 as [|g gs Hg _ IH]; intros f q q'; [reflexivity|]. cbn [msf_eval]. 
  destruct (msf_eval false gs q) as [v r'] eqn:E. cbn [snd msf_eval]. rewrite rebuild by assumption.
  pose proof (IH false q q') as H. rewrite E in H. cbn [snd] in H. rewrite H. reflexivity.
Qed.
Lemma msf_spec gs : Forall regional gs -> forall f q, exists v vals,
  fst (msf_eval f gs q) = Ok v /\
  Forall2 (fun gf a => size_of (snd gf) (fst gf) q a) (combine gs (f :: repeat false (length gs))) vals /\
  is_minimum v (vals ++ [Fin 999999]).
Proof.
  induction 1 as [|g gs [(n & m & Hp & Hc) Hg] _ IH]; intros f q.
  - exists (Fin 999999), []. split; [reflexivity|]. split; [constructor|]. right. simpl. split; [intros [|[]]; discriminate|]. split; auto.
    intros a [<-|[]]. simpl. lra.
  - cbn [msf_eval]. destruct (IH false q) as (v & vals & H1 & H2 & H3). destruct (msf_eval false gs q) as [r r']. cbn [fst] in *. subst r.
    destruct (eval_local (set_extra g f) n m q Hp Hc Hg) as [E1 E2].
    assert (He : exists a, eval (build_interpolant (set_extra g f)) q = Ok a /\ size_of f g q a).
    { assert (D : out_of_grid g (fst q) (snd q) = false \/ out_of_grid g (fst q) (snd q) <> false) by (destruct (out_of_grid g (fst q) (snd q)); [right; discriminate|left; reflexivity]).
      assert (Hq := covered_iff g n m (fst q) (snd q) Hp). rewrite <- surjective_pairing in Hq. rewrite Hq in D.
      assert (Hdet : forall n' m', proper_grid g n' m' -> n' = n /\ m' = m).
      { intros n' m' (Hs' & Hn' & _). destruct Hp as (Hs & Hn & _). destruct (shape_ny g n m Hs); [lia|]. destruct (shape_ny g n' m' Hs'); [lia|]. split; congruence. }
      assert (Hext : f = true \/ covered g n m q -> exists a, eval (build_interpolant (set_extra g f)) q = Ok a /\ size_of f g q a).
      { intros Hor. destruct (E1 Hor) as (w & Hw & Hb). exists (Fin w). split; auto. intros n' m' Hp'. destruct (Hdet _ _ Hp') as [-> ->]. split.
        - intros _. now exists w.
        - intros Hf Hn'. destruct Hor; [congruence|contradiction]. }
      destruct f; [apply Hext; auto|]. destruct D as [D|D]; [apply Hext; auto|].
      exists (Fin 999999). split; [now apply E2|]. intros n' m' Hp'. destruct (Hdet _ _ Hp') as [-> ->]. split; auto. intros [|]; [discriminate|contradiction]. }
    destruct He as (a & Ha & Hsz). exists (nmin a v), (a :: vals). cbn [fst]. rewrite Ha. cbn [bind]. split; [reflexivity|]. split.
    + cbn [length repeat combine]. constructor; auto.
    + simpl. now apply nmin_minimum.
Qed.

Lemma bilinear_range g n m q v lo hi : bilinear_at g n m q v -> covered g n m q ->
  all_cells (fun a => exists w, a = Fin w /\ lo <= w <= hi) g n m -> lo <= v <= hi.
Proof.
  intros (i & j & s & t & a & b & c & d & Hi & Hj & _ & _ & Hst & Ha & Hb & Hcc & Hd & Hv) Hcov Hc. destruct (Hst Hcov) as [Hs Ht].
  destruct (Hc i j) as (a' & Ea & Ra); try lia. destruct (Hc i (S j)) as (b' & Eb & Rb); try lia.
  destruct (Hc (S i) j) as (c' & Ec & Rc); try lia. destruct (Hc (S i) (S j)) as (d' & Ed & Rd); try lia.
  assert (a' = a) as -> by congruence. assert (b' = b) as -> by congruence. assert (c' = c) as -> by congruence. assert (d' = d) as -> by congruence.
  assert (Hv' : v == (1 - s) * ((1 - t) * a + t * b) + s * ((1 - t) * c + t * d)) by (rewrite Hv; ring).
  rewrite Hv'. apply convex; auto; apply convex; auto.
Qed.
(** Within the coarsest grid the size never leaves the range of the stored sizes. *)
Lemma msf_range g gs n m q lo hi : Forall regional (g :: gs) -> proper_grid g n m -> covered g n m q -> hi <= 999999 ->
  Forall (fun g => forall n m, proper_grid g n m -> all_cells (fun a => exists w, a = Fin w /\ lo <= w <= hi) g n m) (g :: gs) ->
  exists v, fst (msf_eval true (g :: gs) q) = Ok (Fin v) /\ lo <= v <= hi.
Proof.
  intros Hr Hp Hcov Hhi Hall. destruct (msf_spec _ Hr true q) as (v & vals & E & Hv & Hmin).
  assert (Hvals : forall a, In a vals -> exists w, a = Fin w /\ lo <= w /\ (w <= hi \/ w == 999999)).
  { assert (Hin : forall x, In x (combine (g :: gs) (true :: repeat false (length (g :: gs)))) -> (fst x = g \/ snd x = false) /\ In (fst x) (g :: gs)).
    { intros x Hx. cbn [length repeat combine] in Hx. destruct Hx as [<-|Hx]; [simpl; auto|]. destruct x as [x b]. split.
      - right. apply in_combine_r in Hx. apply (repeat_spec (S (length gs))) in Hx. exact Hx.
      - right. now apply in_combine_l in Hx. }
    clear E Hmin. revert Hin Hv. generalize (combine (g :: gs) (true :: repeat false (length (g :: gs)))). intros l Hin Hv. induction Hv as [|x a l vals Hx _ IH]; intros a0 Ha; [destruct Ha|].
    destruct Ha as [<-|Ha]; [|apply IH; auto; intros; apply Hin; now right].
    destruct (Hin x) as [Hor Hx1]; [now left|]. rewrite Forall_forall in Hr, Hall. destruct (Hr _ Hx1) as [(n' & m' & Hp' & _) _].
    specialize (Hx n' m' Hp'). specialize (Hall _ Hx1 n' m' Hp').
    assert (Hlo : lo <= hi). { destruct Hp' as (_ & Hn' & Hm' & _). destruct (Hall 0%nat 0%nat) as (w & _ & Hw); [lia..|]. lra. }
    assert (D : covered (fst x) n' m' q \/ ~ covered (fst x) n' m' q).
    { rewrite (surjective_pairing q). rewrite <- (covered_iff (fst x) n' m' (fst q) (snd q) Hp'). destruct (out_of_grid (fst x) (fst q) (snd q)); [right; discriminate|left; reflexivity]. }
    destruct D as [D|D].
    - destruct (proj1 Hx (or_intror D)) as (w & -> & Hb). destruct (bilinear_range _ _ _ _ _ lo hi Hb D Hall). exists w. auto.
    - destruct Hor as [Hor|Hor].
      + rewrite Hor in *. exfalso. apply D. destruct (shape_ny g n m (proj1 Hp)); [destruct Hp as (_ & ? & _); lia|].
        destruct (shape_ny g n' m' (proj1 Hp')); [destruct Hp' as (_ & ? & _); lia|]. assert (n' = n) as -> by congruence. assert (m' = m) as -> by congruence. exact Hcov.
      + rewrite (proj2 Hx Hor D). exists 999999. split; auto. split; [lra|right; lra]. }
  rewrite E. destruct Hmin as [[Hnan _]|(_ & Hin & Hle)].
  { apply in_app_or in Hnan. destruct Hnan as [Hn|[Hn|[]]]; [|discriminate]. destruct (Hvals _ Hn) as (w & Hw & _). discriminate. }
  (* the first grid's value bounds from above *)
  assert (Hfirst : exists w, In (Fin w) vals /\ w <= hi).
  { cbn [length repeat combine] in Hv. inversion Hv as [|? a ? vals' Ha _]; subst. destruct (proj1 (Ha n m Hp) (or_introl eq_refl)) as (w & -> & Hb).
    exists w. split; [now left|]. inversion Hall; subst. eapply bilinear_range; eauto. }
  destruct Hfirst as (w & Hw & Hwh). assert (Hvw := Hle (Fin w) (in_or_app _ _ _ (or_introl Hw))).
  apply in_app_or in Hin. destruct Hin as [Hin|[Hin|[]]].
  - destruct (Hvals _ Hin) as (u & -> & H1 & H2). exists u. split; auto. simpl in Hvw. lra.
  - subst v. exists 999999. split; auto. simpl in Hvw. split; [|lra]. destruct (Hvals _ Hw) as (u & Eu & H1 & _). injection Eu as <-. lra.
Qed.

(** * Witnesses *)
(** Three by two nodes over the whole globe. *)
Definition globe : grid :=
  {| g_bbox := (-180, 180, -90, 90); g_dx := 180; g_dy := 180;
     g_values := [[Fin 10; Fin 10]; [Fin 20; Fin 20]; [Fin 30; Fin 30]]; g_hmin := None; g_extra := true; g_crs := 0%nat; g_fill := None |}.
(** Three by three nodes over a regional box. *)
Definition bay : grid :=
  {| g_bbox := (0, 2, 0, 2); g_dx := 1; g_dy := 1;
     g_values := [[Fin 4; Fin 3; Fin 2]; [Fin 5; Fin 4; Fin 3]; [Fin 6; Fin 5; Fin 4]]; g_hmin := None; g_extra := true; g_crs := 0%nat; g_fill := None |}.
Definition inlet : grid :=
  {| g_bbox := (1 # 2, 3 # 2, 1 # 2, 3 # 2); g_dx := 1 # 2; g_dy := 1 # 2;
     g_values := [[Fin 1; Fin 1; Fin 1]; [Fin 1; Fin (1 # 2); Fin 1]; [Fin 1; Fin 1; Fin 1]]; g_hmin := None; g_extra := false; g_crs := 0%nat; g_fill := None |}.

Lemma globe_proper : proper_grid globe 3 2 /\ all_cells finite globe 3 2 /\ global_box (g_bbox globe).
Proof.
  split; [|split].
  - repeat split; simpl; try lia; try lra. repeat constructor.
  - intros i j Hi Hj. destruct i as [|[|[|i]]]; [..|lia]; destruct j as [|[|j]]; try lia; eexists; reflexivity.
  - split; reflexivity.
Qed.
Lemma cells3 (P : num -> Prop) g : (forall i j, In i [0;1;2]%nat -> In j [0;1;2]%nat -> P (value_at g i j)) -> all_cells P g 3 3.
Proof. intros H i j Hi Hj. apply H; simpl; lia. Qed.
Lemma bay_regional : proper_grid bay 3 3 /\ all_cells finite bay 3 3 /\ regional bay.
Proof.
  assert (Hp : proper_grid bay 3 3) by (repeat split; simpl; try lia; try lra; repeat constructor).
  assert (Hc : all_cells finite bay 3 3).
  { apply cells3. simpl. intros i j Hi Hj. repeat (destruct Hi as [<-|Hi]; [repeat (destruct Hj as [<-|Hj]; [eexists; reflexivity|]); destruct Hj|]). destruct Hi. }
  split; auto. split; auto. split; [exists 3%nat, 3%nat; auto|]. intros [H _]. apply Qeq_bool_iff in H. discriminate.
Qed.
Lemma inlet_regional : proper_grid inlet 3 3 /\ all_cells finite inlet 3 3 /\ regional inlet.
Proof.
  assert (Hp : proper_grid inlet 3 3) by (repeat split; simpl; try lia; try lra; repeat constructor).
  assert (Hc : all_cells finite inlet 3 3).
  { apply cells3. simpl. intros i j Hi Hj. repeat (destruct Hi as [<-|Hi]; [repeat (destruct Hj as [<-|Hj]; [eexists; reflexivity|]); destruct Hj|]). destruct Hi. }
  split; auto. split; auto. split; [exists 3%nat, 3%nat; auto|]. intros [H _]. apply Qeq_bool_iff in H. discriminate.
Qed.
Lemma not_global b : Qeq_bool (Qabs (b0 b)) 180 = false -> ~ global_box b.
Proof. intros E [H _]. apply Qeq_bool_iff in H. congruence. Qed.
Lemma builds_local_values g k : ~ global_box (g_bbox g) -> (1 <= k)%nat -> builds k g = build_interpolant g /\ g_values (builds k g) = g_values g.
Proof.
  intros Hg Hk. rewrite builds_local by assumption. split; [reflexivity|]. rewrite build_values.
  destruct (is_global g) eqn:E; [apply is_global_iff in E; contradiction|reflexivity].
Qed.
Lemma build_nodes_local g n m i j : proper_grid g n m -> all_cells finite g n m -> ~ global_box (g_bbox g) -> (i < n)%nat -> (j < m)%nat ->
  exists v, eval (build_interpolant g) (x_of g i, y_of g j) = Ok v /\ same_num v (value_at g i j).
Proof.
  intros Hp Hc Hg Hi Hj. destruct (build_nodes g n m i j Hp Hc Hi Hj) as (v & H1 & H2). exists v. split; auto.
  destruct (is_global g) eqn:E; [apply is_global_iff in E; contradiction|]. exact H2.
Qed.
Lemma build_nodes_global g n m i j : proper_grid g n m -> all_cells finite g n m -> global_box (g_bbox g) -> (i < n)%nat -> (j < m)%nat ->
  exists v, eval (build_interpolant g) (x_of g i, y_of g j) = Ok v /\
    same_num v (value_at g (if (i =? 0)%nat then n - 1 else if (i =? n - 1)%nat then 0 else i)%nat j).
Proof.
  intros Hp Hc Hg Hi Hj. destruct (build_nodes g n m i j Hp Hc Hi Hj) as (v & H1 & H2). exists v. split; auto.
  apply is_global_iff in Hg. rewrite Hg in H2. exact H2.
Qed.
Lemma build_twice_differs : exists g n m q, proper_grid g n m /\ all_cells finite g n m /\ covered g n m q /\
  exists a b, eval (build_interpolant g) q = Ok a /\ eval (build_interpolant (build_interpolant g)) q = Ok b /\ ~ same_num a b.
Proof.
  exists globe, 3%nat, 2%nat, (-180, -90). destruct globe_proper as (H1 & H2 & _). split; auto. split; auto. split.
  - repeat split; vm_compute; discriminate.
  - eexists _, _. split; [reflexivity|]. split; [reflexivity|]. vm_compute. discriminate.
Qed.
Lemma msf_repeats gs : Forall (fun g => ~ global_box (g_bbox g)) gs ->
  forall q q', fst (msf_eval true (snd (msf_eval true gs q)) q') = fst (msf_eval true gs q').
Proof. intros H q q'. now rewrite msf_again. Qed.
Lemma msf_differs : exists gs q a b, fst (msf_eval true gs q) = Ok a /\
  fst (msf_eval true (snd (msf_eval true gs q)) q) = Ok b /\ ~ same_num a b.
Proof. exists [globe; bay], (-180, -90). eexists _, _. split; [reflexivity|]. split; [reflexivity|]. vm_compute. discriminate. Qed.
Lemma msf_minimum gs : Forall regional gs -> forall q, exists v vals,
  fst (msf_eval true gs q) = Ok v /\
  Forall2 (fun gf a => size_of (snd gf) (fst gf) q a) (combine gs (true :: repeat false (length gs))) vals /\
  is_minimum v (vals ++ [Fin 999999]).
Proof. intros H q. exact (msf_spec gs H true q). Qed.
Lemma eval_range g n m lo hi q : proper_grid g n m -> ~ global_box (g_bbox g) ->
  all_cells (fun a => exists w, a = Fin w /\ lo <= w <= hi) g n m -> covered g n m q ->
  exists v, eval (build_interpolant g) q = Ok (Fin v) /\ lo <= v <= hi.
Proof.
  intros Hp Hg Hc Hq. destruct (eval_local g n m q) as [H _]; auto.
  { intros i j Hi Hj. destruct (Hc i j Hi Hj) as (w & -> & _). now exists w. }
  destruct (H (or_intror Hq)) as (v & Hv & Hb). exists v. split; auto. eapply bilinear_range; eauto.
Qed.
Lemma extrapolation_negative : exists g n m q v, proper_grid g n m /\ ~ global_box (g_bbox g) /\
  all_cells (fun a => exists w, a = Fin w /\ 0 < w) g n m /\ eval (build_interpolant g) q = Ok (Fin v) /\ v < 0.
Proof.
  exists bay, 3%nat, 3%nat, (0, 5). eexists. destruct bay_regional as (H1 & _ & _ & H2). split; auto. split; auto. split.
  - apply cells3. simpl. intros i j Hi Hj. repeat (destruct Hi as [<-|Hi]; [repeat (destruct Hj as [<-|Hj]; [eexists; split; [reflexivity|reflexivity]|]); destruct Hj|]). destruct Hi.
  - split; [vm_compute; reflexivity|]. reflexivity.
Qed.
Lemma bay_case : proper_grid bay 3 3 /\ all_cells finite bay 3 3 /\ regional bay /\ covered bay 3 3 (1 # 2, 5 # 4) /\
  exists v, eval (build_interpolant bay) (1 # 2, 5 # 4) = Ok (Fin v) /\ v == 13 # 4.
Proof.
  destruct bay_regional as (H1 & H2 & H3). repeat (split; [assumption|]). split.
  - repeat split; vm_compute; discriminate.
  - eexists. split; [vm_compute; reflexivity|]. reflexivity.
Qed.
Lemma multi_case : Forall regional [bay; inlet] /\
  (exists v, fst (msf_eval true [bay; inlet] (1, 1)) = Ok (Fin v) /\ v == 1 # 2) /\
  (exists v, fst (msf_eval true [bay; inlet] (2, 2)) = Ok (Fin v) /\ v == 4).
Proof.
  split; [repeat constructor; [apply bay_regional..|apply inlet_regional|apply inlet_regional]|].
  split; (eexists; split; [vm_compute; reflexivity|]; reflexivity).
Qed.
Lemma compute_minimum_disjoint tr base n m o others : proper_grid base n m -> g_crs o = g_crs base -> ~ boxes_meet (g_bbox o) (g_bbox base) ->
  compute_minimum tr (base :: o :: others) = Raise AssertionError.
Proof.
  intros Hp Hc Hb. unfold compute_minimum. cbn [mapM]. unfold aligned at 1. apply Nat.eqb_eq in Hc. rewrite Hc.
  destruct (interpolate_to_ok o base n m Hp) as [[-> _]|(E & _)]; [reflexivity|]. apply boxes_meet_iff in E. contradiction.
Qed.
Lemma compute_minimum_global : exists tr base n m g, proper_grid base n m /\ all_cells finite base n m /\ usable base base /\
  compute_minimum tr [base; base] = Ok g /\ exists i j, (i < n)%nat /\ (j < m)%nat /\ ~ nleq (value_at g i j) (value_at base i j).
Proof.
  exists (fun _ _ q => q), globe, 3%nat, 2%nat. eexists. destruct globe_proper as (H1 & H2 & _). split; auto. split; auto. split.
  - split; [eauto|]. split; [|congruence]. intros _. repeat split; simpl; lra.
  - split; [vm_compute; reflexivity|]. exists 0%nat, 0%nat. split; [lia|]. split; [lia|]. vm_compute. intros H. now apply H.
Qed.
Lemma minimum_case : proper_grid bay 3 3 /\ ~ global_box (g_bbox bay) /\ Forall (usable bay) [inlet] /\
  exists g, compute_minimum (fun _ _ q => q) [bay; inlet] = Ok g /\ value_at g 1 1 = Fin (1 # 2) /\ value_at g 0 0 = Fin 4 /\ g_hmin g = Some (Fin (1 # 2)).
Proof.
  destruct bay_regional as (H1 & H2 & H3). split; auto. split; [apply H3|]. split.
  - constructor; [|constructor]. split; [exists 3%nat, 3%nat; apply inlet_regional|]. split; [|simpl; congruence]. intros _. repeat split; simpl; lra.
  - eexists. split; [vm_compute; reflexivity|]. repeat split.
Qed.
Definition depths : list (list num) := [[Fin (-5); Fin (-5); Fin 0]; [Fin (-10); Fin 11; Fin (-1)]; [Fin 3; Fin 2; Fin 10]].
Lemma bands_case : exists g', enforce_bounds bay depths [(3, 5, -10, 0); (1, 2, 0, 10)] = (Ok g', g') /\
  shape (g_values bay) 3 3 /\ shape depths 3 3 /\ Forall proper_band [(3, 5, -10, 0); (1, 2, 0, 10)] /\
  g_values g' = [[Fin 4; Fin 3; Fin 3]; [Fin 5; Fin 4; Fin 3]; [Fin 2; Fin 2; Fin 2]].
Proof.
  eexists. split; [vm_compute; reflexivity|]. split; [split; repeat constructor|]. split; [split; repeat constructor|]. split; [|reflexivity].
  repeat constructor; simpl; lra.
Qed.
Lemma enforce_nan : exists g z bs n m i j g', shape (g_values g) n m /\ shape z n m /\ ~ global_box (g_bbox g) /\ Forall proper_band bs /\
  enforce_bounds g z bs = (Ok g', g') /\ (i < n)%nat /\ (j < m)%nat /\ exists b, bs = [b] /\ in_band b (elevation z i j) /\ ~ within_limits b (value_at g' i j).
Proof.
  exists (set_values bay [[NaN; Fin 1]; [Fin 1; Fin 1]]), [[Fin 0; Fin 0]; [Fin 0; Fin 0]], [(1, 2, -1, 1)], 2%nat, 2%nat, 0%nat, 0%nat. eexists.
  split; [split; repeat constructor|]. split; [split; repeat constructor|]. split; [apply not_global; reflexivity|].
  split; [repeat constructor; simpl; lra|]. split; [vm_compute; reflexivity|]. split; [lia|]. split; [lia|].
  eexists. split; [reflexivity|]. split; [simpl; lra|]. vm_compute. tauto.
Qed.
Lemma enforce_global : exists g z bs n m i j g', shape (g_values g) n m /\ shape z n m /\ all_cells finite g n m /\ Forall proper_band bs /\
  enforce_bounds g z bs = (Ok g', g') /\ (i < n)%nat /\ (j < m)%nat /\ exists b, bs = [b] /\ in_band b (elevation z i j) /\ ~ within_limits b (value_at g' i j).
Proof.
  exists globe, [[Fin 0; Fin 0]; [Fin 5; Fin 5]; [Fin 5; Fin 5]], [(1, 15, -1, 1)], 3%nat, 2%nat, 0%nat, 0%nat. eexists.
  destruct globe_proper as (H1 & H2 & _).
  split; [apply H1|]. split; [split; repeat constructor|]. split; [assumption|].
  split; [repeat constructor; simpl; lra|]. split; [vm_compute; reflexivity|]. split; [lia|]. split; [lia|].
  eexists. split; [reflexivity|]. split; [simpl; lra|]. intros [_ H]. vm_compute in H. now apply H.
Qed.
Lemma enforce_not_atomic : exists g z bs n m i j g', shape (g_values g) n m /\ shape z n m /\
  enforce_bounds g z bs = (Raise AssertionError, g') /\ (i < n)%nat /\ (j < m)%nat /\ ~ same_num (value_at g' i j) (value_at g i j).
Proof.
  exists bay, depths, [(1, 2, -10, 0); (3, 3, 0, 10)], 3%nat, 3%nat, 0%nat, 0%nat. eexists.
  split; [apply bay_regional|]. split; [split; repeat constructor|]. split; [vm_compute; reflexivity|]. split; [lia|]. split; [lia|]. vm_compute. discriminate.
Qed.
Lemma plane_case : let F := [[1; 3; 5]; [2; 4; 6]] in
  (forall i j, (i < 2)%nat -> (j < 3)%nat -> nth j (nth i F []) 0 == 1 + inject_Z (Z.of_nat i) * (1 # 2) * 2 + inject_Z (Z.of_nat j) * 4 * (1 # 2)).
Proof. intros F i j Hi Hj. destruct i as [|[|i]]; [..|lia]; destruct j as [|[|[|j]]]; try lia; reflexivity. Qed.
Lemma unbuilt b dx dy v h e crs g q : make_grid b dx dy v h e crs = Ok g -> eval g q = Raise TypeError /\ exists r, eval (build_interpolant g) q = Ok r.
Proof. unfold make_grid. destruct (_ : bool); [discriminate|]. intros H. injection H as <-. split; [reflexivity|]. unfold eval, build_interpolant. cbn [set_fill g_fill]. destruct e; eexists; reflexivity. Qed.
