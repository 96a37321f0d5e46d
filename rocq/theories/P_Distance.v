From Coq Require Import List Arith Bool ZArith QArith Qabs Qround Lia Lqa.
From Verif Require Import M_Base M_Sdf M_Grid M_Distance P_Sdf S_Grid P_Grid S_Distance.
Import ListNotations.
Open Scope Q_scope.

(** * Resampling a line *)
Lemma resample_stops fuel len step d : resample_loop fuel len step d <> OutOfFuel -> forall k, (fuel <= k)%nat -> resample_loop k len step d = resample_loop fuel len step d.
Proof.
  revert d. induction fuel; intros d H k Hk; [exfalso; apply H; reflexivity|].
  destruct k as [|k]; [lia|]. cbn [resample_loop] in *. destruct (negb _); auto.
  assert (N : resample_loop fuel len step (d + step) <> OutOfFuel). { intros E. rewrite E in H. apply H. reflexivity. }
  rewrite (IHfuel _ N k) by lia. reflexivity.
Qed.
Definition samples (step : Q) (l : list Q) (d : Q) : Prop := forall k, (k < length l)%nat -> nth k l 0 == d + inject_Z (Z.of_nat k) * step.
Lemma inject_S k : inject_Z (Z.of_nat (S k)) == inject_Z (Z.of_nat k) + 1.
Proof. rewrite Nat2Z.inj_succ, <- Z.add_1_r, inject_Z_plus. reflexivity. Qed.
Lemma resample_ok step len : 0 < step -> forall n d, len <= d + inject_Z (Z.of_nat n) * step ->
  exists l, resample_loop (S n) len step d = Ok l /\ samples step l d /\ (forall t, In t l -> t < len) /\
    (length l <= n)%nat /\ len <= d + inject_Z (Z.of_nat (length l)) * step /\ (d < len -> (1 <= length l)%nat).
Proof.
  intros Hs. induction n; intros d Hd.
  - cbn [resample_loop]. assert (E : Qle_bool len d = true). { apply Qle_bool_iff. change (inject_Z (Z.of_nat 0)) with 0 in Hd. lra. }
    rewrite E. exists []. split; [reflexivity|]. split; [intros k Hk; simpl in Hk; lia|]. split; [intros t []|]. split; [simpl; lia|].
    split; [exact Hd|]. apply Qle_bool_iff in E. intros. lra.
  - change (resample_loop (S (S n)) len step d) with
      (if negb (Qle_bool len d) then let! r := resample_loop (S n) len step (d + step) in Ok (d :: r) else Ok []).
    destruct (Qle_bool len d) eqn:E; cbn [negb].
    + exists []. apply Qle_bool_iff in E. split; [reflexivity|]. split; [intros k Hk; simpl in Hk; lia|]. split; [intros t []|]. split; [simpl; lia|].
      split; [cbn [length]; change (inject_Z (Z.of_nat 0)) with 0; lra|]. intros. lra.
    + destruct (IHn (d + step)) as (l & El & Hl & Ht & Ln & Le & Lp); [rewrite inject_S in Hd; lra|].
      rewrite El. exists (d :: l). split; [reflexivity|]. split; [|split; [|split; [|split]]].
      * intros [|k] Hk; cbn [nth]; [change (inject_Z (Z.of_nat 0)) with 0; ring|]. rewrite (Hl k) by (simpl in Hk; lia). rewrite inject_S. ring.
      * intros t [<-|H]; auto. apply not_true_iff_false in E. rewrite Qle_bool_iff in E. lra.
      * simpl. lia.
      * cbn [length]. rewrite inject_S. lra.
      * simpl. lia.
Qed.
Lemma resample_forever step len : step <= 0 -> forall n d, d < len -> resample_loop n len step d = OutOfFuel.
Proof.
  intros Hs. induction n; intros d Hd; [reflexivity|]. cbn [resample_loop].
  assert (E : Qle_bool len d = false). { apply not_true_iff_false. rewrite Qle_bool_iff. lra. }
  rewrite E. cbn [negb]. rewrite IHn by lra. reflexivity.
Qed.
(** Enough passes: any number of steps that covers the line, plus one. *)
Lemma resample_line_spec fuel len me n : 0 < me -> 0 < len -> len <= inject_Z (Z.of_nat n) * (me * (1 # 2)) -> (n < fuel)%nat ->
  (len <= me * (1 # 2) -> resample_line fuel len me = Raise ValueError) /\
  (me * (1 # 2) < len -> exists l, resample_line fuel len me = Ok l /\ (2 <= length l)%nat /\ samples (me * (1 # 2)) l 0 /\
     (forall t, In t l -> 0 <= t < len) /\ (forall t, 0 <= t <= len -> exists s, In s l /\ 0 <= t - s <= me * (1 # 2))).
Proof.
  intros Hm Hl Hn Hf. set (st := me * (1 # 2)) in *. assert (Hs : 0 < st) by (unfold st; lra).
  destruct (resample_ok st len Hs n 0) as (l & El & Sl & Tl & Ln & Le & Lp); [lra|].
  assert (EL : resample_loop fuel len st 0 = Ok l).
  { rewrite (resample_stops (S n) len st 0); [exact El|rewrite El; discriminate|lia]. }
  specialize (Lp Hl). split; intros H.
  - assert (L1 : length l = 1%nat).
    { destruct (Nat.eq_dec (length l) 1) as [E|E]; auto. exfalso.
      assert (L2 : (1 < length l)%nat) by lia. pose proof (Sl 1%nat L2) as S1. pose proof (Tl _ (nth_In l 0 L2)) as T1.
      change (inject_Z (Z.of_nat 1)) with 1 in S1. rewrite S1 in T1. lra. }
    unfold resample_line. fold st. rewrite EL. cbn [bind]. destruct l as [|a [|b l]]; simpl in L1; try lia. reflexivity.
  - assert (L2 : (2 <= length l)%nat).
    { destruct (Nat.le_gt_cases 2 (length l)) as [L2|L2]; auto. exfalso. assert (L1 : length l = 1%nat) by lia. rewrite L1 in Le. change (inject_Z (Z.of_nat 1)) with 1 in Le. lra. }
    exists l. split. { unfold resample_line. fold st. rewrite EL. cbn [bind]. destruct l as [|a [|b l]]; simpl in L2; try lia. reflexivity. }
    split; auto. split; auto. split.
    + intros t Ht. split; [|apply Tl; auto]. destruct (In_nth _ _ 0 Ht) as (k & Hk & Ek). rewrite <- Ek, (Sl k Hk).
      assert (0 <= inject_Z (Z.of_nat k)) by (change 0 with (inject_Z 0); rewrite <- Zle_Qle; lia).
      assert (0 <= inject_Z (Z.of_nat k) * st) by (apply Qmult_le_0_compat; lra). lra.
    + intros t [T0 T1].
      (* the last sample at or before t *)
      assert (G : forall k, (k < length l)%nat -> t <= 0 + inject_Z (Z.of_nat (S k)) * st -> exists s, In s l /\ 0 <= t - s <= st).
      { induction k; intros Hk Ht.
        - exists (nth 0 l 0). split; [apply nth_In; auto|]. rewrite (Sl 0%nat Hk). change (inject_Z (Z.of_nat 0)) with 0. change (inject_Z (Z.of_nat 1)) with 1 in Ht. lra.
        - destruct (Qlt_le_dec t (0 + inject_Z (Z.of_nat (S k)) * st)) as [H1|H1]; [apply IHk; [lia|lra]|].
          exists (nth (S k) l 0). split; [apply nth_In; auto|]. rewrite (Sl (S k) Hk). rewrite (inject_S (S k)) in Ht. lra. }
      apply (G (length l - 1)%nat); [lia|]. replace (S (length l - 1)) with (length l) by lia. lra.
Qed.
Lemma resample_line_forever fuel len me : me <= 0 -> 0 < len -> resample_line fuel len me = OutOfFuel.
Proof. intros H1 H2. unfold resample_line. rewrite resample_forever; [reflexivity|lra|auto]. Qed.

(** * Nodes of a box *)
Lemma Qfloor_div a d : 0 < d -> inject_Z (Qfloor (a / d)) * d <= a /\ a < (inject_Z (Qfloor (a / d)) + 1) * d.
Proof.
  intros Hd. pose proof (Qfloor_le (a / d)) as A. pose proof (Qlt_floor (a / d)) as B. rewrite inject_Z_plus in B. change (inject_Z 1) with 1 in B.
  assert (E : a == a / d * d) by (field; lra). split.
  - rewrite E at 2. apply Qmult_le_compat_r; lra.
  - rewrite E at 1. apply Qmult_lt_r; auto.
Qed.
Lemma count_spec lo hi d : 0 < d -> lo + d <= hi -> let k := Z.to_nat (Qfloor ((hi - lo) / d) + 1) in node_count lo hi d k /\ (2 <= k)%nat /\ (0 < Qfloor ((hi - lo) / d) + 1)%Z.
Proof.
  intros Hd Hl k. destruct (Qfloor_div (hi - lo) d Hd) as [A B].
  assert (F : (1 <= Qfloor ((hi - lo) / d))%Z).
  { assert (1 <= (hi - lo) / d) by (apply Qle_shift_div_l; lra). change 1%Z with (Qfloor 1). apply Qfloor_resp_le. auto. }
  assert (K : (2 <= k)%nat) by (unfold k; lia). split; [|split; [auto|lia]]. unfold node_count.
  assert (E1 : Z.of_nat (k - 1) = Qfloor ((hi - lo) / d)) by (unfold k; lia).
  assert (E2 : Z.of_nat k = (Qfloor ((hi - lo) / d) + 1)%Z) by (unfold k; lia).
  rewrite E1, E2, inject_Z_plus. split; [lia|]. split; auto.
Qed.
Lemma tile_shape b d a : roomy b d -> exists n m, box_nodes b d n m /\ (2 <= n)%nat /\ (2 <= m)%nat /\ tile_values b d d a = repeat (repeat a m) n.
Proof.
  intros (Hd & Hx & Hy & _). destruct (count_spec _ _ _ Hd Hx) as (A & B & C). destruct (count_spec _ _ _ Hd Hy) as (A' & B' & C').
  eexists _, _. split; [split; [exact A|exact A']|]. split; [auto|]. split; [auto|]. unfold tile_values. rewrite Z.abs_eq by lia. reflexivity.
Qed.
Lemma repeat_shape (a : num) n m : shape (repeat (repeat a m) n) n m.
Proof. split; [apply repeat_length|]. apply Forall_forall. intros r Hr. apply repeat_spec in Hr. subst. apply repeat_length. Qed.
Lemma node_count_unique lo hi d n n' : 0 < d -> node_count lo hi d n -> node_count lo hi d n' -> n = n'.
Proof.
  intros Hd (A & B & C) (A' & B' & C').
  assert (G : forall x y, (1 <= x)%nat -> inject_Z (Z.of_nat (x - 1)) * d <= hi - lo -> hi - lo < inject_Z (Z.of_nat y) * d -> (x - 1 < y)%nat).
  { intros x y Hx H1 H2. assert (H : inject_Z (Z.of_nat (x - 1)) * d < inject_Z (Z.of_nat y) * d) by lra.
    apply Qmult_lt_r in H; auto. rewrite <- Zlt_Qlt in H. lia. }
  pose proof (G _ _ A B C'). pose proof (G _ _ A' B' C). lia.
Qed.

(** * Nearest nodes *)
Lemma sq_le a b : Qabs a <= Qabs b -> a * a <= b * b.
Proof.
  intros H. assert (E : forall x, x * x == Qabs x * Qabs x).
  { intros x. rewrite <- Qabs_Qmult. destruct (Qlt_le_dec x 0) as [L|L].
    - rewrite Qabs_pos; [reflexivity|]. assert (0 <= (- x) * (- x)) by (apply Qmult_le_0_compat; lra). setoid_replace (x * x) with ((- x) * (- x)) by ring. auto.
    - rewrite Qabs_pos; [reflexivity|]. apply Qmult_le_0_compat; auto. }
  rewrite (E a), (E b). pose proof (Qabs_nonneg a). pose proof (Qabs_nonneg b).
  apply Qle_trans with (Qabs a * Qabs b); [setoid_replace (Qabs a * Qabs b) with (Qabs b * Qabs a) by ring; apply Qmult_le_compat_r; auto|apply Qmult_le_compat_r; auto].
Qed.
Definition axis_near (g : grid) (q : Q * Q) : nat * nat :=
  (near_index (b0 (g_bbox g)) (g_dx g) (nx g) (fst q), near_index (b2 (g_bbox g)) (g_dy g) (ny g) (snd q)).
Lemma axis_near_search : nearest_search axis_near.
Proof.
  intros g n m q (Hs & Hn & Hm & Hx & Hy). destruct (shape_ny g n m Hs ltac:(lia)) as [Nx Ny]. unfold axis_near. rewrite Nx, Ny.
  destruct (near_index_spec (b0 (g_bbox g)) (g_dx g) n (fst q) Hx Hn) as [A1 A2].
  destruct (near_index_spec (b2 (g_bbox g)) (g_dy g) m (snd q) Hy Hm) as [B1 B2].
  split; [exact A1|]. split; [exact B1|]. intros i j Hi Hj. unfold sq_dist, x_of, y_of. cbn [fst snd].
  apply Qplus_le_compat; apply sq_le; auto.
Qed.
Lemma sq_nonneg x : 0 <= x * x.
Proof. destruct (Qlt_le_dec x 0); [setoid_replace (x * x) with ((- x) * (- x)) by ring|]; apply Qmult_le_0_compat; lra. Qed.
Lemma sq_zero x y : x * x + y * y <= 0 -> x == 0 /\ y == 0.
Proof.
  intros H. pose proof (sq_nonneg x). pose proof (sq_nonneg y).
  split; [destruct (Qmult_integral x x)|destruct (Qmult_integral y y)]; auto; lra.
Qed.
Lemma node_inj lo d i k : 0 < d -> lo + inject_Z (Z.of_nat i) * d == lo + inject_Z (Z.of_nat k) * d -> i = k.
Proof.
  intros Hd H. assert (E : inject_Z (Z.of_nat i) == inject_Z (Z.of_nat k)).
  { apply (Qmult_inj_r _ _ d); [lra|lra]. }
  apply (proj1 (inject_Z_injective _ _)) in E. lia.
Qed.
Lemma nearest_at_node g n m i j a : proper_grid g n m -> (i < n)%nat -> (j < m)%nat -> nearest_grid_node g n m (x_of g i, y_of g j) a -> a = (i, j).
Proof.
  intros (_ & _ & _ & Hx & Hy) Hi Hj (A & B & C). specialize (C i j Hi Hj). unfold sq_dist in C. cbn [fst snd] in C. destruct a as [a1 a2]. cbn [fst snd] in *.
  assert (Z : (x_of g i - x_of g a1) * (x_of g i - x_of g a1) + (y_of g j - y_of g a2) * (y_of g j - y_of g a2) <= 0).
  { eapply Qle_trans; [exact C|]. apply Qle_lteq. right. ring. }
  apply sq_zero in Z. destruct Z as [Z1 Z2]. unfold x_of, y_of, node in *.
  f_equal; [apply (node_inj (b0 (g_bbox g)) (g_dx g))|apply (node_inj (b2 (g_bbox g)) (g_dy g))]; auto; lra.
Qed.

(** * Marks *)
Lemma find_indices_spec near points : plain_points points ->
  exists idx, find_indices near points = Ok idx /\ forall a, In a idx <-> exists p q, In p points /\ point_at p q /\ a = near q.
Proof.
  intros Hp. unfold find_indices.
  assert (K : forall p, In p (filter keep_point points) <-> exists q, In p points /\ point_at p q).
  { intros p. rewrite filter_In. unfold keep_point, point_at. split.
    - intros [H1 H2]. destruct (Hp p H1) as [S0|[q Hq]]; [rewrite S0 in H2; discriminate|]. exists q. auto.
    - intros (q & H1 & ->). split; auto. }
  destruct (mapM_ok finite_point (filter keep_point points)) as [ps Eps].
  { intros p H. apply K in H. destruct H as (q & _ & E). unfold point_at in E. rewrite E. exists q. destruct q; reflexivity. }
  rewrite Eps. cbn [bind]. exists (map near ps). split; auto. intros a. rewrite in_map_iff.
  pose proof (mapM_Forall2 _ _ _ Eps) as F.
  assert (G : forall q, In q ps <-> exists p, In p (filter keep_point points) /\ point_at p q).
  { clear - F. induction F as [|p q l l' Hpq F IH]; intros r; [simpl; split; [tauto|intros (p & [] & _)]|].
    assert (Eq : point_at p q). { unfold point_at. destruct p as [[x| |] [y| |]]; simpl in Hpq; try discriminate. injection Hpq as <-. reflexivity. }
    simpl. rewrite IH. split.
    - intros [<-|(p' & H1 & H2)]; [exists p; auto|exists p'; auto].
    - intros (p' & [<-|H1] & H2); [left|right; exists p'; auto]. unfold point_at in *. rewrite Eq in H2. destruct q, r; cbn [fst snd] in *. congruence. }
  split.
  - intros (q & <- & Hq). apply G in Hq. destruct Hq as (p & H1 & H2). apply K in H1. destruct H1 as (q' & H1 & _). exists p, q. auto.
  - intros (p & q & H1 & H2 & ->). exists q. split; auto. apply G. exists p. split; auto. apply K. exists q. auto.
Qed.
Lemma qcell_tab n m f i j : (i < n)%nat -> (j < m)%nat -> qcell (qtab n m f) i j = f i j.
Proof. intros Hi Hj. unfold qcell, qtab. rewrite (map_seq_nth (fun i => map (fun j => f i j) (seq 0 m)) n i []) by auto. apply map_seq_nth. auto. Qed.
Lemma qtab_shape n m f : length (qtab n m f) = n /\ Forall (fun r => length r = m) (qtab n m f).
Proof.
  split; [unfold qtab; rewrite map_length, seq_length; auto|]. apply Forall_forall. intros r Hr. unfold qtab in Hr. apply in_map_iff in Hr.
  destruct Hr as (i & <- & _). rewrite map_length, seq_length. auto.
Qed.
Lemma same_index_iff a b : same_index a b = true <-> a = b.
Proof. destruct a, b. unfold same_index. cbn [fst snd]. rewrite andb_true_iff, !Nat.eqb_eq. split; [intros [-> ->]; auto|intros E; injection E; auto]. Qed.
Lemma existsb_index a l : existsb (same_index a) l = true <-> In a l.
Proof. rewrite existsb_exists. split; [intros (b & H & E); apply same_index_iff in E; subst; auto|intros H; exists a; split; auto; apply same_index_iff; auto]. Qed.
Lemma mark_marks n m idx (found : nat * nat -> Prop) : (forall a, In a idx <-> found a) -> marks (mark n m idx) n m found.
Proof.
  intros H. unfold marks. destruct (qtab_shape n m (fun i j => if existsb (same_index (i, j)) idx then -1 else 1)) as [A B].
  split; [exact A|]. split; [exact B|]. intros i j Hi Hj. change (entry (mark n m idx) i j) with (qcell (mark n m idx) i j). unfold mark. rewrite qcell_tab by auto.
  destruct (existsb _ _) eqn:E.
  - left. split; auto. apply H. apply existsb_index. auto.
  - right. split; auto. intros F. apply H in F. apply existsb_index in F. congruence.
Qed.
Lemma cap_spec hi x : limited_above hi x (cap hi x).
Proof.
  destruct hi as [h|]; [|reflexivity]. unfold cap, limited_above. destruct (Qle_bool x h) eqn:E; cbn [negb].
  - apply Qle_bool_iff in E. split; [auto|]. split; [apply Qle_refl|auto].
  - apply not_true_iff_false in E. rewrite Qle_bool_iff in E. split; [apply Qle_refl|]. split; [lra|auto].
Qed.
Lemma floor_spec lo x : limited_below lo x (floor_at lo x).
Proof.
  destruct lo as [h|]; [|reflexivity]. unfold floor_at, limited_below. destruct (Qle_bool h x) eqn:E; cbn [negb].
  - apply Qle_bool_iff in E. split; [auto|]. split; [apply Qle_refl|auto].
  - apply not_true_iff_false in E. rewrite Qle_bool_iff in E. split; [apply Qle_refl|]. split; [lra|auto].
Qed.

(** * Distance sizing *)
Lemma blank_grid b d h0 crs : roomy b d -> exists g n m, make_grid b d d (tile_values b d d (Fin 0)) (Some (Fin h0)) true crs = Ok g /\
  sizing_frame g b d h0 crs n m /\ nx g = n /\ ny g = m /\ g_fill g = None /\ (2 <= n)%nat /\ (2 <= m)%nat.
Proof.
  intros Hr. destruct (tile_shape b d (Fin 0) Hr) as (n & m & Hb & Hn & Hm & Et). pose proof Hr as (Hd & _ & _ & _).
  assert (E : Qle_bool d 0 = false). { apply not_true_iff_false. rewrite Qle_bool_iff. lra. }
  unfold make_grid. rewrite E. cbn [orb]. eexists _, n, m. split; [reflexivity|].
  pose proof (repeat_shape (Fin 0) n m) as Hs. rewrite <- Et in Hs.
  split; [|split; [|split; [|split; [reflexivity|auto]]]].
  - split; [repeat split; auto; apply Hs|]. split; [exact Hb|]. repeat split.
  - apply (shape_ny {| g_bbox := b; g_dx := d; g_dy := d; g_values := tile_values b d d (Fin 0); g_hmin := Some (Fin h0); g_extra := true; g_crs := crs; g_fill := None |} n m); [exact Hs|lia].
  - apply (shape_ny {| g_bbox := b; g_dx := d; g_dy := d; g_values := tile_values b d d (Fin 0); g_hmin := Some (Fin h0); g_extra := true; g_crs := crs; g_fill := None |} n m); [exact Hs|lia].
Qed.
Lemma build_set g v : ~ global_box (g_bbox g) -> g_values (build_interpolant (set_values g v)) = v.
Proof. intros H. rewrite build_values. destruct (is_global _) eqn:E; auto. apply is_global_iff in E. contradiction. Qed.
Lemma filled_frame g b d h0 crs n m f : sizing_frame g b d h0 crs n m -> ~ global_box b ->
  let r := build_interpolant (set_values g (tabulate n m f)) in
  sizing_frame r b d h0 crs n m /\ g_fill r = Some None /\ forall i j, (i < n)%nat -> (j < m)%nat -> value_at r i j = f i j.
Proof.
  intros ((Hs & Hn & Hm & Hx & Hy) & Hb & Eb & Ex & Ey & Eh & Ee & Ec) Hg r.
  destruct (build_fields (set_values g (tabulate n m f))) as (A & B & C & D & F).
  assert (V : g_values r = tabulate n m f) by (apply build_set; rewrite Eb; auto).
  split; [|split].
  - split; [apply proper_build; split; [apply tabulate_shape|auto]|]. split; [auto|]. unfold r. rewrite A, B, C, D, F, build_bbox. cbn. auto 10.
  - unfold r. rewrite build_fill. cbn. rewrite Ee. reflexivity.
  - intros i j Hi Hj. change (value_at r i j) with (M_Grid.cell (g_values r) i j). rewrite V. apply tabulate_cell; auto.
Qed.
Lemma found_near near g n m points (idx : list (nat * nat)) : nearest_search near -> proper_grid g n m ->
  (forall a, In a idx <-> exists p q, In p points /\ point_at p q /\ a = near g q) -> found_for g n m points (fun a => In a idx).
Proof.
  intros Hs Hp H. split.
  - intros p q H1 H2. exists (near g q). split; [apply H; exists p, q; auto|]. apply Hs. auto.
  - intros a Ha. apply H in Ha. destruct Ha as (p & q & H1 & H2 & ->). exists p, q. split; auto.
Qed.
Lemma frame_ext g g' n m q a : g_bbox g' = g_bbox g -> g_dx g' = g_dx g -> g_dy g' = g_dy g -> nearest_grid_node g n m q a <-> nearest_grid_node g' n m q a.
Proof. intros E1 E2 E3. unfold nearest_grid_node, x_of, y_of. rewrite E1, E2, E3. tauto. Qed.

Section Sizing.
  Variable fmm : list (list Q) -> Q -> Q -> res (list (list Q)).
  Variable near : grid -> Q * Q -> nat * nat.
  Hypothesis Hnear : nearest_search near.

  Lemma values_spec g b d h0 crs n m points rate hi : sizing_frame g b d h0 crs n m -> nx g = n -> ny g = m -> ~ global_box b -> plain_points points ->
    exists phi found, marks phi n m found /\ found_for g n m points found /\
      match fmm phi d d with
      | Ok dist => exists r, distance_values fmm near g points h0 rate hi = Ok r /\ sizing_frame r b d h0 crs n m /\ g_fill r = Some None /\
          forall i j, (i < n)%nat -> (j < m)%nat -> exists v, value_at r i j = Fin v /\ limited_above hi (h0 + Qabs (entry dist i j) * rate) v
      | Raise ValueError => exists r, distance_values fmm near g points h0 rate hi = Ok r /\ sizing_frame r b d h0 crs n m /\ g_fill r = Some None /\
          forall i j, (i < n)%nat -> (j < m)%nat -> exists v, value_at r i j = Fin v /\ limited_above hi (h0 + 999 * rate) v
      | Raise e => distance_values fmm near g points h0 rate hi = Raise e
      | OutOfFuel => distance_values fmm near g points h0 rate hi = OutOfFuel
      end.
  Proof.
    intros Hf Nx Ny Hg Hpl. pose proof Hf as (Hp & Hb & Eb & Ex & Ey & _).
    destruct (find_indices_spec (near g) points Hpl) as (idx & Ei & Hi).
    exists (mark n m idx), (fun a => In a idx). split; [apply mark_marks; tauto|]. split; [apply (found_near near); auto|].
    unfold distance_values. rewrite Ei. cbn [bind]. rewrite Nx, Ny, Ex, Ey. unfold distance_or_999.
    destruct (fmm (mark n m idx) d d) as [dist|e|] eqn:E; cbn [bind].
    - eexists. split; [reflexivity|]. destruct (filled_frame g b d h0 crs n m (fun i j => Fin (cap hi (h0 + qcell (qtab n m (fun i0 j0 => Qabs (qcell dist i0 j0))) i j * rate))) Hf Hg) as (A & B & C).
      split; [exact A|]. split; [exact B|]. intros i j Hi' Hj'. eexists. split; [apply C; auto|]. rewrite qcell_tab by auto. apply cap_spec.
    - destruct e; try reflexivity. eexists. split; [reflexivity|].
      destruct (filled_frame g b d h0 crs n m (fun i j => Fin (cap hi (h0 + qcell (qtab n m (fun _ _ => 999)) i j * rate))) Hf Hg) as (A & B & C).
      split; [exact A|]. split; [exact B|]. intros i j Hi' Hj'. eexists. split; [apply C; auto|]. rewrite qcell_tab by auto. apply cap_spec.
    - reflexivity.
  Qed.

  Lemma points_spec points b h0 rate hi coarsen crs : plain_points points -> roomy b (h0 * coarsen) ->
    exists g n m phi found, sizing_frame g b (h0 * coarsen) h0 crs n m /\ marks phi n m found /\ found_for g n m points found /\
      match fmm phi (h0 * coarsen) (h0 * coarsen) with
      | Ok dist => exists r, distance_sizing_points fmm near points b h0 rate hi coarsen crs = Ok r /\ sizing_frame r b (h0 * coarsen) h0 crs n m /\ g_fill r = Some None /\
          forall i j, (i < n)%nat -> (j < m)%nat -> exists v, value_at r i j = Fin v /\ limited_above hi (h0 + Qabs (entry dist i j) * rate) v
      | Raise ValueError => exists r, distance_sizing_points fmm near points b h0 rate hi coarsen crs = Ok r /\ sizing_frame r b (h0 * coarsen) h0 crs n m /\ g_fill r = Some None /\
          forall i j, (i < n)%nat -> (j < m)%nat -> exists v, value_at r i j = Fin v /\ limited_above hi (h0 + 999 * rate) v
      | Raise e => distance_sizing_points fmm near points b h0 rate hi coarsen crs = Raise e
      | OutOfFuel => distance_sizing_points fmm near points b h0 rate hi coarsen crs = OutOfFuel
      end.
  Proof.
    intros Hpl Hr. destruct (blank_grid b (h0 * coarsen) h0 crs Hr) as (g & n & m & Eg & Hf & Nx & Ny & _).
    destruct (values_spec g b (h0 * coarsen) h0 crs n m points rate hi Hf Nx Ny (proj2 (proj2 (proj2 Hr))) Hpl) as (phi & found & A & B & C).
    exists g, n, m, phi, found. split; [auto|]. split; [auto|]. split; [auto|].
    unfold distance_sizing_points, distance_grid. rewrite Eg. cbn [bind]. exact C.
  Qed.
  (** Any result keeps at least h0. *)
  Lemma points_bounds points b h0 rate hi coarsen crs r : plain_points points -> roomy b (h0 * coarsen) -> 0 <= rate ->
    (forall h, hi = Some h -> h0 <= h) -> distance_sizing_points fmm near points b h0 rate hi coarsen crs = Ok r ->
    exists n m, sizing_frame r b (h0 * coarsen) h0 crs n m /\
      forall i j, (i < n)%nat -> (j < m)%nat -> exists v, value_at r i j = Fin v /\ h0 <= v /\ (forall h, hi = Some h -> v <= h).
  Proof.
    intros Hpl Hr Hrate Hhi E. destruct (points_spec points b h0 rate hi coarsen crs Hpl Hr) as (g & n & m & phi & found & _ & _ & _ & M).
    assert (G : forall x v, 0 <= x -> limited_above hi (h0 + x * rate) v -> h0 <= v /\ (forall h, hi = Some h -> v <= h)).
    { intros x v Hx L. assert (0 <= x * rate) by (apply Qmult_le_0_compat; auto). destruct hi as [h|]; cbn in L.
      - destruct L as (L1 & L2 & [->| ->]); (split; [specialize (Hhi h eq_refl); lra|intros h' E'; injection E' as <-; auto]).
      - subst. split; [lra|]. intros h' E'. discriminate. }
    destruct (fmm phi _ _) as [dist|e|].
    - destruct M as (r' & E' & F & _ & V). rewrite E in E'. injection E' as <-. exists n, m. split; auto. intros i j Hi Hj.
      destruct (V i j Hi Hj) as (v & Ev & L). exists v. split; auto. apply (G _ _ (Qabs_nonneg _) L).
    - destruct e; try congruence. destruct M as (r' & E' & F & _ & V). rewrite E in E'. injection E' as <-. exists n, m. split; auto. intros i j Hi Hj.
      destruct (V i j Hi Hj) as (v & Ev & L). exists v. split; auto. apply (G 999 _); [discriminate|auto].
    - congruence.
  Qed.
End Sizing.

(** * The mask of the shoreline version *)
Section Mask.
  Variable fmm : list (list Q) -> Q -> Q -> res (list (list Q)).
  Variable near : grid -> Q * Q -> nat * nat.
  Hypothesis Hnear : nearest_search near.
  Variable inside : num * num -> bool.

  Lemma filter_plain l : plain_points l -> plain_points (filter inside l).
  Proof. intros H p Hp. apply filter_In in Hp. apply H. tauto. Qed.
  Definition nodes_of (g : grid) (n m : nat) : list (num * num) := flat_map (fun i => map (fun j => (Fin (node_x g i), Fin (node_y g j))) (seq 0 m)) (seq 0 n).
  Lemma nodes_In g n m p : In p (nodes_of g n m) <-> exists i j, (i < n)%nat /\ (j < m)%nat /\ p = (Fin (node_x g i), Fin (node_y g j)).
  Proof.
    unfold nodes_of. rewrite in_flat_map. split.
    - intros (i & Hi & H). apply in_map_iff in H. destruct H as (j & <- & Hj). apply in_seq in Hi. apply in_seq in Hj. exists i, j. repeat split; lia || auto.
    - intros (i & j & Hi & Hj & ->). exists i. split; [apply in_seq; lia|]. apply in_map_iff. exists j. split; auto. apply in_seq. lia.
  Qed.
  Lemma mask_nth (f : nat -> nat -> bool) n m i j : (i < n)%nat -> (j < m)%nat -> nth j (nth i (map (fun i => map (fun j => f i j) (seq 0 m)) (seq 0 n)) []) false = f i j.
  Proof. intros Hi Hj. rewrite (map_seq_nth (fun i => map (fun j => f i j) (seq 0 m)) n i []) by auto. apply map_seq_nth. auto. Qed.

  Lemma shoreline_spec points b h0 rate hi coarsen crs r mask : plain_points points -> roomy b (h0 * coarsen) ->
    distance_sizing fmm near inside points b h0 rate hi coarsen crs = Ok (r, mask) ->
    distance_sizing_points fmm near (filter inside points) b h0 rate hi coarsen crs = Ok r /\
    exists n m, sizing_frame r b (h0 * coarsen) h0 crs n m /\
      forall i j, (i < n)%nat -> (j < m)%nat ->
        nth j (nth i mask []) false = match points with [] => true | _ => negb (inside (Fin (x_of r i), Fin (y_of r j))) end.
  Proof.
    intros Hpl Hr E. destruct (blank_grid b (h0 * coarsen) h0 crs Hr) as (g & n & m & Eg & Hf & Nx & Ny & _).
    pose proof Hf as (Hp & Hb & Eb & Ex & Ey & Eh & Ee & Ec). pose proof Hp as (_ & _ & _ & Px & Py).
    unfold distance_sizing, distance_grid in E. rewrite Eg in E. cbn [bind] in E. rewrite Nx, Ny in E.
    change (flat_map _ (seq 0 n)) with (nodes_of g n m) in E.
    assert (Hpn : plain_points (filter inside (nodes_of g n m))).
    { apply filter_plain. intros p H. apply nodes_In in H. destruct H as (i & j & _ & _ & ->). right. exists (node_x g i, node_y g j). reflexivity. }
    destruct (find_indices_spec (near g) _ Hpn) as (midx & Em & Hm). rewrite Em in E.
    destruct (distance_values fmm near g (filter inside points) h0 rate hi) as [r0|e|] eqn:Ed.
    2: { destruct points; discriminate. } 2: { destruct points; discriminate. }
    split. { unfold distance_sizing_points, distance_grid. rewrite Eg. cbn [bind]. rewrite Ed. destruct points; cbn [bind] in E; injection E as <- _; reflexivity. }
    assert (Fr : r = r0) by (destruct points; cbn [bind] in E; congruence). subst r0. exists n, m.
    assert (Hfr : sizing_frame r b (h0 * coarsen) h0 crs n m).
    { destruct (values_spec fmm near Hnear g b (h0 * coarsen) h0 crs n m (filter inside points) rate hi Hf Nx Ny (proj2 (proj2 (proj2 Hr))) (filter_plain _ Hpl)) as (phi & found & _ & _ & M).
      destruct (fmm phi _ _) as [dist|e|].
      - destruct M as (r' & E' & F & _). rewrite Ed in E'. injection E' as <-. auto.
      - destruct e; try congruence. destruct M as (r' & E' & F & _). rewrite Ed in E'. injection E' as <-. auto.
      - congruence. }
    split; auto. pose proof Hfr as (_ & _ & Eb' & Ex' & Ey' & _).
    intros i j Hi Hj.
    assert (Xi : x_of r i = node_x g i) by (unfold x_of, node, node_x; rewrite Eb', Ex', Eb, Ex; reflexivity).
    assert (Yj : y_of r j = node_y g j) by (unfold y_of, node, node_y; rewrite (Qabs_eq (g_dy g)) by auto; rewrite Eb', Ey', Eb, Ey; reflexivity).
    destruct points as [|p0 ps]; cbn [bind] in E; injection E as <-.
    - rewrite mask_nth by auto. reflexivity.
    - rewrite mask_nth by auto. f_equal. rewrite Xi, Yj.
      assert (Node : forall i' j', (i' < n)%nat -> (j' < m)%nat -> near g (node_x g i', node_y g j') = (i', j')).
      { intros i' j' Hi' Hj'. apply (nearest_at_node g n m); auto.
        assert (Yq : node_y g j' = y_of g j') by (unfold y_of, node, node_y; rewrite (Qabs_eq (g_dy g)) by auto; reflexivity).
        rewrite Yq. change (node_x g i') with (x_of g i'). apply Hnear. auto. }
      apply eq_true_iff_eq. rewrite existsb_index, Hm. split.
      + intros (p & q & H1 & H2 & H3). apply filter_In in H1. destruct H1 as [H1 H4]. apply nodes_In in H1. destruct H1 as (i' & j' & Hi' & Hj' & ->).
        unfold point_at in H2. destruct q as [x y]. cbn [fst snd] in H2. injection H2 as <- <-. rewrite Node in H3 by auto. injection H3 as -> ->. exact H4.
      + intros H. exists (Fin (node_x g i), Fin (node_y g j)), (node_x g i, node_y g j). split; [apply filter_In; split; [apply nodes_In; eauto|exact H]|].
        split; [reflexivity|]. rewrite Node; auto.
  Qed.
End Mask.

(** * Feature sizing *)
Lemma double_count lo hi d n k : 0 < d -> node_count lo hi d n -> node_count lo hi (d * (1 # 2)) k -> forall i, (i < n)%nat -> (2 * i < k)%nat.
Proof.
  intros Hd (A & B & C) (A' & B' & C') i Hi.
  assert (H : inject_Z (Z.of_nat (2 * i)) * (d * (1 # 2)) < inject_Z (Z.of_nat k) * (d * (1 # 2))).
  { eapply Qle_lt_trans; [|exact C']. eapply Qle_trans; [|exact B].
    assert (E : inject_Z (Z.of_nat (2 * i)) * (d * (1 # 2)) == inject_Z (Z.of_nat i) * d).
    { rewrite Nat2Z.inj_mul, inject_Z_mult. change (inject_Z (Z.of_nat 2)) with 2. ring. }
    rewrite E. apply Qmult_le_compat_r; [|lra]. rewrite <- Zle_Qle. lia. }
  apply Qmult_lt_r in H; [|lra]. rewrite <- Zlt_Qlt in H. lia.
Qed.
Lemma nearest_exact lo d n x a k : 0 < d -> (k < n)%nat -> x == node lo d k -> nearest_node lo d n x a -> a = k.
Proof.
  intros Hd Hk Hx [Ha H]. specialize (H k Hk).
  assert (Z : Qabs (x - node lo d k) == 0). { setoid_replace (x - node lo d k) with 0 by lra. reflexivity. }
  rewrite Z in H. apply Qabs_Qle_condition in H. unfold node in *. apply (node_inj lo d); auto. lra.
Qed.
Lemma roomy_half b d : roomy b d -> roomy b (d * (1 # 2)).
Proof. intros (A & B & C & D). unfold roomy. repeat split; auto; lra. Qed.
Section Feature.
  Variable fmm : list (list Q) -> Q -> Q -> res (list (list Q)).
  Variable near : grid -> Q * Q -> nat * nat.
  Hypothesis Hnear : nearest_search near.
  Variable medial : list (list Q) -> grid -> res (list (list Q)).
  Variable sdf_le : Q * Q -> bool.

  Lemma feature_spec points b h0 r lo hi crs : plain_points points -> roomy b h0 -> 0 < r ->
    exists gc n2 m2 n m phi found ind, sizing_frame gc b (h0 * (1 # 2)) h0 crs n2 m2 /\ box_nodes b h0 n m /\
      (forall i j, (i < n)%nat -> (j < m)%nat -> (2 * i < n2)%nat /\ (2 * j < m2)%nat) /\
      marks phi n2 m2 found /\ found_for gc n2 m2 points found /\
      (forall i j, (i < n2)%nat -> (j < m2)%nat -> entry ind i j = if sdf_le (x_of gc i, y_of gc j) then 1 else 0) /\
      (forall g, feature_sizing fmm near medial sdf_le points b h0 r lo hi crs = Ok g ->
         exists dis dma, fmm phi (h0 * (1 # 2)) (h0 * (1 # 2)) = Ok dis /\ medial ind gc = Ok dma) /\
      forall dis dma, fmm phi (h0 * (1 # 2)) (h0 * (1 # 2)) = Ok dis -> medial ind gc = Ok dma ->
      exists g, feature_sizing fmm near medial sdf_le points b h0 r lo hi crs = Ok g /\ sizing_frame g b h0 h0 crs n m /\ g_fill g = Some None /\
        forall i j, (i < n)%nat -> (j < m)%nat -> exists y v, value_at g i j = Fin v /\
          limited_below lo (2 * (entry dma (2 * i) (2 * j) + Qabs (entry dis (2 * i) (2 * j))) / r) y /\ limited_above hi y v.
  Proof.
    intros Hpl Hr Hrp. pose proof Hr as (Hd & Hbx & Hby & Hg).
    destruct (blank_grid b (h0 * (1 # 2)) h0 crs (roomy_half _ _ Hr)) as (gc & n2 & m2 & Egc & Hfc & Nxc & Nyc & _).
    destruct (blank_grid b h0 h0 crs Hr) as (gr & n & m & Egr & Hf & Nx & Ny & _ & Hn & Hm).
    pose proof Hfc as (Hpc & [Hbc1 Hbc2] & Ebc & Exc & Eyc & Ehc & Eec & Ecc). pose proof Hf as (Hp & [Hb1 Hb2] & Eb & Ex & Ey & Eh & Ee & Ec).
    destruct (find_indices_spec (near gc) points Hpl) as (idx & Ei & Hi).
    set (ind := qtab n2 m2 (fun i j => if sdf_le (node_x gc i, node_y gc j) then 1 else 0)).
    assert (Hdc : 0 < h0 * (1 # 2)) by lra.
    assert (Yc : forall j, node_y gc j = y_of gc j). { intros j. unfold y_of, node, node_y. rewrite (Qabs_eq (g_dy gc)); [reflexivity|]. rewrite Eyc. auto. }
    exists gc, n2, m2, n, m, (mark n2 m2 idx), (fun a => In a idx), ind.
    split; [exact Hfc|]. split; [split; auto|]. split.
    { intros i j Hi' Hj'. split; [apply (double_count (b0 b) (b1 b) h0 n)|apply (double_count (b2 b) (b3 b) h0 m)]; auto. }
    split; [apply mark_marks; tauto|]. split; [apply (found_near near); auto|]. split.
    { intros i j Hi' Hj'. change (entry ind i j) with (qcell ind i j). unfold ind. rewrite qcell_tab by auto. rewrite Yc. reflexivity. }
    assert (Er : Qle_bool r 0 = false). { apply not_true_iff_false. rewrite Qle_bool_iff. lra. }
    split.
    { intros g E. unfold feature_sizing in E. rewrite Er, Egc in E. cbn [bind] in E. rewrite Egr in E. cbn [bind] in E. rewrite Ei in E. cbn [bind] in E.
      rewrite Nxc, Nyc, Exc, Eyc in E. fold ind in E. destruct (fmm _ _ _) as [dis| |]; try discriminate. cbn [bind] in E.
      destruct (medial ind gc) as [dma| |]; try discriminate. eauto. }
    intros dis dma Edis Edma.
    unfold feature_sizing. rewrite Er, Egc. cbn [bind]. rewrite Egr. cbn [bind]. rewrite Ei. cbn [bind]. rewrite Nxc, Nyc, Exc, Eyc, Edis. cbn [bind].
    fold ind. rewrite Edma. cbn [bind].
    set (w := fun i j => Fin (2 * (qcell dma i j + Qabs (qcell dis i j)) / r)).
    destruct (filled_frame gc b (h0 * (1 # 2)) h0 crs n2 m2 w Hfc Hg) as (Ff & Fl & Fv).
    set (gc' := build_interpolant (set_values gc (tabulate n2 m2 w))) in *.
    pose proof Ff as (Hpf & _ & Ebf & Exf & Eyf & _ & Eef & _).
    assert (Eo : boxes_overlap (g_bbox gc') (g_bbox gr) = true).
    { rewrite Ebf, Eb. apply boxes_meet_iff. unfold boxes_meet. repeat split; lra. }
    unfold interpolate_to. rewrite Eo. unfold make_grid. rewrite Ex, Ey.
    assert (E0 : Qle_bool h0 0 = false). { apply not_true_iff_false. rewrite Qle_bool_iff. lra. }
    rewrite E0. cbn [orb bind]. rewrite Nx, Ny. eexists. split; [reflexivity|].
    set (clip := fun a => match a with Fin q => Fin (cap hi (floor_at lo q)) | x => x end).
    set (gi := {| g_bbox := g_bbox gr; g_dx := h0; g_dy := h0; g_values := tabulate n m (interpolate_cell gc' gr); g_hmin := g_hmin gr; g_extra := false; g_crs := g_crs gr; g_fill := None |}).
    set (g1 := set_extra (set_hmin (set_values gi (map (map clip) (g_values gi))) (Some (Fin h0))) true).
    assert (V1 : map (map clip) (tabulate n m (interpolate_cell gc' gr)) = tabulate n m (fun i j => clip (interpolate_cell gc' gr i j))).
    { unfold tabulate. rewrite map_map. apply map_ext. intros i. rewrite map_map. reflexivity. }
    assert (S1 : shape (g_values g1) n m). { cbn. rewrite V1. apply tabulate_shape. }
    assert (P1 : proper_grid g1 n m) by (split; [exact S1|repeat split; auto]).
    destruct (build_fields g1) as (A & B & C & D & F).
    assert (Gv : g_values (build_interpolant g1) = tabulate n m (fun i j => clip (interpolate_cell gc' gr i j))).
    { rewrite build_values. destruct (is_global g1) eqn:E; [apply is_global_iff in E; cbn in E; rewrite Eb in E; contradiction|]. cbn. apply V1. }
    split; [|split].
    - split; [apply proper_build; exact P1|]. split; [split; auto|]. rewrite A, B, C, D, F, build_bbox. cbn. auto 10.
    - rewrite build_fill. reflexivity.
    - intros i j Hi' Hj'. exists (floor_at lo (2 * (entry dma (2 * i) (2 * j) + Qabs (entry dis (2 * i) (2 * j))) / r)). eexists.
      split; [|split; [apply floor_spec|apply cap_spec]].
      change (value_at (build_interpolant g1) i j) with (M_Grid.cell (g_values (build_interpolant g1)) i j). rewrite Gv, tabulate_cell by auto.
      unfold interpolate_cell. rewrite Eef. cbn [with_fill]. unfold near_value.
      destruct Hpf as (Hsf & Hn2 & Hm2 & Hxf & Hyf). destruct (shape_ny gc' n2 m2 Hsf ltac:(lia)) as [Nf1 Nf2].
      rewrite Nf1, Nf2, Exf, Eyf, Ebf, (Qabs_eq _ Hdc).
      assert (I1 : near_index (b0 b) (h0 * (1 # 2)) n2 (node_x gr i) = (2 * i)%nat).
      { apply (nearest_exact (b0 b) (h0 * (1 # 2)) n2 (node_x gr i)); auto; [apply (double_count (b0 b) (b1 b) h0 n); auto| |apply near_index_spec; auto].
        unfold node_x, node. rewrite Eb, Ex, Nat2Z.inj_mul, inject_Z_mult. change (inject_Z (Z.of_nat 2)) with 2. ring. }
      assert (I2 : near_index (b2 b) (h0 * (1 # 2)) m2 (node_y gr j) = (2 * j)%nat).
      { apply (nearest_exact (b2 b) (h0 * (1 # 2)) m2 (node_y gr j)); auto; [apply (double_count (b2 b) (b3 b) h0 m); auto| |apply near_index_spec; auto].
        unfold node_y, node. rewrite Eb, Ey, (Qabs_eq h0 Hd), Nat2Z.inj_mul, inject_Z_mult. change (inject_Z (Z.of_nat 2)) with 2. ring. }
      rewrite I1, I2.
      assert (Hi2 : (2 * i < n2)%nat) by (apply (double_count (b0 b) (b1 b) h0 n); auto).
      assert (Hj2 : (2 * j < m2)%nat) by (apply (double_count (b2 b) (b3 b) h0 m); auto).
      specialize (Fv _ _ Hi2 Hj2). change (value_at gc' (2 * i) (2 * j)) with (M_Grid.cell (g_values gc') (2 * i) (2 * j)) in Fv. rewrite Fv. reflexivity.
  Qed.
  Lemma feature_refuses points b h0 r lo hi crs : r <= 0 -> feature_sizing fmm near medial sdf_le points b h0 r lo hi crs = Raise AssertionError.
  Proof. intros H. unfold feature_sizing. rewrite (proj2 (Qle_bool_iff _ _) H). reflexivity. Qed.
End Feature.

(** * Cases *)
(** A stand-in for skfmm: 0 at marked cells, the spacing elsewhere, ValueError without a marked cell. *)
Definition step_fmm (phi : list (list Q)) (dx dy : Q) : res (list (list Q)) :=
  if existsb (existsb (fun x => Qeq_bool x (-1))) phi then Ok (map (map (fun x => if Qeq_bool x (-1) then 0 else - dx)) phi) else Raise ValueError.
Definition demo_box : Q * Q * Q * Q := (0, 5, 0, 3).
Definition demo_points : list (num * num) := [(Fin (9 # 10), Fin (21 # 10)); (NaN, NaN); (Fin (39 # 10), Fin (2 # 10))].
Lemma demo_ok : plain_points demo_points /\ roomy demo_box (1 * 2) /\ roomy demo_box 1 /\ nearest_search axis_near.
Proof.
  split; [|split; [|split]].
  - intros p [<-|[<-|[<-|[]]]]; [right; eexists (_, _); reflexivity|left; reflexivity|right; eexists (_, _); reflexivity].
  - repeat split; try (vm_compute; discriminate || reflexivity). intros [A _]. discriminate.
  - repeat split; try (vm_compute; discriminate || reflexivity). intros [A _]. discriminate.
  - exact axis_near_search.
Qed.
Lemma demo_run : exists r, distance_sizing_points step_fmm axis_near demo_points demo_box 1 (1 # 4) (Some (6 # 5)) 2 1 = Ok r /\
  (nx r, ny r) = (3, 2)%nat /\ (exists v, value_at r 0 1 = Fin v /\ v == 1) /\ exists v, value_at r 0 0 = Fin v /\ v == 6 # 5.
Proof. eexists. split; [vm_compute; reflexivity|]. split; [reflexivity|]. split; eexists; (split; [vm_compute; reflexivity|reflexivity]). Qed.
Lemma demo_none : exists r, distance_sizing_points step_fmm axis_near [] demo_box 1 (1 # 4) None 2 1 = Ok r /\
  exists v, value_at r 0 0 = Fin v /\ v == 1 + 999 * (1 # 4).
Proof. eexists. split; [vm_compute; reflexivity|]. eexists; (split; [vm_compute; reflexivity|reflexivity]). Qed.
Lemma short_line_refuted : exists len me, 0 < len /\ 0 < me /\ forall fuel, (2 <= fuel)%nat -> resample_line fuel len me = Raise ValueError.
Proof.
  exists 1, 2. split; [reflexivity|]. split; [reflexivity|]. intros fuel Hf. apply (resample_line_spec fuel 1 2 1); try reflexivity; auto; vm_compute; discriminate.
Qed.
Lemma line_case : resample_line 5 (7 # 2) 2 = Ok [0; 0 + 2 * (1 # 2); 0 + 2 * (1 # 2) + 2 * (1 # 2); 0 + 2 * (1 # 2) + 2 * (1 # 2) + 2 * (1 # 2)].
Proof. reflexivity. Qed.
Lemma mask_refuted : exists inside b h0 rate crs r mask n m,
  distance_sizing step_fmm axis_near inside [] b h0 rate None 1 crs = Ok (r, mask) /\ proper_grid r n m /\
  forall i j, (i < n)%nat -> (j < m)%nat -> inside (Fin (x_of r i), Fin (y_of r j)) = true /\ nth j (nth i mask []) false = true.
Proof.
  destruct demo_ok as (_ & _ & R & _).
  destruct (distance_sizing step_fmm axis_near (fun _ => true) [] demo_box 1 (1 # 4) None 1 1) as [[r mask]| |] eqn:E.
  2: { vm_compute in E. discriminate. } 2: { vm_compute in E. discriminate. }
  destruct (shoreline_spec step_fmm axis_near axis_near_search (fun _ => true) [] demo_box 1 (1 # 4) None 1 1 r mask ltac:(intros p []) R E) as (_ & n & m & F & H).
  exists (fun _ => true), demo_box, 1, (1 # 4), 1%nat, r, mask, n, m. split; [exact E|]. split; [apply F|]. intros i j Hi Hj. split; [reflexivity|]. apply H; auto.
Qed.
(** A narrow channel: sizes well below the shoreline's h0. *)
Definition flat_medial (phi : list (list Q)) (g : grid) : res (list (list Q)) := Ok (map (map (fun _ => 0)) phi).
Lemma feature_refuted : exists points b h0 g, plain_points points /\ roomy b h0 /\
  feature_sizing step_fmm axis_near flat_medial (fun _ => true) points b h0 3 None None 1 = Ok g /\
  exists n m i j v, proper_grid g n m /\ (i < n)%nat /\ (j < m)%nat /\ value_at g i j = Fin v /\ g_hmin g = Some (Fin h0) /\ v < h0.
Proof.
  destruct demo_ok as (A & _ & R & _). exists demo_points, demo_box, 1.
  destruct (feature_spec step_fmm axis_near axis_near_search flat_medial (fun _ => true) demo_points demo_box 1 3 None None 1 A R ltac:(reflexivity)) as (gc & n2 & m2 & n & m & phi & found & ind & F0 & B & _ & M & Fo & _ & _ & H).
  destruct (feature_sizing step_fmm axis_near flat_medial (fun _ => true) demo_points demo_box 1 3 None None 1) as [g| |] eqn:E.
  2: { vm_compute in E. discriminate. } 2: { vm_compute in E. discriminate. }
  exists g. split; [exact A|]. split; [exact R|]. split; [reflexivity|].
  exists 6%nat, 4%nat, 0%nat, 0%nat. vm_compute in E. injection E as <-. eexists. split; [|split; [lia|split; [lia|split; [reflexivity|split; [reflexivity|reflexivity]]]]].
  split; [split; [reflexivity|repeat constructor]|]. repeat split; try lia; reflexivity.
Qed.
Lemma feature_lower fmm near medial sdf_le points b h0 r lo hi crs g : nearest_search near -> plain_points points -> roomy b h0 -> 0 < r -> h0 <= lo ->
  (forall h, hi = Some h -> h0 <= h) -> feature_sizing fmm near medial sdf_le points b h0 r (Some lo) hi crs = Ok g ->
  exists n m, sizing_frame g b h0 h0 crs n m /\ forall i j, (i < n)%nat -> (j < m)%nat -> exists v, value_at g i j = Fin v /\ h0 <= v.
Proof.
  intros Hn Hpl Hr Hrp Hlo Hhi E.
  destruct (feature_spec fmm near Hn medial sdf_le points b h0 r (Some lo) hi crs Hpl Hr Hrp) as (gc & n2 & m2 & n & m & phi & found & ind & Fc & B & _ & M & Fo & Hind & X & H).
  destruct (X g E) as (dis & dma & E1 & E2). destruct (H dis dma E1 E2) as (g' & E' & F & _ & V). rewrite E in E'. injection E' as <-.
  exists n, m. split; auto. intros i j Hi Hj. destruct (V i j Hi Hj) as (y & v & Ev & L & U). exists v. split; auto.
  cbn in L. destruct L as (L & _). destruct hi as [h|]; cbn in U; [destruct U as (_ & _ & [->| ->]); [lra|apply Hhi; auto]|subst; lra].
Qed.
