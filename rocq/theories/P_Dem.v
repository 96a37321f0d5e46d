(** Proofs about reading elevation rasters. *)
From Coq Require Import List Arith Bool ZArith QArith Qabs Qminmax Lia Lqa.
From Verif Require Import M_Base M_Sdf M_Grid M_Dem S_Grid S_Dem Util P_Grid.
Import ListNotations.
Open Scope Q_scope.

Lemma Qltb_iff : forall a b, Qltb a b = true <-> a < b.
Proof. intros a b. unfold Qltb. rewrite negb_true_iff, <- not_true_iff_false, Qle_bool_iff. split; intro; lra. Qed.
Lemma pmax_spec : forall a b, a <= pmax a b /\ b <= pmax a b /\ (pmax a b = a \/ pmax a b = b).
Proof. intros a b. unfold pmax. destruct (Qltb a b) eqn:E; [apply Qltb_iff in E|]; repeat split; try lra; auto. apply not_true_iff_false in E. rewrite Qltb_iff in E. lra. Qed.
Lemma pmin_spec : forall a b, pmin a b <= a /\ pmin a b <= b /\ (pmin a b = a \/ pmin a b = b).
Proof. intros a b. unfold pmin. destruct (Qltb b a) eqn:E; [apply Qltb_iff in E|]; repeat split; try lra; auto. apply not_true_iff_false in E. rewrite Qltb_iff in E. lra. Qed.

(** * Arrays *)
Lemma nth_map_any {A B} : forall (f : A -> B) l n d e, (n < length l)%nat -> nth n (map f l) d = f (nth n l e).
Proof. intros f l n d e H. rewrite (nth_indep _ d (f e)) by (rewrite map_length; exact H). apply map_nth. Qed.
Lemma nth_seq0 : forall n m d, (n < m)%nat -> nth n (seq 0 m) d = n.
Proof. intros n m d H. rewrite seq_nth by exact H. reflexivity. Qed.
Lemma shape_row {A} : forall (v : list (list A)) n m i, rect v n m -> (i < n)%nat -> length (nth i v []) = m.
Proof. intros v n m i [L F] I. rewrite Forall_forall in F. apply F. apply nth_In. lia. Qed.
Lemma transpose_rect {A} : forall (d : A) m nr nc, rect m nr nc -> (1 <= nr)%nat -> rect (transpose_gen d m) nc nr /\
  forall r c, (r < nr)%nat -> (c < nc)%nat -> nth r (nth c (transpose_gen d m) []) d = nth c (nth r m []) d.
Proof.
  intros d m nr nc S N. pose proof S as [L F]. destruct m as [|r0 m]; [cbn in L; lia|]. cbn [transpose_gen].
  assert (L0 : length r0 = nc) by (inversion F; assumption). rewrite L0. split; [split|].
  - rewrite map_length, seq_length. reflexivity.
  - apply Forall_forall. intros x I. apply in_map_iff in I. destruct I as (j & <- & _). rewrite map_length. exact L.
  - intros r c R C. rewrite (nth_map_any _ _ _ _ 0%nat) by (rewrite seq_length; exact C). rewrite nth_seq0 by exact C.
    rewrite (nth_map_any _ _ _ _ []) by lia. reflexivity.
Qed.
Lemma transpose_shape : forall m nr nc, shape m nr nc -> (1 <= nr)%nat -> shape (transpose m) nc nr /\
  forall r c, (r < nr)%nat -> (c < nc)%nat -> nth r (nth c (transpose m) []) NaN = nth c (nth r m []) NaN.
Proof. exact (transpose_rect NaN). Qed.
Lemma fliplr_rect {A} : forall (d : A) m n k, rect m n k -> rect (fliplr m) n k /\ forall i j, (i < n)%nat -> (j < k)%nat -> nth j (nth i (fliplr m) []) d = nth (k - 1 - j) (nth i m []) d.
Proof.
  intros d m n k S. pose proof S as [L F]. split; [split|].
  - unfold fliplr. rewrite map_length. exact L.
  - apply Forall_forall. intros x I. apply in_map_iff in I. destruct I as (r & <- & R). rewrite rev_length. rewrite Forall_forall in F. apply F; exact R.
  - intros i j I J. unfold fliplr. rewrite (nth_map_any _ _ _ _ []) by lia.
    pose proof (shape_row _ _ _ _ S I) as LR. rewrite rev_nth by lia. rewrite LR. f_equal. lia.
Qed.
Lemma fliplr_shape : forall m n k, shape m n k -> shape (fliplr m) n k /\ forall i j, (i < n)%nat -> (j < k)%nat -> nth j (nth i (fliplr m) []) NaN = nth (k - 1 - j) (nth i m []) NaN.
Proof. exact (fliplr_rect NaN). Qed.
Lemma neq_same : forall v c, neq_bool v c = true <-> same_num v c /\ v <> NaN.
Proof.
  intros [x|s|] [y|t|]; cbn; try (split; [discriminate|intuition]); try tauto.
  - rewrite Qeq_bool_iff. split; [intro; split; [assumption|discriminate]|tauto].
  - rewrite Bool.eqb_true_iff. split; [intro; split; [assumption|discriminate]|tauto].
Qed.
Lemma drop_value_spec : forall nd v, cleaned nd v (drop_value nd v).
Proof.
  intros nd v. unfold cleaned, drop_value. destruct nd as [c|]; [|reflexivity].
  destruct (neq_bool v c) eqn:E; [apply neq_same in E; left; tauto|].
  right. split; [|reflexivity]. destruct v as [x|s|]; [left|left|right; reflexivity]; intro H; (rewrite (proj2 (neq_same _ _)) in E; [discriminate|split; [exact H|discriminate]]).
Qed.
Lemma rect_map {A B} : forall (f : A -> B) da db m n k, rect m n k -> rect (map (map f) m) n k /\ forall i j, (i < n)%nat -> (j < k)%nat -> nth j (nth i (map (map f) m) []) db = f (nth j (nth i m []) da).
Proof.
  intros f da db m n k S. pose proof S as [L F]. split; [split|].
  - rewrite map_length. exact L.
  - apply Forall_forall. intros x I. apply in_map_iff in I. destruct I as (r & <- & R). rewrite map_length. rewrite Forall_forall in F. apply F; exact R.
  - intros i j I J. rewrite (nth_map_any _ _ _ _ []) by lia. pose proof (shape_row _ _ _ _ S I) as LR. apply nth_map_any. lia.
Qed.
Lemma drop_shape : forall nd m n k, shape m n k -> shape (drop_nodata nd m) n k /\ forall i j, (i < n)%nat -> (j < k)%nat -> cleaned nd (nth j (nth i m []) NaN) (nth j (nth i (drop_nodata nd m) []) NaN).
Proof.
  intros nd m n k S. unfold drop_nodata. destruct (rect_map (drop_value nd) NaN NaN m n k S) as [S1 V]. split; [exact S1|].
  intros i j I J. rewrite V by assumption. apply drop_value_spec.
Qed.
Lemma drop_masked_shape : forall nd m n k, rect m n k -> shape (drop_masked nd m) n k /\ forall i j, (i < n)%nat -> (j < k)%nat -> stored_for nd (nth j (nth i m []) (NaN, false)) (nth j (nth i (drop_masked nd m) []) NaN).
Proof.
  intros nd m n k S. unfold drop_masked. destruct (rect_map (fun c : num * bool => if snd c then fst c else drop_value nd (fst c)) (NaN, false) NaN m n k S) as [S1 V]. split; [exact S1|].
  intros i j I J. rewrite V by assumption. unfold stored_for. destruct (snd _); [reflexivity|apply drop_value_spec].
Qed.
(** The array a grid gets from a raster array. *)
Lemma stored : forall nd d nr nc, shape d nr nc -> (1 <= nr)%nat -> shape (fliplr (drop_nodata nd (transpose d))) nc nr /\
  forall r c, (r < nr)%nat -> (c < nc)%nat -> cleaned nd (pixel d r c) (nth (nr - 1 - r) (nth c (fliplr (drop_nodata nd (transpose d))) []) NaN).
Proof.
  intros nd d nr nc S N. destruct (transpose_shape d nr nc S N) as [S1 V1]. destruct (drop_shape nd _ _ _ S1) as [S2 V2]. destruct (fliplr_shape _ _ _ S2) as [S3 V3].
  split; [exact S3|]. intros r c R C. rewrite V3 by lia. replace (nr - 1 - (nr - 1 - r))%nat with r by lia. unfold pixel. rewrite <- (V1 r c R C). apply V2; lia.
Qed.
Lemma stored_masked : forall nd d nr nc, rect d nr nc -> (1 <= nr)%nat -> shape (fliplr (drop_masked nd (transpose_gen (NaN, false) d))) nc nr /\
  forall r c, (r < nr)%nat -> (c < nc)%nat -> stored_for nd (entry d r c) (nth (nr - 1 - r) (nth c (fliplr (drop_masked nd (transpose_gen (NaN, false) d))) []) NaN).
Proof.
  intros nd d nr nc S N. destruct (transpose_rect (NaN, false) d nr nc S N) as [S1 V1]. destruct (drop_masked_shape nd _ _ _ S1) as [S2 V2]. destruct (fliplr_shape _ _ _ S2) as [S3 V3].
  split; [exact S3|]. intros r c R C. rewrite V3 by lia. replace (nr - 1 - (nr - 1 - r))%nat with r by lia. unfold entry. rewrite <- (V1 r c R C). apply V2; lia.
Qed.
(** build_interpolant keeps everything but exchanges the outer columns of a global grid. *)
Lemma swap_ends_nth : forall (l : list (list num)) i, (i < length l)%nat -> length (swap_ends l) = length l /\ nth i (swap_ends l) [] = nth (exchanged (length l) i) l [].
Proof.
  intros [|x r] i I; [cbn in I; lia|]. cbn [swap_ends]. destruct (rev r) as [|z m] eqn:E.
  - assert (r = []) by (rewrite <- (rev_involutive r), E; reflexivity). subst r. cbn in I. assert (i = 0)%nat by lia. subst. split; reflexivity.
  - assert (R : r = rev m ++ [z]) by (rewrite <- (rev_involutive r), E; reflexivity). subst r. clear E.
    assert (L : length (z :: rev m ++ [x]) = length (x :: rev m ++ [z])) by (cbn; rewrite !app_length; reflexivity).
    split; [exact L|]. set (k := length (rev m)) in *.
    assert (LL : length (x :: rev m ++ [z]) = (k + 2)%nat) by (cbn; rewrite app_length; cbn; unfold k; lia). rewrite LL in *.
    unfold exchanged. destruct i as [|i].
    + cbn [Nat.eqb]. replace (k + 2 - 1)%nat with (S k) by lia. cbn [nth]. unfold k. rewrite app_nth2 by lia. rewrite Nat.sub_diag. reflexivity.
    + change (S i =? 0)%nat with false. cbv iota. destruct (Nat.eqb_spec (S i) (k + 2 - 1)) as [E|E].
      * assert (i = k) by lia. subst i. change (nth (S k) (z :: rev m ++ [x]) []) with (nth k (rev m ++ [x]) []). unfold k. rewrite app_nth2 by lia. rewrite Nat.sub_diag. reflexivity.
      * cbn [nth]. rewrite !app_nth1 by (fold k; lia). reflexivity.
Qed.
Lemma is_global_iff : forall g, is_global g = true <-> global_box (g_bbox g).
Proof. intro g. unfold is_global, global_box. rewrite andb_true_iff, !Qeq_bool_iff. reflexivity. Qed.
Lemma build_facts : forall g n m, shape (g_values g) n m -> let g' := build_interpolant g in
  shape (g_values g') n m /\ g_bbox g' = g_bbox g /\ g_dx g' = g_dx g /\ g_dy g' = g_dy g /\ g_crs g' = g_crs g /\ g_extra g' = g_extra g /\
  g_fill g' = Some (if g_extra g then None else Some (Fin 999999)) /\
  (~ global_box (g_bbox g) -> forall i j, value_at g' i j = value_at g i j) /\
  (global_box (g_bbox g) -> forall i j, (i < n)%nat -> value_at g' i j = value_at g (exchanged n i) j).
Proof.
  intros g n m SH. cbv zeta. unfold build_interpolant. destruct (is_global g) eqn:E.
  - apply is_global_iff in E. pose proof SH as [L F]. cbn [set_fill set_values g_values g_bbox g_dx g_dy g_crs g_extra g_fill].
    assert (W : forall i, (i < n)%nat -> length (swap_ends (g_values g)) = n /\ nth i (swap_ends (g_values g)) [] = nth (exchanged n i) (g_values g) []).
    { intros i I. rewrite <- L in *. apply swap_ends_nth. exact I. }
    split; [|repeat split; try reflexivity; [intro X; contradiction|]].
    + destruct n as [|n]; [destruct (g_values g); [split; [reflexivity|constructor]|discriminate]|].
      split; [apply (W 0%nat); lia|]. apply Forall_forall. intros r I. apply (In_nth _ _ []) in I. destruct I as (i & I1 & <-).
      assert (I2 : (i < S n)%nat) by (rewrite (proj1 (W 0%nat ltac:(lia))) in I1; exact I1). rewrite (proj2 (W i I2)). apply (shape_row _ (S n)); [exact SH|].
      unfold exchanged. destruct (Nat.eqb_spec i 0); [lia|]. destruct (Nat.eqb_spec i (S n - 1)); lia.
    + intros _ i j I. unfold value_at. cbn [set_fill set_values g_values]. rewrite (proj2 (W i I)). reflexivity.
  - assert (NG : ~ global_box (g_bbox g)) by (rewrite <- is_global_iff; congruence).
    cbn [set_fill g_values g_bbox g_dx g_dy g_crs g_extra g_fill]. repeat split; try reflexivity; try apply SH. intro X; contradiction.
Qed.

(** * C49 *)
Lemma overlaps_iff : forall a b, bbox_overlaps_bounds a b = true <-> overlapping a b.
Proof.
  assert (G : forall a b c d, pmax a c < pmin b d <-> exists t, a < t < b /\ c < t < d).
  { intros a b c d. destruct (pmax_spec a c) as (M1 & M2 & M3). destruct (pmin_spec b d) as (N1 & N2 & N3). split.
    - intro L. exists ((pmax a c + pmin b d) * (1 # 2)). lra.
    - intros (t & T). destruct M3 as [-> | ->], N3 as [-> | ->]; lra. }
  intros a b. unfold bbox_overlaps_bounds, overlapping, strictly_in. rewrite andb_true_iff, !Qltb_iff, !G. split.
  - intros [(s & S1 & S2) (t & T1 & T2)]. exists (s, t). cbn. auto.
  - intros ([s t] & [S1 T1] & S2 & T2). cbn [fst snd] in *. split; [exists s|exists t]; auto.
Qed.
Lemma fin_box_iff : forall b c, fin_box b = Some c <-> b = (Fin (b0 c), Fin (b1 c), Fin (b2 c), Fin (b3 c)).
Proof.
  intros [[[a1 a2] a3] a4] [[[c1 c2] c3] c4]. destruct a1, a2, a3, a4; cbv [fin_box b0 b1 b2 b3 fst snd]; split; intro H; try discriminate; try (injection H as -> -> -> ->; reflexivity); congruence.
Qed.
Lemma step_ignores : forall tr want st sd, pick_step tr want st sd = pick_step tr None st sd.
Proof.
  intros tr want st sd. unfold pick_step. destruct (negb (s_opens sd)); [reflexivity|]. destruct (_ || _); [reflexivity|].
  destruct (fin_box (s_bounds sd)) as [b|]; [|reflexivity]. destruct want as [[bb d]|]; [|reflexivity].
  destruct (match s_crs sd with Some c => _ | None => _ end) as [x|]; [destruct (bbox_overlaps_bounds x b)|]; reflexivity.
Qed.
Lemma pick_ignores : forall tr sd want, pick_target tr sd want = pick_target tr sd None.
Proof.
  intros tr sd want. unfold pick_target. generalize (@None nat, -1). induction sd as [|s sd IH]; intro st; [reflexivity|].
  cbn [fold_left]. rewrite step_ignores. apply IH.
Qed.
Lemma step_cases : forall tr st sd, (exists b, usable sd b /\ snd st < area_of b /\ pick_step tr None st sd = (Some (s_name sd), area_of b)) \/
  ((forall b, usable sd b -> area_of b <= snd st) /\ pick_step tr None st sd = st).
Proof.
  intros tr st sd. unfold pick_step. destruct (s_opens sd) eqn:O; cbn [negb].
  2:{ right. split; [|reflexivity]. intros b (U & _). congruence. }
  destruct (_ || _) eqn:W.
  { right. split; [|reflexivity]. intros b (_ & U1 & U2 & _). apply orb_true_iff in W. rewrite !Nat.leb_le in W. lia. }
  apply orb_false_iff in W. rewrite !Nat.leb_gt in W.
  destruct (fin_box (s_bounds sd)) as [b|] eqn:F.
  2:{ right. split; [|reflexivity]. intros b (_ & _ & _ & U). apply fin_box_iff in U. congruence. }
  pose proof (proj1 (fin_box_iff _ _) F) as F'. destruct (Qltb (snd st) ((b1 b - b0 b) * (b3 b - b2 b))) eqn:L.
  - left. exists b. apply Qltb_iff in L. repeat split; try tauto; exact L.
  - right. split; [|reflexivity]. intros b' (_ & _ & _ & U). apply fin_box_iff in U. assert (b' = b) by congruence. subst b'.
    apply not_true_iff_false in L. rewrite Qltb_iff in L. unfold area_of. lra.
Qed.
Lemma pick_inv : forall tr sd st, let r := fold_left (pick_step tr None) sd st in
  snd st <= snd r /\ (forall s b, In s sd -> usable s b -> area_of b <= snd r) /\
  (r = st \/ exists l s b l', sd = l ++ s :: l' /\ usable s b /\ r = (Some (s_name s), area_of b) /\ snd st < area_of b /\ forall s' b', In s' l -> usable s' b' -> area_of b' < area_of b).
Proof.
  intros tr. induction sd as [|s sd IH]; intro st; cbn [fold_left]; [split; [lra|]; split; [intros ? ? []|left; reflexivity]|].
  destruct (IH (pick_step tr None st s)) as (I1 & I2 & I3). destruct (step_cases tr st s) as [(b & U & L & E)|[U E]]; rewrite E in *; cbn [snd] in I1.
  - split; [lra|]. split.
    + intros s' b' [<-|I] U'; [|exact (I2 s' b' I U')]. assert (b' = b); [|subst; exact I1].
      destruct U as (_ & _ & _ & U), U' as (_ & _ & _ & U'). rewrite U in U'. destruct b as [[[? ?] ?] ?], b' as [[[? ?] ?] ?]. cbn in U'. congruence.
    + right. destruct I3 as [->|(l & s' & b' & l' & -> & U' & R & L' & A)].
      * exists [], s, b, sd. split; [reflexivity|]. split; [exact U|]. split; [reflexivity|]. split; [exact L|]. intros ? ? [].
      * exists (s :: l), s', b', l'. cbn [snd] in L'. split; [reflexivity|]. split; [exact U'|]. split; [exact R|]. split; [lra|].
        intros s2 b2 [<-|I] U2; [|exact (A s2 b2 I U2)].
        assert (b2 = b); [|subst; exact L'].
        destruct U as (_ & _ & _ & U), U2 as (_ & _ & _ & U2). rewrite U in U2. destruct b as [[[? ?] ?] ?], b2 as [[[? ?] ?] ?]. cbn in U2. congruence.
  - split; [exact I1|]. split.
    + intros s' b' [<-|I] U'; [specialize (U b' U'); lra|exact (I2 s' b' I U')].
    + destruct I3 as [->|(l & s' & b' & l' & -> & U' & R & L' & A)]; [left; reflexivity|right].
      exists (s :: l), s', b', l'. split; [reflexivity|]. split; [exact U'|]. split; [exact R|]. split; [exact L'|]. intros s2 b2 [<-|I] U2; [specialize (U b2 U2); lra|exact (A s2 b2 I U2)].
Qed.
Lemma pick_largest : forall tr sd want n, pick_target tr sd want = Some n ->
  exists l s b l', sd = l ++ s :: l' /\ n = s_name s /\ usable s b /\ -1 < area_of b /\
    (forall s' b', In s' sd -> usable s' b' -> area_of b' <= area_of b) /\ (forall s' b', In s' l -> usable s' b' -> area_of b' < area_of b).
Proof.
  intros tr sd want n H. rewrite pick_ignores in H. unfold pick_target in H. pose proof (pick_inv tr sd (None, -1)) as (I1 & I2 & I3). cbv zeta in *.
  destruct I3 as [E|(l & s & b & l' & E & U & R & L & A)]; [rewrite E in H; discriminate|]. rewrite R in *. cbn [fst snd] in *.
  exists l, s, b, l'. split; [exact E|]. split; [congruence|]. split; [exact U|]. split; [exact L|]. split; [exact I2|exact A].
Qed.
Lemma pick_none : forall tr sd want, pick_target tr sd want = None <-> forall s b, In s sd -> usable s b -> area_of b <= -1.
Proof.
  intros tr sd want. rewrite pick_ignores. unfold pick_target. pose proof (pick_inv tr sd (None, -1)) as (I1 & I2 & I3). cbv zeta in *. split.
  - intros H s b I U. destruct I3 as [E|(l & s' & b' & l' & E & U' & R & L & A)]; [rewrite E in I2; exact (I2 s b I U)|rewrite R in H; discriminate].
  - intro H. destruct I3 as [E|(l & s' & b' & l' & E & U' & R & L & A)]; [rewrite E; reflexivity|].
    exfalso. specialize (H s' b'). cbn [snd] in L. assert (area_of b' <= -1); [|lra]. apply H; [rewrite E; apply in_or_app; right; left; reflexivity|exact U'].
Qed.
(** An overlapping sub-dataset is found if every other one is smaller than some overlapping one. *)
Lemma pick_partial : forall tr sd bb crs n, pick_target tr sd (Some (bb, crs)) = Some n ->
  (forall s b, In s sd -> usable s b -> s_crs s = Some crs /\ (overlapping bb b \/ exists s' b', In s' sd /\ usable s' b' /\ overlapping bb b' /\ area_of b < area_of b')) ->
  exists s b, In s sd /\ n = s_name s /\ usable s b /\ overlapping bb b.
Proof.
  intros tr sd bb crs n H A. destruct (pick_largest _ _ _ _ H) as (l & s & b & l' & E & N & U & _ & M & _).
  assert (I : In s sd) by (rewrite E; apply in_or_app; right; left; reflexivity).
  exists s, b. split; [exact I|]. split; [exact N|]. split; [exact U|]. destruct (proj2 (A s b I U)) as [O|(s' & b' & I' & U' & O & L)]; [exact O|]. specialize (M s' b' I' U'). lra.
Qed.
Definition gulf : sds := {| s_name := 1; s_opens := true; s_width := 10; s_height := 10; s_bounds := (Fin 0, Fin 1, Fin 0, Fin 1); s_crs := Some 1%nat |}.
Definition index_space : sds := {| s_name := 2; s_opens := true; s_width := 10; s_height := 10; s_bounds := (Fin 50, Fin 60, Fin 50, Fin 60); s_crs := Some 1%nat |}.
Lemma pick_refuted : exists tr sd bb crs n s b, In s sd /\ usable s b /\ s_crs s = Some crs /\ overlapping bb b /\
  pick_target tr sd (Some (bb, crs)) = Some n /\ forall s' b', In s' sd -> s_name s' = n -> usable s' b' -> ~ overlapping bb b'.
Proof.
  exists (fun _ _ p => Ok p), [gulf; index_space], (0, 1, 0, 1), 1%nat, 2%nat, gulf, (0, 1, 0, 1).
  split; [left; reflexivity|]. split; [repeat split; cbn; lia|]. split; [reflexivity|]. split; [exists (1 # 2, 1 # 2); repeat split; reflexivity|]. split; [vm_compute; reflexivity|].
  intros s' b' I N U O. destruct I as [<-|[<-|[]]]; [discriminate|]. destruct U as (_ & _ & _ & U). destruct b' as [[[x0 x1] y0] y1]. cbn in U. injection U as <- <- <- <-.
  destruct O as ([s t] & O1 & O2). unfold strictly_in, b0, b1, b2, b3 in *. cbn [fst snd] in *. lra.
Qed.

(** * C48, C76: what ends up in the grid *)
Lemma dem_of : forall tr rw xo nc src region crs ex g, dem tr rw xo nc src region crs ex = Ok g ->
  exists bb c px py m, read_dem_array_and_meta tr rw xo nc src region (match region with Some (_, c) => c | None => crs end) = Ok (bb, c, px, py, m) /\
    0 < px /\ ~ py == 0 /\
    g = build_interpolant {| g_bbox := bb; g_dx := px; g_dy := Qabs py; g_values := fliplr (drop_band (r_nodata src) m); g_hmin := None; g_extra := ex; g_crs := c; g_fill := None |}.
Proof.
  intros tr rw xo nc src region crs ex g H. unfold dem in H. destruct (read_dem_array_and_meta _ _ _ _ _ _ _) as [[[[[bb c] px] py] m]| |] eqn:E; [|discriminate|discriminate].
  cbn [bind] in H. unfold make_grid in H. destruct (Qle_bool px 0 || Qle_bool (Qabs py) 0) eqn:O; [discriminate|]. cbn [bind] in H.
  exists bb, c, px, py, m. split; [reflexivity|]. apply orb_false_iff in O. rewrite <- !not_true_iff_false, !Qle_bool_iff in O.
  split; [lra|]. split; [|congruence]. intro Z. destruct O as [_ O]. apply O. rewrite Z. cbn. lra.
Qed.
Lemma grid_masked : forall d nr nc bb px py nd ex c, rect d nr nc -> (1 <= nr)%nat ->
  let g := build_interpolant {| g_bbox := bb; g_dx := px; g_dy := Qabs py; g_values := fliplr (drop_masked nd (transpose_gen (NaN, false) d)); g_hmin := None; g_extra := ex; g_crs := c; g_fill := None |} in
  shape (g_values g) nc nr /\ g_bbox g = bb /\
  (~ global_box bb -> forall r k, (r < nr)%nat -> (k < nc)%nat -> stored_for nd (entry d r k) (value_at g k (nr - 1 - r))) /\
  (global_box bb -> forall r k, (r < nr)%nat -> (k < nc)%nat -> stored_for nd (entry d r (exchanged nc k)) (value_at g k (nr - 1 - r))).
Proof.
  intros d nr nc bb px py nd ex c S N. destruct (stored_masked nd d nr nc S N) as [S1 V1]. set (v := fliplr (drop_masked nd (transpose_gen (NaN, false) d))) in *.
  pose proof (build_facts {| g_bbox := bb; g_dx := px; g_dy := Qabs py; g_values := v; g_hmin := None; g_extra := ex; g_crs := c; g_fill := None |} nc nr S1) as B.
  cbv zeta in *. cbn [g_bbox g_dx g_dy g_crs g_extra] in B. destruct B as (B1 & B2 & B3 & B4 & B5 & B6 & B7 & B8 & B9).
  repeat split; auto; try apply B1.
  - intros NG r k R K. rewrite B8 by exact NG. unfold value_at. cbn [g_values]. apply V1; assumption.
  - intros G r k R K. rewrite B9 by assumption. unfold value_at. cbn [g_values]. apply V1; [exact R|].
    unfold exchanged. destruct (Nat.eqb_spec k 0); [lia|]. destruct (Nat.eqb_spec k (nc - 1)); lia.
Qed.
Lemma grid_stored : forall d nr nc bb px py nd ex c, shape d nr nc -> (1 <= nr)%nat ->
  let g := build_interpolant {| g_bbox := bb; g_dx := px; g_dy := Qabs py; g_values := fliplr (drop_nodata nd (transpose d)); g_hmin := None; g_extra := ex; g_crs := c; g_fill := None |} in
  shape (g_values g) nc nr /\ g_bbox g = bb /\ g_dx g = px /\ g_dy g = Qabs py /\ g_crs g = c /\ g_extra g = ex /\ g_fill g = Some (if ex then None else Some (Fin 999999)) /\
  (~ global_box bb -> forall r k, (r < nr)%nat -> (k < nc)%nat -> cleaned nd (pixel d r k) (value_at g k (nr - 1 - r))) /\
  (global_box bb -> forall r k, (r < nr)%nat -> (k < nc)%nat -> cleaned nd (pixel d r (exchanged nc k)) (value_at g k (nr - 1 - r))).
Proof.
  intros d nr nc bb px py nd ex c S N. destruct (stored nd d nr nc S N) as [S1 V1]. set (v := fliplr (drop_nodata nd (transpose d))) in *.
  pose proof (build_facts {| g_bbox := bb; g_dx := px; g_dy := Qabs py; g_values := v; g_hmin := None; g_extra := ex; g_crs := c; g_fill := None |} nc nr S1) as B.
  cbv zeta in *. cbn [g_bbox g_dx g_dy g_crs g_extra] in B. destruct B as (B1 & B2 & B3 & B4 & B5 & B6 & B7 & B8 & B9).
  repeat split; auto; try apply B1.
  - intros NG r k R K. rewrite B8 by exact NG. unfold value_at. cbn [g_values]. apply V1; assumption.
  - intros G r k R K. rewrite B9 by assumption. unfold value_at. cbn [g_values]. apply V1; [exact R|].
    unfold exchanged. destruct (Nat.eqb_spec k 0); [lia|]. destruct (Nat.eqb_spec k (nc - 1)); lia.
Qed.
(** Everything the grid of a rasterio read depends on. *)
Lemma raster_stored : forall tr rw xo nc src region crs ex g, dem tr rw xo nc src region crs ex = Ok g ->
  (region = None \/ nc = false) ->
  (forall nr k, shape (r_data src) nr k -> (1 <= nr)%nat -> shape (g_values g) k nr /\
      (~ global_box (g_bbox g) -> forall r c, (r < nr)%nat -> (c < k)%nat -> cleaned (r_nodata src) (pixel (r_data src) r c) (value_at g c (nr - 1 - r))) /\
      (global_box (g_bbox g) -> forall r c, (r < nr)%nat -> (c < k)%nat -> cleaned (r_nodata src) (pixel (r_data src) r (exchanged k c)) (value_at g c (nr - 1 - r)))) \/
  (region <> None /\ exists b d, rw src b = Ok d /\
    forall nr k, rect d nr k -> (1 <= nr)%nat -> shape (g_values g) k nr /\
      (~ global_box (g_bbox g) -> forall r c, (r < nr)%nat -> (c < k)%nat -> stored_for (r_nodata src) (entry d r c) (value_at g c (nr - 1 - r))) /\
      (global_box (g_bbox g) -> forall r c, (r < nr)%nat -> (c < k)%nat -> stored_for (r_nodata src) (entry d r (exchanged k c)) (value_at g c (nr - 1 - r)))).
Proof.
  intros tr rw xo nc src region crs ex g H C. destruct (dem_of _ _ _ _ _ _ _ _ _ H) as (bb & c & px & py & m & R & _ & _ & ->). clear H.
  assert (M : m = Plain (transpose (r_data src)) \/ region <> None /\ exists b d, rw src b = Ok d /\ m = Masked (transpose_gen (NaN, false) d)).
  { unfold read_dem_array_and_meta in R. destruct region as [[rb rc]|].
    - destruct (transform_bbox_to_src tr rb (r_crs src) (Some rc)) as [rs| |]; [|discriminate|discriminate]. cbn [bind] in R.
      destruct (negb _).
      + destruct (_ || r_ident src).
        * destruct (_ || _)%nat; [discriminate|]. left. congruence.
        * destruct C as [C|C]; [discriminate|]. rewrite C in R. discriminate.
      + destruct (rw src _) as [d| |] eqn:W; [|discriminate|discriminate]. cbn [bind] in R. right. split; [discriminate|]. do 2 eexists. split; [exact W|congruence].
    - left. congruence. }
  destruct M as [-> |(NR & b & d & D & ->)].
  - left. intros nr k S N.
    pose proof (grid_stored (r_data src) nr k bb px py (r_nodata src) ex c S N) as G. cbv zeta in G. destruct G as (G1 & G2 & _ & _ & _ & _ & _ & G8 & G9).
    cbn [drop_band]. rewrite G2. auto.
  - right. split; [exact NR|]. exists b, d. split; [exact D|]. intros nr k S N.
    pose proof (grid_masked d nr k bb px py (r_nodata src) ex c S N) as G. cbv zeta in G. destruct G as (G1 & G2 & G8 & G9).
    cbn [drop_band]. rewrite G2. auto.
Qed.
(** The whole file. *)
Lemma whole_file : forall tr rw xo isnc src crs ex nr nc, georeferenced src nr nc -> ~ global_box (r_bounds src) ->
  exists g, dem tr rw xo isnc src None crs ex = Ok g /\ shape (g_values g) nc nr /\ g_bbox g = r_bounds src /\
    (forall r c, (r < nr)%nat -> (c < nc)%nat -> cleaned (r_nodata src) (pixel (r_data src) r c) (value_at g c (nr - 1 - r)) /\
       x_of g c == centre_x src c - r_px src * (1 # 2) /\ y_of g (nr - 1 - r) == centre_y src r + r_py src * (1 # 2)).
Proof.
  intros tr rw xo isnc src crs ex nr nc (S & N1 & N2 & PX & PY & BX & BY) NG.
  pose proof (grid_stored (r_data src) nr nc (r_bounds src) (r_px src) (r_py src) (r_nodata src) ex
    (match r_crs src with Some c => if negb (c =? crs)%nat && negb (r_ident src) then c else crs | None => crs end) S N1) as G. cbv zeta in G.
  eexists. split.
  { unfold dem, read_dem_array_and_meta. cbn [bind]. unfold make_grid.
    assert (Qle_bool (r_px src) 0 || Qle_bool (Qabs (r_py src)) 0 = false) as ->.
    { apply orb_false_iff. rewrite <- !not_true_iff_false, !Qle_bool_iff. rewrite Qabs_neg by lra. split; lra. }
    cbn [bind drop_band]. reflexivity. }
  destruct G as (G1 & G2 & G3 & G4 & G5 & G6 & G7 & G8 & G9). split; [exact G1|]. split; [exact G2|].
  intros r c R C. split; [apply G8; assumption|]. unfold x_of, y_of, node. rewrite G2, G3, G4. unfold centre_x, centre_y. split; [ring|].
  rewrite Qabs_neg by lra. rewrite BY. replace (Z.of_nat (nr - 1 - r)) with (Z.of_nat nr - 1 - Z.of_nat r)%Z by lia.
  unfold Z.sub. rewrite !inject_Z_plus, !inject_Z_opp. change (inject_Z 1) with 1. ring.
Qed.
(** Points east or north of the last pixel's south-west corner have no elevation. *)
Lemma last_column : forall tr rw xo isnc src crs nr nc g p, georeferenced src nr nc -> dem tr rw xo isnc src None crs false = Ok g ->
  b1 (r_bounds src) - r_px src < fst p \/ b3 (r_bounds src) + r_py src < snd p -> eval g p = Ok (Fin 999999).
Proof.
  intros tr rw xo isnc src crs nr nc g p (S & N1 & N2 & PX & PY & BX & BY) H O.
  destruct (dem_of _ _ _ _ _ _ _ _ _ H) as (bb & c & px & py & m & R & _ & _ & E). unfold read_dem_array_and_meta in R.
  assert (bb = r_bounds src) by congruence. assert (px = r_px src) by congruence. assert (py = r_py src) by congruence. assert (m = Plain (transpose (r_data src))) by congruence. subst bb px py m.
  pose proof (grid_stored (r_data src) nr nc (r_bounds src) (r_px src) (r_py src) (r_nodata src) false c S N1) as G. cbv zeta in G. cbn [drop_band] in E. rewrite <- E in G.
  destruct G as ((G1 & G1') & G2 & G3 & G4 & G5 & G6 & G7 & _).
  unfold eval. rewrite G7. unfold with_fill. assert (out_of_grid g (fst p) (snd p) = true) as ->; [|reflexivity].
  assert (NX : nx g = nc) by exact G1. assert (NY : ny g = nr).
  { unfold ny. destruct (g_values g) as [|r0 v]; [cbn in G1; lia|]. inversion G1'; assumption. }
  unfold out_of_grid, outside. rewrite NX, NY, G2, G3, G4. rewrite !orb_true_iff, !negb_true_iff. rewrite <- !not_true_iff_false, !Qle_bool_iff.
  rewrite Qabs_pos by apply Qabs_nonneg. rewrite (Qabs_neg (r_py src)) by lra. unfold Z.sub. rewrite !inject_Z_plus. change (inject_Z (-(1))) with (-(1)).
  destruct O as [O|O]; [left; right|right; right]; lra.
Qed.
(** A raster without georeference is spread over the region. *)
Lemma synthetic : forall tr rw xo isnc src rb rc crs ex g nr nc, dem tr rw xo isnc src (Some (rb, rc)) crs ex = Ok g ->
  r_crs src = None -> ~ overlapping rb (r_bounds src) -> shape (r_data src) nr nc -> (2 <= nr)%nat -> (2 <= nc)%nat ->
  g_bbox g = rb /\ x_of g 0 == b0 rb /\ x_of g (nc - 1) == b1 rb /\ y_of g 0 == b2 rb /\ (b2 rb < b3 rb -> y_of g (nr - 1) == b3 rb) /\ g_crs g = rc.
Proof.
  intros tr rw xo isnc src rb rc crs ex g nr nc H C O S N1 N2.
  destruct (dem_of _ _ _ _ _ _ _ _ _ H) as (bb & c & px & py & m & R & PX & PY & E). unfold read_dem_array_and_meta in R. rewrite C in R. cbn [transform_bbox_to_src bind] in R.
  assert (NO : Qltb (pmax (b0 rb) (b0 (r_bounds src))) (pmin (b1 rb) (b1 (r_bounds src))) && Qltb (pmax (b2 rb) (b2 (r_bounds src))) (pmin (b3 rb) (b3 (r_bounds src))) = false).
  { apply not_true_iff_false. intro X. apply O. apply overlaps_iff. exact X. }
  rewrite NO in R. cbn [negb orb] in R.
  pose proof S as [L F]. assert (LC : match r_data src with [] => 0%nat | r :: _ => length r end = nc) by (destruct (r_data src); [cbn in L; lia|inversion F; assumption]).
  rewrite LC, L in R. replace ((nc =? 1) || (nr =? 1))%nat with false in R by (symmetry; apply orb_false_iff; split; apply Nat.eqb_neq; lia).
  assert (rb = bb) by congruence. assert (rc = c) by congruence. assert (m = Plain (transpose (r_data src))) by congruence.
  assert ((b1 rb - b0 rb) / inject_Z (Z.of_nat nc - 1) = px) by congruence. assert (- ((b3 rb - b2 rb) / inject_Z (Z.of_nat nr - 1)) = py) by congruence. subst bb c px py m. clear R.
  pose proof (grid_stored (r_data src) nr nc rb ((b1 rb - b0 rb) / inject_Z (Z.of_nat nc - 1)) (- ((b3 rb - b2 rb) / inject_Z (Z.of_nat nr - 1))) (r_nodata src) ex rc S ltac:(lia)) as G. cbv zeta in G. cbn [drop_band] in E. rewrite <- E in G.
  destruct G as (_ & G2 & G3 & G4 & G5 & _). unfold x_of, y_of, node. rewrite G2, G3, G4.
  assert (A : forall n, (2 <= n)%nat -> 0 < inject_Z (Z.of_nat n - 1)).
  { intros n N. change 0 with (inject_Z 0). rewrite <- Zlt_Qlt. lia. }
  assert (X : forall n, (2 <= n)%nat -> inject_Z (Z.of_nat (n - 1)) == inject_Z (Z.of_nat n - 1)).
  { intros n N. replace (Z.of_nat (n - 1)) with (Z.of_nat n - 1)%Z by lia. reflexivity. }
  pose proof (A nr N1). pose proof (A nc N2). rewrite !X by assumption.
  change (inject_Z (Z.of_nat 0)) with 0. repeat split; try exact G5; try ring; try (field; lra).
  intro B. rewrite Qabs_opp, Qabs_pos; [field; lra|]. apply Qle_shift_div_l; [exact H0|lra].
Qed.
Lemma dem_crs : forall tr rw xo isnc src region crs ex g, dem tr rw xo isnc src region crs ex = Ok g ->
  match r_crs src with
  | Some c => r_ident src = false -> g_crs g = c
  | None => g_crs g = match region with Some (_, c) => c | None => crs end
  end.
Proof.
  intros tr rw xo isnc src region crs ex g H. destruct (dem_of _ _ _ _ _ _ _ _ _ H) as (bb & c & px & py & m & R & _ & _ & ->).
  set (want := match region with Some (_, c) => c | None => crs end) in *.
  assert (B : forall g, g_crs (build_interpolant g) = g_crs g) by (intro g0; unfold build_interpolant; destruct (is_global g0); reflexivity).
  rewrite B. cbn [g_crs].
  assert (CC : c = match r_crs src with Some c => if negb (c =? want)%nat && negb (r_ident src) then c else want | None => want end).
  { unfold read_dem_array_and_meta in R. destruct region as [[rb rc]|]; [|congruence].
    destruct (transform_bbox_to_src tr rb (r_crs src) (Some rc)) as [rs| |]; [|discriminate|discriminate]. cbn [bind] in R.
    destruct (negb (Qltb _ _ && _)).
    - destruct (_ || r_ident src); [destruct (_ || _)%nat; congruence|]. destruct isnc; [|discriminate]. destruct xo as [a|]; [|discriminate].
      destruct (subset_netcdf a rs) as [[[[[b dx] dy] xy]|]| |]; try discriminate. cbn [bind] in R. congruence.
    - destruct (rw src _); [|discriminate|discriminate]. cbn [bind] in R. congruence. }
  destruct (r_crs src) as [k|]; [|exact CC]. intro I. rewrite I in CC. cbn [negb] in CC. rewrite andb_true_r in CC.
  destruct (Nat.eqb_spec k want); cbn [negb] in CC; congruence.
Qed.
(** Windowed reads stay inside the source. *)
Lemma window_box : forall tr rw xo src rb rc crs ex g, dem tr rw xo false src (Some (rb, rc)) crs ex = Ok g -> r_crs src <> None -> r_ident src = false ->
  exists rs, transform_bbox_to_src tr rb (r_crs src) (Some rc) = Ok rs /\ forall p, strictly_in (g_bbox g) p <-> strictly_in rs p /\ strictly_in (r_bounds src) p.
Proof.
  intros tr rw xo src rb rc crs ex g H C I. destruct (dem_of _ _ _ _ _ _ _ _ _ H) as (bb & c & px & py & m & R & _ & _ & ->).
  assert (B : forall g, g_bbox (build_interpolant g) = g_bbox g) by (intro g0; unfold build_interpolant; destruct (is_global g0); reflexivity).
  rewrite B. cbn [g_bbox]. unfold read_dem_array_and_meta in R.
  destruct (transform_bbox_to_src tr rb (r_crs src) (Some rc)) as [rs| |]; [|discriminate|discriminate]. cbn [bind] in R. exists rs. split; [reflexivity|].
  destruct (negb (Qltb _ _ && _)).
  - rewrite I, orb_false_r in R. destruct (r_crs src); [discriminate|congruence].
  - destruct (rw src _); [|discriminate|discriminate]. cbn [bind] in R.
    match type of R with Ok (?b, _, _, _, _) = _ => assert (E : bb = b) by congruence end. rewrite E. unfold strictly_in. cbn [b0 b1 b2 b3].
    intro p. destruct (pmax_spec (b0 rs) (b0 (r_bounds src))) as (A1 & A2 & A3). destruct (pmin_spec (b1 rs) (b1 (r_bounds src))) as (A4 & A5 & A6).
    destruct (pmax_spec (b2 rs) (b2 (r_bounds src))) as (A7 & A8 & A9). destruct (pmin_spec (b3 rs) (b3 (r_bounds src))) as (A10 & A11 & A12).
    split; [intros; repeat split; lra|]. intros [[X1 X2] [X3 X4]]. destruct A3 as [-> | ->], A6 as [-> | ->], A9 as [-> | ->], A12 as [-> | ->]; lra.
Qed.

(** * The xarray fallback *)
Lemma fold_min_spec : forall r i, (fold_left Nat.min r i <= i)%nat /\ (forall k, In k r -> (fold_left Nat.min r i <= k)%nat) /\ (fold_left Nat.min r i = i \/ In (fold_left Nat.min r i) r).
Proof.
  induction r as [|a r IH]; intro i; cbn [fold_left]; [split; [lia|split; [intros k []|auto]]|].
  destruct (IH (Nat.min i a)) as (I1 & I2 & I3). split; [lia|]. split; [intros k [<-|K]; [lia|auto]|].
  destruct I3 as [E|E]; [|right; right; exact E]. destruct (Nat.min_spec i a) as [[_ M]|[_ M]]; rewrite M in *; [left; exact E|right; left; congruence].
Qed.
Lemma fold_max_spec : forall r i, (i <= fold_left Nat.max r i)%nat /\ (forall k, In k r -> (k <= fold_left Nat.max r i)%nat) /\ (fold_left Nat.max r i = i \/ In (fold_left Nat.max r i) r).
Proof.
  induction r as [|a r IH]; intro i; cbn [fold_left]; [split; [lia|split; [intros k []|auto]]|].
  destruct (IH (Nat.max i a)) as (I1 & I2 & I3). split; [lia|]. split; [intros k [<-|K]; [lia|auto]|].
  destruct I3 as [E|E]; [|right; right; exact E]. destruct (Nat.max_spec i a) as [[_ M]|[_ M]]; rewrite M in *; [right; left; congruence|left; exact E].
Qed.
Lemma in_range_iff : forall axis lo hi i, In i (in_range_idx axis lo hi) <-> (i < length axis)%nat /\ lo <= nth i axis 0 <= hi.
Proof. intros axis lo hi i. unfold in_range_idx. rewrite filter_In, in_seq, andb_true_iff, !Qle_bool_iff. intuition lia. Qed.
Lemma index_range_spec : forall axis lo hi i0 i1, find_overlap_index_range axis lo hi = Some (i0, i1) ->
  (i0 <= i1 < length axis)%nat /\ lo <= nth i0 axis 0 <= hi /\ lo <= nth i1 axis 0 <= hi /\
  forall i, (i < length axis)%nat -> lo <= nth i axis 0 <= hi -> (i0 <= i <= i1)%nat.
Proof.
  intros axis lo hi i0 i1 H. unfold find_overlap_index_range in H. pose proof (in_range_iff axis lo hi) as W.
  destruct (in_range_idx axis lo hi) as [|k r]; [discriminate|]. injection H as <- <-.
  destruct (fold_min_spec r k) as (M1 & M2 & M3). destruct (fold_max_spec r k) as (N1 & N2 & N3).
  assert (A : In (fold_left Nat.min r k) (k :: r)) by (destruct M3 as [->|M]; [left; reflexivity|right; exact M]).
  assert (B : In (fold_left Nat.max r k) (k :: r)) by (destruct N3 as [->|M]; [left; reflexivity|right; exact M]).
  apply W in A. apply W in B. split; [lia|]. split; [tauto|]. split; [tauto|].
  intros i I J. assert (K : In i (k :: r)) by (apply W; auto). destruct K as [<-|K]; [lia|]. specialize (M2 i K). specialize (N2 i K). lia.
Qed.
Lemma nth_slice {A} : forall (l : list A) a b k d, (a + k < b)%nat -> nth k (slice l a b) d = nth (a + k) l d.
Proof.
  intros l a b k d H. unfold slice. assert (G : forall (l : list A) n k, (k < n)%nat -> nth k (firstn n l) d = nth k l d).
  { clear. induction l as [|x l IH]; intros [|n] [|k] H; try lia; try reflexivity. cbn. apply IH. lia. }
  rewrite G by lia. clear G. revert a H. induction l as [|x l IH]; intros [|a] H; cbn; try reflexivity; [destruct k; reflexivity|]. apply IH. lia.
Qed.
Lemma slice_length {A} : forall (l : list A) a b, (a <= b <= length l)%nat -> length (slice l a b) = (b - a)%nat.
Proof. intros l a b H. unfold slice. rewrite firstn_length, skipn_length. lia. Qed.
Lemma slice_shape : forall v n m a b c d, shape v n m -> (a <= b <= n)%nat -> (c <= d <= m)%nat -> shape (map (fun r => slice r c d) (slice v a b)) (b - a) (d - c) /\
  forall i j, (a + i < b)%nat -> (c + j < d)%nat -> nth j (nth i (map (fun r => slice r c d) (slice v a b)) []) NaN = nth (c + j) (nth (a + i) v []) NaN.
Proof.
  intros v n m a b c d S AB CD. pose proof S as [L F]. split; [split|].
  - rewrite map_length. apply slice_length. lia.
  - apply Forall_forall. intros x I. apply in_map_iff in I. destruct I as (r & <- & R). apply slice_length. rewrite Forall_forall in F. rewrite (F r); [exact CD|].
    unfold slice in R. apply In_nth with (d := r) in R. destruct R as (k & K1 & K2).
    assert (X : forall (l : list (list num)) n x, In x (firstn n l) -> In x l). { intros l n0 x I. rewrite <- (firstn_skipn n0 l). apply in_or_app. left; exact I. }
    assert (Y : forall (l : list (list num)) n x, In x (skipn n l) -> In x l). { intros l n0 x I. rewrite <- (firstn_skipn n0 l). apply in_or_app. right; exact I. }
    eapply Y, X. rewrite <- K2. apply nth_In. exact K1.
  - intros i j I J. rewrite (nth_map_any _ _ _ _ []) by (rewrite slice_length by lia; lia). rewrite nth_slice by lia. rewrite nth_slice by lia. reflexivity.
Qed.
(** Median of equal spacings. *)
Lemma insertQ_all : forall d x l, x == d -> Forall (fun y => y == d) l -> Forall (fun y => y == d) (insertQ x l).
Proof. intros d x l X. induction 1 as [|y l Y F IH]; cbn; [constructor; auto|]. destruct (Qle_bool x y); constructor; auto. Qed.
Lemma insertQ_length : forall x l, length (insertQ x l) = S (length l).
Proof. intros x. induction l as [|y l IH]; [reflexivity|]. cbn. destruct (Qle_bool x y); [reflexivity|]. cbn. rewrite IH. reflexivity. Qed.
Lemma sortQ_all : forall d l, Forall (fun y => y == d) l -> Forall (fun y => y == d) (sortQ l) /\ length (sortQ l) = length l.
Proof.
  induction 1 as [|y l Y F [IH1 IH2]]; [split; [constructor|reflexivity]|]. cbn [sortQ fold_right]. fold (sortQ l).
  split; [apply insertQ_all; assumption|]. rewrite insertQ_length, IH2. reflexivity.
Qed.
Lemma diffs_spec : forall l, length (diffs l) = (length l - 1)%nat /\ forall i, (S i < length l)%nat -> nth i (diffs l) 0 = Qabs (nth (S i) l 0 - nth i l 0).
Proof.
  induction l as [|a [|b t] [IH1 IH2]]; [split; [reflexivity|intros i I; cbn in I; lia]|split; [reflexivity|intros i I; cbn in I; lia]|].
  change (diffs (a :: b :: t)) with (Qabs (b - a) :: diffs (b :: t)). split; [cbn [length] in *; lia|]. intros [|i] I; [reflexivity|]. change (nth i (diffs (b :: t)) 0 = Qabs (nth (S i) (b :: t) 0 - nth i (b :: t) 0)). apply IH2. cbn [length] in *; lia.
Qed.
Lemma uniform_diffs : forall l lo d n, uniform_axis l lo d n -> Forall (fun y => y == Qabs d) (diffs l).
Proof.
  intros l lo d n [L U]. apply Forall_forall. intros y I. apply (In_nth _ _ 0) in I. destruct I as (i & I & <-).
  destruct (diffs_spec l) as [D1 D2]. rewrite D1 in I. rewrite D2 by lia. rewrite !U by lia. apply Qabs_wd.
  rewrite Nat2Z.inj_succ. unfold Z.succ. rewrite inject_Z_plus. change (inject_Z 1) with 1. ring.
Qed.
Lemma median_uniform : forall l lo d n, uniform_axis l lo d n -> (2 <= n)%nat -> exists s, median_spacing l = Some s /\ s == Qabs d.
Proof.
  intros l lo d n U N. unfold median_spacing. destruct (Nat.leb_spec (length l) 1) as [X|X]; [destruct U; lia|].
  destruct (sortQ_all _ _ (uniform_diffs _ _ _ _ U)) as [A B]. rewrite B, (proj1 (diffs_spec l)). eexists. split; [reflexivity|].
  assert (G : forall k, (k < length l - 1)%nat -> nth k (sortQ (diffs l)) 0 == Qabs d).
  { intros k K. rewrite Forall_forall in A. apply A. apply nth_In. rewrite B, (proj1 (diffs_spec l)). exact K. }
  rewrite !G; [ring| |]; apply Nat.div_lt_upper_bound; lia.
Qed.
Lemma uniform_slice : forall l lo d n a b, uniform_axis l lo d n -> (a <= b <= n)%nat -> uniform_axis (slice l a b) (lo + inject_Z (Z.of_nat a) * d) d (b - a).
Proof.
  intros l lo d n a b [L U] AB. split; [apply slice_length; lia|]. intros i I. rewrite nth_slice by lia. rewrite U by lia.
  rewrite Nat2Z.inj_add, inject_Z_plus. ring.
Qed.
(** Extremes of a uniform axis. *)
Lemma fold_pmin : forall r x, min_list r x <= x /\ (forall y, In y r -> min_list r x <= y) /\ (min_list r x = x \/ In (min_list r x) r).
Proof.
  unfold min_list. induction r as [|a r IH]; intro x; cbn [fold_left]; [split; [lra|split; [intros y []|auto]]|].
  destruct (IH (pmin x a)) as (I1 & I2 & I3). destruct (pmin_spec x a) as (P1 & P2 & P3). split; [lra|]. split; [intros y [<-|Y]; [lra|auto]|].
  destruct I3 as [E|E]; [|right; right; exact E]. destruct P3 as [P|P]; rewrite P in *; [left; exact E|right; left; congruence].
Qed.
Lemma fold_pmax : forall r x, x <= max_list r x /\ (forall y, In y r -> y <= max_list r x) /\ (max_list r x = x \/ In (max_list r x) r).
Proof.
  unfold max_list. induction r as [|a r IH]; intro x; cbn [fold_left]; [split; [lra|split; [intros y []|auto]]|].
  destruct (IH (pmax x a)) as (I1 & I2 & I3). destruct (pmax_spec x a) as (P1 & P2 & P3). split; [lra|]. split; [intros y [<-|Y]; [lra|auto]|].
  destruct I3 as [E|E]; [|right; right; exact E]. destruct P3 as [P|P]; rewrite P in *; [left; exact E|right; left; congruence].
Qed.
Lemma step_order : forall lo d i j, 0 <= d -> (i <= j)%nat -> lo + inject_Z (Z.of_nat i) * d <= lo + inject_Z (Z.of_nat j) * d.
Proof. intros lo d i j D I. assert (inject_Z (Z.of_nat i) * d <= inject_Z (Z.of_nat j) * d); [|lra]. apply Qmult_le_compat_r; [|exact D]. rewrite <- Zle_Qle. lia. Qed.
Lemma uniform_extremes : forall x r lo d n, uniform_axis (x :: r) lo d n ->
  (0 <= d -> min_list r x == lo /\ max_list r x == lo + inject_Z (Z.of_nat (n - 1)) * d) /\
  (d <= 0 -> min_list r x == lo + inject_Z (Z.of_nat (n - 1)) * d /\ max_list r x == lo).
Proof.
  intros x r lo d n [L U]. cbn [length] in L.
  assert (X : x == lo). { pose proof (U 0%nat ltac:(lia)) as E. cbn [nth] in E. rewrite E. change (inject_Z (Z.of_nat 0)) with 0. ring. }
  destruct (fold_pmin r x) as (M1 & M2 & M3). destruct (fold_pmax r x) as (N1 & N2 & N3).
  assert (E : forall y, y = x \/ In y r -> exists i, (i < n)%nat /\ y == lo + inject_Z (Z.of_nat i) * d).
  { intros y Y. assert (I : In y (x :: r)) by (destruct Y as [->|Y]; [left; reflexivity|right; exact Y]). apply (In_nth _ _ 0) in I. destruct I as (i & I & <-). exists i. cbn [length] in I. split; [lia|]. apply U. lia. }
  assert (Z : In (nth (n - 1) (x :: r) 0) (x :: r)) by (apply nth_In; cbn; lia). pose proof (U (n - 1)%nat ltac:(lia)) as UL. set (w := nth (n - 1) (x :: r) 0) in *.
  assert (W1 : min_list r x <= w) by (destruct Z as [<-|Z]; [exact M1|exact (M2 _ Z)]).
  assert (W2 : w <= max_list r x) by (destruct Z as [<-|Z]; [exact N1|exact (N2 _ Z)]).
  destruct (E _ M3) as (i & I1 & I2). destruct (E _ N3) as (j & J1 & J2). split; intro D.
  - pose proof (step_order lo d 0 i D ltac:(lia)) as S1. change (inject_Z (Z.of_nat 0)) with 0 in S1. pose proof (step_order lo d j (n - 1) D ltac:(lia)) as S2. split; lra.
  - pose proof (step_order lo (- d) 0 j ltac:(lra) ltac:(lia)) as S1. change (inject_Z (Z.of_nat 0)) with 0 in S1. pose proof (step_order lo (- d) i (n - 1) ltac:(lra) ltac:(lia)) as S2. split; lra.
Qed.
(** What the fallback returns for uniform axes. *)
Lemma outputs_spec : forall xs ys xf v ob dx dy xy, subset_to_outputs xs ys xf v = Some (ob, dx, dy, xy) ->
  exists x0 xr y0 yr, xs = x0 :: xr /\ ys = y0 :: yr /\ ob = (min_list xr x0, max_list xr x0, min_list yr y0, max_list yr y0) /\
    median_spacing xs = Some dx /\ median_spacing ys = Some dy /\ 0 < dx /\ 0 < dy /\ xy = transpose (if xf then transpose v else v).
Proof.
  intros xs ys xf v ob dx dy xy H. unfold subset_to_outputs in H.
  destruct (median_spacing xs) as [mx|] eqn:MX; [|discriminate]. destruct (median_spacing ys) as [my|] eqn:MY; [|discriminate].
  destruct xs as [|x0 xr]; [discriminate|]. destruct ys as [|y0 yr]; [discriminate|]. destruct (Qltb 0 mx && Qltb 0 my) eqn:P; [|discriminate].
  apply andb_true_iff in P. rewrite !Qltb_iff in P. injection H as <- <- <- <-. exists x0, xr, y0, yr. intuition.
Qed.
Lemma median_some : forall l d, median_spacing l = Some d -> (2 <= length l)%nat.
Proof. intros l d H. unfold median_spacing in H. destruct (Nat.leb_spec (length l) 1); [discriminate|lia]. Qed.
Definition between_range (lo hi alo d : Q) (n i0 i1 : nat) : Prop :=
  forall i, (i < n)%nat -> lo <= alo + inject_Z (Z.of_nat i) * d <= hi <-> (i0 <= i <= i1)%nat.
Lemma range_uniform : forall axis alo d n lo hi i0 i1, uniform_axis axis alo d n -> find_overlap_index_range axis lo hi = Some (i0, i1) ->
  (i0 <= i1 < n)%nat /\ between_range lo hi alo d n i0 i1.
Proof.
  intros axis alo d n lo hi i0 i1 [L U] H. destruct (index_range_spec _ _ _ _ _ H) as (I & A & B & C). rewrite L in *. split; [exact I|].
  intros i J. split.
  - intro W. apply C; [exact J|]. rewrite U by exact J. exact W.
  - intro K. rewrite U in A, B by lia. destruct (Qlt_le_dec d 0) as [D|D].
    + pose proof (step_order alo (- d) i0 i ltac:(lra) ltac:(lia)). pose proof (step_order alo (- d) i i1 ltac:(lra) ltac:(lia)). lra.
    + pose proof (step_order alo d i0 i D ltac:(lia)). pose proof (step_order alo d i i1 D ltac:(lia)). lra.
Qed.
Lemma extremes_slice : forall axis alo d n i0 i1 x r, uniform_axis axis alo d n -> (i0 <= i1 < n)%nat -> slice axis i0 (i1 + 1) = x :: r ->
  (0 <= d -> min_list r x == alo + inject_Z (Z.of_nat i0) * d /\ max_list r x == alo + inject_Z (Z.of_nat i1) * d) /\
  (d <= 0 -> min_list r x == alo + inject_Z (Z.of_nat i1) * d /\ max_list r x == alo + inject_Z (Z.of_nat i0) * d).
Proof.
  intros axis alo d n i0 i1 x r U I E. pose proof (uniform_slice axis alo d n i0 (i1 + 1) U ltac:(lia)) as S. rewrite E in S.
  destruct (uniform_extremes _ _ _ _ _ S) as [P N]. replace (Z.of_nat (i1 + 1 - i0 - 1)) with (Z.of_nat i1 - Z.of_nat i0)%Z in * by lia.
  unfold Z.sub in *. rewrite inject_Z_plus, inject_Z_opp in *. split; intro D; [destruct (P D) as [P1 P2]|destruct (N D) as [P1 P2]]; rewrite P1, P2; split; ring.
Qed.
Lemma fallback_spec : forall a bb nxa nya xlo dx ylo dy ob odx ody xy, xr_shape a nxa nya -> uniform_axis (xa_x a) xlo dx nxa -> uniform_axis (xa_y a) ylo dy nya ->
  subset_netcdf a bb = Ok (Some (ob, odx, ody, xy)) ->
  exists i0 i1 j0 j1, (i0 < i1 < nxa)%nat /\ (j0 < j1 < nya)%nat /\ odx == Qabs dx /\ ody == Qabs dy /\ shape xy (i1 - i0 + 1) (j1 - j0 + 1) /\
    between_range (b0 bb) (b1 bb) xlo dx nxa i0 i1 /\ between_range (b2 bb) (b3 bb) ylo dy nya j0 j1 /\
    (0 <= dx -> b0 ob == xlo + inject_Z (Z.of_nat i0) * dx) /\ (dx <= 0 -> b0 ob == xlo + inject_Z (Z.of_nat i1) * dx) /\
    (0 <= dy -> b2 ob == ylo + inject_Z (Z.of_nat j0) * dy) /\ (dy <= 0 -> b2 ob == ylo + inject_Z (Z.of_nat j1) * dy) /\
    (forall i j, (i <= i1 - i0)%nat -> (j <= j1 - j0)%nat -> nth j (nth i xy []) NaN = xr_value a (i0 + i) (j0 + j)).
Proof.
  intros a bb nxa nya xlo dx ylo dy ob odx ody xy SH UX UY H. unfold subset_netcdf in H.
  destruct (xa_x a) as [|x0 xr] eqn:EX; [discriminate|]. destruct (xa_y a) as [|y0 yr] eqn:EY; [discriminate|]. rewrite <- EX in H, UX. rewrite <- EY in H, UY.
  destruct (_ && _); [|discriminate].
  destruct (find_overlap_index_range (xa_x a) _ _) as [[i0 i1]|] eqn:RX; [|discriminate]. destruct (find_overlap_index_range (xa_y a) _ _) as [[j0 j1]|] eqn:RY; [|discriminate].
  match type of H with Ok ?v = Ok _ => assert (E : v = Some (ob, odx, ody, xy)) by congruence end. clear H.
  destruct (range_uniform _ _ _ _ _ _ _ _ UX RX) as [I BX]. destruct (range_uniform _ _ _ _ _ _ _ _ UY RY) as [J BY].
  destruct (outputs_spec _ _ _ _ _ _ _ _ E) as (sx & sxr & sy & syr & SX & SY & OB & MX & MY & _ & _ & XY). clear E.
  pose proof (uniform_slice _ _ _ _ i0 (i1 + 1) UX ltac:(lia)) as VX. pose proof (uniform_slice _ _ _ _ j0 (j1 + 1) UY ltac:(lia)) as VY.
  pose proof (median_some _ _ MX) as LX. pose proof (median_some _ _ MY) as LY. rewrite (proj1 VX) in LX. rewrite (proj1 VY) in LY.
  destruct (median_uniform _ _ _ _ VX ltac:(lia)) as (mx & M1 & M2). destruct (median_uniform _ _ _ _ VY ltac:(lia)) as (my & N1 & N2).
  rewrite MX in M1. rewrite MY in N1. injection M1 as <-. injection N1 as <-.
  destruct (extremes_slice _ _ _ _ _ _ _ _ UX I SX) as [PX QX]. destruct (extremes_slice _ _ _ _ _ _ _ _ UY J SY) as [PY QY].
  exists i0, i1, j0, j1. split; [lia|]. split; [lia|]. split; [exact M2|]. split; [exact N2|].
  replace (i1 - i0 + 1)%nat with (i1 + 1 - i0)%nat by lia. replace (j1 - j0 + 1)%nat with (j1 + 1 - j0)%nat by lia.
  assert (V : shape xy (i1 + 1 - i0) (j1 + 1 - j0) /\ forall i j, (i <= i1 - i0)%nat -> (j <= j1 - j0)%nat -> nth j (nth i xy []) NaN = xr_value a (i0 + i) (j0 + j)).
  { unfold xr_shape, xr_value in *. destruct (xa_xfirst a).
    - destruct (slice_shape _ _ _ i0 (i1 + 1) j0 (j1 + 1) SH ltac:(lia) ltac:(lia)) as [S1 V1].
      destruct (transpose_shape _ _ _ S1 ltac:(lia)) as [S2 V2]. destruct (transpose_shape _ _ _ S2 ltac:(lia)) as [S3 V3]. rewrite <- XY in S3, V3. split; [exact S3|].
      intros i j Hi Hj. rewrite V3 by lia. rewrite V2 by lia. apply V1; lia.
    - destruct (slice_shape _ _ _ j0 (j1 + 1) i0 (i1 + 1) SH ltac:(lia) ltac:(lia)) as [S1 V1].
      destruct (transpose_shape _ _ _ S1 ltac:(lia)) as [S2 V2]. rewrite <- XY in S2, V2. split; [exact S2|].
      intros i j Hi Hj. rewrite V2 by lia. apply V1; lia. }
  destruct V as [V1 V2]. split; [exact V1|]. split; [exact BX|]. split; [exact BY|]. rewrite OB. unfold b0, b2.
  split; [intro D; apply (PX D)|]. split; [intro D; apply (QX D)|]. split; [intro D; apply (PY D)|]. split; [intro D; apply (QY D)|]. exact V2.
Qed.
(** The grid made from a NetCDF file by the fallback. *)
Lemma fallback_grid : forall tr rw a isnc src rb rc rs crs ex g nxa nya xlo dx ylo dy, dem tr rw (Some a) isnc src (Some (rb, rc)) crs ex = Ok g ->
  by_fallback tr src rb rc rs -> xr_shape a nxa nya -> uniform_axis (xa_x a) xlo dx nxa -> uniform_axis (xa_y a) ylo dy nya -> ~ global_box (g_bbox g) ->
  exists i0 i1 j0 j1, (i0 < i1 < nxa)%nat /\ (j0 < j1 < nya)%nat /\ shape (g_values g) (i1 - i0 + 1) (j1 - j0 + 1) /\
    between_range (b0 rs) (b1 rs) xlo dx nxa i0 i1 /\ between_range (b2 rs) (b3 rs) ylo dy nya j0 j1 /\
    (forall i, (i <= i1 - i0)%nat -> (0 <= dx -> x_of g i == xlo + inject_Z (Z.of_nat (i0 + i)) * dx) /\ (dx <= 0 -> x_of g i == xlo + inject_Z (Z.of_nat (i1 - i)) * dx)) /\
    (forall j, (j <= j1 - j0)%nat -> (0 <= dy -> y_of g j == ylo + inject_Z (Z.of_nat (j0 + j)) * dy) /\ (dy <= 0 -> y_of g j == ylo + inject_Z (Z.of_nat (j1 - j)) * dy)) /\
    forall i j, (i <= i1 - i0)%nat -> (j <= j1 - j0)%nat -> cleaned (r_nodata src) (xr_value a (i0 + i) (j1 - j)) (value_at g i j).
Proof.
  intros tr rw a isnc src rb rc rs crs ex g nxa nya xlo dx ylo dy H (T & NO & C & ID) SH UX UY NG.
  destruct (dem_of _ _ _ _ _ _ _ _ _ H) as (bb & c & px & py & m & R & _ & _ & EG). unfold read_dem_array_and_meta in R. rewrite T in R. cbn [bind] in R.
  assert (N1 : Qltb (pmax (b0 rs) (b0 (r_bounds src))) (pmin (b1 rs) (b1 (r_bounds src))) && Qltb (pmax (b2 rs) (b2 (r_bounds src))) (pmin (b3 rs) (b3 (r_bounds src))) = false).
  { apply not_true_iff_false. intro X. apply NO. apply overlaps_iff. exact X. }
  rewrite N1 in R. cbn [negb] in R. rewrite ID, orb_false_r in R. destruct (r_crs src) as [k|]; [|congruence]. destruct isnc; [|discriminate].
  destruct (subset_netcdf a rs) as [[[[[ob odx] ody] xy]|]| |] eqn:SN; try discriminate. cbn [bind] in R.
  assert (ob = bb) by congruence. assert (odx = px) by congruence. assert (- ody = py) by congruence. assert (Plain xy = m) by congruence. subst bb px py m. clear R. cbn [drop_band] in EG.
  destruct (fallback_spec _ _ _ _ _ _ _ _ _ _ _ _ SH UX UY SN) as (i0 & i1 & j0 & j1 & I & J & DX & DY & S1 & BX & BY & X1 & X2 & Y1 & Y2 & V).
  destruct (drop_shape (r_nodata src) _ _ _ S1) as [S2 V2]. destruct (fliplr_shape _ _ _ S2) as [S3 V3].
  match type of EG with g = build_interpolant ?g0 => pose proof (build_facts g0 _ _ S3) as B end. cbv zeta in B. rewrite <- EG in B. cbn [g_bbox g_dx g_dy] in B.
  destruct B as (B1 & B2 & B3 & B4 & _ & _ & _ & B8 & _). rewrite B2 in NG. specialize (B8 NG).
  exists i0, i1, j0, j1. split; [exact I|]. split; [exact J|]. split; [exact B1|]. split; [exact BX|]. split; [exact BY|].
  split; [|split].
  - intros i Hi. unfold x_of, node. rewrite B2, B3. split; intro D.
    + rewrite (X1 D), DX, (Qabs_pos dx D), Nat2Z.inj_add, inject_Z_plus. ring.
    + rewrite (X2 D), DX, (Qabs_neg dx D), Nat2Z.inj_sub by lia. unfold Z.sub. rewrite inject_Z_plus, inject_Z_opp. ring.
  - intros j Hj. unfold y_of, node. rewrite B2, B4, Qabs_opp, DY. split; intro D.
    + rewrite (Y1 D). rewrite (Qabs_pos dy D). rewrite (Qabs_pos dy D), Nat2Z.inj_add, inject_Z_plus. ring.
    + rewrite (Y2 D). rewrite (Qabs_neg dy D), (Qabs_pos (- dy)) by lra. rewrite Nat2Z.inj_sub by lia. unfold Z.sub. rewrite inject_Z_plus, inject_Z_opp. ring.
  - intros i j Hi Hj. rewrite B8. unfold value_at. cbn [g_values]. rewrite V3 by lia.
    replace (j1 - j0 + 1 - 1 - j)%nat with (j1 - j0 - j)%nat by lia. replace (j1 - j)%nat with (j0 + (j1 - j0 - j))%nat by lia.
    rewrite <- V by lia. apply V2; lia.
Qed.
(** Read right only for ascending x with descending y. *)
Lemma fallback_right : forall tr rw a isnc src rb rc rs crs ex g nxa nya xlo dx ylo dy, dem tr rw (Some a) isnc src (Some (rb, rc)) crs ex = Ok g ->
  by_fallback tr src rb rc rs -> xr_shape a nxa nya -> uniform_axis (xa_x a) xlo dx nxa -> uniform_axis (xa_y a) ylo dy nya -> ~ global_box (g_bbox g) -> 0 < dx -> dy < 0 ->
  exists n m, shape (g_values g) n m /\ (2 <= n)%nat /\ (2 <= m)%nat /\
  (forall i j, (i < n)%nat -> (j < m)%nat -> exists i' j', (i' < nxa)%nat /\ (j' < nya)%nat /\ x_of g i == nth i' (xa_x a) 0 /\ y_of g j == nth j' (xa_y a) 0 /\ cleaned (r_nodata src) (xr_value a i' j') (value_at g i j)) /\
  (forall i' j', (i' < nxa)%nat -> (j' < nya)%nat -> in_box rs (nth i' (xa_x a) 0, nth j' (xa_y a) 0) ->
     exists i j, (i < n)%nat /\ (j < m)%nat /\ x_of g i == nth i' (xa_x a) 0 /\ y_of g j == nth j' (xa_y a) 0).
Proof.
  intros tr rw a isnc src rb rc rs crs ex g nxa nya xlo dx ylo dy H F SH UX UY NG DX DY.
  destruct (fallback_grid _ _ _ _ _ _ _ _ _ _ _ _ _ _ _ _ _ H F SH UX UY NG) as (i0 & i1 & j0 & j1 & I & J & S1 & BX & BY & X & Y & V).
  exists (i1 - i0 + 1)%nat, (j1 - j0 + 1)%nat. split; [exact S1|]. split; [lia|]. split; [lia|]. split.
  - intros i j Hi Hj. exists (i0 + i)%nat, (j1 - j)%nat. split; [lia|]. split; [lia|].
    rewrite (proj2 UX), (proj2 UY) by lia. split; [apply X; [lia|lra]|]. split; [apply Y; [lia|lra]|]. apply V; lia.
  - intros i' j' Hi Hj B. unfold in_box in B. cbn [fst snd] in B. rewrite (proj2 UX), (proj2 UY) in * by lia.
    destruct B as [B1 B2]. apply (BX i' Hi) in B1. apply (BY j' Hj) in B2. exists (i' - i0)%nat, (j1 - j')%nat. split; [lia|]. split; [lia|].
    split.
    + rewrite (proj1 (X (i' - i0)%nat ltac:(lia))) by lra. replace (i0 + (i' - i0))%nat with i' by lia. rewrite (proj2 UX) by lia. reflexivity.
    + rewrite (proj2 (Y (j1 - j')%nat ltac:(lia))) by lra. replace (j1 - (j1 - j'))%nat with j' by lia. rewrite (proj2 UY) by lia. reflexivity.
Qed.
(** With ascending y the rows are upside down. *)
Lemma fallback_upside : forall tr rw a isnc src rb rc rs crs ex g nxa nya xlo dx ylo dy, dem tr rw (Some a) isnc src (Some (rb, rc)) crs ex = Ok g ->
  by_fallback tr src rb rc rs -> xr_shape a nxa nya -> uniform_axis (xa_x a) xlo dx nxa -> uniform_axis (xa_y a) ylo dy nya -> ~ global_box (g_bbox g) -> 0 < dx -> 0 < dy ->
  exists i0 j0 n m, shape (g_values g) n m /\ (2 <= n)%nat /\ (2 <= m)%nat /\ forall i j, (i < n)%nat -> (j < m)%nat ->
    x_of g i == nth (i0 + i) (xa_x a) 0 /\ y_of g j == nth (j0 + j) (xa_y a) 0 /\ cleaned (r_nodata src) (xr_value a (i0 + i) (j0 + (m - 1 - j))) (value_at g i j).
Proof.
  intros tr rw a isnc src rb rc rs crs ex g nxa nya xlo dx ylo dy H F SH UX UY NG DX DY.
  destruct (fallback_grid _ _ _ _ _ _ _ _ _ _ _ _ _ _ _ _ _ H F SH UX UY NG) as (i0 & i1 & j0 & j1 & I & J & S1 & BX & BY & X & Y & V).
  exists i0, j0, (i1 - i0 + 1)%nat, (j1 - j0 + 1)%nat. split; [exact S1|]. split; [lia|]. split; [lia|]. intros i j Hi Hj.
  rewrite (proj2 UX), (proj2 UY) by lia. split; [apply X; [lia|lra]|]. split; [apply Y; [lia|lra]|].
  replace (j0 + (j1 - j0 + 1 - 1 - j))%nat with (j1 - j)%nat by lia. apply V; lia.
Qed.
(** A file in geographic coordinates that GDAL places in pixel space, latitude ascending as usual. *)
Definition pixel_space : raster := {| r_bounds := (1000, 1002, 1000, 1002); r_px := 1; r_py := -1; r_ident := false; r_crs := Some 1%nat; r_nodata := None; r_data := [[Fin 0; Fin 0]; [Fin 0; Fin 0]] |}.
Definition lat_ascending : xarr := {| xa_x := [0; 1]; xa_y := [0; 1]; xa_xfirst := false; xa_values := [[Fin 1; Fin 2]; [Fin 3; Fin 4]] |}.
Definition lat_descending : xarr := {| xa_x := [0; 1]; xa_y := [1; 0]; xa_xfirst := false; xa_values := [[Fin 3; Fin 4]; [Fin 1; Fin 2]] |}.
Definition same_crs (_ _ : nat) (p : Q * Q) : res (Q * Q) := Ok p.
Definition no_window (_ : raster) (_ : box) : res (list (list (num * bool))) := Raise ValueError.
Lemma fallback_refuted : exists a g, dem same_crs no_window (Some a) true pixel_space (Some ((-1, 2, -1, 2), 1%nat)) 1 false = Ok g /\
  xr_shape a 2 2 /\ uniform_axis (xa_x a) 0 1 2 /\ uniform_axis (xa_y a) 0 1 2 /\
  x_of g 0 == nth 0 (xa_x a) 0 /\ y_of g 0 == nth 0 (xa_y a) 0 /\ ~ same_num (value_at g 0 0) (xr_value a 0 0).
Proof.
  exists lat_ascending. eexists. split; [vm_compute; reflexivity|]. split; [repeat constructor|].
  assert (U : uniform_axis [0; 1] 0 1 2). { split; [reflexivity|]. intros [|[|i]] I; [reflexivity|reflexivity|lia]. }
  split; [exact U|]. split; [exact U|]. split; [reflexivity|]. split; [reflexivity|]. intro E. vm_compute in E. discriminate.
Qed.

(** * C77 *)
Lemma infer_iff : forall b, infer_crs_from_coordinates b = true <-> (Qabs (b0 b) <= 180 /\ Qabs (b1 b) <= 180 /\ Qabs (b2 b) <= 180 /\ Qabs (b3 b) <= 180).
Proof.
  assert (A : forall v c, Qabs v <= c <-> - c <= v <= c) by (intros v c; apply Qabs_Qle_condition).
  intro b. unfold infer_crs_from_coordinates. set (w := b0 b). set (x := b1 b). set (y := b2 b). set (z := b3 b). clearbody w x y z. cbn [existsb forallb].
  assert (L : forall v, Qltb 360 (Qabs v) = false <-> Qabs v <= 360).
  { intro v. rewrite <- not_true_iff_false, Qltb_iff. lra. }
  destruct (_ || _) eqn:E1.
  - split; [discriminate|]. intros (H1 & H2 & H3 & H4). rewrite !orb_true_iff, !Qltb_iff in E1. intuition; try lra; discriminate.
  - rewrite !orb_false_iff, !L in E1. destruct (_ && _ && (_ && _)) eqn:E2.
    + split; [|reflexivity]. intros _. rewrite !andb_true_iff, !Qle_bool_iff in E2. rewrite !A. lra.
    + clear E2. destruct (_ || _) eqn:E3.
      * split; [discriminate|]. rewrite !orb_true_iff, !andb_true_iff, !Qltb_iff, !Qle_bool_iff in E3. intros. intuition; try lra; discriminate.
      * split; [|reflexivity]. intros _. rewrite !orb_false_iff in E3.
        assert (K : forall v, Qabs v <= 360 -> Qltb 180 (Qabs v) && Qle_bool (Qabs v) 360 = false -> Qabs v <= 180).
        { intros v V X. apply andb_false_iff in X. rewrite <- !not_true_iff_false, Qltb_iff, Qle_bool_iff in X. lra. }
        repeat split; apply K; tauto.
Qed.

(** * C79 *)
Lemma transform_same : forall tr bb c, transform_bbox_to_src tr bb (Some c) (Some c) = Ok bb.
Proof. intros. unfold transform_bbox_to_src. rewrite Nat.eqb_refl. reflexivity. Qed.
Lemma transform_monotone : forall tr bb s d, axis_aligned (tr d s) -> s <> d ->
  exists b, transform_bbox_to_src tr bb (Some s) (Some d) = Ok b /\ forall p q, in_box bb p -> tr d s p = Ok q -> in_box b q.
Proof.
  intros tr bb s d (u & v & MU & MV & T) N. unfold transform_bbox_to_src. destruct (Nat.eqb_spec s d); [contradiction|]. rewrite !T. cbn [bind fst snd].
  eexists. split; [reflexivity|]. intros p q [[P1 P2] [P3 P4]] E. rewrite T in E. injection E as <-. unfold in_box. cbn [b0 b1 b2 b3 fst snd].
  apply MU in P1. apply MU in P2. apply MV in P3. apply MV in P4.
  pose proof (pmin_spec (u (b0 bb)) (u (b1 bb))). pose proof (pmax_spec (u (b0 bb)) (u (b1 bb))). pose proof (pmin_spec (v (b2 bb)) (v (b3 bb))). pose proof (pmax_spec (v (b2 bb)) (v (b3 bb))).
  intuition lra.
Qed.
Lemma transform_refuted : exists tr bb s d b p q, transform_bbox_to_src tr bb (Some s) (Some d) = Ok b /\ in_box bb p /\ tr d s p = Ok q /\ ~ in_box b q.
Proof.
  exists (fun _ _ p => Ok (fst p - snd p, fst p + snd p)), (0, 1, 0, 1), 1%nat, 2%nat. do 3 eexists. split; [reflexivity|].
  split; [|split; [reflexivity|]]. instantiate (1 := (1, 0)). unfold in_box. cbn. split; split; discriminate. unfold in_box. vm_compute. intuition.
Qed.

(** * Turning an elevation model into depths *)
Lemma nneg_spec : forall v, negative_of v (nneg v).
Proof. intros [q|s|]; reflexivity. Qed.
Lemma flip_spec : forall g n m, shape (g_values g) n m -> shape (g_values (flip g)) n m /\ g_bbox (flip g) = g_bbox g /\ 
  (~ global_box (g_bbox g) -> forall i j, (i < n)%nat -> (j < m)%nat -> negative_of (value_at g i j) (value_at (flip g) i j)) /\
  (global_box (g_bbox g) -> forall i j, (i < n)%nat -> (j < m)%nat -> negative_of (value_at g (exchanged n i) j) (value_at (flip g) i j)).
Proof.
  intros g n m SH. pose proof SH as [L F].
  assert (S1 : shape (map (map nneg) (g_values g)) n m).
  { split; [rewrite map_length; exact L|]. apply Forall_forall. intros r I. apply in_map_iff in I. destruct I as (r' & <- & I). rewrite map_length. rewrite Forall_forall in F. auto. }
  assert (V : forall i j, (i < n)%nat -> (j < m)%nat -> nth j (nth i (map (map nneg) (g_values g)) []) NaN = nneg (nth j (nth i (g_values g) []) NaN)).
  { intros i j I J. rewrite (nth_map_any _ _ _ _ []) by lia. apply nth_map_any. rewrite (shape_row _ _ _ _ SH I). exact J. }
  pose proof (build_facts (set_values g (map (map nneg) (g_values g))) n m S1) as B. cbv zeta in B. change (build_interpolant (set_values g (map (map nneg) (g_values g)))) with (flip g) in B.
  cbn [set_values g_bbox] in B. destruct B as (B1 & B2 & _ & _ & _ & _ & _ & B8 & B9). split; [exact B1|]. split; [exact B2|]. split.
  - intros NG i j I J. rewrite (B8 NG). unfold value_at. cbn [set_values g_values]. rewrite V by assumption. apply nneg_spec.
  - intros G i j I J. rewrite (B9 G) by assumption. unfold value_at. cbn [set_values g_values]. rewrite V; [apply nneg_spec| |exact J].
    unfold exchanged. destruct (Nat.eqb_spec i 0); [lia|]. destruct (Nat.eqb_spec i (n - 1)); lia.
Qed.

Definition small_raster : raster := {| r_bounds := (0, 3, 0, 2); r_px := 1; r_py := -1; r_ident := false; r_crs := Some 1%nat; r_nodata := Some (Fin (-9));
  r_data := [[Fin 1; Fin 2; Fin (-9)]; [Fin 4; Fin 5; Fin 6]] |}.
Lemma half_pixel : georeferenced small_raster 2 3 /\ exists g, dem same_crs no_window None false small_raster None 1 false = Ok g /\
  ~ x_of g 0 == centre_x small_raster 0 /\ eval g (centre_x small_raster 2, centre_y small_raster 1) = Ok (Fin 999999).
Proof.
  split; [repeat split; try (cbn; lia); try reflexivity; repeat constructor|]. eexists. split; [vm_compute; reflexivity|]. split; [intro H; vm_compute in H; discriminate|vm_compute; reflexivity].
Qed.

(** * C155: missing data *)
Lemma window_read : forall tr rw xo src rb rc crs ex g, dem tr rw xo false src (Some (rb, rc)) crs ex = Ok g -> r_crs src <> None -> r_ident src = false ->
  exists b d, rw src b = Ok d /\ forall nr k, rect d nr k -> (1 <= nr)%nat -> shape (g_values g) k nr /\ 0 < g_dx g /\ 0 < g_dy g /\ g_fill g = Some (if ex then None else Some (Fin 999999)) /\
    (~ global_box (g_bbox g) -> forall r c, (r < nr)%nat -> (c < k)%nat -> stored_for (r_nodata src) (entry d r c) (value_at g c (nr - 1 - r))).
Proof.
  intros tr rw xo src rb rc crs ex g H C I. destruct (dem_of _ _ _ _ _ _ _ _ _ H) as (bb & c & px & py & m & R & PX & PY & ->). clear H.
  unfold read_dem_array_and_meta in R. destruct (transform_bbox_to_src tr rb (r_crs src) (Some rc)) as [rs| |]; [|discriminate|discriminate]. cbn [bind] in R.
  destruct (negb _).
  - rewrite I, orb_false_r in R. destruct (r_crs src); [discriminate|congruence].
  - destruct (rw src _) as [d| |] eqn:W; [|discriminate|discriminate]. cbn [bind] in R. do 2 eexists. split; [exact W|].
    assert (Masked (transpose_gen (NaN, false) d) = m) by congruence. subst m. cbn [drop_band]. intros nr k S N.
    pose proof (grid_masked d nr k bb px py (r_nodata src) ex c S N) as G. cbv zeta in G. destruct G as (G1 & G2 & G8 & _). split; [exact G1|].
    match goal with |- 0 < g_dx (build_interpolant ?g0) /\ _ => destruct (build_fields g0) as (-> & -> & _); rewrite (build_fill g0) end. cbn [g_dx g_dy g_extra].
    split; [exact PX|]. split; [|split; [reflexivity|rewrite G2; exact G8]].
    destruct (Qlt_le_dec 0 (Qabs py)) as [L|L]; [exact L|]. exfalso. apply PY. apply Qabs_Qle_condition in L. lra.
Qed.
Lemma window_keeps : forall tr rw xo src rb rc crs ex g, dem tr rw xo false src (Some (rb, rc)) crs ex = Ok g -> r_crs src <> None -> r_ident src = false -> ~ global_box (g_bbox g) ->
  exists b d, rw src b = Ok d /\ forall nr k, rect d nr k -> (2 <= nr)%nat -> (2 <= k)%nat -> (forall r c, (r < nr)%nat -> (c < k)%nat -> finite (fst (entry d r c))) ->
    (forall r c, (r < nr)%nat -> (c < k)%nat -> snd (entry d r c) = true \/ match r_nodata src with Some n => ~ same_num (fst (entry d r c)) n | None => True end) ->
    forall r c, (r < nr)%nat -> (c < k)%nat -> exists v, eval g (x_of g c, y_of g (nr - 1 - r)) = Ok v /\ same_num v (fst (entry d r c)).
Proof.
  intros tr rw xo src rb rc crs ex g H C I NG. destruct (window_read _ _ _ _ _ _ _ _ _ H C I) as (b & d & W & A). exists b, d. split; [exact W|].
  intros nr k S N K F M r c R0 C0. destruct (A nr k S ltac:(lia)) as (S1 & DX & DY & FL & V). specialize (V NG).
  assert (V' : forall r c, (r < nr)%nat -> (c < k)%nat -> value_at g c (nr - 1 - r) = fst (entry d r c)).
  { intros r1 c1 R1 C1. specialize (V r1 c1 R1 C1). unfold stored_for in V. destruct (M r1 c1 R1 C1) as [M1|M1]; [rewrite M1 in V; exact V|].
    destruct (snd (entry d r1 c1)); [exact V|]. unfold cleaned in V. destruct (r_nodata src) as [n|]; [|exact V]. destruct V as [[V _]|[_ V]]; [contradiction|exact V]. }
  assert (P : proper_grid g k nr) by (repeat split; try assumption; apply S1).
  assert (AF : all_cells finite g k nr).
  { intros i j Hi Hj. replace j with (nr - 1 - (nr - 1 - j))%nat by lia. rewrite V' by lia. apply F; lia. }
  rewrite <- V' by assumption. eexists. split; [|apply (lin_node g k nr c (nr - 1 - r) P AF); lia].
  unfold eval. rewrite FL. cbn [fst snd]. f_equal. unfold with_fill. destruct ex; [reflexivity|].
  assert (out_of_grid g (x_of g c) (y_of g (nr - 1 - r)) = false) as ->; [|reflexivity].
  apply (proj2 (covered_iff g k nr _ _ P)). unfold covered, x_of, y_of, node. cbn [fst snd].
  assert (MO : forall d0 a b, 0 < d0 -> (a <= b)%nat -> inject_Z (Z.of_nat a) * d0 <= inject_Z (Z.of_nat b) * d0).
  { intros d0 a b0 D L. apply Qmult_le_compat_r; [|lra]. rewrite <- Zle_Qle. lia. }
  pose proof (MO (g_dx g) 0%nat c DX ltac:(lia)). pose proof (MO (g_dx g) c (k - 1)%nat DX ltac:(lia)).
  pose proof (MO (g_dy g) 0%nat (nr - 1 - r)%nat DY ltac:(lia)). pose proof (MO (g_dy g) (nr - 1 - r)%nat (nr - 1)%nat DY ltac:(lia)). lra.
Qed.
Lemma nscale_nan : forall q, nscale q NaN = NaN. Proof. reflexivity. Qed.
Lemma nadd_nan : forall a, nadd a NaN = NaN /\ nadd NaN a = NaN. Proof. intros [x|s|]; split; reflexivity. Qed.
Lemma around : forall lo d n x i s k, 0 < d -> locate lo d n x = (i, s) -> (2 <= n)%nat -> (k < n)%nat -> lo <= x <= lo + inject_Z (Z.of_nat n - 1) * d -> Qabs (x - node lo d k) < d -> i = k \/ S i = k.
Proof.
  intros lo d n x i s k D E N K O A. destruct (locate_spec lo d n x D N) as (i' & s' & E' & _ & X & S1 & S2 & _). rewrite E in E'. injection E' as <- <-.
  specialize (S1 (proj1 O)). specialize (S2 (proj2 O)). apply Qabs_Qlt_condition in A. unfold node in A. rewrite X in A.
  set (zi := inject_Z (Z.of_nat i)) in *. set (zk := inject_Z (Z.of_nat k)) in *.
  assert (L1 : zk - 1 < zi + s). { apply (Qmult_lt_r _ _ d D). lra. }
  assert (L2 : zi + s < zk + 1). { apply (Qmult_lt_r _ _ d D). lra. }
  assert (M1 : zk < zi + 2) by lra. assert (M2 : zi < zk + 1) by lra. unfold zi, zk in M1, M2. change 2 with (inject_Z 2) in M1. change 1 with (inject_Z 1) in M2.
  rewrite <- inject_Z_plus, <- Zlt_Qlt in M1, M2. lia.
Qed.
Lemma missing_nan : forall tr rw xo isnc src crs ex nr nc r c n g, georeferenced src nr nc -> ~ global_box (r_bounds src) -> dem tr rw xo isnc src None crs ex = Ok g -> (2 <= nr)%nat -> (2 <= nc)%nat ->
  r_nodata src = Some n -> n <> NaN -> (r < nr)%nat -> (c < nc)%nat -> same_num (pixel (r_data src) r c) n ->
  forall q, covered g nc nr q -> Qabs (fst q - x_of g c) < g_dx g -> Qabs (snd q - y_of g (nr - 1 - r)) < g_dy g -> eval g q = Ok NaN.
Proof.
  intros tr rw xo isnc src crs ex nr nc r c n g GR NG H N1 N2 ND NN R C P q Q X Y.
  destruct (whole_file tr rw xo isnc src crs ex nr nc GR NG) as (g' & H' & S1 & B & V). rewrite H in H'. injection H' as <-.
  destruct (V r c R C) as (V1 & _). unfold cleaned in V1. rewrite ND in V1.
  assert (PN : pixel (r_data src) r c <> NaN). { intro E. rewrite E in P. destruct n; contradiction || congruence. }
  destruct V1 as [(_ & _ & V1)|([V1|V1] & _)]; [|contradiction|contradiction].
  destruct (dem_of _ _ _ _ _ _ _ _ _ H) as (bb & k & px & py & m & _ & PX & PY & E).
  assert (DX : 0 < g_dx g). { rewrite E. match goal with |- 0 < g_dx (build_interpolant ?g0) => destruct (build_fields g0) as (-> & _) end. exact PX. }
  assert (DY : 0 < g_dy g). { rewrite E. match goal with |- 0 < g_dy (build_interpolant ?g0) => destruct (build_fields g0) as (_ & -> & _) end. cbn [g_dy].
    destruct (Qlt_le_dec 0 (Qabs py)) as [L|L]; [exact L|]. exfalso. apply PY. apply Qabs_Qle_condition in L. lra. }
  assert (FL : exists f, g_fill g = Some f). { rewrite E. rewrite build_fill. eauto. } destruct FL as [f FL].
  assert (PG : proper_grid g nc nr) by (repeat split; try assumption; apply S1).
  assert (OG : out_of_grid g (fst q) (snd q) = false). { destruct q as [qx qy]. apply (proj2 (covered_iff g nc nr qx qy PG)). exact Q. }
  unfold eval. rewrite FL. f_equal. assert (W : lin_value g (fst q) (snd q) = NaN); [|unfold with_fill; rewrite W, OG; destruct f; reflexivity].
  destruct (shape_ny g nc nr S1 ltac:(lia)) as [NX NY]. unfold lin_value.
  assert (QX : b0 (g_bbox g) <= fst q <= b0 (g_bbox g) + inject_Z (Z.of_nat nc - 1) * g_dx g /\ b2 (g_bbox g) <= snd q <= b2 (g_bbox g) + inject_Z (Z.of_nat nr - 1) * g_dy g).
  { destruct Q as [Q1 Q2]. unfold x_of, y_of, node in Q1, Q2. rewrite !Nat2Z.inj_sub in Q1, Q2 by lia. change (inject_Z (Z.of_nat 0)) with 0 in Q1, Q2. change (Z.of_nat 1) with 1%Z in Q1, Q2. lra. }
  rewrite NX, NY, (Qabs_eq _ DY).
  destruct (locate (b0 (g_bbox g)) (g_dx g) nc (fst q)) as [i s] eqn:L1. destruct (locate (b2 (g_bbox g)) (g_dy g) nr (snd q)) as [j t] eqn:L2.
  pose proof (around _ _ _ _ _ _ c DX L1 N2 C (proj1 QX) X) as I. pose proof (around _ _ _ _ _ _ (nr - 1 - r)%nat DY L2 N1 ltac:(lia) (proj2 QX) Y) as J.
  unfold value_at in V1. unfold cell. destruct I as [-> |I], J as [-> |J]; try rewrite I; try rewrite J; rewrite V1;
  repeat (rewrite ?nscale_nan; rewrite ?(proj1 (nadd_nan _)); rewrite ?(proj2 (nadd_nan _))); try reflexivity; cbn; 
  repeat match goal with |- context [nadd ?a NaN] => rewrite (proj1 (nadd_nan a)) | |- context [nadd NaN ?a] => rewrite (proj2 (nadd_nan a)) end; reflexivity.
Qed.
Definition masked_window (_ : raster) (_ : box) : res (list (list (num * bool))) := Ok [[(Fin 1, false); (Fin (-9), true)]; [(Fin 5, false); (Fin 7, false)]].
Lemma clipped_refuted : exists g, dem same_crs masked_window None false small_raster (Some ((1, 9, 0, 9), 1%nat)) 1 false = Ok g /\ ~ global_box (g_bbox g) /\
  (exists d, masked_window small_raster (1, 3, 0, 2) = Ok d /\ rect d 2 2 /\ masks_nodata (Fin (-9)) d /\ same_num (fst (entry d 0 1)) (Fin (-9))) /\ r_nodata small_raster = Some (Fin (-9)) /\
  eval g (x_of g 1, y_of g 1) = Ok (Fin (-9)) /\ exists v, eval g (3 # 2, 1) = Ok (Fin v) /\ v == -4.
Proof.
  eexists. split; [vm_compute; reflexivity|]. split; [intros [H _]; vm_compute in H; discriminate|]. split.
  - eexists. split; [reflexivity|]. split; [split; [reflexivity|repeat constructor]|]. split; [|reflexivity].
    repeat constructor; cbn; try discriminate; intro H; try reflexivity; discriminate H.
  - split; [reflexivity|]. split; [vm_compute; reflexivity|]. eexists. split; [vm_compute; reflexivity|reflexivity].
Qed.
Lemma dem_mask_spec : forall tr rw xo src rb rc crs k, dem_mask tr rw xo false src (Some (rb, rc)) crs = Ok (Some k) ->
  exists b d, rw src b = Ok d /\ forall nr nc, rect d nr nc -> (1 <= nr)%nat -> ~ global_box b -> rect k nc nr /\
    forall r c, (r < nr)%nat -> (c < nc)%nat -> nth (nr - 1 - r) (nth c k []) false = snd (entry d r c).
Proof.
  intros tr rw xo src rb rc crs k H. unfold dem_mask, read_dem_array_and_meta in H.
  destruct (transform_bbox_to_src tr rb (r_crs src) (Some rc)) as [rs| |]; [|discriminate|discriminate]. cbn [bind] in H.
  destruct (negb _).
  - destruct (_ || r_ident src); [|discriminate]. destruct (_ || _)%nat; discriminate.
  - match type of H with context [rw src ?B] => set (b := B) in * end. destruct (rw src b) as [d| |] eqn:W; [|discriminate|discriminate]. cbn [bind band_mask] in H.
    exists b, d. split; [exact W|]. intros nr nc S N NG.
    assert (G0 : Qeq_bool (Qabs (b0 b)) 180 && Qeq_bool (Qabs (b1 b)) 180 = false).
    { apply not_true_iff_false. rewrite andb_true_iff, !Qeq_bool_iff. exact NG. }
    rewrite G0 in H. injection H as <-.
    destruct (transpose_rect (NaN, false) d nr nc S N) as [S1 V1]. destruct (rect_map (@snd num bool) (NaN, false) false _ _ _ S1) as [S2 V2]. destruct (fliplr_rect false _ _ _ S2) as [S3 V3].
    split; [exact S3|]. intros r c R C. rewrite V3 by lia. rewrite V2 by lia. replace (nr - 1 - (nr - 1 - r))%nat with r by lia. unfold entry. rewrite V1 by assumption. reflexivity.
Qed.
Lemma whole_unmasked : forall tr rw xo isnc src crs, dem_mask tr rw xo isnc src None crs = Ok None.
Proof. reflexivity. Qed.
(** * C79: the returned box is ordered. *)
Lemma transform_ordered : forall tr bb s d b, transform_bbox_to_src tr bb (Some s) (Some d) = Ok b -> s <> d -> b0 b <= b1 b /\ b2 b <= b3 b.
Proof.
  intros tr bb s d b H N. unfold transform_bbox_to_src in H. destruct (Nat.eqb_spec s d); [contradiction|].
  destruct (tr d s _) as [p| |]; [|discriminate|discriminate]. cbn [bind] in H. destruct (tr d s _) as [q| |]; [|discriminate|discriminate]. cbn [bind] in H. injection H as <-.
  cbn [b0 b1 b2 b3 fst snd]. pose proof (pmin_spec (fst p) (fst q)). pose proof (pmax_spec (fst p) (fst q)). pose proof (pmin_spec (snd p) (snd q)). pose proof (pmax_spec (snd p) (snd q)).
  unfold b0, b1, b2, b3. cbn [fst snd]. lra.
Qed.
