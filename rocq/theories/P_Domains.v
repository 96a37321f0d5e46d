(** Proofs about metadata of domains, plots, total bounds and coordinate arrays. *)
From Coq Require Import List Arith Bool ZArith QArith Qabs Lia Lqa.
From Verif Require Import M_Base M_Sdf M_Region M_Grid M_Domains S_Domains Util P_Sdf.
Import ListNotations.
Open Scope Q_scope.

Lemma first_crs_known ds : first_known ds (first_crs ds).
Proof.
  unfold first_crs. induction ds as [|d ds IH]; cbn [flat_map]; [intros d []|].
  destruct (d_crs d) as [c|] eqn:E.
  - cbn. exists [], d, ds. split; [reflexivity|]. split; [exact E|]. intros e [].
  - cbn [app]. destruct (flat_map _ ds) as [|c l] eqn:F.
    + intros e [<-|H]; auto.
    + destruct IH as (a & e & b & -> & Ec & Ha). exists (d :: a), e, b. split; [reflexivity|]. split; [exact Ec|]. intros x [<-|H]; auto.
Qed.
Lemma combined_metadata ev ds u : combined ev ds = Ok u -> metadata_of ds u.
Proof.
  unfold combined. destruct (compute_bbox ds); try discriminate. cbn. intros [= <-]. split; cbn [d_crs d_stereo]; [apply first_crs_known|].
  unfold any_stereo. apply existsb_exists.
Qed.
Lemma combined_returns ev ds : (exists u, combined ev ds = Ok u) <-> ds <> [].
Proof.
  split.
  - intros (u & E) ->. discriminate E.
  - intros H. destruct ds as [|d ds]; [congruence|]. unfold combined, compute_bbox. cbn. eexists. reflexivity.
Qed.
Lemma metadata_all ds u : (Union ds = Ok u \/ Intersection ds = Ok u \/ Difference ds = Ok u) -> metadata_of ds u.
Proof. intros [H|[H|H]]; eapply combined_metadata; exact H. Qed.
Lemma returns_all ds : ((exists u, Union ds = Ok u) <-> ds <> []) /\ ((exists u, Intersection ds = Ok u) <-> ds <> []) /\ ((exists u, Difference ds = Ok u) <-> ds <> []).
Proof. split; [|split]; apply combined_returns. Qed.

Definition same_meta (a b : domain) : Prop := d_crs a = d_crs b /\ d_stereo a = d_stereo b.
Lemma first_known_map ds f c : (forall d, d_crs (f d) = d_crs d) -> first_known (map f ds) c <-> first_known ds c.
Proof.
  intros Hf. destruct c as [k|]; cbn.
  - split.
    + intros (a & d & b & E & Ec & Ha). apply map_eq_app in E as (a' & r & -> & <- & E). apply map_eq_cons in E as (d' & b' & -> & <- & <-).
      exists a', d', b'. split; [reflexivity|]. split; [now rewrite <- Hf|]. intros e He. rewrite <- Hf. apply Ha, in_map, He.
    + intros (a & d & b & -> & Ec & Ha). exists (map f a), (f d), (map f b). split; [now rewrite map_app|]. split; [now rewrite Hf|].
      intros e He. apply in_map_iff in He as (e' & <- & He). rewrite Hf. auto.
  - split; intros H d Hd; [rewrite <- Hf; apply H, in_map, Hd|apply in_map_iff in Hd as (e & <- & He); rewrite Hf; auto].
Qed.
Lemma metadata_map ds f u : (forall d, d_crs (f d) = d_crs d) -> (forall d, d_stereo (f d) = d_stereo d) -> metadata_of (map f ds) u <-> metadata_of ds u.
Proof.
  intros Hc Hs. unfold metadata_of. rewrite first_known_map by exact Hc. split; intros [A B]; split; auto; rewrite B; split.
  - intros (e & He & Se). apply in_map_iff in He as (e' & <- & He). rewrite Hs in Se. eauto.
  - intros (e & He & Se). exists (f e). rewrite Hs. split; [apply in_map, He|exact Se].
  - intros (e & He & Se). exists (f e). rewrite Hs. split; [apply in_map, He|exact Se].
  - intros (e & He & Se). apply in_map_iff in He as (e' & <- & He). rewrite Hs in Se. eauto.
Qed.
Lemma metadata_cons d ds ds' u : (forall v, metadata_of ds v <-> metadata_of ds' v) -> metadata_of (d :: ds) u -> metadata_of (d :: ds') u.
Proof.
  intros H [A B].
  assert (S : (exists e, In e ds /\ d_stereo e = true) <-> (exists e, In e ds' /\ d_stereo e = true)).
  { destruct (existsb d_stereo ds) eqn:E.
    - apply existsb_exists in E. 
      pose (v := {| d_bbox := (0,0,0,0); d_eval := fun _ => Ok []; d_covering := None; d_crs := first_crs ds; d_stereo := true |}).
      assert (M : metadata_of ds v) by (split; [apply first_crs_known|cbn; split; auto]). apply H in M as [_ M]. cbn in M. destruct M as [M _]. split; [intros _; apply M; reflexivity|auto].
    - pose (v := {| d_bbox := (0,0,0,0); d_eval := fun _ => Ok []; d_covering := None; d_crs := first_crs ds; d_stereo := false |}).
      assert (N : ~ exists e, In e ds /\ d_stereo e = true) by (intros X; apply existsb_exists in X; congruence).
      assert (M : metadata_of ds v) by (split; [apply first_crs_known|cbn; split; [discriminate|intros X; destruct (N X)]]). apply H in M as [_ M]. cbn in M. split; [intros X; destruct (N X)|intros X; apply M in X; discriminate]. }
  assert (C : forall c, first_known ds c -> first_known ds' c).
  { intros c Hc. pose (v := {| d_bbox := (0,0,0,0); d_eval := fun _ => Ok []; d_covering := None; d_crs := c; d_stereo := existsb d_stereo ds |}).
    assert (M : metadata_of ds v) by (split; [exact Hc|cbn; apply existsb_exists]). apply H in M as [M _]. exact M. }
  split.
  - destruct (d_crs u) as [k|] eqn:E.
    + destruct A as (a & e & b & Eq & Ec & Ha). destruct a as [|x a]; cbn in Eq; injection Eq as -> Eq.
      * exists [], e, ds'. split; [reflexivity|]. split; [exact Ec|]. intros ? [].
      * assert (F : first_known ds (Some k)) by (exists a, e, b; split; [exact Eq|]; split; [exact Ec|]; intros y Hy; apply Ha; simpl; auto).
        apply C in F as (a' & e' & b' & -> & Ec' & Ha'). exists (x :: a'), e', b'. split; [reflexivity|]. split; [exact Ec'|].
        intros y [<-|Hy]; [apply Ha; simpl; auto|auto].
    + assert (F : first_known ds' None) by (apply C; intros y Hy; apply A; simpl; auto).
      intros y [<-|Hy]; [apply A; simpl; auto|apply F, Hy].
  - rewrite B. split; intros (e & [<-|He] & Se).
    + exists d. simpl; auto.
    + destruct (proj1 S) as (e' & He' & Se'); [eauto|]. exists e'. simpl; auto.
    + exists d. simpl; auto.
    + destruct (proj2 S) as (e' & He' & Se'); [eauto|]. exists e'. simpl; auto.
Qed.
Lemma nests_metadata : forall ds ns, nests_of ds = Ok ns -> length ns = length ds /\ forall i n, nth_error ns i = Some n -> metadata_of (skipn i ds) n.
Proof.
  induction ds as [|s ds IH]; cbn [nests_of]; intros ns E.
  - injection E as <-. split; [reflexivity|]. intros [|i] n H; discriminate H.
  - destruct (Difference (s :: map cover_domain ds)) as [n| |] eqn:D; try discriminate E. cbn [bind] in E.
    destruct (nests_of ds) as [r| |] eqn:R; try discriminate E. cbn [bind] in E. injection E as <-. destruct (IH r eq_refl) as [L M].
    split; [cbn; now rewrite L|]. intros [|i] x H.
    + cbn in H. injection H as <-. cbn [skipn]. apply combined_metadata in D. apply metadata_cons with (2 := D). intros v. apply metadata_map; reflexivity.
    + cbn [skipn]. apply M. exact H.
Qed.
Lemma union_of_suffixes : forall ds ns, length ns = length ds -> (forall i n, nth_error ns i = Some n -> metadata_of (skipn i ds) n) ->
  forall u, metadata_of ns u -> metadata_of ds u.
Proof.
  intros ds ns L M u [A B]. split.
  - destruct ns as [|n ns].
    + destruct ds; [|discriminate L]. exact A.
    + pose proof (M 0%nat n eq_refl) as [F _]. cbn [skipn] in F. destruct (d_crs n) as [k|] eqn:E.
      * destruct (d_crs u) as [j|].
        -- destruct A as (a & e & b & Eq & Ec & Ha). destruct a as [|x a]; cbn in Eq; injection Eq as -> Eq; [congruence|]. rewrite (Ha x) in E by (simpl; auto). discriminate.
        -- rewrite (A n) in E by (simpl; auto). discriminate.
      * destruct (d_crs u) as [j|]; [|exact F]. exfalso. destruct A as (a & e & b & Eq & Ec & Ha).
        assert (He : In e (n :: ns)) by (rewrite Eq; apply in_elt). apply In_nth_error in He as (i & Hi). pose proof (M i e Hi) as [Fi _]. rewrite Ec in Fi.
        destruct Fi as (a' & e' & b' & Eq' & Ec' & _). rewrite (F e') in Ec'; [discriminate|].
        rewrite <- (firstn_skipn i ds). apply in_or_app. right. rewrite Eq'. apply in_elt.
  - rewrite B. split; intros (e & He & Se).
    + apply In_nth_error in He as (i & Hi). pose proof (M i e Hi) as [_ Si]. apply Si in Se as (x & Hx & Sx). exists x. split; [|exact Sx].
      rewrite <- (firstn_skipn i ds). apply in_or_app. right. exact Hx.
    + destruct ns as [|n ns]; [destruct ds; [destruct He|discriminate L]|]. exists n. split; [simpl; auto|]. apply (M 0%nat n eq_refl). exists e. auto.
Qed.
Lemma multiscale_metadata ds u ns : multiscale ds = Ok (u, ns) -> metadata_of ds u /\ length ns = length ds /\ forall i n, nth_error ns i = Some n -> metadata_of (skipn i ds) n.
Proof.
  unfold multiscale. destruct (Nat.ltb 1 (length ds)); [|discriminate]. destruct (nests_of ds) as [r| |] eqn:R; try discriminate. cbn [bind].
  destruct (Union r) as [v| |] eqn:E; try discriminate. cbn [bind]. intros [= <- <-]. destruct (nests_metadata ds r R) as [L M]. split; [|auto].
  apply (union_of_suffixes ds r L M). apply metadata_all. auto.
Qed.

(** * The outline of a box *)
Lemma boubox_ring b : let r := create_boubox b in
  shoelace r == 2 * ((b1 b - b0 b) * (b3 b - b2 b)) /\ hd (0, 0) r = last r (0, 0) /\ length r = 5%nat /\
  (forall p, In p r <-> (fst p = b0 b \/ fst p = b1 b) /\ (snd p = b2 b \/ snd p = b3 b)).
Proof.
  destruct b as [[[x0 x1] y0] y1]. cbn [create_boubox b0 b1 b2 b3]. split; [cbn; ring|]. split; [reflexivity|]. split; [reflexivity|].
  intros [x y]. cbn. split.
  - intros [H|[H|[H|[H|[H|[]]]]]]; injection H as <- <-; auto.
  - intros [[-> | ->] [-> | ->]]; auto 10.
Qed.

(** * Sampling and plotting *)
Lemma uniform_range a b u : a <= b -> 0 <= u <= 1 -> a <= uniform a b u <= b.
Proof. intros H U. unfold uniform. split; nra. Qed.
Lemma samples_length b N dr : length (generate_samples b N dr) = Z.to_nat N.
Proof. destruct b as [[[x0 x1] y0] y1]. unfold generate_samples. now rewrite map_length, seq_length. Qed.
Lemma samples_margin b N dr : proper_box b -> (forall k, 0 <= dr k <= 1) -> Forall (in_margin b (1 # 100)) (generate_samples b N dr).
Proof.
  destruct b as [[[x0 x1] y0] y1]. intros [X Y] D. unfold generate_samples. apply Forall_map, Forall_forall. intros i _. unfold in_margin. cbn [fst snd].
  split; apply uniform_range; auto; lra.
Qed.
Lemma samples_any b p i N : (Z.of_nat i < N)%Z -> proper_box b -> in_margin b (1 # 100) p -> exists dr, (forall k, 0 <= dr k <= 1) /\
  exists q, nth_error (generate_samples b N dr) i = Some q /\ fst q == fst p /\ snd q == snd p.
Proof.
  destruct b as [[[x0 x1] y0] y1]. intros Hi [X Y] [PX PY].
  assert (G : forall a c x, a <= c -> a - (1 # 100) <= x <= c + (1 # 100) -> exists u, 0 <= u <= 1 /\ uniform (a - (1 # 100)) (c + (1 # 100)) u == x).
  { intros a c x H R. assert (P : 0 < c - a + (1 # 50)) by lra. exists ((x - (a - (1 # 100))) / (c - a + (1 # 50))). split; [split|].
    - apply Qle_shift_div_l; lra.
    - apply Qle_shift_div_r; lra.
    - unfold uniform. field. lra. }
  destruct (G x0 x1 (fst p) X PX) as (u & U & Eu). destruct (G y0 y1 (snd p) Y PY) as (v & V & Ev).
  exists (fun k => if Nat.even k then u else v). split; [intros k; destruct (Nat.even k); auto|].
  unfold generate_samples. eexists. split; [apply map_nth_error; rewrite nth_error_nth' with (d := 0%nat) by (rewrite seq_length; lia); rewrite seq_nth by lia; reflexivity|].
  cbn [fst snd]. replace (0 + i)%nat with i by lia.
  assert (E1 : Nat.even (2 * i) = true) by (rewrite Nat.even_mul; reflexivity). assert (E2 : Nat.even (2 * i + 1) = false) by (rewrite Nat.even_add, E1; reflexivity).
  rewrite E1, E2. auto.
Qed.
Lemma near_zero_abs d : near_zero d = true <-> Qabs d < 1 # 10000.
Proof.
  unfold near_zero. rewrite andb_true_iff, !negb_true_iff. rewrite Qabs_Qlt_condition.
  split; intros [A B]; split.
  - apply Qnot_le_lt. intros H. apply Qle_bool_iff in H. congruence.
  - apply Qnot_le_lt. intros H. apply Qle_bool_iff in H. congruence.
  - apply not_true_is_false. intros H. apply Qle_bool_iff in H. lra.
  - apply not_true_is_false. intros H. apply Qle_bool_iff in H. lra.
Qed.
Lemma plot_points {F} d g (fn : option F) N dr : (forall xs, d_eval d xs = Ok (map g xs)) -> exists pts,
  plot_domain d fn N dr = Ok (pts, match fn with None => Shown | Some f => Saved f end) /\
  forall p v, In (p, v) pts <-> In p (generate_samples (d_bbox d) N dr) /\ v = g (Fin (fst p), Fin (snd p)) /\ Qabs v < 1 # 10000.
Proof.
  intros E. unfold plot_domain. rewrite E. cbn [bind]. rewrite !map_map, map_length, Nat.eqb_refl. eexists. split; [reflexivity|].
  intros p v. rewrite filter_In, near_zero_abs. cbn [snd].
  assert (C : forall l : list (Q * Q), combine l (map (fun x => g (Fin (fst x), Fin (snd x))) l) = map (fun x => (x, g (Fin (fst x), Fin (snd x)))) l) by (induction l as [|a l IH]; cbn; [reflexivity|now rewrite IH]).
  rewrite C, in_map_iff. split.
  - intros ((x & Ex & Hx) & A). injection Ex as <- <-. auto.
  - intros (Hp & -> & A). split; [exists p; auto|exact A].
Qed.
Lemma plot_never_saves {F} d (fn : option F) N dr pts o : Domain_plot d fn N dr = Ok (pts, o) -> o = Shown.
Proof. unfold Domain_plot, plot_domain. destruct (d_eval d _); cbn [bind]; try discriminate. destruct (Nat.eqb _ _); [|discriminate]. now intros [= _ <-]. Qed.

(** * Total bounds *)
Lemma num_lt_Fin a b : num_lt (Fin a) (Fin b) = negb (Qle_bool b a).
Proof. reflexivity. Qed.
Lemma amin_Fin a b : exists c, amin2 (Fin a) (Fin b) = Fin c /\ (c = a \/ c = b) /\ c <= a /\ c <= b.
Proof. unfold amin2, le_num. rewrite num_lt_Fin, negb_involutive. destruct (Qle_bool a b) eqn:E; [exists a; apply Qle_bool_iff in E|exists b; assert (~ a <= b) by (intros H; apply Qle_bool_iff in H; congruence)]; repeat split; auto; lra. Qed.
Lemma amax_Fin a b : exists c, amax2 (Fin a) (Fin b) = Fin c /\ (c = a \/ c = b) /\ a <= c /\ b <= c.
Proof. unfold amax2, le_num. rewrite num_lt_Fin, negb_involutive. destruct (Qle_bool a b) eqn:E; [exists b; apply Qle_bool_iff in E|exists a; assert (~ a <= b) by (intros H; apply Qle_bool_iff in H; congruence)]; repeat split; auto; lra. Qed.
Lemma fold_amin : forall l a, all_finite l -> exists c, fold_left amin2 l (Fin a) = Fin c /\ In (Fin c) (Fin a :: l) /\ forall b, In (Fin b) (Fin a :: l) -> c <= b.
Proof.
  induction l as [|x l IH]; intros a F; cbn [fold_left].
  - exists a. split; [reflexivity|]. split; [simpl; auto|]. intros b [H|[]]. injection H as <-. lra.
  - destruct (F x) as (q & ->); [simpl; auto|]. destruct (amin_Fin a q) as (c & E & C & L1 & L2). rewrite E. destruct (IH c) as (m & Em & Im & Lm); [intros y Hy; apply F; simpl; auto|].
    exists m. split; [exact Em|]. split.
    + destruct Im as [Im|Im]; [|simpl; auto]. injection Im as <-. destruct C as [-> | ->]; simpl; auto.
    + intros b [H|[H|H]]; [injection H as <-|injection H as <-|apply Lm; simpl; auto]; pose proof (Lm c (or_introl eq_refl)); lra.
Qed.
Lemma fold_amax : forall l a, all_finite l -> exists c, fold_left amax2 l (Fin a) = Fin c /\ In (Fin c) (Fin a :: l) /\ forall b, In (Fin b) (Fin a :: l) -> b <= c.
Proof.
  induction l as [|x l IH]; intros a F; cbn [fold_left].
  - exists a. split; [reflexivity|]. split; [simpl; auto|]. intros b [H|[]]. injection H as <-. lra.
  - destruct (F x) as (q & ->); [simpl; auto|]. destruct (amax_Fin a q) as (c & E & C & L1 & L2). rewrite E. destruct (IH c) as (m & Em & Im & Lm); [intros y Hy; apply F; simpl; auto|].
    exists m. split; [exact Em|]. split.
    + destruct Im as [Im|Im]; [|simpl; auto]. injection Im as <-. destruct C as [-> | ->]; simpl; auto.
    + intros b [H|[H|H]]; [injection H as <-|injection H as <-|apply Lm; simpl; auto]; pose proof (Lm c (or_introl eq_refl)); lra.
Qed.
Lemma column_least l : l <> [] -> all_finite l -> exists m, column amin2 l = Ok m /\ least l m.
Proof.
  destruct l as [|x l]; [congruence|]. intros _ F. destruct (F x) as (q & ->); [simpl; auto|]. cbn [column].
  destruct (fold_amin l q) as (c & E & I & L); [intros y Hy; apply F; simpl; auto|]. rewrite E. exists (Fin c). split; [reflexivity|]. exists c. split; [reflexivity|]. split; [exists c; split; [exact I|reflexivity]|exact L].
Qed.
Lemma column_greatest l : l <> [] -> all_finite l -> exists m, column amax2 l = Ok m /\ greatest l m.
Proof.
  destruct l as [|x l]; [congruence|]. intros _ F. destruct (F x) as (q & ->); [simpl; auto|]. cbn [column].
  destruct (fold_amax l q) as (c & E & I & L); [intros y Hy; apply F; simpl; auto|]. rewrite E. exists (Fin c). split; [reflexivity|]. exists c. split; [reflexivity|]. split; [exists c; split; [exact I|reflexivity]|exact L].
Qed.
Lemma bounds_poly v : v <> [] -> all_finite (map fst v) -> all_finite (map snd v) -> exists a b c d,
  total_bounds (Poly v) = Ok [a; b; c; d] /\ least (map fst v) a /\ greatest (map fst v) b /\ least (map snd v) c /\ greatest (map snd v) d.
Proof.
  intros H F1 F2. assert (N1 : map fst v <> []) by (destruct v; [congruence|discriminate]). assert (N2 : map snd v <> []) by (destruct v; [congruence|discriminate]).
  destruct (column_least _ N1 F1) as (a & Ea & La). destruct (column_greatest _ N1 F1) as (b & Eb & Lb). destruct (column_least _ N2 F2) as (c & Ec & Lc). destruct (column_greatest _ N2 F2) as (d & Ed & Ld).
  exists a, b, c, d. split; [cbn [total_bounds]; rewrite Ea, Eb, Ec, Ed; reflexivity|]. auto.
Qed.
Lemma amin_nan_l a : amin2 NaN a = NaN. Proof. reflexivity. Qed.
Lemma amin_nan_r a : amin2 a NaN = NaN. Proof. destruct a; reflexivity. Qed.
Lemma amax_nan_r a : amax2 a NaN = NaN. Proof. destruct a; reflexivity. Qed.
Lemma fold_nan (op : num -> num -> num) : (forall a, op NaN a = NaN) -> (forall a, op a NaN = NaN) -> forall l a, a = NaN \/ In NaN l -> fold_left op l a = NaN.
Proof.
  intros L R. induction l as [|x l IH]; intros a H; cbn [fold_left]; [destruct H as [H|[]]; exact H|].
  apply IH. destruct H as [-> |[-> |H]]; auto.
Qed.
Lemma column_nan op l : (forall a, op NaN a = NaN) -> (forall a, op a NaN = NaN) -> In NaN l -> column op l = Ok NaN.
Proof. intros L R. destruct l as [|x l]; intros H; [destruct H|]. cbn. f_equal. apply fold_nan; auto. Qed.
Lemma bounds_nan v : In NaN (map fst v) -> In NaN (map snd v) -> total_bounds (Poly v) = Ok [NaN; NaN; NaN; NaN].
Proof.
  intros A B. cbn [total_bounds]. rewrite !column_nan; auto using amin_nan_r, amax_nan_r.
Qed.

(** * Coordinate arrays *)
Lemma grid_shape g : length (fst (create_grid g)) = nx g /\ length (snd (create_grid g)) = nx g /\ Forall (fun r => length r = ny g) (fst (create_grid g)) /\ Forall (fun r => length r = ny g) (snd (create_grid g)).
Proof.
  unfold create_grid, create_vectors, meshgrid_ij. cbn [fst snd]. split; [now rewrite !map_length, seq_length|]. split; [now rewrite !map_length, seq_length|].
  split; apply Forall_forall; intros r H; apply in_map_iff in H as (x & <- & _); now rewrite !map_length, ?seq_length.
Qed.
Lemma nth_tab {A} (f : nat -> A) n i d : (i < n)%nat -> nth i (map f (seq 0 n)) d = f i.
Proof.
  intros H. rewrite (nth_indep _ d (f 0%nat)) by (now rewrite map_length, seq_length). rewrite map_nth, seq_nth by exact H. reflexivity.
Qed.
Lemma grid_entry g i j : (i < nx g)%nat -> (j < ny g)%nat ->
  nth j (nth i (fst (create_grid g)) []) 0 = node_x g i /\ nth j (nth i (snd (create_grid g)) []) 0 = node_y g j.
Proof.
  intros I J. unfold create_grid, create_vectors, meshgrid_ij. cbn [fst snd]. rewrite !map_map. split.
  - rewrite nth_tab by exact I. rewrite map_map, nth_tab by exact J. reflexivity.
  - rewrite nth_tab by exact I. rewrite nth_tab by exact J. reflexivity.
Qed.
Lemma nodes_increase g i k : (i < k)%nat -> (0 < g_dx g -> node_x g i < node_x g k) /\ (~ g_dy g == 0 -> node_y g i < node_y g k).
Proof.
  intros H. assert (L : inject_Z (Z.of_nat i) < inject_Z (Z.of_nat k)) by (rewrite <- Zlt_Qlt; lia). split; intros D.
  - unfold node_x. nra.
  - unfold node_y. assert (P : 0 < Qabs (g_dy g)) by (destruct (Qlt_le_dec 0 (Qabs (g_dy g))) as [P|P]; [exact P|exfalso; apply D; pose proof (Qabs_nonneg (g_dy g)); apply Qabs_Qle_condition in P; lra]). nra.
Qed.

(** * Bounds of regions *)
Lemma box_bounds {crs user} (parse : user -> res crs) v c r : Region parse (Box v) c = Ok r -> total_bounds (r_bbox r) = Ok v /\ (4 <= length v)%nat.
Proof.
  unfold Region, check_bbox. destruct v as [|v0 [|v1 [|v2 [|v3 v]]]]; try discriminate.
  destruct (num_lt v1 v0); [discriminate|]. destruct (num_lt v3 v2); [discriminate|]. cbn [bind]. destruct (parse c); cbn; try discriminate. intros [= <-]. cbn. split; [reflexivity|lia].
Qed.
Lemma five_bounds : exists v, length v = 5%nat /\ forall crs user (parse : user -> res crs) c d, parse c = Ok d ->
  exists r, Region parse (Box v) c = Ok r /\ total_bounds (r_bbox r) = Ok v.
Proof.
  exists [Fin 0; Fin 1; Fin 0; Fin 1; Fin 7]. split; [reflexivity|]. intros crs user parse c d E. unfold Region. cbn. rewrite E. cbn. eexists. split; reflexivity.
Qed.
Lemma empty_bounds : total_bounds (Poly []) = Raise ValueError.
Proof. reflexivity. Qed.

(** * A minimum over no grid *)
Lemma minimum_empty tr : compute_minimum tr [] = Raise IndexError.
Proof. reflexivity. Qed.

(** Combinations of boxes carry neither a CRS nor the flag of the projection. *)
Lemma box_metadata b : d_crs (create_bbox b) = None /\ d_stereo (create_bbox b) = false /\ d_bbox (create_bbox b) = b.
Proof. destruct b as [[[x0 x1] y0] y1]. auto. Qed.
Lemma boxes_metadata bs u : (Union (map create_bbox bs) = Ok u \/ Intersection (map create_bbox bs) = Ok u \/ Difference (map create_bbox bs) = Ok u) ->
  d_crs u = None /\ d_stereo u = false.
Proof.
  intros H. destruct (metadata_all _ _ H) as [C T]. split.
  - destruct (d_crs u) as [c|] eqn:E; auto. exfalso. destruct C as (a & d & b & E1 & E2 & _).
    assert (I : In d (map create_bbox bs)) by (rewrite E1; apply in_or_app; right; left; auto).
    apply in_map_iff in I. destruct I as (q & <- & _). rewrite (proj1 (box_metadata q)) in E2. discriminate.
  - destruct (d_stereo u) eqn:E; auto. exfalso. destruct (proj1 T eq_refl) as (d & I & D).
    apply in_map_iff in I. destruct I as (q & <- & _). rewrite (proj1 (proj2 (box_metadata q))) in D. discriminate.
Qed.
(** Shorelines as domains. *)
Lemma shorelines_metadata inb ins near near2 l u ns : multiscale (map (fun q => let '(b, crs, st, inv) := q in shore_domain inb ins near near2 b crs st inv) l) = Ok (u, ns) ->
  (d_stereo u = true <-> exists b crs inv, In (b, crs, true, inv) l) /\ (d_crs u = None <-> forall b crs st inv, In (b, crs, st, inv) l -> crs = None).
Proof.
  intros M. destruct (multiscale_metadata _ _ _ M) as ((F & St) & _). split.
  - rewrite St. split.
    + intros (e & I & E). apply in_map_iff in I. destruct I as ((((b & crs) & st) & inv) & <- & I). cbn in E. subst. eauto.
    + intros (b & crs & inv & I). eexists. split; [apply in_map_iff; eexists; split; [|exact I]; reflexivity|reflexivity].
  - unfold first_known in F. destruct (d_crs u) as [k|]; split; intros H; try discriminate; try reflexivity.
    + destruct F as (a & d & b0 & E & D & _). assert (I : In d (a ++ d :: b0)) by (apply in_or_app; right; left; reflexivity). rewrite <- E in I. apply in_map_iff in I. destruct I as ((((b & crs) & st) & inv) & <- & I). cbn in D. rewrite (H _ _ _ _ I) in D. discriminate.
    + intros b crs st inv I. specialize (F (shore_domain inb ins near near2 b crs st inv)). apply F, in_map_iff. exists (b, crs, st, inv). auto.
Qed.
