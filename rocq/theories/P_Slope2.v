(** The Rossby filter near the pole (edgefx.py:655-745): when it fails. *)
From Coq Require Import List Arith ZArith QArith Qabs Qreals Reals String Lia Lra Qminmax Qround Psatz.
From Verif Require Import M_Base M_Sdf M_Grid S_Grid M_Slope S_Slope P_Slope.
Import ListNotations.
Open Scope R_scope.

Lemma speed_wave barot z : wave_of barot z (wave_speed barot z).
Proof.
  unfold wave_of, wave_speed. pose proof (Rmax_l 1 (- z)). pose proof PI_RGT_0. destruct barot; [|field; lra].
  split; [apply sqrt_pos|]. apply sqrt_sqrt. lra.
Qed.
Lemma wave_unique barot z v v' : wave_of barot z v -> wave_of barot z v' -> v = v'.
Proof.
  unfold wave_of. pose proof PI_RGT_0. destruct barot.
  - intros (A & B) (A' & B'). apply Rsqr_inj; [exact A|exact A'|]. unfold Rsqr. congruence.
  - intros A A'. apply (Rmult_eq_reg_r PI); lra.
Qed.
Lemma speed_pos barot z : 0 < wave_speed barot z.
Proof.
  unfold wave_speed. pose proof (Rmax_l 1 (- z)). pose proof PI_RGT_0. destruct barot; [apply sqrt_lt_R0; lra|]. apply Rdiv_lt_0_compat; lra.
Qed.
Lemma cos_equator lat : Rabs lat < 5 -> 0 < cos (lat * PI / 180).
Proof. intro L. apply Rabs_def2 in L. pose proof PI_RGT_0 as P. apply cos_gt_0; nra. Qed.
Lemma radius_rossby lat c : 0 < c -> rossby_of lat c (rossby_radius lat c).
Proof.
  intro C. unfold rossby_of, rossby_radius, earth_rate. cbv zeta. set (a := lat * PI / 180). split; intro L.
  - pose proof (cos_equator lat L) as K. fold a in K. destruct (Rlt_dec (Rabs lat) 5) as [_|N]; [|contradiction].
    set (x := c / (4 * (729 / 10000000) * cos a / 6371000)). exists (sqrt x). split; [apply sqrt_pos|]. split; [|reflexivity].
    rewrite sqrt_sqrt; [unfold x; field; lra|]. unfold x. apply Rlt_le, Rdiv_lt_0_compat; [exact C|]. apply Rdiv_lt_0_compat; nra.
  - destruct (Rlt_dec (Rabs lat) 5) as [N|_]; [lra|]. split; intro Z.
    + destruct (Req_EM_T _ 0) as [_|N]; [reflexivity|]. rewrite Z, Rabs_R0 in N. lra.
    + pose proof (Rabs_pos_lt _ Z). destruct (Req_EM_T _ 0) as [N|_]; [lra|]. eexists. split; [|reflexivity]. field. lra.
Qed.
Lemma rossby_unique lat c r r' : rossby_of lat c r -> rossby_of lat c r' -> r = r'.
Proof.
  unfold rossby_of. cbv zeta. set (a := lat * PI / 180). intros (A & B) (A' & B'). destruct (Rlt_le_dec (Rabs lat) 5) as [L|L].
  - destruct (A L) as (x & X & E & ->). destruct (A' L) as (y & Y & F & ->). f_equal. pose proof (cos_equator lat L) as K. fold a in K.
    apply Rsqr_inj; [exact X|exact Y|]. unfold Rsqr. apply (Rmult_eq_reg_r (4 * (729 / 10000000) * cos a)); lra.
  - destruct (B L) as (B1 & B2). destruct (B' L) as (C1 & C2). destruct (Req_dec (sin a) 0) as [Z|Z]; [rewrite B1, C1 by exact Z; reflexivity|].
    destruct (B2 Z) as (x & E & ->). destruct (C2 Z) as (y & F & ->). f_equal. pose proof (Rabs_pos_lt _ Z). apply (Rmult_eq_reg_r (2 * (729 / 10000000) * Rabs (sin a))); lra.
Qed.
Lemma radius_pos lat c : 0 < c -> 0 < rossby_radius lat c.
Proof.
  intro C. unfold rossby_radius. destruct (Rlt_dec (Rabs lat) 5) as [L|L].
  - pose proof (cos_equator lat L) as K. apply Rmin_glb_lt; [|lra]. apply sqrt_lt_R0. unfold earth_rate. apply Rdiv_lt_0_compat; [exact C|]. apply Rdiv_lt_0_compat; nra.
  - cbv zeta. destruct (Req_EM_T _ 0) as [_|N]; [lra|]. apply Rmin_glb_lt; [|lra]. apply Rdiv_lt_0_compat; [exact C|]. unfold earth_rate in *. pose proof (Rabs_pos (sin (lat * PI / 180))). lra.
Qed.
(** The class is at least c exactly when the ratio is at least 2 ^ c. *)
Lemma class_ge sy q r c : 0 < sy -> 0 < q -> 0 < r -> (1 <= c <= 10)%nat -> (Z.of_nat c <= length_class sy q r)%Z <-> 2 ^ c * (sy * q) <= r.
Proof.
  intros Hs Hq Hr Hc. unfold length_class. set (x := r / sy / q).
  assert (X : 0 < x) by (unfold x; apply Rdiv_lt_0_compat; [apply Rdiv_lt_0_compat|]; assumption).
  assert (L2 : 0 < ln 2) by (rewrite <- ln_1; apply ln_increasing; lra).
  assert (P : 0 < 2 ^ c) by (apply pow_lt; lra).
  transitivity (INR c <= ln x / ln 2).
  - destruct (base_Int_part (ln x / ln 2)) as (A & B). rewrite INR_IZR_INZ. split; intro H.
    + assert (Z.of_nat c <= Int_part (ln x / ln 2))%Z by lia. apply IZR_le in H0. lra.
    + assert (IZR (Z.of_nat c) < IZR (Int_part (ln x / ln 2) + 1)) by (rewrite plus_IZR; lra). apply lt_IZR in H0. lia.
  - transitivity (2 ^ c <= x).
    + assert (E : ln (2 ^ c) = INR c * ln 2) by (rewrite <- Rpower_pow by lra; unfold Rpower; rewrite ln_exp; reflexivity). split; intro H.
      * apply Rnot_lt_le. intro N. apply ln_increasing in N; [|exact X]. rewrite E in N. apply (Rmult_le_compat_r (ln 2)) in H; [|lra].
        replace (ln x / ln 2 * ln 2) with (ln x) in H by (field; lra). lra.
      * apply (Rmult_le_reg_r (ln 2)); [exact L2|]. replace (ln x / ln 2 * ln 2) with (ln x) by (field; lra). rewrite <- E.
        destruct H as [H|H]; [apply Rlt_le, ln_increasing; assumption|rewrite H; lra].
    + assert (SQ : 0 < sy * q) by nra. assert (E : x * (sy * q) = r) by (unfold x; field; lra). split; intro H.
      * rewrite <- E. apply Rmult_le_compat_r; lra.
      * apply (Rmult_le_reg_r (sy * q)); lra.
Qed.
Lemma rossby_pole gauss d sx sy q barot z n m : array z n m -> (2 <= n)%nat -> (1 <= m)%nat -> sx <> 0 -> 0 < sy -> 0 < q ->
  (b2 (d_box d) < b3 (d_box d))%Q ->
  (b0 (d_box d) + inject_Z (Z.of_nat (n - 1)) * d_dx d <= 179)%Q ->
  (89 < b2 (d_box d) + inject_Z (Z.of_nat (m - 1)) * Qabs (d_dy d))%Q ->
  forall w, block_size n m (b3 (d_box d) - b2 (d_box d)) w ->
  (forall j s e, (j < m)%nat -> block_of w m j s e -> (2 <= e - s)%nat) ->
  (past_the_end (b2 (d_box d)) (Qabs (d_dy d)) m w (sy * q) barot (at_ z) n -> rossby_filter gauss d sx sy q barot z = Raise TypeError) /\
  (~ past_the_end (b2 (d_box d)) (Qabs (d_dy d)) m w (sy * q) barot (at_ z) n -> exists bs, rossby_filter gauss d sx sy q barot z = Ok bs).
Proof.
  intros Hz Hn Hm Hx Hy Hq Hh Hw Hp w Sw Hb. pose proof (rows_n z n m Hz) as Rn. pose proof (cols_m z n m Hz Hn ltac:(lia)) as Cm.
  destruct (width_spec d z n m Hz Hn Hm Hh) as (Ws & W1). rewrite <- (size_unique _ _ _ _ _ Sw Ws) in W1.
  pose proof (size_unique _ _ _ _ _ Sw Ws) as Ew. clear Ws.
  (* the nodes of a block that reach the end *)
  set (bad := fun s e => exists i j, (i < n)%nat /\ (s <= j < e)%nat /\ (0 < class_of d sy q barot z i j)%Z /\ (m <= e + Z.to_nat (2 ^ (class_of d sy q barot z i j - 1)))%nat).
  assert (PE : past_the_end (b2 (d_box d)) (Qabs (d_dy d)) m w (sy * q) barot (at_ z) n <-> exists k, (k * w < m)%nat /\ bad (k * w)%nat (Nat.min m (k * w + w))).
  { split.
    - intros (i & j & s & e & c & v & r & Hi & Hj & ((k & ->) & B1 & ->) & Hc & V & Rr & G & M). exists k. split; [lia|]. exists i, j. split; [exact Hi|]. split; [exact B1|].
      assert (GE : (Z.of_nat c <= class_of d sy q barot z i j)%Z).
      { unfold class_of. apply class_ge; [exact Hy|exact Hq|apply radius_pos, speed_pos|exact Hc|]. 
        rewrite (wave_unique _ _ _ _ V (speed_wave barot (at_ z i j))) in Rr.
        rewrite (rossby_unique _ _ _ _ Rr (radius_rossby _ _ (speed_pos barot (at_ z i j)))) in G. exact G. }
      split; [lia|]. eapply Nat.le_trans; [exact M|]. apply Nat.add_le_mono_l. rewrite <- (Nat2Z.id (2 ^ (c - 1))). apply Z2Nat.inj_le; [lia|apply Z.pow_nonneg; lia|].
      rewrite Nat2Z.inj_pow. apply Z.pow_le_mono_r; lia.
    - intros (k & K & i & j & Hi & Hj & P & M). set (c := class_of d sy q barot z i j) in *.
      assert (c <= 10)%Z by (unfold c, class_of, length_class; lia).
      exists i, j, (k * w)%nat, (Nat.min m (k * w + w)), (Z.to_nat c), (wave_speed barot (at_ z i j)), (rossby_radius (lat_of d j) (wave_speed barot (at_ z i j))).
      split; [exact Hi|]. split; [lia|]. split; [split; [exists k; reflexivity|split; [exact Hj|reflexivity]]|]. split; [lia|]. split; [apply speed_wave|]. split; [apply radius_rossby, speed_pos|].
      split; [apply class_ge; [exact Hy|exact Hq|apply radius_pos, speed_pos|lia|rewrite Z2Nat.id by lia; unfold c, class_of; apply Z.le_refl]|].
      eapply Nat.le_trans; [exact M|]. apply Nat.add_le_mono_l. rewrite <- (Nat2Z.id (2 ^ (Z.to_nat c - 1))). apply Z2Nat.inj_le; [apply Z.pow_nonneg; lia|lia|].
      rewrite Nat2Z.inj_pow. apply Z.pow_le_mono_r; lia. }
  assert (WR : wraps_around d z = false).
  { unfold wraps_around. rewrite Rn. cbv zeta. apply orb_false_iff. split; apply andb_false_iff; left; apply negb_false_iff, Qle_bool_iff;
      [exact Hw|eapply Qle_trans; [exact Hw|discriminate]]. }
  assert (F : forall s e k, class_field gauss d sy z s e k = if ((0 <? k)%Z && (m <=? e + Z.to_nat (2 ^ (k - 1)))%nat)%bool then Raise TypeError else Ok (columns z s e)).
  { intros s e k. unfold class_field. destruct (0 <? k)%Z; [|reflexivity]. rewrite WR. unfold at_pole. rewrite Cm.
    replace (Qle_bool _ 89) with false by (symmetry; apply not_true_is_false; rewrite Qle_bool_iff; apply Qlt_not_le; exact Hp). cbn [negb andb].
    destruct (m <=? _)%nat; reflexivity. }
  assert (L : forall s e ks bst, (s <= e <= m)%nat -> (2 <= e - s)%nat ->
    ((exists k, In k ks /\ (0 < k)%Z /\ (m <= e + Z.to_nat (2 ^ (k - 1)))%nat) -> class_loop gauss d sx sy q barot z s e ks bst = Raise TypeError) /\
    (~ (exists k, In k ks /\ (0 < k)%Z /\ (m <= e + Z.to_nat (2 ^ (k - 1)))%nat) -> exists r, class_loop gauss d sx sy q barot z s e ks bst = Ok r)).
  { intros s e ks. induction ks as [|k ks IH]; intros bst He W; cbn [class_loop]; [split; [intros (k & [] & _)|intros _; eexists; reflexivity]|]. rewrite F.
    destruct (columns_spec z n m s e Hz) as (Ca & _); [lia|].
    destruct (slopes_spec _ _ _ sx sy Ca Hn W Hx ltac:(lra)) as (sl & Es & _).
    destruct ((0 <? k)%Z && (m <=? e + Z.to_nat (2 ^ (k - 1)))%nat)%bool eqn:B.
    - apply andb_true_iff in B. destruct B as (B1 & B2). apply Z.ltb_lt in B1. apply Nat.leb_le in B2. split; [reflexivity|]. intro N. destruct N. exists k. split; [left; reflexivity|]. auto.
    - cbn [bind]. rewrite Es. cbn [bind]. destruct (IH (rtab (rows z) (e - s) (fun i j => if Z.eqb (class_of d sy q barot z i (s + j)) k then rcell sl i j else rcell bst i j)) He W) as (I1 & I2). split.
      + intros (k' & [<-|I] & P & M); [|apply I1; exists k'; auto]. apply andb_false_iff in B. destruct B as [B|B]; [apply Z.ltb_ge in B|apply Nat.leb_gt in B]; lia.
      + intro N. apply I2. intros (k' & I & PM). apply N. exists k'. split; [right; exact I|exact PM]. }
  assert (CL : forall s e, (s <= e <= m)%nat -> (exists k, In k (classes d sy q barot z s e) /\ (0 < k)%Z /\ (m <= e + Z.to_nat (2 ^ (k - 1)))%nat) <-> bad s e).
  { intros s e He. split.
    - intros (k & I & P & M). unfold classes in I. apply filter_In in I. destruct I as (_ & I). unfold present in I. apply existsb_exists in I. destruct I as (i & Ii & I).
      apply existsb_exists in I. destruct I as (j & Ij & I). apply Z.eqb_eq in I. subst k. apply in_seq in Ii, Ij. exists i, j. rewrite Rn in Ii. split; [lia|]. split; [lia|]. auto.
    - intros (i & j & Hi & Hj & P & M). exists (class_of d sy q barot z i j). split; [|auto]. eapply classes_all; eauto; lia. }
  assert (BL : forall count k bs, (k + count = number_of_blocks d z)%nat ->
    ((exists k', (k <= k')%nat /\ (k' * w < m)%nat /\ bad (k' * w)%nat (Nat.min m (k' * w + w))) -> block_loop gauss d sx sy q barot z count (Nat.min m (k * w)) bs = Raise TypeError) /\
    (~ (exists k', (k <= k')%nat /\ (k' * w < m)%nat /\ bad (k' * w)%nat (Nat.min m (k' * w + w))) -> exists r, block_loop gauss d sx sy q barot z count (Nat.min m (k * w)) bs = Ok r)).
  { pose proof (blocks_enough d z n m Hz Hn ltac:(lia) Hh) as Be. rewrite <- Ew in Be.
    induction count as [|c IH]; intros k bs Hk; cbn [block_loop].
    { split; [|intros _; eexists; reflexivity]. intros (k' & K1 & K2 & _). exfalso. assert (number_of_blocks d z * w <= k' * w)%nat by (apply Nat.mul_le_mono_r; lia). lia. }
    rewrite Cm, <- Ew. set (s := Nat.min m (k * w)). set (e := Nat.min m (s + w)).
    assert (Ee : e = Nat.min m (S k * w)) by (unfold e, s; lia).
    destruct (Nat.lt_ge_cases (k * w) m) as [K|K].
    - assert (Es : s = (k * w)%nat) by (unfold s; lia). assert (Ee' : e = Nat.min m (k * w + w)) by (unfold e; rewrite Es; reflexivity).
      assert (He : (s <= e <= m)%nat) by (unfold e; lia). assert (W2 : (2 <= e - s)%nat) by (rewrite Es, Ee'; apply (Hb (k * w)%nat); [exact K|apply block_step; assumption]).
      destruct (L s e (classes d sy q barot z s e) (rtab (rows z) (e - s) (fun _ _ => 0)) He W2) as (L1 & L2). rewrite (CL s e He) in L1, L2.
      destruct (IH (S k) (beside bs (match class_loop gauss d sx sy q barot z s e (classes d sy q barot z s e) (rtab (rows z) (e - s) (fun _ _ => 0)) with Ok b => b | _ => [] end)) ltac:(lia)) as (I1 & I2).
      rewrite <- Ee in I1, I2. split.
      + intros (k' & K1 & K2 & B). destruct (Nat.eq_dec k' k) as [->|N]; [rewrite <- Ee', <- Es in B; rewrite (L1 B); reflexivity|].
        destruct (class_loop gauss d sx sy q barot z s e _ _) as [bst|x|] eqn:El; cbn [bind].
        * apply I1. exists k'. split; [lia|]. auto.
        * destruct x; try reflexivity; exfalso; (destruct (L2 ltac:(intro X; specialize (L1 X); discriminate)) as (? & ?); discriminate).
        * exfalso. destruct (L2 ltac:(intro X; specialize (L1 X); discriminate)) as (? & ?). discriminate.
      + intro N. destruct L2 as (bst & El). { intro B. apply N. exists k. split; [lia|]. rewrite <- Ee', <- Es. split; [lia|exact B]. }
        rewrite El in *. cbn [bind]. apply I2. intros (k' & K1 & K2). apply N. exists k'. split; [lia|exact K2].
    - assert (Es : s = m) by (unfold s; lia). assert (Em : e = m) by (unfold e; lia).
      assert (Ex : classes d sy q barot z s e = []).
      { rewrite Es, Em. unfold classes, present. rewrite Nat.sub_diag, Rn. cbn [seq existsb].
        assert (Ex : forall l : list nat, existsb (fun _ : nat => false) l = false) by (induction l; auto). cbn [filter]. rewrite !Ex. reflexivity. }
      rewrite Ex. cbn [class_loop bind]. rewrite Ee. split.
      + intros (k' & K1 & K2 & _). exfalso. assert (k * w <= k' * w)%nat by (apply Nat.mul_le_mono_r; lia). lia.
      + intros _. apply IH; [lia|]. intros (k' & K1 & K2 & _). assert (k * w <= k' * w)%nat by (apply Nat.mul_le_mono_r; lia). lia. }
  destruct (BL (number_of_blocks d z) 0%nat (repeat [] n) eq_refl) as (B1 & B2). rewrite PE. unfold rossby_filter. rewrite Rn.
  replace (Nat.min m (0 * w)) with 0%nat in B1, B2 by lia. split.
  - intros (k & K). apply B1. exists k. split; [lia|exact K].
  - intro N. apply B2. intros (k & _ & K). apply N. exists k. exact K.
Qed.
(** Three columns from 88 to 90 degrees north. *)
Definition polar_box : Q * Q * Q * Q := (0, 2, 88, 90)%Q.
Lemma pole_case : forall gauss, rossby_filter gauss (shelf true polar_box) 100 100 50 true shelf_z = Raise TypeError.
Proof.
  intro gauss. assert (W : block_size 3 3 (b3 polar_box - b2 polar_box) 15) by (split; vm_compute; reflexivity || discriminate).
  eapply (rossby_pole gauss (shelf true polar_box) 100 100 50 true shelf_z 3 3); try lia; try lra; try reflexivity; try discriminate.
  - split; [reflexivity|repeat constructor].
  - exact W.
  - intros j s e Hj ((k & ->) & B & ->). lia.
  - pose proof (radius_bound (lat_of (shelf true polar_box) 0) (at_ shelf_z 0 0)) as G.
    exists 0%nat, 0%nat, 0%nat, 3%nat, 1%nat, (wave_speed true (at_ shelf_z 0 0)), (rossby_radius (lat_of (shelf true polar_box) 0) (wave_speed true (at_ shelf_z 0 0))).
    split; [lia|]. split; [lia|]. split; [split; [exists 0%nat; reflexivity|split; [lia|reflexivity]]|]. split; [lia|]. split; [apply speed_wave|].
    split; [apply radius_rossby, speed_pos|]. split; [lra|cbn; lia].
Qed.
