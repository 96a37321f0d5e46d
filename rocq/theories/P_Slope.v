(** Proofs about filters, slopes and wavelengths. *)
From Coq Require Import List Arith Bool ZArith QArith Qminmax Qabs Qround Qreals Reals String Ascii Lia Lra Psatz.
From Verif Require P_Dem.
From Verif Require Import M_Base M_Sdf P_Sdf M_Grid S_Grid P_Grid M_Slope S_Slope.
Import ListNotations.
Open Scope R_scope.

(** * Arrays *)
Lemma rtab_array n m f : array (rtab n m f) n m.
Proof.
  split; [unfold rtab; rewrite map_length, seq_length; reflexivity|]. apply Forall_forall. intros r H. unfold rtab in H. apply in_map_iff in H.
  destruct H as (i & <- & _). rewrite map_length, seq_length. reflexivity.
Qed.
Lemma rtab_at n m f i j : (i < n)%nat -> (j < m)%nat -> at_ (rtab n m f) i j = f i j.
Proof.
  intros Hi Hj. unfold at_, rtab. rewrite (map_seq_nth (fun i => map (fun j => f i j) (seq 0 m)) n i [] Hi).
  apply (map_seq_nth (fun j => f i j) m j 0 Hj).
Qed.
Lemma array_rows v n m : array v n m -> rrows v = n.
Proof. intros (H & _). exact H. Qed.
Lemma array_cols v n m : array v n m -> (1 <= n)%nat -> rcols v = m.
Proof. intros (H & F) Hn. destruct v as [|r v]; simpl in *; [lia|]. inversion F; subst. reflexivity. Qed.
Lemma array_ext a b n m : array a n m -> array b n m -> (forall i j, (i < n)%nat -> (j < m)%nat -> at_ a i j = at_ b i j) -> a = b.
Proof.
  intros (La & Fa) (Lb & Fb) H. apply (nth_ext a b [] []); [congruence|]. intros i Hi.
  rewrite Forall_forall in Fa, Fb.
  assert (Ha : List.length (nth i a []) = m) by (apply Fa, nth_In; exact Hi).
  assert (Hb : List.length (nth i b []) = m) by (apply Fb, nth_In; lia).
  apply (nth_ext _ _ 0 0); [congruence|]. intros j Hj. apply H; lia.
Qed.
Lemma rtab_ext n m f g : (forall i j, (i < n)%nat -> (j < m)%nat -> f i j = g i j) -> rtab n m f = rtab n m g.
Proof. intros H. apply (array_ext _ _ n m); try apply rtab_array. intros i j Hi Hj. rewrite !rtab_at by assumption. auto. Qed.

(** * Texts *)
Lemma lower_reads s t : lower s = t -> reads s t.
Proof.
  revert t. induction s as [|a s IH]; intros t H; subst t; simpl; [exact I|]. split; [|apply IH; reflexivity].
  unfold lower_ascii. destruct ((65 <=? nat_of_ascii a) && (nat_of_ascii a <=? 90))%nat eqn:E; [right|left; reflexivity].
  apply andb_true_iff in E. destruct E as [E1 E2]. apply Nat.leb_le in E1, E2. split; [lia|]. apply nat_ascii_embedding. lia.
Qed.
Fixpoint small (t : string) : Prop := match t with EmptyString => True | String b r => ~ (65 <= nat_of_ascii b <= 90)%nat /\ small r end.
Lemma reads_lower s : forall t, small t -> reads s t -> lower s = t.
Proof.
  induction s as [|a s IH]; intros [|b t] Hs H; simpl in *; try contradiction; [reflexivity|].
  destruct Hs as [Hb Hs]. destruct H as [H Hr]. rewrite (IH t Hs Hr). f_equal. unfold lower_ascii. destruct H as [->|[H1 H2]].
  - destruct ((65 <=? nat_of_ascii b) && (nat_of_ascii b <=? 90))%nat eqn:E; [|reflexivity].
    apply andb_true_iff in E. destruct E as [E1 E2]. apply Nat.leb_le in E1, E2. lia.
  - replace ((65 <=? nat_of_ascii a) && (nat_of_ascii a <=? 90))%nat with true
      by (symmetry; apply andb_true_iff; split; apply Nat.leb_le; lia).
    rewrite <- H2. apply ascii_nat_embedding.
Qed.
Lemma small_four : small "lowpass" /\ small "highpass" /\ small "bandpass" /\ small "bandstop".
Proof. repeat split; vm_compute; lia. Qed.
Lemma prefix_iff p : forall s, String.prefix p s = true <-> exists b, s = (p ++ b)%string.
Proof.
  induction p as [|c p IH]; intros s.
  - split; [intros _; exists s; reflexivity|]. intros _. destruct s; reflexivity.
  - destruct s as [|d s]; [split; [discriminate|intros (b & H); discriminate]|].
    simpl. destruct (ascii_dec c d) as [<-|N].
    + split; intros H.
      * apply IH in H. destruct H as (b & ->). exists b. reflexivity.
      * apply IH. destruct H as (b & H). exists b. injection H. auto.
    + split; [discriminate|]. intros (b & H). injection H. congruence.
Qed.
Lemma contains_iff p s : contains p s = true <-> mentions p s.
Proof.
  unfold mentions. induction s as [|c s IH].
  - assert (E : contains p EmptyString = true <-> String.prefix p EmptyString = true) by (simpl; rewrite orb_false_r; reflexivity).
    rewrite E, prefix_iff. split.
    + intros (b & H). exists EmptyString, b. exact H.
    + intros (a & b & H). destruct a; simpl in H; [exists b; exact H|discriminate].
  - assert (E : contains p (String c s) = true <-> String.prefix p (String c s) = true \/ contains p s = true)
      by (change (contains p (String c s)) with (String.prefix p (String c s) || contains p s)%bool; apply orb_true_iff).
    rewrite E, prefix_iff, IH. split.
    + intros [(b & H)|(a & b & H)]; [exists EmptyString, b; exact H|]. exists (String c a), b. simpl. rewrite H. reflexivity.
    + intros (a & b & H). destruct a as [|x a]; simpl in H; [left; exists b; exact H|right]. injection H as -> H. exists a, b. exact H.
Qed.

(** * Filters *)
Lemma scale_eq d w : 0 < d -> w / d / (2 * PI) = scale d w.
Proof. intros H. unfold scale. pose proof PI_RGT_0. field. split; lra. Qed.
Section Filters.
  Variable gauss : list (list R) -> R -> list (list R).
  Hypothesis Hg : keeps_shape gauss.
  Variables (z : list (list R)) (n m : nat) (d : R).
  Hypothesis Hz : array z n m.
  Hypothesis Hn : (1 <= n)%nat.
  Hypothesis Hd : 0 < d.
  Lemma minus_spec a b : array a n m -> difference (minus a b) a b n m.
  Proof.
    intros H. unfold minus. rewrite (array_rows _ _ _ H), (array_cols _ _ _ H Hn). split; [apply rtab_array|].
    intros i j Hi Hj. rewrite rtab_at by assumption. reflexivity.
  Qed.
  Lemma filter_low w kind : reads kind "lowpass" -> filt2 gauss z d (Scalar w) kind = Ok (gauss z (scale d w)).
  Proof.
    intros H. destruct small_four as (S1 & _). apply (reads_lower _ _ S1) in H. unfold filt2. rewrite H. simpl. unfold lowpass.
    rewrite scale_eq by exact Hd. reflexivity.
  Qed.
  Lemma filter_high w kind : reads kind "highpass" ->
    exists v, filt2 gauss z d (Scalar w) kind = Ok v /\ difference v z (gauss z (scale d w)) n m.
  Proof.
    intros H. destruct small_four as (_ & S1 & _). apply (reads_lower _ _ S1) in H. unfold filt2. rewrite H. simpl. eexists. split; [reflexivity|].
    unfold highpass, lowpass. rewrite scale_eq by exact Hd. apply minus_spec. exact Hz.
  Qed.
  Lemma filter_band u v kind : reads kind "bandpass" ->
    exists hp, filt2 gauss z d (Array [u; v]) kind = Ok (gauss hp (scale d (Rmin u v))) /\ difference hp z (gauss z (scale d (Rmax u v))) n m.
  Proof.
    intros H. destruct small_four as (_ & _ & S1 & _). apply (reads_lower _ _ S1) in H. unfold filt2. rewrite H. simpl.
    exists (highpass gauss z d (Rmax u v)). split.
    - unfold lowpass at 1. rewrite scale_eq by exact Hd. reflexivity.
    - unfold highpass, lowpass. rewrite scale_eq by exact Hd. apply minus_spec. exact Hz.
  Qed.
  Lemma filter_stop u v kind : reads kind "bandstop" ->
    exists r hp, filt2 gauss z d (Array [u; v]) kind = Ok r /\ difference hp z (gauss z (scale d (Rmin u v))) n m /\
      difference r (gauss z (scale d (Rmax u v))) hp n m.
  Proof.
    intros H. destruct small_four as (_ & _ & _ & S1). apply (reads_lower _ _ S1) in H. unfold filt2. rewrite H. simpl.
    eexists. exists (highpass gauss z d (Rmin u v)). split; [reflexivity|]. split.
    - unfold highpass, lowpass. rewrite scale_eq by exact Hd. apply minus_spec. exact Hz.
    - unfold lowpass at 1. rewrite scale_eq by exact Hd. apply minus_spec. apply Hg. exact Hz.
  Qed.
  Lemma filter_type wl kind :
    (~ reads kind "lowpass" /\ ~ reads kind "highpass" /\ ~ reads kind "bandpass" /\ ~ reads kind "bandstop") \/
    ((reads kind "lowpass" \/ reads kind "highpass") /\ (exists l, wl = Array l)) \/
    ((reads kind "bandpass" \/ reads kind "bandstop") /\ (forall u v, wl <> Array [u; v])) ->
    filt2 gauss z d wl kind = Raise TypeError.
  Proof.
    destruct small_four as (S1 & S2 & S3 & S4). unfold filt2.
    assert (E : forall t, (lower kind =? t)%string = true -> reads kind t)
      by (intros t Ht; apply String.eqb_eq in Ht; apply lower_reads; exact Ht).
    assert (X : forall t, ~ reads kind t -> (lower kind =? t)%string = false)
      by (intros t Ht; destruct (lower kind =? t)%string eqn:Y; [destruct (Ht (E _ Y))|reflexivity]).
    intros [(A & B & C & D)|[([A|A] & l & ->)|([A|A] & B)]].
    - rewrite (X _ A), (X _ B), (X _ C), (X _ D). reflexivity.
    - rewrite (reads_lower _ _ S1 A). reflexivity.
    - rewrite (reads_lower _ _ S2 A). reflexivity.
    - rewrite (reads_lower _ _ S3 A). simpl. destruct wl as [|[|u [|v [|]]]]; try reflexivity. destruct (B u v eq_refl).
    - rewrite (reads_lower _ _ S4 A). simpl. destruct wl as [|[|u [|v [|]]]]; try reflexivity. destruct (B u v eq_refl).
  Qed.
End Filters.

(** * Weighted means *)
Lemma total_ext n m f g : (forall i j, (i < n)%nat -> (j < m)%nat -> f i j = g i j) -> total n m f = total n m g.
Proof.
  intros H. unfold total. f_equal. apply map_ext_in. intros i Hi. apply in_seq in Hi. f_equal. apply map_ext_in. intros j Hj. apply in_seq in Hj.
  apply H; lia.
Qed.
Lemma sum_scale c l : fold_right Rplus 0 (map (fun x => c * x) l) = c * fold_right Rplus 0 l.
Proof. induction l as [|x l IH]; simpl; [ring|]. rewrite IH. ring. Qed.
Lemma total_scale n m c f : total n m (fun i j => f i j * c) = c * total n m f.
Proof.
  unfold total. rewrite <- sum_scale, map_map. f_equal. apply map_ext. intros i. rewrite <- sum_scale, map_map. f_equal. apply map_ext.
  intros j. ring.
Qed.
Lemma average_constant g z n m s c i j : averages g -> array z n m -> (1 <= n)%nat -> (1 <= m)%nat ->
  (forall i j, (i < n)%nat -> (j < m)%nat -> at_ z i j = c) -> (i < n)%nat -> (j < m)%nat -> at_ (g z s) i j = c.
Proof.
  intros Hg Hz Hn Hm Hc Hi Hj. destruct (Hg n m s Hn Hm) as (w & _ & W & E). rewrite (E z Hz i j Hi Hj).
  rewrite (total_ext n m _ (fun k l => w i j k l * c)) by (intros k l Hk Hl; rewrite Hc by assumption; reflexivity).
  rewrite total_scale, (W i j Hi Hj). ring.
Qed.
Lemma stop_constant g z n m d u v c kind : keeps_shape g -> averages g -> array z n m -> (1 <= n)%nat -> (1 <= m)%nat -> 0 < d ->
  reads kind "bandstop" -> (forall i j, (i < n)%nat -> (j < m)%nat -> at_ z i j = c) ->
  exists r, filt2 g z d (Array [u; v]) kind = Ok r /\ array r n m /\ forall i j, (i < n)%nat -> (j < m)%nat -> at_ r i j = c.
Proof.
  intros K Hg Hz Hn Hm Hd Hk Hc. destruct (filter_stop g K z n m d Hz Hn Hd u v kind Hk) as (r & hp & E & (_ & D1) & (A & D2)).
  exists r. split; [exact E|]. split; [exact A|]. intros i j Hi Hj. rewrite (D2 i j Hi Hj), (D1 i j Hi Hj), Hc by assumption.
  rewrite !(average_constant g z n m _ c i j) by assumption. ring.
Qed.
(** The mean of all values, everywhere. *)
Definition flat (z : list (list R)) (s : R) : list (list R) :=
  let n := rrows z in let m := rcols z in rtab n m (fun _ _ => total n m (fun i j => at_ z i j) / (INR n * INR m)).
Lemma total_const n m c : total n m (fun _ _ => c) = INR n * INR m * c.
Proof.
  assert (H : forall k l c, fold_right Rplus 0 (map (fun _ : nat => c) (seq k l)) = INR l * c).
  { intros k l. revert k. induction l as [|l IH]; intros k x; [simpl; ring|]. rewrite S_INR. cbn [seq map fold_right]. rewrite IH. ring. }
  unfold total. rewrite (map_ext _ (fun _ : nat => INR m * c)) by (intros i; apply H). rewrite H. ring.
Qed.
Lemma flat_shape : keeps_shape flat.
Proof.
  intros z s n m Hz. unfold flat. rewrite (array_rows _ _ _ Hz). destruct n as [|n].
  - destruct Hz as (L & _). destruct z; [|discriminate]. split; [reflexivity|constructor].
  - rewrite (array_cols _ _ _ Hz) by lia. apply rtab_array.
Qed.
Lemma flat_averages : averages flat.
Proof.
  intros n m s Hn Hm. exists (fun _ _ _ _ => / (INR n * INR m)).
  assert (P : 0 < INR n * INR m) by (apply Rmult_lt_0_compat; apply lt_0_INR; lia). split; [|split].
  - intros. left. apply Rinv_0_lt_compat. exact P.
  - intros i j _ _. rewrite total_const. field. split; apply Rgt_not_eq, lt_0_INR; lia.
  - intros z Hz i j Hi Hj. unfold flat. rewrite (array_rows _ _ _ Hz), (array_cols _ _ _ Hz) by lia. rewrite rtab_at by assumption.
    rewrite (total_ext n m (fun k l => / (INR n * INR m) * at_ z k l) (fun k l => at_ z k l * / (INR n * INR m))) by (intros; ring).
    rewrite total_scale. unfold Rdiv. apply Rmult_comm.
Qed.
Definition ripple : list (list R) := [[1; -1]; [-1; 1]].
Lemma ripple_array : array ripple 2 2.
Proof. split; [reflexivity|repeat constructor]. Qed.
Lemma stop_inverts : exists g z n m d u v r, keeps_shape g /\ averages g /\ array z n m /\ 0 < d /\
  filt2 g z d (Scalar (Rmin u v)) "highpass" = Ok z /\ filt2 g z d (Scalar (Rmax u v)) "lowpass" = Ok (rtab n m (fun _ _ => 0)) /\
  filt2 g z d (Array [u; v]) "bandstop" = Ok r /\ (1 <= n)%nat /\ (1 <= m)%nat /\
  (forall i j, (i < n)%nat -> (j < m)%nat -> at_ r i j = - at_ z i j /\ at_ z i j <> 0).
Proof.
  assert (F : forall s, flat ripple s = rtab 2 2 (fun _ _ => 0)).
  { intros s. unfold flat. apply rtab_ext. intros i j _ _. unfold total, at_, ripple, rcols, rrows. simpl. field. }
  exists flat, ripple, 2%nat, 2%nat, 1, 4, 8.
  destruct (filter_high flat ripple 2 2 1 ripple_array ltac:(lia) ltac:(lra) (Rmin 4 8) "highpass") as (h & Eh & Ah & Dh); [cbn; tauto|].
  destruct (filter_stop flat flat_shape ripple 2 2 1 ripple_array ltac:(lia) ltac:(lra) 4 8 "bandstop") as (r & hp & E & (_ & D1) & (A & D2)); [cbn; tauto|].
  exists r. split; [apply flat_shape|]. split; [apply flat_averages|]. split; [apply ripple_array|]. split; [lra|]. split.
  { rewrite Eh. f_equal. apply (array_ext _ _ 2 2 Ah ripple_array). intros i j Hi Hj. rewrite (Dh i j Hi Hj), F, rtab_at by assumption. ring. }
  split.
  { rewrite (filter_low flat ripple 1 ltac:(lra)) by (cbn; tauto). rewrite F. reflexivity. }
  split; [exact E|]. split; [lia|]. split; [lia|]. intros i j Hi Hj. rewrite (D2 i j Hi Hj), (D1 i j Hi Hj), !F, !rtab_at by assumption. split; [ring|].
  destruct i as [|[|]], j as [|[|]]; try lia; cbn; lra.
Qed.

(** * Slopes *)
Lemma rdiff_quotient n d f k : (2 <= n)%nat -> d <> 0 -> (k < n)%nat -> quotient_at n d f k (rdiff n d f k).
Proof.
  intros Hn Hd Hk. unfold quotient_at, rdiff. destruct (k =? 0)%nat eqn:E0; [apply Nat.eqb_eq in E0|apply Nat.eqb_neq in E0].
  - repeat split; try lia. intros _. field. exact Hd.
  - destruct (k =? n - 1)%nat eqn:E1; [apply Nat.eqb_eq in E1|apply Nat.eqb_neq in E1]; repeat split; try lia; intros.
    + subst k. replace (n - 1 - 1)%nat with (n - 2)%nat by lia. field. exact Hd.
    + field. exact Hd.
Qed.
Lemma slopes_spec f n m dx dy : array f n m -> (2 <= n)%nat -> (2 <= m)%nat -> dx <> 0 -> dy <> 0 ->
  exists s, slopes f dx dy = Ok s /\ array s n m /\
    forall i j, (i < n)%nat -> (j < m)%nat -> gradient_length n m dx dy (at_ f) i j (at_ s i j).
Proof.
  intros Hf Hn Hm Hx Hy. unfold slopes, rgradient. rewrite (array_rows _ _ _ Hf), (array_cols _ _ _ Hf) by lia.
  replace (n <? 2)%nat with false by (symmetry; apply Nat.ltb_ge; lia). replace (m <? 2)%nat with false by (symmetry; apply Nat.ltb_ge; lia).
  cbn [orb bind fst snd]. eexists. split; [reflexivity|]. split; [apply rtab_array|]. intros i j Hi Hj. rewrite rtab_at by assumption.
  change rcell with at_. rewrite !rtab_at by assumption.
  set (gy := rdiff m dy (fun k => at_ f i k) j). set (gx := rdiff n dx (fun k => at_ f k j) i).
  exists gx, gy. split; [apply rdiff_quotient; assumption|]. split; [apply rdiff_quotient; assumption|]. split; [apply sqrt_pos|].
  rewrite sqrt_sqrt; [ring|]. nra.
Qed.
Lemma slopes_narrow f n m dx dy : array f n m -> (1 <= n)%nat -> (m < 2)%nat -> slopes f dx dy = Raise IndexError.
Proof.
  intros Hf Hn Hm. unfold slopes, rgradient. rewrite (array_rows _ _ _ Hf), (array_cols _ _ _ Hf) by lia.
  replace (m <? 2)%nat with true by (symmetry; apply Nat.ltb_lt; lia). rewrite orb_true_r. reflexivity.
Qed.
(** The quotient is determined. *)
Lemma quotient_unique n d f k a b : (k < n)%nat -> d <> 0 -> quotient_at n d f k a -> quotient_at n d f k b -> a = b.
Proof.
  intros Hk Hd (A0 & A1 & A2) (B0 & B1 & B2). destruct (Nat.eq_dec k 0) as [E|E].
  - apply (Rmult_eq_reg_r d); [|exact Hd]. rewrite A0, B0 by exact E. reflexivity.
  - destruct (Nat.eq_dec k (n - 1)) as [E1|E1].
    + apply (Rmult_eq_reg_r d); [|exact Hd]. rewrite A1, B1 by lia. reflexivity.
    + apply (Rmult_eq_reg_r (2 * d)); [|nra]. rewrite A2, B2 by lia. reflexivity.
Qed.
Lemma quotient_line n d f k a s : (2 <= n)%nat -> (k < n)%nat -> (forall i, (i < n)%nat -> f i = a + INR i * d * s) -> quotient_at n d f k s.
Proof.
  intros Hn Hk Hf. repeat split; intros; rewrite !Hf by lia.
  - simpl. ring.
  - rewrite minus_INR by lia. simpl. ring.
  - rewrite minus_INR, plus_INR by lia. simpl. ring.
Qed.
Lemma gradient_unique n m dx dy f i j s t : (i < n)%nat -> (j < m)%nat -> dx <> 0 -> dy <> 0 ->
  gradient_length n m dx dy f i j s -> gradient_length n m dx dy f i j t -> s = t.
Proof.
  intros Hi Hj Hx Hy (gx & gy & X & Y & P & E) (gx' & gy' & X' & Y' & P' & E').
  assert (gx = gx') by (eapply (quotient_unique n dx); eauto). assert (gy = gy') by (eapply (quotient_unique m dy); eauto). subst.
  apply Rsqr_inj; auto. unfold Rsqr. congruence.
Qed.
Lemma gradient_plane_length n m dx dy f i j a px py : (2 <= n)%nat -> (2 <= m)%nat -> (i < n)%nat -> (j < m)%nat -> dx <> 0 -> dy <> 0 ->
  (forall i j, (i < n)%nat -> (j < m)%nat -> f i j = a + INR i * dx * px + INR j * dy * py) ->
  gradient_length n m dx dy f i j (sqrt (px * px + py * py)).
Proof.
  intros Hn Hm Hi Hj Hx Hy Hf. exists px, py. split; [|split; [|split]].
  - apply (quotient_line n dx _ i (a + INR j * dy * py)); auto. intros k Hk. rewrite Hf by assumption. ring.
  - apply (quotient_line m dy _ j (a + INR i * dx * px)); auto.
  - apply sqrt_pos.
  - apply sqrt_sqrt. nra.
Qed.
Lemma gradient_ext n m dx dy f g i j s : (2 <= n)%nat -> (2 <= m)%nat -> (i < n)%nat -> (j < m)%nat ->
  (forall i j, (i < n)%nat -> (j < m)%nat -> f i j = g i j) -> gradient_length n m dx dy f i j s -> gradient_length n m dx dy g i j s.
Proof.
  intros Hn Hm Hi Hj H (gx & gy & (A & B & C) & (D & E & F) & R0 & R1). exists gx, gy. split; [|split; [|auto]].
  - repeat split; intros; rewrite <- !H by lia; auto.
  - repeat split; intros; rewrite <- !H by lia; auto.
Qed.

(** * Units *)
Lemma metres_lat_eq a : metres_lat a = lat_metres a.
Proof. unfold metres_lat, lat_metres. lra. Qed.
Lemma radians_middle b : radians (mean_lat b) = middle b.
Proof. unfold radians, mean_lat, middle. field. Qed.
Lemma lat_metres_range a : 110571 < lat_metres a < 111695.
Proof.
  unfold lat_metres. pose proof (COS_bound (2 * a)). pose proof (COS_bound (4 * a)). pose proof (COS_bound (6 * a)). lra.
Qed.
Lemma spacing_eq d : spacing d = (x_step d, y_step d).
Proof.
  unfold spacing, x_step, y_step, x_unit, y_unit. destruct (d_geo d).
  - rewrite radians_middle, metres_lat_eq. reflexivity.
  - f_equal; ring.
Qed.
Lemma Q2R_pos q : (0 < q)%Q -> 0 < Q2R q.
Proof. intros H. apply Qlt_Rlt in H. rewrite RMicromega.Q2R_0 in H. exact H. Qed.
Lemma y_unit_pos d : 0 < y_unit d.
Proof. unfold y_unit. destruct (d_geo d); [|lra]. pose proof (lat_metres_range (middle (d_box d))). lra. Qed.
Lemma step_nz d n m : proper_dem d n m -> x_unit d <> 0 -> x_step d <> 0 /\ 0 < y_step d.
Proof.
  intros (_ & _ & _ & Hx & Hy & _) U. apply Q2R_pos in Hx, Hy. pose proof (y_unit_pos d). unfold x_step, y_step. split.
  - apply Rmult_integral_contrapositive_currified; lra.
  - nra.
Qed.
Lemma limited_eq h hi x : lower_to hi (raise_to h x) = limited h hi x.
Proof.
  unfold limited, raise_to, lower_to, Rmax, Rmin.
  destruct (Rlt_dec x h), (Rle_dec h x); destruct hi as [u|]; try lra;
    try (destruct (Rlt_dec u h), (Rle_dec u h); lra); destruct (Rlt_dec u x), (Rle_dec u x); lra.
Qed.
Lemma slope_size_eq d p z s : 0 <= s -> slope_size d p z s = slope_target d p z s.
Proof.
  intros Hs. unfold slope_size, slope_target, y_unit.
  assert (E : Rabs (if Rlt_dec (-1) z then -1 else z) = Rmax 1 (- z)).
  { unfold Rmax. destruct (Rlt_dec (-1) z), (Rle_dec 1 (- z)); try lra; [rewrite Rabs_left; lra|]. rewrite Rabs_left; lra. }
  rewrite E. replace (10 ^ 10) with 10000000000 by (simpl; ring). rewrite radians_middle, metres_lat_eq. destruct (d_geo d); [reflexivity|].
  unfold Rdiv. rewrite Rinv_1, Rmult_1_r. reflexivity.
Qed.
Lemma cut_off_spec c z n m : array z n m -> (1 <= n)%nat -> array (cut_off c z) n m /\
  forall i j, (i < n)%nat -> (j < m)%nat -> at_ (cut_off c z) i j = Rmin c (at_ z i j).
Proof.
  intros Hz Hn. unfold cut_off. rewrite (array_rows _ _ _ Hz), (array_cols _ _ _ Hz) by lia. split; [apply rtab_array|].
  intros i j Hi Hj. rewrite rtab_at by assumption. change (rcell z i j) with (at_ z i j). unfold Rmin.
  destruct (Rle_dec c (at_ z i j)); reflexivity.
Qed.
Lemma smallest_spec d lo : lowest d lo (smallest d lo).
Proof.
  destruct lo as [l|]; simpl; [reflexivity|]. unfold Rmax. destruct (Rle_dec (Q2R (d_dx d)) (Q2R (d_dy d))); repeat split; try lra; auto.
Qed.
Lemma built_local b v : ~ global_box b -> built_values b v = v.
Proof.
  intros H. unfold built_values. destruct (Qeq_bool (Qabs (b0 b)) 180 && Qeq_bool (Qabs (b1 b)) 180)%bool eqn:E; [|reflexivity].
  destruct H. apply andb_true_iff in E. destruct E as [E1 E2]. apply Qeq_bool_iff in E1, E2. split; assumption.
Qed.

(** * The slope sizing function *)
Lemma filt2_shape gauss z d wl kind f n m : keeps_shape gauss -> array z n m -> (1 <= n)%nat -> filt2 gauss z d wl kind = Ok f -> array f n m.
Proof.
  intros K Hz Hn. unfold filt2.
  assert (M : forall a b, array a n m -> array (minus a b) n m) by (intros a b Ha; apply minus_spec; assumption).
  assert (H : forall x w, array x n m -> array (highpass gauss x d w) n m) by (intros x w Hx; apply M; exact Hx).
  destruct ((lower kind =? "bandpass")%string || (lower kind =? "bandstop")%string)%bool.
  - destruct wl as [|[|u [|v [|]]]]; try discriminate. destruct (lower kind =? "bandpass")%string; intros [= <-].
    + apply K, H, Hz.
    + apply M, K, Hz.
  - destruct ((lower kind =? "lowpass")%string || (lower kind =? "highpass")%string)%bool; [|discriminate].
    destruct wl; [|discriminate]. intros [= <-]. destruct (lower kind =? "lowpass")%string; [apply K, Hz|apply H, Hz].
Qed.
Lemma used_unique d c n m a b : used_depths d c n m a -> used_depths d c n m b -> a = b.
Proof. intros (A & E) (B & F). apply (array_ext _ _ n m A B). intros i j Hi Hj. rewrite E, F by assumption. reflexivity. Qed.
Lemma cut_off_used d c n m : proper_dem d n m -> used_depths d c n m (cut_off c (d_z d)).
Proof. intros (Hz & Hn & _). apply cut_off_spec; [exact Hz|lia]. Qed.
Lemma not_rossby kind q name : (~ mentions "pass" kind -> True) -> (kind <> name \/ q <= 0) ->
  ((kind =? name)%string && (if Rlt_dec 0 q then true else false))%bool = false.
Proof.
  intros _ [H|H].
  - apply String.eqb_neq in H. rewrite H. reflexivity.
  - destruct (Rlt_dec 0 q); [lra|]. apply andb_false_r.
Qed.
Lemma mentions_not_rossby kind : mentions "pass" kind -> kind <> "barotropic"%string /\ kind <> "baroclinic"%string.
Proof. intros H. apply contains_iff in H. split; intros ->; vm_compute in H; discriminate. Qed.
Lemma source_slopes gauss d cutoff n m kind quotient cutoffs f : keeps_shape gauss -> proper_dem d n m -> x_unit d <> 0 ->
  slope_source gauss d cutoff n m kind quotient cutoffs f ->
  exists s, filtered_slopes gauss d kind quotient cutoffs (cut_off cutoff (d_z d)) = Ok s /\ array s n m /\
    forall i j, (i < n)%nat -> (j < m)%nat -> gradient_length n m (x_step d) (y_step d) (at_ f) i j (at_ s i j).
Proof.
  intros K Hd U Hs. pose proof (step_nz d n m Hd U) as [Sx Sy]. pose proof (cut_off_used d cutoff n m Hd) as C.
  destruct Hd as (Hz & Hn & Hm & _). unfold filtered_slopes. rewrite spacing_eq.
  destruct Hs as [((P & Q0) & F)|(P & z & F & E)].
  - rewrite (used_unique _ _ _ _ _ _ C F).
    rewrite (not_rossby kind quotient "barotropic"), (not_rossby kind quotient "baroclinic") by tauto.
    replace (contains "pass" kind) with false by (symmetry; apply not_true_is_false; rewrite contains_iff; exact P).
    apply slopes_spec; auto; [apply F|lra].
  - rewrite (used_unique _ _ _ _ _ _ C F). destruct (mentions_not_rossby kind P) as [N1 N2].
    rewrite (not_rossby kind quotient "barotropic"), (not_rossby kind quotient "baroclinic") by tauto.
    replace (contains "pass" kind) with true by (symmetry; apply contains_iff; exact P). rewrite E. cbn [bind].
    apply slopes_spec; auto; [|lra]. eapply filt2_shape; [exact K|apply F|lia|exact E].
Qed.
Lemma gradient_nonneg n m dx dy f i j s : gradient_length n m dx dy f i j s -> 0 <= s.
Proof. intros (gx & gy & _ & _ & H & _). exact H. Qed.
Definition slope_values d param hi h cutoff (bs : list (list R)) : list (list R) :=
  rtab (rrows (cut_off cutoff (d_z d))) (rcols (cut_off cutoff (d_z d)))
    (fun i j => lower_to hi (raise_to h (slope_size d param (rcell (cut_off cutoff (d_z d)) i j) (rcell bs i j)))).
Lemma slope_values_spec d n m param hi h cutoff bs f : proper_dem d n m ->
  (forall i j, (i < n)%nat -> (j < m)%nat -> gradient_length n m (x_step d) (y_step d) (at_ f) i j (at_ bs i j)) ->
  array (slope_values d param hi h cutoff bs) n m /\ forall i j, (i < n)%nat -> (j < m)%nat -> exists s,
    gradient_length n m (x_step d) (y_step d) (at_ f) i j s /\
    at_ (slope_values d param hi h cutoff bs) i j = limited h hi (slope_target d param (used_depth d cutoff i j) s).
Proof.
  intros Hd G. destruct (cut_off_used d cutoff n m Hd) as (A & C). destruct Hd as (Hz & Hn & _). unfold slope_values.
  rewrite (array_rows _ _ _ A), (array_cols _ _ _ A) by lia. split; [apply rtab_array|]. intros i j Hi Hj. exists (at_ bs i j). split; [auto|].
  rewrite rtab_at by assumption. rewrite limited_eq, slope_size_eq.
  - change rcell with at_. rewrite C by assumption. reflexivity.
  - change rcell with at_. apply (gradient_nonneg _ _ _ _ _ _ _ _ (G i j Hi Hj)).
Qed.
Lemma slope_fine gauss d n m param quotient lo hi cutoff kind cutoffs f : keeps_shape gauss -> proper_dem d n m -> x_unit d <> 0 ->
  slope_source gauss d cutoff n m kind quotient cutoffs f ->
  exists g h, slope_sizing gauss d param quotient lo hi cutoff kind cutoffs 1 = Ok g /\ lowest d lo h /\ same_lattice d g n m h /\ r_extra g = true /\
    forall i j, (i < n)%nat -> (j < m)%nat -> exists s, gradient_length n m (x_step d) (y_step d) (at_ f) i j s /\
      at_ (r_values g) i j = limited h hi (slope_target d param (used_depth d cutoff i j) s).
Proof.
  intros K Hd U Hs. destruct (source_slopes _ _ _ _ _ _ _ _ _ K Hd U Hs) as (bs & E & _ & G).
  destruct (slope_values_spec d n m param hi (smallest d lo) cutoff bs f Hd G) as (A & V).
  unfold slope_sizing. change (negb (Qle_bool 1 1) || negb (Qeq_bool (inject_Z (Qfloor 1)) 1))%bool with false. cbv zeta. rewrite E. cbn [bind].
  change (Qeq_bool 1 1) with true. cbv iota. fold (slope_values d param hi (smallest d lo) cutoff bs).
  eexists. exists (smallest d lo). split; [reflexivity|]. split; [apply smallest_spec|].
  destruct Hd as (_ & _ & _ & _ & _ & Hg). unfold same_lattice. cbn [r_box r_dx r_dy r_values r_hmin r_crs r_extra]. rewrite built_local by exact Hg.
  split; [repeat split; apply A|]. split; [reflexivity|]. exact V.
Qed.
(** Plane bathymetry below the cut-off, in a projected system and without filter. *)
Lemma slope_plane gauss d n m param quotient lo hi cutoff kind cutoffs a px py : keeps_shape gauss -> proper_dem d n m -> d_geo d = false ->
  unfiltered kind quotient -> cutoff <= -1 ->
  (forall i j, (i < n)%nat -> (j < m)%nat -> at_ (d_z d) i j = a + INR i * Q2R (d_dx d) * px + INR j * Q2R (d_dy d) * py /\ at_ (d_z d) i j <= cutoff) ->
  exists g h, slope_sizing gauss d param quotient lo hi cutoff kind cutoffs 1 = Ok g /\ lowest d lo h /\ same_lattice d g n m h /\
    forall i j, (i < n)%nat -> (j < m)%nat ->
      at_ (r_values g) i j = limited h hi (2 * PI / param * Rabs (at_ (d_z d) i j) / (sqrt (px * px + py * py) + 1 / 10 ^ 10)).
Proof.
  intros K Hd Hp Hk Hc Hz. assert (U : x_unit d <> 0) by (unfold x_unit; rewrite Hp; lra).
  destruct (slope_fine gauss d n m param quotient lo hi cutoff kind cutoffs (cut_off cutoff (d_z d)) K Hd U) as (g & h & E & L & S0 & _ & V).
  { left. split; [exact Hk|apply cut_off_used; exact Hd]. }
  exists g, h. split; [exact E|]. split; [exact L|]. split; [exact S0|]. intros i j Hi Hj. destruct (V i j Hi Hj) as (s & G & ->).
  pose proof (step_nz d n m Hd U) as [Sx Sy]. destruct (cut_off_used d cutoff n m Hd) as (A & C). destruct Hd as (_ & Hn & Hm & _).
  assert (Eu : x_step d = Q2R (d_dx d) /\ y_step d = Q2R (d_dy d)) by (unfold x_step, y_step, x_unit, y_unit; rewrite Hp; split; ring).
  assert (M : forall i j, (i < n)%nat -> (j < m)%nat -> used_depth d cutoff i j = at_ (d_z d) i j).
  { intros k l Hk' Hl. unfold used_depth. apply Rmin_right. apply Hz; assumption. }
  assert (Es : s = sqrt (px * px + py * py)).
  { eapply (gradient_unique n m (x_step d) (y_step d)); [exact Hi|exact Hj|exact Sx|lra|exact G|].
    apply (gradient_plane_length n m _ _ _ i j a); auto; [lra|]. intros k l Hk' Hl. rewrite C, M by assumption. destruct Eu as [-> ->]. apply Hz; assumption. }
  subst s. rewrite M by assumption. unfold slope_target, y_unit. rewrite Hp. destruct (Hz i j Hi Hj) as [_ Hl].
  replace (Rmax 1 (- at_ (d_z d) i j)) with (Rabs (at_ (d_z d) i j)) by (rewrite Rabs_left, Rmax_right by lra; reflexivity).
  f_equal. unfold Rdiv. rewrite Rinv_1, Rmult_1_r. reflexivity.
Qed.

(** All cells of an array. *)
Definition each (P : R -> Prop) (v : list (list R)) : Prop := Forall (Forall P) v.
Lemma rtab_each (P : R -> Prop) n m f : (forall i j, (i < n)%nat -> (j < m)%nat -> P (f i j)) -> each P (rtab n m f).
Proof.
  intros H. apply Forall_forall. intros r Hr. unfold rtab in Hr. apply in_map_iff in Hr. destruct Hr as (i & <- & Hi). apply in_seq in Hi.
  apply Forall_forall. intros x Hx. apply in_map_iff in Hx. destruct Hx as (j & <- & Hj). apply in_seq in Hj. apply H; lia.
Qed.
Lemma swap_ends_In {A} (l : list A) x : In x (swap_ends l) -> In x l.
Proof.
  destruct l as [|a l]; [intros []|]. unfold swap_ends. destruct (rev l) as [|b k] eqn:E; [destruct l; [auto|]|].
  - simpl in E. destruct (rev l); discriminate.
  - assert (El : l = rev k ++ [b]) by (rewrite <- (rev_involutive l), E; reflexivity). subst l. simpl. rewrite !in_app_iff. simpl. tauto.
Qed.
Lemma built_each (P : R -> Prop) b v : each P v -> each P (built_values b v).
Proof.
  intros H. unfold built_values. destruct (_ && _)%bool; [|exact H]. unfold each in *. rewrite Forall_forall in *. intros r Hr. apply H, swap_ends_In, Hr.
Qed.
Lemma limited_in h hi x : in_limits h hi (limited h hi x).
Proof.
  unfold in_limits, limited. pose proof (Rmax_l h x). destruct hi as [u|]; [|assumption].
  pose proof (Rmin_l u (Rmax h x)). split; [assumption|]. intros. apply Rmin_glb; lra.
Qed.
Lemma slope_bounds gauss d param quotient lo hi cutoff kind cutoffs coarsen g :
  slope_sizing gauss d param quotient lo hi cutoff kind cutoffs coarsen = Ok g ->
  lowest d lo (r_hmin g) /\ Forall (Forall (in_limits (r_hmin g) hi)) (r_values g).
Proof.
  unfold slope_sizing. destruct (_ || _)%bool; [discriminate|]. cbv zeta. destruct (filtered_slopes _ _ _ _ _ _) as [bs|e|]; [|discriminate|discriminate].
  cbn [bind]. destruct (Qeq_bool coarsen 1).
  - intros [= <-]. cbn [r_hmin r_values]. split; [apply smallest_spec|]. apply built_each, rtab_each. intros i j _ _. rewrite limited_eq. apply limited_in.
  - destruct (boxes_overlap _ _); [|discriminate]. intros [= <-]. cbn [r_hmin r_values]. split; [apply smallest_spec|]. apply built_each, rtab_each.
    intros i j _ _. rewrite limited_eq. apply limited_in.
Qed.
Lemma limited_idem h hi x : limited h hi (limited h hi x) = limited h hi x.
Proof.
  unfold limited. destruct hi as [u|]; [|apply Rmax_right, Rmax_l].
  destruct (Rle_dec h u) as [H|H].
  - rewrite (Rmax_right h (Rmin u (Rmax h x))); [apply Rmin_right, Rmin_l|]. apply Rmin_glb; [exact H|apply Rmax_l].
  - pose proof (Rmax_l h x). rewrite (Rmin_left u (Rmax h x)) by lra. apply Rmin_left. pose proof (Rmax_l h u). lra.
Qed.
Lemma near_node lo d n k x : (0 < d)%Q -> (2 <= n)%nat -> (k < n)%nat -> (x == node lo d k)%Q -> near_index lo d n x = k.
Proof.
  intros Hd Hn Hk Hx. destruct (near_index_spec lo d n x Hd Hn) as (A & B). specialize (B k Hk).
  set (a := near_index lo d n x) in *. clearbody a.
  assert (Z0 : (Qabs (x - node lo d k) == 0)%Q) by (rewrite Hx; setoid_replace (node lo d k - node lo d k)%Q with 0%Q by ring; reflexivity).
  assert (Z1 : (x - node lo d a == 0)%Q).
  { assert (H : (Qabs (x - node lo d a) <= 0)%Q) by (eapply Qle_trans; [exact B|rewrite Z0; apply Qle_refl]).
    apply Qabs_Qle_condition in H. destruct H as [H1 H2]. apply Qle_antisym; [exact H2|]. eapply Qle_trans; [|exact H1]. discriminate. }
  assert (E : ((inject_Z (Z.of_nat k) - inject_Z (Z.of_nat a)) * d == 0)%Q).
  { unfold node in *. rewrite Hx in Z1. rewrite <- Z1. ring. }
  apply Qmult_integral in E. destruct E as [E|E]; [|rewrite E in Hd; discriminate].
  rewrite <- inject_Z_minus in E. change 0%Q with (inject_Z 0) in E. apply (proj1 (inject_Z_injective _ _)) in E. lia.
Qed.
Lemma coarse_ok c : (1 <= c)%nat ->
  (negb (Qle_bool 1 (inject_Z (Z.of_nat c))) || negb (Qeq_bool (inject_Z (Qfloor (inject_Z (Z.of_nat c)))) (inject_Z (Z.of_nat c))))%bool = false.
Proof.
  intros H. rewrite Qfloor_Z. replace (Qle_bool 1 (inject_Z (Z.of_nat c))) with true.
  - replace (Qeq_bool (inject_Z (Z.of_nat c)) (inject_Z (Z.of_nat c))) with true; [reflexivity|]. symmetry. apply Qeq_bool_iff. reflexivity.
  - symmetry. apply Qle_bool_iff. change 1%Q with (inject_Z 1). rewrite <- Zle_Qle. lia.
Qed.
Lemma steps_count lo hi d : (0 < d)%Q -> (lo <= hi)%Q -> steps_in lo hi d (Z.to_nat (Qfloor ((hi - lo) / d) + 1)).
Proof.
  intros Hd Hl. set (q := ((hi - lo) / d)%Q).
  assert (Hq : (q * d == hi - lo)%Q) by (unfold q; field; intros E; rewrite E in Hd; discriminate).
  assert (P : (0 <= q)%Q) by (unfold q; apply Qle_shift_div_l; [exact Hd|]; rewrite Qmult_0_l; apply -> Qle_minus_iff; exact Hl).
  assert (F : (0 <= Qfloor q)%Z) by (apply (Qfloor_resp_le 0 q P)).
  pose proof (Qfloor_le q) as A. pose proof (Qlt_floor q) as B. repeat split.
  - lia.
  - replace (Z.of_nat (Z.to_nat (Qfloor q + 1) - 1)) with (Qfloor q) by lia. rewrite <- Hq. apply Qmult_le_compat_r; [exact A|apply Qlt_le_weak; exact Hd].
  - replace (Z.of_nat (Z.to_nat (Qfloor q + 1))) with (Qfloor q + 1)%Z by lia. rewrite <- Hq. apply Qmult_lt_compat_r; [exact Hd|exact B].
Qed.
Lemma slope_coarse gauss d n m param quotient lo hi cutoff kind cutoffs c g : proper_dem d n m -> (b0 (d_box d) < b1 (d_box d))%Q ->
  (b2 (d_box d) < b3 (d_box d))%Q -> (2 <= c)%nat ->
  slope_sizing gauss d param quotient lo hi cutoff kind cutoffs 1 = Ok g ->
  exists g' n' m', slope_sizing gauss d param quotient lo hi cutoff kind cutoffs (inject_Z (Z.of_nat c)) = Ok g' /\
    r_box g' = d_box d /\ (r_dx g' == inject_Z (Z.of_nat c) * d_dx d)%Q /\ (r_dy g' == inject_Z (Z.of_nat c) * d_dy d)%Q /\
    r_hmin g' = r_hmin g /\ r_crs g' = r_crs g /\ array (r_values g') n' m' /\
    steps_in (b0 (d_box d)) (b1 (d_box d)) (r_dx g') n' /\ steps_in (b2 (d_box d)) (b3 (d_box d)) (r_dy g') m' /\
    forall i j, (i < n')%nat -> (j < m')%nat -> (i * c < n)%nat -> (j * c < m)%nat -> at_ (r_values g') i j = at_ (r_values g) (i * c) (j * c).
Proof.
  intros Hd Hx Hy Hc. unfold slope_sizing. change (negb (Qle_bool 1 1) || negb (Qeq_bool (inject_Z (Qfloor 1)) 1))%bool with false.
  rewrite coarse_ok by lia. cbv zeta. destruct (filtered_slopes _ _ _ _ _ _) as [bs|e|]; [|discriminate|discriminate]. cbn [bind].
  change (Qeq_bool 1 1) with true. cbv iota. fold (slope_values d param hi (smallest d lo) cutoff bs).
  replace (Qeq_bool (inject_Z (Z.of_nat c)) 1) with false.
  2: { symmetry. apply not_true_is_false. rewrite Qeq_bool_iff. change 1%Q with (inject_Z 1). rewrite inject_Z_injective. lia. }
  replace (boxes_overlap (d_box d) (d_box d)) with true by (symmetry; apply boxes_meet_iff; unfold boxes_meet; tauto).
  intros [= <-]. eexists _, _, _. split; [reflexivity|]. cbn [r_box r_dx r_dy r_values r_hmin r_crs].
  destruct (cut_off_used d cutoff n m Hd) as (A & _). destruct Hd as (_ & Hn & Hm & Dx & Dy & Hg). rewrite !built_local by exact Hg.
  assert (Cp : (0 < inject_Z (Z.of_nat c))%Q) by (change 0%Q with (inject_Z 0); rewrite <- Zlt_Qlt; lia).
  assert (Px : (0 < d_dx d * inject_Z (Z.of_nat c))%Q) by (apply Qmult_lt_0_compat; assumption).
  assert (Py : (0 < d_dy d * inject_Z (Z.of_nat c))%Q) by (apply Qmult_lt_0_compat; assumption).
  split; [reflexivity|]. split; [ring|]. split; [ring|]. split; [reflexivity|]. split; [reflexivity|]. split; [apply rtab_array|].
  split; [apply steps_count; [exact Px|apply Qlt_le_weak; exact Hx]|].
  pose proof (steps_count (b2 (d_box d)) (b3 (d_box d)) _ Py (Qlt_le_weak _ _ Hy)) as Sm.
  assert (Ea : Z.abs (Qfloor ((b3 (d_box d) - b2 (d_box d)) / (d_dy d * inject_Z (Z.of_nat c))) + 1) =
               (Qfloor ((b3 (d_box d) - b2 (d_box d)) / (d_dy d * inject_Z (Z.of_nat c))) + 1)%Z).
  { destruct Sm as (Sm & _). apply Z.abs_eq. lia. }
  split; [rewrite Ea; exact Sm|]. intros i j Hi Hj Hic Hjc. rewrite rtab_at by assumption. unfold coarse_cell.
  assert (Av : array (slope_values d param hi (smallest d lo) cutoff bs) n m).
  { unfold slope_values. rewrite (array_rows _ _ _ A), (array_cols _ _ _ A) by lia. apply rtab_array. }
  rewrite (array_rows _ _ _ Av), (array_cols _ _ _ Av) by lia. rewrite (Qabs_eq (d_dy d)) by exact Dy.
  rewrite (near_node _ _ n (i * c)), (near_node _ _ m (j * c)); auto.
  - rewrite limited_eq. unfold slope_values. rewrite (array_rows _ _ _ A), (array_cols _ _ _ A) by lia.
    change rcell with at_. rewrite !rtab_at by assumption. rewrite limited_eq. apply limited_idem.
  - unfold node. rewrite (Qabs_eq (d_dy d * inject_Z (Z.of_nat c))) by exact Py. rewrite Nat2Z.inj_mul, inject_Z_mult. ring.
  - unfold node. rewrite Nat2Z.inj_mul, inject_Z_mult. ring.
Qed.
Lemma slope_coarse_flag gauss d param quotient lo hi cutoff kind cutoffs c g : ~ (c == 1)%Q ->
  slope_sizing gauss d param quotient lo hi cutoff kind cutoffs c = Ok g -> r_extra g = false.
Proof.
  intros Hc. unfold slope_sizing. destruct (_ || _)%bool; [discriminate|]. cbv zeta. destruct (filtered_slopes _ _ _ _ _ _) as [bs|e|]; [|discriminate|discriminate].
  cbn [bind]. replace (Qeq_bool c 1) with false by (symmetry; apply not_true_is_false; rewrite Qeq_bool_iff; exact Hc).
  destruct (boxes_overlap _ _); [|discriminate]. intros [= <-]. reflexivity.
Qed.
Lemma slope_refused gauss d param quotient lo hi cutoff kind cutoffs c : (c < 1)%Q \/ (forall k, ~ (c == inject_Z k)%Q) ->
  slope_sizing gauss d param quotient lo hi cutoff kind cutoffs c = Raise ValueError.
Proof.
  intros H. unfold slope_sizing. replace (_ || _)%bool with true; [reflexivity|]. symmetry. apply orb_true_iff. destruct H as [H|H].
  - left. apply negb_true_iff. apply not_true_is_false. rewrite Qle_bool_iff. apply Qlt_not_le. exact H.
  - right. apply negb_true_iff. apply not_true_is_false. rewrite Qeq_bool_iff. intros E. apply (H (Qfloor c)). symmetry. exact E.
Qed.

(** * The Rossby radius filter *)
Lemma slice_len {A} (l : list A) lo hi : (hi <= List.length l)%nat -> List.length (slice l lo hi) = (hi - lo)%nat.
Proof. intros H. unfold slice. rewrite firstn_length, skipn_length. lia. Qed.
Lemma slice_nil {A} lo hi : slice (@nil A) lo hi = [].
Proof. unfold slice. rewrite skipn_nil. apply firstn_nil. Qed.
Lemma columns_spec z n m lo hi : array z n m -> (hi <= m)%nat -> array (columns z lo hi) n (hi - lo) /\
  forall i j, (i < n)%nat -> (j < hi - lo)%nat -> at_ (columns z lo hi) i j = at_ z i (lo + j).
Proof.
  intros (L & F) H. unfold columns. split.
  - split; [rewrite map_length; exact L|]. rewrite Forall_forall in *. intros r Hr. apply in_map_iff in Hr. destruct Hr as (r0 & <- & Hr0).
    apply slice_len. rewrite (F _ Hr0). exact H.
  - intros i j Hi Hj. unfold at_. rewrite <- (slice_nil lo hi) at 1. rewrite (map_nth (fun r => slice r lo hi)). apply P_Dem.nth_slice. lia.
Qed.
Lemma beside_spec a b n k l : array a n k -> array b n l -> array (beside a b) n (k + l) /\
  forall i j, (i < n)%nat -> (j < k + l)%nat -> at_ (beside a b) i j = if (j <? k)%nat then at_ a i j else at_ b i (j - k).
Proof.
  intros (La & Fa) (Lb & Fb). unfold beside. rewrite Forall_forall in Fa, Fb. split.
  - split; [rewrite map_length, combine_length; lia|]. apply Forall_forall. intros r Hr. apply in_map_iff in Hr. destruct Hr as ((x, y) & <- & Hr).
    cbn [fst snd]. rewrite app_length. rewrite (Fa x), (Fb y); [reflexivity|eapply in_combine_r; eauto|eapply in_combine_l; eauto].
  - intros i j Hi Hj. unfold at_. rewrite (nth_map_combine (fun p => fst p ++ snd p) a b i [] []) by lia. cbn [fst snd].
    assert (Lr : List.length (nth i a []) = k) by (apply Fa, nth_In; lia).
    destruct (j <? k)%nat eqn:E; [apply Nat.ltb_lt in E; rewrite app_nth1 by lia; reflexivity|]. apply Nat.ltb_ge in E.
    rewrite app_nth2 by lia. rewrite Lr. reflexivity.
Qed.
Lemma Qnat_pos k : (1 <= k)%nat -> (0 < inject_Z (Z.of_nat k))%Q.
Proof. intros H. change 0%Q with (inject_Z 0). rewrite <- Zlt_Qlt. lia. Qed.
Section Rossby.
  Variable gauss : list (list R) -> R -> list (list R).
  Variable d : dem.
  Variables sx sy quotient : R.
  Variable barot : bool.
  Variable z : list (list R).
  Variables n m : nat.
  Hypothesis Hz : array z n m.
  Hypothesis Hn : (2 <= n)%nat.
  Hypothesis Hm : (1 <= m)%nat.
  Hypothesis Hx : sx <> 0.
  Hypothesis Hy : sy <> 0.
  Notation cls := (class_of d sy quotient barot z).
  Lemma rows_n : rows z = n. Proof. apply (array_rows _ _ _ Hz). Qed.
  Lemma cols_m : cols z = m. Proof. apply (array_cols _ _ _ Hz). lia. Qed.
  Lemma field_ok s e k f : class_field gauss d sy z s e k = Ok f -> f = columns z s e.
  Proof.
    unfold class_field. destruct (0 <? k)%Z; [|intros [= <-]; reflexivity].
    destruct (wraps_around d z); [discriminate|]. destruct (at_pole d z e _); [discriminate|].
    cbv zeta. cbn [bind]. destruct (filt2 _ _ _ _ _); cbn [bind]; try discriminate. intros [= <-]. reflexivity.
  Qed.
  Lemma class_range i j : (0 <= cls i j <= 10)%Z.
  Proof. unfold class_of, length_class. lia. Qed.
  (** After the classes ks of the block: the unfiltered slope where the class is among ks. *)
  Lemma loop_ok s e ks : (s <= e <= m)%nat -> forall bst r, class_loop gauss d sx sy quotient barot z s e ks bst = Ok r -> array bst n (e - s) ->
    array r n (e - s) /\
    forall i j, (i < n)%nat -> (j < e - s)%nat ->
      (In (cls i (s + j)) ks -> gradient_length n (e - s) sx sy (fun k l => at_ z k (s + l)) i j (at_ r i j)) /\
      (~ In (cls i (s + j)) ks -> at_ r i j = at_ bst i j).
  Proof.
    intros He. induction ks as [|k ks IH]; intros bst r; cbn [class_loop].
    - intros [= <-] Hb. split; [exact Hb|]. intros i j _ _. split; [intros []|reflexivity].
    - destruct (class_field _ _ _ _ _ _ _) as [f|x|] eqn:Ef; cbn [bind]; try discriminate. apply field_ok in Ef. subst f.
      destruct (columns_spec z n m s e Hz) as (Ca & Cc); [lia|].
      destruct (slopes (columns z s e) sx sy) as [sl|x|] eqn:Es; cbn [bind]; try discriminate. rewrite rows_n. intros H Hb.
      assert (W : (2 <= e - s)%nat).
      { destruct (Nat.lt_ge_cases (e - s) 2) as [L|L]; [|exact L]. rewrite (slopes_narrow _ _ _ sx sy Ca ltac:(lia) L) in Es. discriminate. }
      destruct (slopes_spec _ _ _ sx sy Ca ltac:(lia) W Hx Hy) as (sl' & E' & Sa & Sg). rewrite Es in E'. injection E' as <-.
      destruct (IH _ _ H (rtab_array _ _ _)) as (Ra & Rc). split; [exact Ra|]. intros i j Hi Hj. destruct (Rc i j Hi Hj) as (R1 & R2).
      rewrite rtab_at in R2 by assumption. split.
      + intros I. destruct (in_dec Z.eq_dec (cls i (s + j)%nat) ks) as [J|J]; [auto|]. destruct I as [I|I]; [|contradiction].
        rewrite (R2 J), <- I, Z.eqb_refl. change rcell with at_. eapply gradient_ext; [lia|exact W|exact Hi|exact Hj| |apply Sg; assumption].
        intros a b Ha Hb'. apply Cc; assumption.
      + intros I. rewrite R2 by (intros J; apply I; right; exact J).
        replace (cls i (s + j)%nat =? k)%Z with false; [reflexivity|]. symmetry. apply Z.eqb_neq. intros E. apply I. left. auto.
  Qed.
  Lemma classes_all s e i j : (i < n)%nat -> (s <= j < e)%nat -> In (cls i j) (classes d sy quotient barot z s e).
  Proof.
    intros Hi Hj. unfold classes. apply filter_In. split.
    - pose proof (class_range i j) as H.
      assert (D : (cls i j = 0 \/ cls i j = 1 \/ cls i j = 2 \/ cls i j = 3 \/ cls i j = 4 \/ cls i j = 5 \/ cls i j = 6 \/ cls i j = 7 \/ cls i j = 8 \/ cls i j = 9 \/ cls i j = 10)%Z) by lia.
      simpl. intuition congruence.
    - unfold present. apply existsb_exists. exists i. rewrite rows_n. split; [apply in_seq; lia|]. apply existsb_exists. exists j. split; [apply in_seq; lia|].
      apply Z.eqb_refl.
  Qed.
  Lemma loop_wide s e ks bst r : (s <= e <= m)%nat -> ks <> [] -> class_loop gauss d sx sy quotient barot z s e ks bst = Ok r -> (2 <= e - s)%nat.
  Proof.
    intros He Hk. destruct ks as [|k ks]; [congruence|]. cbn [class_loop].
    destruct (class_field _ _ _ _ _ _ _) as [f|x|] eqn:Ef; cbn [bind]; try discriminate. apply field_ok in Ef. subst f.
    destruct (columns_spec z n m s e Hz) as (Ca & Cc); [lia|].
    destruct (Nat.lt_ge_cases (e - s) 2) as [L|L]; [|intros _; exact L]. rewrite (slopes_narrow _ _ _ sx sy Ca ltac:(lia) L). discriminate.
  Qed.
  Lemma block_ok s e r : (s <= e <= m)%nat ->
    class_loop gauss d sx sy quotient barot z s e (classes d sy quotient barot z s e) (rtab (rows z) (e - s) (fun _ _ => 0)) = Ok r ->
    array r n (e - s) /\ forall i j, (i < n)%nat -> (j < e - s)%nat -> gradient_length n (e - s) sx sy (fun k l => at_ z k (s + l)) i j (at_ r i j).
  Proof.
    intros He H. rewrite rows_n in H. destruct (loop_ok s e _ He _ _ H (rtab_array _ _ _)) as (A & C). split; [exact A|]. intros i j Hi Hj.
    apply (C i j Hi Hj). apply classes_all; lia.
  Qed.
  Notation w := (block_width d z).
  Definition done (s : nat) (bs : list (list R)) : Prop :=
    array bs n s /\ forall i j, (i < n)%nat -> (j < s)%nat -> exists s' e, block_of w m j s' e /\ (2 <= e - s')%nat /\
      gradient_length n (e - s') sx sy (fun k l => at_ z k (s' + l)) i (j - s') (at_ bs i j).
  Lemma blocks_ok count : forall k bs r, (k * w <= m)%nat ->
    block_loop gauss d sx sy quotient barot z count (k * w) bs = Ok r -> done (k * w) bs -> done (Nat.min m ((k + count) * w)) r.
  Proof.
    induction count as [|c IH]; intros k bs r Hk; cbn [block_loop].
    - intros [= <-] D. rewrite Nat.add_0_r. replace (Nat.min m (k * w)) with (k * w)%nat by lia. exact D.
    - rewrite cols_m. set (e := Nat.min m (k * w + w)).
      destruct (class_loop _ _ _ _ _ _ _ _ _ _ _) as [bst|x|] eqn:E; cbn [bind]; try discriminate. intros H D.
      destruct (block_ok (k * w) e bst) as (Ba & Bc); [unfold e; lia|exact E|].
      destruct D as (Da & Dc). destruct (beside_spec bs bst n (k * w) (e - k * w) Da Ba) as (Na & Nc).
      assert (Le : (k * w + (e - k * w) = e)%nat) by (unfold e; lia). rewrite Le in *.
      assert (D' : done e (beside bs bst)).
      { split; [exact Na|]. intros i j Hi Hj. rewrite (Nc i j Hi Hj). destruct (j <? k * w)%nat eqn:Ej.
        - apply Nat.ltb_lt in Ej. apply Dc; assumption.
        - apply Nat.ltb_ge in Ej. exists (k * w)%nat, e. split; [|split; [|apply Bc; lia]].
          + split; [exists k; reflexivity|]. split; [lia|reflexivity].
          + eapply (loop_wide (k * w) e); [unfold e; lia| |exact E]. intros N. pose proof (classes_all (k * w) e i j Hi) as I. rewrite N in I. apply I. lia. }
      destruct (Nat.le_gt_cases (S k * w) m) as [L|L].
      + assert (Ee : e = (S k * w)%nat) by (unfold e; lia). rewrite Ee in H, D'. replace (k + S c)%nat with (S k + c)%nat by lia. apply (IH (S k)) with (bs := beside bs bst); assumption.
      + (* the columns are used up *)
        assert (Ee : e = m) by (unfold e; lia). rewrite Ee in H, D'. replace (Nat.min m ((k + S c) * w)) with m by nia.
        clear - H D' Hz Hn Hm. revert H D'. generalize (beside bs bst) as b. induction c as [|c IHc]; intros b; cbn [block_loop].
        * intros [= <-] D'. exact D'.
        * rewrite cols_m. replace (Nat.min m (m + w)) with m by lia. rewrite Nat.sub_diag.
          assert (Ec : classes d sy quotient barot z m m = []).
          { unfold classes, present. rewrite Nat.sub_diag. cbn [seq existsb]. rewrite rows_n.
            assert (Ex : forall l : list nat, existsb (fun _ : nat => false) l = false) by (induction l; auto).
            cbn [filter]. rewrite !Ex. reflexivity. }
          rewrite Ec. cbn [class_loop bind]. intros H D'. apply (IHc _ H). destruct D' as (Da & Dc).
          rewrite rows_n.
          destruct (beside_spec b (rtab n 0 (fun _ _ => 0)) n m 0 Da (rtab_array _ _ _)) as (Na & Nc).
          rewrite Nat.add_0_r in Na, Nc. split; [exact Na|]. intros i j Hi Hj. rewrite (Nc i j Hi Hj). replace (j <? m)%nat with true by (symmetry; apply Nat.ltb_lt; exact Hj).
          apply Dc; assumption.
  Qed.
  Hypothesis Hh : (b2 (d_box d) < b3 (d_box d))%Q.
  Lemma width_spec : block_size n m (b3 (d_box d) - b2 (d_box d)) w /\ (1 <= w)%nat.
  Proof.
    unfold block_size, block_width. rewrite rows_n, cols_m. set (q := Qmin _ _).
    assert (P : (0 < q)%Q).
    { unfold q. apply Q.min_glb_lt.
      - apply Qlt_shift_div_l; [apply Qnat_pos; lia|]. rewrite Qmult_0_l. reflexivity.
      - apply Qlt_shift_div_l; [apply -> Qlt_minus_iff; exact Hh|]. rewrite Qmult_0_l. apply Qmult_lt_0_compat; [reflexivity|apply Qnat_pos; lia]. }
    pose proof (Qle_ceiling q) as A. pose proof (Qceiling_lt q) as B.
    assert (C : (0 < Qceiling q)%Z) by (rewrite Zlt_Qlt; eapply Qlt_le_trans; [exact P|exact A]).
    rewrite Z2Nat.id by lia. split; [|lia]. split; [|exact A]. rewrite inject_Z_minus in B. exact B.
  Qed.
  Lemma blocks_enough : (m <= number_of_blocks d z * w)%nat.
  Proof.
    destruct width_spec as (_ & Hw). unfold number_of_blocks. rewrite cols_m. set (q := (_ / _)%Q).
    pose proof (Qle_ceiling q) as A. pose proof (Qnat_pos w Hw) as P.
    assert (E : (q * inject_Z (Z.of_nat w) == inject_Z (Z.of_nat m))%Q) by (unfold q; field; intros Z0; rewrite Z0 in P; discriminate).
    assert (C : (0 <= Qceiling q)%Z).
    { apply (Qceiling_resp_le 0 q). unfold q. apply Qle_shift_div_l; [exact P|]. rewrite Qmult_0_l. apply Qlt_le_weak, Qnat_pos. lia. }
    assert (L : (inject_Z (Z.of_nat m) <= inject_Z (Qceiling q * Z.of_nat w))%Q).
    { rewrite inject_Z_mult, <- E. apply Qmult_le_compat_r; [exact A|apply Qlt_le_weak; exact P]. }
    rewrite <- Zle_Qle in L. apply Nat2Z.inj_le. rewrite Nat2Z.inj_mul, Z2Nat.id by exact C. exact L.
  Qed.
  Lemma rossby_ok bs : rossby_filter gauss d sx sy quotient barot z = Ok bs -> done m bs.
  Proof.
    unfold rossby_filter. rewrite rows_n. intros H. change 0%nat with (0 * w)%nat in H. apply (blocks_ok _ 0) in H.
    - rewrite Nat.add_0_l in H. pose proof blocks_enough. replace (Nat.min m (number_of_blocks d z * w)) with m in H by lia. exact H.
    - lia.
    - split.
      + split; [apply repeat_length|]. apply Forall_forall. intros r Hr. apply repeat_spec in Hr. subst. reflexivity.
      + intros i j _ Hj. lia.
  Qed.
End Rossby.
Lemma block_unique w m j s e s' e' : block_of w m j s e -> block_of w m j s' e' -> s = s' /\ e = e'.
Proof.
  intros ((k & ->) & Hj & He) ((k' & ->) & Hj' & He').
  assert (k = k') by nia. subst k'. split; congruence.
Qed.
Lemma rossby_slopes gauss d sx sy quotient barot z n m bs : array z n m -> (2 <= n)%nat -> (1 <= m)%nat -> sx <> 0 -> sy <> 0 ->
  (b2 (d_box d) < b3 (d_box d))%Q -> rossby_filter gauss d sx sy quotient barot z = Ok bs ->
  array bs n m /\ exists w, block_size n m (b3 (d_box d) - b2 (d_box d)) w /\
    forall i j, (i < n)%nat -> (j < m)%nat -> exists s e, block_of w m j s e /\ (2 <= e - s)%nat /\
      gradient_length n (e - s) sx sy (fun k l => at_ z k (s + l)) i (j - s) (at_ bs i j).
Proof.
  intros Hz Hn Hm Hx Hy Hh E. destruct (rossby_ok gauss d sx sy quotient barot z n m Hz Hn Hm Hx Hy Hh bs E) as (A & C).
  split; [exact A|]. exists (block_width d z). split; [apply (width_spec d z n m Hz Hn Hm Hh)|exact C].
Qed.
Lemma size_unique n m h w w' : block_size n m h w -> block_size n m h w' -> w = w'.
Proof.
  unfold block_size. set (q := Qmin _ _). intros (A & B) (A' & B').
  assert (H : (inject_Z (Z.of_nat w) - 1 < inject_Z (Z.of_nat w'))%Q) by (eapply Qlt_le_trans; [exact A|exact B']).
  assert (H' : (inject_Z (Z.of_nat w') - 1 < inject_Z (Z.of_nat w))%Q) by (eapply Qlt_le_trans; [exact A'|exact B]).
  change 1%Q with (inject_Z 1) in H, H'. rewrite <- inject_Z_minus, <- Zlt_Qlt in H, H'. lia.
Qed.
Lemma rossby_no_smoothing gauss gauss' d sx sy q q' barot barot' z n m bs bs' : array z n m -> (2 <= n)%nat -> (1 <= m)%nat -> sx <> 0 -> sy <> 0 ->
  (b2 (d_box d) < b3 (d_box d))%Q -> rossby_filter gauss d sx sy q barot z = Ok bs -> rossby_filter gauss' d sx sy q' barot' z = Ok bs' -> bs = bs'.
Proof.
  intros Hz Hn Hm Hx Hy Hh E E'.
  destruct (rossby_slopes _ _ _ _ _ _ _ _ _ _ Hz Hn Hm Hx Hy Hh E) as (A & w & W & C).
  destruct (rossby_slopes _ _ _ _ _ _ _ _ _ _ Hz Hn Hm Hx Hy Hh E') as (A' & w' & W' & C').
  rewrite <- (size_unique _ _ _ _ _ W W') in C'. apply (array_ext _ _ n m A A'). intros i j Hi Hj.
  destruct (C i j Hi Hj) as (s & e & B & L & G). destruct (C' i j Hi Hj) as (s' & e' & B' & _ & G').
  destruct (block_unique _ _ _ _ _ _ _ B B') as [<- <-]. destruct B as (_ & B & _).
  eapply gradient_unique; [exact Hi| |exact Hx|exact Hy|exact G|exact G']. lia.
Qed.
Lemma block_step w m k : (1 <= w)%nat -> (k * w < m)%nat -> block_of w m (k * w) (k * w) (Nat.min m (k * w + w)).
Proof. intros Hw Hk. split; [exists k; reflexivity|]. split; [lia|reflexivity]. Qed.
(** Blocks of at least two columns, no wrap-around and no pole: it returns. *)
Lemma rossby_returns gauss d sx sy quotient barot z n m : array z n m -> (2 <= n)%nat -> (1 <= m)%nat -> sx <> 0 -> sy <> 0 ->
  (b2 (d_box d) < b3 (d_box d))%Q ->
  (b0 (d_box d) + inject_Z (Z.of_nat (n - 1)) * d_dx d <= 179)%Q ->
  (b2 (d_box d) + inject_Z (Z.of_nat (m - 1)) * Qabs (d_dy d) <= 89)%Q ->
  (forall w j s e, block_size n m (b3 (d_box d) - b2 (d_box d)) w -> (j < m)%nat -> block_of w m j s e -> (2 <= e - s)%nat) ->
  exists bs, rossby_filter gauss d sx sy quotient barot z = Ok bs.
Proof.
  intros Hz Hn Hm Hx Hy Hh Hw Hp Hb. pose proof (rows_n z n m Hz) as Rn. pose proof (cols_m z n m Hz Hn ltac:(lia)) as Cm.
  assert (F : forall s e k, (s <= e <= m)%nat -> (2 <= e - s)%nat -> class_field gauss d sy z s e k = Ok (columns z s e)).
  { intros s e k He L. unfold class_field. destruct (0 <? k)%Z; [|reflexivity].
    replace (wraps_around d z) with false.
    2: { symmetry. unfold wraps_around. rewrite Rn. cbv zeta. apply orb_false_iff. split; apply andb_false_iff; left; apply negb_false_iff, Qle_bool_iff;
         [exact Hw|eapply Qle_trans; [exact Hw|discriminate]]. }
    replace (at_pole d z e (Z.to_nat (2 ^ (k - 1)))) with false.
    2: { symmetry. unfold at_pole. rewrite Cm. apply andb_false_iff. left. apply negb_false_iff, Qle_bool_iff. exact Hp. }
    reflexivity. }
  assert (L : forall s e ks bst, (s <= e <= m)%nat -> (2 <= e - s)%nat -> exists r, class_loop gauss d sx sy quotient barot z s e ks bst = Ok r).
  { intros s e ks. induction ks as [|k ks IH]; intros bst He W; cbn [class_loop]; [eexists; reflexivity|]. rewrite F by assumption. cbn [bind].
    destruct (columns_spec z n m s e Hz) as (Ca & _); [lia|].
    destruct (slopes_spec _ _ _ sx sy Ca Hn W Hx Hy) as (sl & -> & _). cbn [bind]. apply IH; assumption. }
  destruct (width_spec d z n m Hz Hn Hm Hh) as (Ws & W1).
  assert (B : forall count k bs, exists r, block_loop gauss d sx sy quotient barot z count (Nat.min m (k * block_width d z)) bs = Ok r).
  { induction count as [|c IH]; intros k bs; cbn [block_loop]; [eexists; reflexivity|]. rewrite Cm.
    set (w := block_width d z) in *. set (s := Nat.min m (k * w)). set (e := Nat.min m (s + w)).
    assert (Ee : e = Nat.min m (S k * w)) by (unfold e, s; lia).
    assert (X : exists bst, class_loop gauss d sx sy quotient barot z s e (classes d sy quotient barot z s e) (rtab (rows z) (e - s) (fun _ _ => 0)) = Ok bst).
    { destruct (Nat.lt_ge_cases (k * w) m) as [K|K].
      - assert (Es : s = (k * w)%nat) by (unfold s; lia). apply L; [unfold e; lia|]. rewrite Es in *. unfold e. rewrite Es. apply (Hb w (k * w)%nat); [exact Ws|exact K|].
        apply block_step; assumption.
      - assert (Es : s = m) by (unfold s; lia). assert (Em : e = m) by (unfold e; lia). rewrite Es, Em. unfold classes, present. rewrite Nat.sub_diag, Rn.
        cbn [seq existsb].
        assert (Ex : forall l : list nat, existsb (fun _ : nat => false) l = false) by (induction l; auto). cbn [filter]. rewrite !Ex. eexists. reflexivity. }
    destruct X as (bst & ->). cbn [bind]. rewrite Ee. apply IH. }
  destruct (B (number_of_blocks d z) 0%nat (repeat [] n)) as (r & E). exists r. unfold rossby_filter. rewrite Rn.
  replace (Nat.min m (0 * block_width d z)) with 0%nat in E by lia. exact E.
Qed.
(** A block with a single column: no result. *)
Lemma rossby_narrow gauss d sx sy quotient barot z n m bs w j s e : array z n m -> (2 <= n)%nat -> (1 <= m)%nat -> sx <> 0 -> sy <> 0 ->
  (b2 (d_box d) < b3 (d_box d))%Q -> block_size n m (b3 (d_box d) - b2 (d_box d)) w -> (j < m)%nat -> block_of w m j s e -> (e - s < 2)%nat ->
  rossby_filter gauss d sx sy quotient barot z <> Ok bs.
Proof.
  intros Hz Hn Hm Hx Hy Hh Hw Hj Hb Hl E. destruct (rossby_slopes _ _ _ _ _ _ _ _ _ _ Hz Hn Hm Hx Hy Hh E) as (_ & w' & W & C).
  rewrite (size_unique _ _ _ _ _ Hw W) in Hb. destruct (C 0%nat j ltac:(lia) Hj) as (s' & e' & B & L & _).
  destruct (block_unique _ _ _ _ _ _ _ Hb B) as [-> ->]. lia.
Qed.
(** In metres: a box at least ten times as high as its number of columns. *)
Lemma rossby_projected gauss d sx sy quotient barot z n m bs : array z n m -> (2 <= n)%nat -> (1 <= m)%nat -> sx <> 0 -> sy <> 0 ->
  (10 * inject_Z (Z.of_nat m) <= b3 (d_box d) - b2 (d_box d))%Q ->
  rossby_filter gauss d sx sy quotient barot z <> Ok bs.
Proof.
  intros Hz Hn Hm Hx Hy Hh.
  assert (P : (0 < b3 (d_box d) - b2 (d_box d))%Q).
  { eapply Qlt_le_trans; [|exact Hh]. apply Qmult_lt_0_compat; [reflexivity|apply Qnat_pos; exact Hm]. }
  assert (Hh' : (b2 (d_box d) < b3 (d_box d))%Q) by (apply Qlt_minus_iff; exact P).
  destruct (width_spec d z n m Hz Hn Hm Hh') as (Ws & W1).
  assert (W : block_width d z = 1%nat).
  { destruct Ws as (A & _).
    assert (Q1 : (inject_Z (Z.of_nat (block_width d z)) - 1 < 1)%Q).
    { eapply Qlt_le_trans; [exact A|]. eapply Qle_trans; [apply Q.le_min_r|]. apply Qle_shift_div_r; [exact P|]. rewrite Qmult_1_l. exact Hh. }
    change 1%Q with (inject_Z 1) in Q1. rewrite <- inject_Z_minus, <- Zlt_Qlt in Q1. lia. }
  apply (rossby_narrow gauss d sx sy quotient barot z n m bs (block_width d z) 0 0 (Nat.min m 1)); auto.
  - rewrite W. split; [exists 0%nat; reflexivity|]. split; lia.
  - lia.
Qed.
(** * Radii *)
Lemma Int_part_1 x : 1 <= x -> (1 <= Int_part x)%Z.
Proof.
  intros H. unfold Int_part. destruct (archimed x) as [A _]. assert (L : 1 < IZR (up x)) by lra. apply lt_IZR in L. lia.
Qed.
Lemma class_positive sy q r : 0 < sy -> 0 < q -> 2 * (sy * q) <= r -> (0 < length_class sy q r)%Z.
Proof.
  intros Hs Hq H. unfold length_class.
  assert (P : 2 <= r / sy / q).
  { apply (Rmult_le_reg_r (sy * q)); [nra|]. replace (r / sy / q * (sy * q)) with r by (field; lra). exact H. }
  assert (L2 : 0 < ln 2) by (rewrite <- ln_1; apply ln_increasing; lra).
  assert (L : ln 2 <= ln (r / sy / q)) by (destruct (Rle_lt_or_eq_dec _ _ P) as [P'|P']; [left; apply ln_increasing; lra|rewrite <- P'; lra]).
  assert (I : (1 <= Int_part (ln (r / sy / q) / ln 2))%Z).
  { apply Int_part_1. apply (Rmult_le_reg_r (ln 2)); [exact L2|]. unfold Rdiv. rewrite Rmult_assoc, Rinv_l by lra. lra. }
  lia.
Qed.
Lemma speed_bound z : 3 <= wave_speed true z.
Proof.
  unfold wave_speed. rewrite <- (sqrt_square 3) by lra. apply sqrt_le_1_alt. pose proof (Rmax_l 1 (- z)). lra.
Qed.
Lemma radius_bound lat z : 20000 <= rossby_radius lat (wave_speed true z).
Proof.
  pose proof (speed_bound z) as C. set (c := wave_speed true z) in *. clearbody c. unfold rossby_radius.
  destruct (Rlt_dec (Rabs lat) 5) as [L|L].
  - apply Rmin_glb; [|lra]. assert (A : -5 < lat < 5) by (apply Rabs_def2 in L; lra). pose proof PI_RGT_0 as P.
    assert (B : 0 < cos (lat * PI / 180)).
    { apply cos_gt_0; nra. }
    pose proof (COS_bound (lat * PI / 180)) as (_ & B1). rewrite <- (sqrt_square 20000) by lra. apply sqrt_le_1_alt. unfold earth_rate.
    set (k := cos (lat * PI / 180)) in *. clearbody k.
    apply (Rmult_le_reg_r (4 * (729 / 10000000) * k / 6371000)); [lra|].
    replace (c / (4 * (729 / 10000000) * k / 6371000) * (4 * (729 / 10000000) * k / 6371000)) with c by (field; lra). lra.
  - destruct (Req_EM_T _ 0) as [E|E]; [lra|]. apply Rmin_glb; [|lra]. unfold earth_rate in *.
    pose proof (SIN_bound (lat * PI / 180)) as B. set (k := sin (lat * PI / 180)) in *. clearbody k.
    assert (K : 0 <= Rabs k <= 1) by (split; [apply Rabs_pos|apply Rabs_le; lra]).
    assert (K0 : 0 < Rabs k) by (destruct K as [[K|K] _]; [exact K|rewrite <- K in E; lra]).
    apply (Rmult_le_reg_r (2 * (729 / 10000000) * Rabs k)); [lra|]. 
    replace (c / (2 * (729 / 10000000) * Rabs k) * (2 * (729 / 10000000) * Rabs k)) with c by (field; lra). lra.
Qed.
(** Around the globe: TypeError, as soon as one class is positive. *)
Lemma rossby_wraps gauss d sx sy quotient z n m : array z n m -> (2 <= n)%nat -> (1 <= m)%nat -> 0 < sy -> 0 < quotient -> sy * quotient <= 10000 ->
  (b2 (d_box d) < b3 (d_box d))%Q -> (b0 (d_box d) < -179)%Q -> (179 < b0 (d_box d) + inject_Z (Z.of_nat (n - 1)) * d_dx d)%Q ->
  rossby_filter gauss d sx sy quotient true z = Raise TypeError.
Proof.
  intros Hz Hn Hm Hy Hq Hs Hh Hl Hr. pose proof (rows_n z n m Hz) as Rn. pose proof (cols_m z n m Hz Hn ltac:(lia)) as Cm.
  destruct (width_spec d z n m Hz Hn ltac:(lia) Hh) as (Ws & W1).
  pose proof (blocks_enough d z n m Hz Hn ltac:(lia) Hh) as Be.
  unfold rossby_filter. destruct (number_of_blocks d z) as [|c]; [lia|]. cbn [block_loop]. rewrite Cm. set (e := Nat.min m (0 + block_width d z)).
  assert (E : exists k ks, classes d sy quotient true z 0 e = k :: ks /\ (0 < k)%Z).
  { assert (I : In (class_of d sy quotient true z 0 0) (classes d sy quotient true z 0 e)) by (eapply classes_all; eauto; try lia; unfold e; lia).
    destruct (classes d sy quotient true z 0 e) as [|k ks] eqn:Ek; [destruct I|]. exists k, ks. split; [reflexivity|].
    assert (Ik : In k (classes d sy quotient true z 0 e)) by (rewrite Ek; left; reflexivity). unfold classes in Ik. apply filter_In in Ik. destruct Ik as (_ & Ip).
    unfold present in Ip. apply existsb_exists in Ip. destruct Ip as (i & _ & Ip). apply existsb_exists in Ip. destruct Ip as (j & _ & Ip). apply Z.eqb_eq in Ip. subst k.
    unfold class_of. apply class_positive; auto. pose proof (radius_bound (lat_of d j) (rcell z i j)). lra. }
  destruct E as (k & ks & -> & Hk). cbn [class_loop]. unfold class_field. replace (0 <? k)%Z with true by (symmetry; apply Z.ltb_lt; exact Hk).
  replace (wraps_around d z) with true; [reflexivity|]. symmetry. unfold wraps_around. rewrite Rn. cbv zeta. apply orb_true_iff. left.
  apply andb_true_iff. split; apply negb_true_iff; apply not_true_is_false; rewrite Qle_bool_iff; apply Qlt_not_le; assumption.
Qed.
(** * Rossby filters within the slope sizing function *)
Lemma rossby_branch gauss d kind q cutoffs z : rossby_kind kind -> 0 < q ->
  exists barot, filtered_slopes gauss d kind q cutoffs z = rossby_filter gauss d (x_step d) (y_step d) q barot z.
Proof.
  intros Hk Hq. unfold filtered_slopes. rewrite spacing_eq. destruct (Rlt_dec 0 q) as [_|N]; [|contradiction].
  destruct Hk as [-> | ->]; [exists true|exists false]; reflexivity.
Qed.
Lemma rossby_same_sizes gauss gauss' d n m param q q' lo hi cutoff kind kind' cutoffs cutoffs' c g g' : proper_dem d n m -> x_unit d <> 0 ->
  (b2 (d_box d) < b3 (d_box d))%Q -> rossby_kind kind -> rossby_kind kind' -> 0 < q -> 0 < q' ->
  slope_sizing gauss d param q lo hi cutoff kind cutoffs c = Ok g -> slope_sizing gauss' d param q' lo hi cutoff kind' cutoffs' c = Ok g' -> g = g'.
Proof.
  intros Hd U Hh K K' Q0 Q1. unfold slope_sizing. destruct (_ || _)%bool; [discriminate|]. cbv zeta.
  destruct (rossby_branch gauss d kind q cutoffs (cut_off cutoff (d_z d)) K Q0) as (b & ->).
  destruct (rossby_branch gauss' d kind' q' cutoffs' (cut_off cutoff (d_z d)) K' Q1) as (b' & ->).
  pose proof (step_nz d n m Hd U) as [Sx Sy]. destruct (cut_off_used d cutoff n m Hd) as (A & _). destruct Hd as (_ & Hn & Hm & _).
  destruct (rossby_filter gauss _ _ _ _ _ _) as [bs|e|] eqn:E; cbn [bind]; try discriminate.
  destruct (rossby_filter gauss' _ _ _ _ _ _) as [bs'|e|] eqn:E'; cbn [bind]; try discriminate.
  assert (X : bs = bs').
  { eapply rossby_no_smoothing; [exact A|exact Hn| |exact Sx| |exact Hh|exact E|exact E']; [lia|lra]. }
  rewrite X. intros G G'. rewrite G in G'. congruence.
Qed.
(** A DEM of 3 by 3 nodes on a slope, in degrees. *)
Definition shelf_z : list (list R) := [[-100; -110; -120]; [-130; -140; -150]; [-160; -170; -180]].
Definition shelf (geo : bool) (b : Q * Q * Q * Q) : dem := {| d_box := b; d_dx := 1; d_dy := 1; d_z := shelf_z; d_crs := 1; d_geo := geo |}.
Definition coast_box : Q * Q * Q * Q := (0, 2, 30, 32)%Q.
Lemma shelf_proper geo : proper_dem (shelf geo coast_box) 3 3.
Proof.
  split; [split; [reflexivity|repeat constructor]|]. split; [lia|]. split; [lia|]. split; [reflexivity|]. split; [reflexivity|].
  intros (H & _). vm_compute in H. discriminate.
Qed.
Lemma shelf_width j s e w : block_size 3 3 (b3 coast_box - b2 coast_box) w -> (j < 3)%nat -> block_of w 3 j s e -> (2 <= e - s)%nat.
Proof.
  intros (A & B). assert (W : w = 15%nat).
  { apply (size_unique 3 3 (b3 coast_box - b2 coast_box)); split; auto; vm_compute; congruence. }
  subst w. intros Hj ((k & ->) & H & ->). assert (k = 0)%nat by lia. subst k. lia.
Qed.
Lemma shelf_rossby gauss sx sy q barot z : array z 3 3 -> sx <> 0 -> sy <> 0 -> exists bs, rossby_filter gauss (shelf true coast_box) sx sy q barot z = Ok bs.
Proof.
  intros Hz Hx Hy. apply (rossby_returns gauss _ sx sy q barot z 3 3); auto; try lia; try (vm_compute; congruence).
  intros w j s e W Hj B. eapply shelf_width; eauto.
Qed.
Lemma shelf_unit : x_unit (shelf true coast_box) <> 0.
Proof.
  unfold x_unit, lon_metres, shelf, coast_box, middle. cbn [d_geo d_box b2 b3]. pose proof PI_RGT_0 as P.
  assert (H : 0 < cos ((Q2R 30 + Q2R 32) / 2 * (PI / 180))).
  { replace (Q2R 30) with 30 by (unfold Q2R; simpl; lra). replace (Q2R 32) with 32 by (unfold Q2R; simpl; lra). apply cos_gt_0; lra. }
  change (b2 (0, 2, 30, 32)%Q) with 30%Q. change (b3 (0, 2, 30, 32)%Q) with 32%Q. lra.
Qed.
Lemma rossby_not_refused : exists d n m q g, proper_dem d n m /\ x_unit d <> 0 /\ 0 < q /\
  slope_sizing flat d 20 q None None (-50) "barotropic" (Scalar 1000) 1 = Ok g.
Proof.
  pose proof (shelf_proper true) as Hd. pose proof (step_nz _ _ _ Hd shelf_unit) as [Sx Sy].
  destruct (rossby_branch flat (shelf true coast_box) "barotropic" 50 (Scalar 1000) (cut_off (-50) shelf_z)) as (b & E); [left; reflexivity|lra|].
  destruct (shelf_rossby flat (x_step (shelf true coast_box)) (y_step (shelf true coast_box)) 50 b (cut_off (-50) shelf_z)) as (bs & R1); [|exact Sx|lra|].
  { apply (cut_off_used (shelf true coast_box) (-50) 3 3 Hd). }
  exists (shelf true coast_box), 3%nat, 3%nat, 50. eexists. split; [exact Hd|]. split; [apply shelf_unit|]. split; [lra|].
  unfold slope_sizing. change (_ || _)%bool with false. cbv zeta. change (d_z (shelf true coast_box)) with shelf_z. rewrite E, R1. reflexivity.
Qed.
Definition globe_box : Q * Q * Q * Q := (-180, 180, 0, 2)%Q.
Definition ring_dem : dem := {| d_box := globe_box; d_dx := 180; d_dy := 1; d_z := shelf_z; d_crs := 1; d_geo := true |}.
Lemma globe_unit : 0 < x_unit ring_dem.
Proof.
  unfold x_unit, lon_metres, ring_dem, globe_box, middle. cbn [d_geo d_box]. change (b2 (-180, 180, 0, 2)%Q) with 0%Q. change (b3 (-180, 180, 0, 2)%Q) with 2%Q.
  pose proof PI_RGT_0. replace (Q2R 0) with 0 by (unfold Q2R; simpl; lra). replace (Q2R 2) with 2 by (unfold Q2R; simpl; lra).
  assert (0 < cos ((0 + 2) / 2 * (PI / 180))) by (apply cos_gt_0; lra). lra.
Qed.
Lemma rossby_global : exists d n m q, array (d_z d) n m /\ (2 <= n)%nat /\ (2 <= m)%nat /\ d_geo d = true /\ 0 < q /\
  forall gauss, slope_sizing gauss d 20 q None None (-50) "barotropic" (Scalar 1000) 1 = Raise TypeError.
Proof.
  exists ring_dem, 3%nat, 3%nat, (1 / 100). split; [split; [reflexivity|repeat constructor]|]. split; [lia|]. split; [lia|]. split; [reflexivity|].
  split; [lra|]. intros gauss. unfold slope_sizing. change (_ || _)%bool with false. cbv zeta.
  unfold filtered_slopes. rewrite spacing_eq. destruct (Rlt_dec 0 (1 / 100)) as [_|N]; [|lra]. change ("barotropic" =? "barotropic")%string with true. cbn [andb].
  assert (Y : 0 < y_step ring_dem <= 111695).
  { unfold y_step, y_unit. cbn [ring_dem d_geo d_dy d_box]. pose proof (lat_metres_range (middle globe_box)). replace (Q2R 1) with 1 by (unfold Q2R; simpl; lra). lra. }
  rewrite (rossby_wraps gauss ring_dem _ _ (1 / 100) _ 3 3); try lia; try lra; try reflexivity.
  apply cut_off_spec; [split; [reflexivity|repeat constructor]|lia].
Qed.
(** The kinds "bandstop" and "Lowpass" do not mention pass. *)
Lemma unfiltered_stop q : unfiltered "bandstop" q.
Proof.
  split; [|left; split; discriminate]. intros H. apply contains_iff in H. vm_compute in H. discriminate.
Qed.
Lemma same_as_off gauss gauss' d param q lo hi cutoff kind cutoffs cutoffs' c : unfiltered kind q ->
  slope_sizing gauss d param q lo hi cutoff kind cutoffs c = slope_sizing gauss' d param q lo hi cutoff "off" cutoffs' c.
Proof.
  intros (N & K). unfold slope_sizing. destruct (_ || _)%bool; [reflexivity|]. cbv zeta.
  replace (filtered_slopes gauss d kind q cutoffs (cut_off cutoff (d_z d))) with (filtered_slopes gauss' d "off" q cutoffs' (cut_off cutoff (d_z d))); [reflexivity|].
  unfold filtered_slopes. rewrite spacing_eq. change ("off" =? "barotropic")%string with false. change ("off" =? "baroclinic")%string with false. cbn [andb].
  change (contains "pass" "off") with false. cbv iota.
  rewrite (not_rossby kind q "barotropic"), (not_rossby kind q "baroclinic") by tauto.
  replace (contains "pass" kind) with false by (symmetry; apply not_true_is_false; rewrite contains_iff; exact N). reflexivity.
Qed.
Lemma stop_ignored gauss gauss' d param q lo hi cutoff cutoffs cutoffs' c :
  slope_sizing gauss d param q lo hi cutoff "bandstop" cutoffs c = slope_sizing gauss' d param q lo hi cutoff "off" cutoffs' c.
Proof. apply same_as_off, unfiltered_stop. Qed.
Lemma coarse_not_extrapolating : exists d n m g g', proper_dem d n m /\
  slope_sizing flat d 20 50 None None (-50) "off" (Scalar 1000) 1 = Ok g /\ r_extra g = true /\
  slope_sizing flat d 20 50 None None (-50) "off" (Scalar 1000) 2 = Ok g' /\ r_extra g' = false.
Proof.
  pose proof (shelf_proper false) as Hd.
  assert (U : x_unit (shelf false coast_box) <> 0) by (unfold x_unit; simpl; lra).
  assert (K : unfiltered "off" 50).
  { split; [|left; split; discriminate]. intros H. apply contains_iff in H. vm_compute in H. discriminate. }
  destruct (slope_fine flat (shelf false coast_box) 3 3 20 50 None None (-50) "off" (Scalar 1000) (cut_off (-50) shelf_z) flat_shape Hd U) as (g & h & E & _ & _ & X & _).
  { left. split; [exact K|]. apply (cut_off_used (shelf false coast_box) (-50) 3 3 Hd). }
  destruct (slope_coarse flat (shelf false coast_box) 3 3 20 50 None None (-50) "off" (Scalar 1000) 2 g Hd) as (g' & n' & m' & E' & _); [reflexivity|reflexivity|lia|exact E|].
  exists (shelf false coast_box), 3%nat, 3%nat, g, g'. split; [exact Hd|]. split; [exact E|]. split; [exact X|]. split; [exact E'|].
  eapply slope_coarse_flag; [|exact E']. discriminate.
Qed.

(** * Wavelengths *)
Lemma wave_size_eq geo b wl period gravity z :
  wave_size geo b wl period gravity z = wave_length period gravity z / wl / (if geo then metres_lat (mean_lat b) else 1).
Proof.
  unfold wave_size, wave_length.
  assert (E : Rabs (if Rlt_dec (Rabs z) 1 then 1 else z) = Rmax 1 (Rabs z)).
  { destruct (Rlt_dec (Rabs z) 1) as [L|L]; [rewrite Rabs_R1, Rmax_left by lra; reflexivity|]. rewrite Rmax_right by lra. reflexivity. }
  rewrite E. destruct geo; [reflexivity|]. unfold Rdiv. rewrite Rinv_1. ring.
Qed.
Lemma map_at f v n m i j : array v n m -> (i < n)%nat -> (j < m)%nat -> at_ (map (map f) v) i j = f (at_ v i j).
Proof.
  intros (L & F) Hi Hj. unfold at_. change (@nil R) with (map f []) at 1. rewrite (map_nth (map f)).
  rewrite Forall_forall in F. assert (Lr : List.length (nth i v []) = m) by (apply F, nth_In; lia).
  rewrite (nth_indep _ 0 (f 0)) by (rewrite map_length; lia). apply map_nth.
Qed.
Lemma map_array f v n m : array v n m -> array (map (map f) v) n m.
Proof.
  intros (L & F). split; [rewrite map_length; exact L|]. rewrite Forall_forall in *. intros r Hr. apply in_map_iff in Hr. destruct Hr as (r0 & <- & Hr).
  rewrite map_length. auto.
Qed.
Lemma fold_min l : forall x, (forall y, In y (x :: l) -> fold_left Rmin l x <= y) /\ In (fold_left Rmin l x) (x :: l).
Proof.
  induction l as [|a l IH]; intros x; cbn [fold_left].
  - split; [intros y [<-|[]]; lra|left; reflexivity].
  - destruct (IH (Rmin x a)) as (A & B). split.
    + intros y [<-|[<-|H]].
      * eapply Rle_trans; [apply A; left; reflexivity|apply Rmin_l].
      * eapply Rle_trans; [apply A; left; reflexivity|apply Rmin_r].
      * apply A. right. exact H.
    + destruct B as [B|B]; [|right; right; exact B]. unfold Rmin in B at 1. destruct (Rle_dec x a); [left|right; left]; exact B.
Qed.
Lemma array_In v n m x : array v n m -> (In x (List.concat v) <-> exists i j, (i < n)%nat /\ (j < m)%nat /\ x = at_ v i j).
Proof.
  intros (L & F). rewrite Forall_forall in F. rewrite in_concat. split.
  - intros (r & Hr & Hx). pose proof (F r Hr) as Lr. apply (In_nth _ _ []) in Hr. destruct Hr as (i & Hi & <-). apply (In_nth _ _ 0) in Hx.
    destruct Hx as (j & Hj & <-). exists i, j. repeat split; lia.
  - intros (i & j & Hi & Hj & ->). exists (nth i v []). assert (I : In (nth i v []) v) by (apply nth_In; lia). split; [exact I|]. apply nth_In. rewrite (F _ I). exact Hj.
Qed.
Lemma ramin_spec v n m : array v n m -> (1 <= n)%nat -> (1 <= m)%nat -> exists h, ramin v = Ok h /\ least h (at_ v) n m.
Proof.
  intros Hv Hn Hm. unfold ramin. destruct (List.concat v) as [|x l] eqn:E.
  - assert (I : In (at_ v 0 0) (List.concat v)) by (apply (array_In v n m); [exact Hv|exists 0%nat, 0%nat; repeat split; lia]). rewrite E in I. destruct I.
  - exists (fold_left Rmin l x). split; [reflexivity|]. destruct (fold_min l x) as (A & B). rewrite <- E in A, B. split.
    + apply (array_In v n m) in B; assumption.
    + intros i j Hi Hj. apply A. apply (array_In v n m); [exact Hv|]. exists i, j. auto.
Qed.
(** The size before limits, in the units of the result. *)
Definition wave_target (d : dem) (crs : nat) (wl period gravity : R) (i j : nat) : R :=
  wave_length period gravity (at_ (d_z d) i j) / wl / (if (crs =? epsg4326)%nat then metres_lat (mean_lat (d_box d)) else 1).
Lemma wave_values d n m wl lo hi period gravity crs : proper_dem d n m ->
  exists g, wavelength_sizing d wl lo hi period gravity crs = Ok g /\ r_box g = d_box d /\ r_dx g = d_dx d /\ r_dy g = d_dy d /\
    array (r_values g) n m /\ r_crs g = crs /\ r_extra g = true /\
    match lo with Some l => r_hmin g = l | None => least (r_hmin g) (wave_target d crs wl period gravity) n m end /\
    forall i j, (i < n)%nat -> (j < m)%nat ->
      at_ (r_values g) i j = match lo with Some l => limited l hi (wave_target d crs wl period gravity i j)
                             | None => match hi with Some u => Rmin u (wave_target d crs wl period gravity i j) | None => wave_target d crs wl period gravity i j end end.
Proof.
  intros (Hz & Hn & Hm & _ & _ & Hg). unfold wavelength_sizing. rewrite (array_rows _ _ _ Hz), (array_cols _ _ _ Hz) by lia.
  set (v := rtab n m _). assert (Av : array v n m) by apply rtab_array.
  assert (Cv : forall i j, (i < n)%nat -> (j < m)%nat -> at_ v i j = wave_target d crs wl period gravity i j).
  { intros i j Hi Hj. unfold v. rewrite rtab_at by assumption. rewrite wave_size_eq. reflexivity. }
  destruct lo as [l|].
  - cbn [bind]. eexists. split; [reflexivity|]. cbn [r_box r_dx r_dy r_values r_crs r_extra r_hmin]. rewrite built_local by exact Hg.
    repeat (split; [reflexivity|]). split; [apply map_array, map_array, Av|]. repeat (split; [reflexivity|]). intros i j Hi Hj.
    rewrite (map_at _ _ n m), (map_at _ _ n m) by (try apply map_array; assumption). rewrite limited_eq, Cv by assumption. reflexivity.
  - destruct (ramin_spec v n m Av) as (h & Eh & (i0 & j0 & Hi0 & Hj0 & E0) & Lh); [lia|lia|]. rewrite Eh. cbn [bind]. eexists. split; [reflexivity|].
    cbn [r_box r_dx r_dy r_values r_crs r_extra r_hmin]. rewrite built_local by exact Hg.
    repeat (split; [reflexivity|]). split; [apply map_array, Av|]. repeat (split; [reflexivity|]). split.
    + split; [exists i0, j0; rewrite <- Cv by assumption; auto|]. intros i j Hi Hj. rewrite <- Cv by assumption. auto.
    + intros i j Hi Hj. rewrite (map_at _ _ n m) by assumption. rewrite Cv by assumption. destruct hi as [u|]; [|reflexivity].
      unfold lower_to, Rmin. destruct (Rlt_dec u _), (Rle_dec u _); lra.
Qed.
Lemma wave_metres d n m wl lo hi period gravity crs : proper_dem d n m -> crs <> epsg4326 ->
  exists g, wavelength_sizing d wl lo hi period gravity crs = Ok g /\ r_box g = d_box d /\ r_dx g = d_dx d /\ r_dy g = d_dy d /\
    array (r_values g) n m /\ r_crs g = crs /\ r_extra g = true /\
    let size i j := wave_length period gravity (at_ (d_z d) i j) / wl in
    match lo with Some l => r_hmin g = l | None => least (r_hmin g) size n m end /\
    forall i j, (i < n)%nat -> (j < m)%nat ->
      at_ (r_values g) i j = match lo with Some l => limited l hi (size i j) | None => match hi with Some u => Rmin u (size i j) | None => size i j end end.
Proof.
  intros Hd Hc. destruct (wave_values d n m wl lo hi period gravity crs Hd) as (g & E & A & B & C & D & F & G & H & V).
  exists g. repeat (split; [assumption|]). cbv zeta.
  assert (T : forall i j, wave_target d crs wl period gravity i j = wave_length period gravity (at_ (d_z d) i j) / wl).
  { intros i j. unfold wave_target. apply Nat.eqb_neq in Hc. rewrite Hc. unfold Rdiv. rewrite Rinv_1. ring. }
  split.
  - destruct lo; [exact H|]. destruct H as ((i & j & Hi & Hj & E0) & L). split; [exists i, j; rewrite <- T; auto|]. intros i' j' Hi' Hj'. rewrite <- T. auto.
  - intros i j Hi Hj. rewrite V, T by assumption. reflexivity.
Qed.
Lemma ratio_bound t u v : 110571 < u < 111695 -> 110571 < v < 111695 -> 0 <= t -> Rabs (t / u - t / v) <= 102 / 10000 * (t / v).
Proof.
  intros Hu Hv Ht.
  assert (P : 0 <= t / v) by (apply Rmult_le_pos; [exact Ht|left; apply Rinv_0_lt_compat; lra]).
  replace (t / u - t / v) with (t / v * ((v - u) / u)) by (field; lra). rewrite Rabs_mult, (Rabs_pos_eq (t / v)) by exact P. rewrite Rmult_comm. apply Rmult_le_compat_r; [exact P|].
  unfold Rdiv. rewrite Rabs_mult, (Rabs_pos_eq (/ u)) by (left; apply Rinv_0_lt_compat; lra).
  assert (D : Rabs (v - u) <= 1124) by (apply Rabs_le; lra).
  apply (Rmult_le_reg_r u); [lra|]. rewrite Rmult_assoc, Rinv_l by lra. lra.
Qed.
Lemma wave_degrees d n m wl period gravity : proper_dem d n m -> d_geo d = true -> 0 < wl -> 0 <= period ->
  exists g, wavelength_sizing d wl None None period gravity epsg4326 = Ok g /\ array (r_values g) n m /\
    forall i j, (i < n)%nat -> (j < m)%nat ->
      let size := wave_length period gravity (at_ (d_z d) i j) / wl / lat_metres (middle (d_box d)) in
      Rabs (at_ (r_values g) i j - size) <= 102 / 10000 * size.
Proof.
  intros Hd _ Hw Hp. destruct (wave_values d n m wl None None period gravity epsg4326 Hd) as (g & E & _ & _ & _ & A & _ & _ & _ & V).
  exists g. split; [exact E|]. split; [exact A|]. intros i j Hi Hj. rewrite V by assumption. unfold wave_target. rewrite Nat.eqb_refl, metres_lat_eq.
  cbv zeta. apply ratio_bound; try apply lat_metres_range. unfold wave_length. apply Rmult_le_pos; [|left; apply Rinv_0_lt_compat; exact Hw].
  apply Rmult_le_pos; [exact Hp|apply sqrt_pos].
Qed.
Lemma cos_lower x : 0 <= x -> 1 - x * x / 2 <= cos x.
Proof.
  intros H. replace x with (2 * (x / 2)) at 3 by field. rewrite cos_2a_sin.
  destruct (Rle_lt_or_eq_dec _ _ H) as [P|P].
  - pose proof (sin_lt_x (x / 2) ltac:(lra)) as S1. destruct (Rle_dec 0 (sin (x / 2))) as [S0|S0].
    + nra.
    + (* the sine is negative, at least -1 *)
      pose proof (SIN_bound (x / 2)) as B.
      destruct (Rle_dec (x / 2) 1) as [L|L]; [|assert (sin (x / 2) * sin (x / 2) <= 1) by nra; nra].
      exfalso. apply S0. apply sin_ge_0; [lra|]. pose proof PI2_3_2. unfold PI2 in *. lra.
  - rewrite <- P. replace (0 / 2) with 0 by field. rewrite sin_0. lra.
Qed.
(** One and a half degrees north. *)
Definition tropic_box : Q * Q * Q * Q := (0, 2, 1 # 2, 5 # 2)%Q.
Lemma tropic_proper geo : proper_dem (shelf geo tropic_box) 3 3.
Proof.
  split; [split; [reflexivity|repeat constructor]|]. split; [lia|]. split; [lia|]. split; [reflexivity|]. split; [reflexivity|].
  intros (H & _). vm_compute in H. discriminate.
Qed.
Lemma tropic_metres : metres_lat (mean_lat tropic_box) - lat_metres (middle tropic_box) > 550.
Proof.
  rewrite metres_lat_eq. unfold mean_lat, middle, tropic_box. change (b2 (0, 2, 1 # 2, 5 # 2)%Q) with (1 # 2)%Q. change (b3 (0, 2, 1 # 2, 5 # 2)%Q) with (5 # 2)%Q.
  replace (Q2R (1 # 2)) with (1 / 2) by (unfold Q2R; simpl; lra). replace (Q2R (5 # 2)) with (5 / 2) by (unfold Q2R; simpl; lra).
  replace ((1 / 2 + 5 / 2) / 2) with (3 / 2) by field. unfold lat_metres. replace (2 * (3 / 2)) with 3 by field.
  assert (C3 : cos 3 < 0).
  { pose proof PI_4. pose proof PI2_3_2. unfold PI2 in *. apply cos_lt_0; lra. }
  pose proof (COS_bound (4 * (3 / 2))). pose proof (COS_bound (6 * (3 / 2))). pose proof PI_4. pose proof PI_RGT_0.
  pose proof (COS_bound (4 * (3 / 2 * (PI / 180)))). pose proof (COS_bound (6 * (3 / 2 * (PI / 180)))).
  pose proof (cos_lower (2 * (3 / 2 * (PI / 180))) ltac:(lra)) as L.
  assert (X : 2 * (3 / 2 * (PI / 180)) * (2 * (3 / 2 * (PI / 180))) / 2 <= 1 / 400) by nra.
  lra.
Qed.
Lemma shelf_depth i j : (i < 3)%nat -> (j < 3)%nat -> -180 <= at_ shelf_z i j <= -100.
Proof. intros Hi Hj. destruct i as [|[|[|]]], j as [|[|[|]]]; try lia; cbn; lra. Qed.
Lemma shelf_wave i j period gravity : (i < 3)%nat -> (j < 3)%nat -> 0 < period -> 1 <= gravity -> 10 * period <= wave_length period gravity (at_ shelf_z i j).
Proof.
  intros Hi Hj Hp Hg. pose proof (shelf_depth i j Hi Hj) as D. unfold wave_length. rewrite Rabs_left, Rmax_right by lra.
  assert (S : 10 <= sqrt (gravity * - at_ shelf_z i j)) by (rewrite <- (sqrt_square 10) by lra; apply sqrt_le_1_alt; nra).
  nra.
Qed.
Lemma wave_latitude : exists d n m g, proper_dem d n m /\ d_geo d = true /\ r_crs g = d_crs d /\
  wavelength_sizing d 10 None None 44712 9.81 epsg4326 = Ok g /\
  forall i j, (i < n)%nat -> (j < m)%nat -> at_ (r_values g) i j < wave_length 44712 9.81 (at_ (d_z d) i j) / 10 / lat_metres (middle (d_box d)).
Proof.
  destruct (wave_values (shelf true tropic_box) 3 3 10 None None 44712 9.81 epsg4326 (tropic_proper true)) as (g & E & _ & _ & _ & A & C & _ & _ & V).
  exists (shelf true tropic_box), 3%nat, 3%nat, g. split; [apply tropic_proper|]. split; [reflexivity|]. split; [rewrite C; reflexivity|]. split; [exact E|].
  intros i j Hi Hj. rewrite V by assumption. unfold wave_target. rewrite Nat.eqb_refl. cbn [shelf d_z d_box].
  pose proof (shelf_wave i j 44712 9.81 Hi Hj ltac:(lra) ltac:(lra)) as W. pose proof tropic_metres as T. pose proof (lat_metres_range (middle tropic_box)) as L.
  apply Rmult_lt_compat_l; [lra|]. apply Rinv_lt_contravar; [|lra]. apply Rmult_lt_0_compat; lra.
Qed.
(** Projected elevations with the default crs argument; geographic elevations with another. *)
Lemma wave_wrong_crs : exists d n m g, proper_dem d n m /\ d_geo d = false /\ wavelength_sizing d 10 None None 44712 9.81 epsg4326 = Ok g /\
  forall i j, (i < n)%nat -> (j < m)%nat -> 110571 * at_ (r_values g) i j < wave_length 44712 9.81 (at_ (d_z d) i j) / 10.
Proof.
  destruct (wave_values (shelf false tropic_box) 3 3 10 None None 44712 9.81 epsg4326 (tropic_proper false)) as (g & E & _ & _ & _ & A & C & _ & _ & V).
  exists (shelf false tropic_box), 3%nat, 3%nat, g. split; [apply tropic_proper|]. split; [reflexivity|]. split; [exact E|].
  intros i j Hi Hj. rewrite V by assumption. unfold wave_target. rewrite Nat.eqb_refl, metres_lat_eq. cbn [shelf d_z d_box].
  pose proof (shelf_wave i j 44712 9.81 Hi Hj ltac:(lra) ltac:(lra)) as W. pose proof (lat_metres_range (mean_lat tropic_box)) as L.
  set (t := wave_length _ _ _ / 10) in *. set (u := lat_metres _) in *. assert (P : 0 < t) by (unfold t; lra).
  replace (110571 * (t / u)) with (t * (110571 / u)) by (field; lra). rewrite <- (Rmult_1_r t) at 2. apply Rmult_lt_compat_l; [exact P|].
  apply (Rmult_lt_reg_r u); [lra|]. unfold Rdiv. rewrite Rmult_assoc, Rinv_l by lra. lra.
Qed.
Lemma wave_other_degrees : exists d n m g crs, proper_dem d n m /\ d_geo d = true /\ crs <> epsg4326 /\ wavelength_sizing d 10 None None 44712 9.81 crs = Ok g /\
  forall i j, (i < n)%nat -> (j < m)%nat -> at_ (r_values g) i j = wave_length 44712 9.81 (at_ (d_z d) i j) / 10.
Proof.
  destruct (wave_metres (shelf true tropic_box) 3 3 10 None None 44712 9.81 2 (tropic_proper true)) as (g & E & _ & _ & _ & A & C & _ & _ & V); [discriminate|].
  exists (shelf true tropic_box), 3%nat, 3%nat, g, 2%nat. split; [apply tropic_proper|]. split; [reflexivity|]. split; [discriminate|]. split; [exact E|]. exact V.
Qed.
Lemma wave_hmin_above : exists d n m g u, proper_dem d n m /\ wavelength_sizing d 10 None (Some u) 44712 9.81 2 = Ok g /\ 0 < u /\
  forall i j, (i < n)%nat -> (j < m)%nat -> at_ (r_values g) i j < r_hmin g.
Proof.
  destruct (wave_metres (shelf false tropic_box) 3 3 10 None (Some 1000) 44712 9.81 2 (tropic_proper false)) as (g & E & _ & _ & _ & A & C & _ & ((i0 & j0 & Hi0 & Hj0 & E0) & _) & V); [discriminate|].
  exists (shelf false tropic_box), 3%nat, 3%nat, g, 1000. split; [apply tropic_proper|]. split; [exact E|]. split; [lra|]. intros i j Hi Hj. rewrite V by assumption.
  eapply Rle_lt_trans; [apply Rmin_l|]. rewrite E0. cbn [shelf d_z]. pose proof (shelf_wave i0 j0 44712 9.81 Hi0 Hj0 ltac:(lra) ltac:(lra)). lra.
Qed.
Lemma wave_hmin d n m wl lo hi period gravity crs g : proper_dem d n m -> wavelength_sizing d wl lo hi period gravity crs = Ok g ->
  match hi with Some u => r_hmin g <= u | None => True end ->
  forall i j, (i < n)%nat -> (j < m)%nat -> r_hmin g <= at_ (r_values g) i j /\ match hi with Some u => at_ (r_values g) i j <= u | None => True end.
Proof.
  intros Hd E Hu i j Hi Hj. destruct (wave_values d n m wl lo hi period gravity crs Hd) as (g' & E' & _ & _ & _ & _ & _ & _ & H & V).
  rewrite E in E'. injection E' as <-. rewrite V by assumption. destruct lo as [l|].
  - pose proof (limited_in l hi (wave_target d crs wl period gravity i j)) as L. rewrite H in *. unfold in_limits in L. destruct hi; tauto.
  - destruct H as (_ & H). specialize (H i j Hi Hj). destruct hi as [u|]; [|tauto]. split; [apply Rmin_glb; assumption|apply Rmin_l].
Qed.

(** * Cases *)
Lemma filter_case : keeps_shape flat /\ averages flat /\ array ripple 2 2 /\ reads "LowPass" "lowpass" /\
  filt2 flat ripple 1 (Scalar 4) "LowPass" = Ok [[0; 0]; [0; 0]] /\ filt2 flat ripple 1 (Array [4; 8]) "Lowpass" = Raise TypeError.
Proof.
  split; [apply flat_shape|]. split; [apply flat_averages|]. split; [apply ripple_array|]. assert (Rd : reads "LowPass" "lowpass") by (apply lower_reads; reflexivity).
  split; [exact Rd|]. split.
  - rewrite (filter_low flat ripple 1 ltac:(lra)) by exact Rd. f_equal. apply (array_ext _ _ 2 2).
    + apply flat_shape, ripple_array.
    + split; [reflexivity|repeat constructor].
    + intros i j Hi Hj. unfold flat. rewrite rtab_at by assumption.
      destruct i as [|[|]], j as [|[|]]; try lia; unfold total, at_, ripple, rcols, rrows; simpl; field.
  - apply filter_type. right; left. split; [left|exists [4; 8]; reflexivity]. apply lower_reads; reflexivity.
Qed.
Lemma slope_case : proper_dem (shelf true coast_box) 3 3 /\ x_unit (shelf true coast_box) <> 0 /\
  exists f, slope_source flat (shelf true coast_box) (-50) 3 3 "lowpass" 50 (Scalar 1000) f.
Proof.
  split; [apply shelf_proper|]. split; [apply shelf_unit|]. eexists. right. split; [exists "low"%string, ""%string; reflexivity|].
  exists (cut_off (-50) shelf_z). split; [apply (cut_off_used (shelf true coast_box) (-50) 3 3 (shelf_proper true))|].
  apply filter_low; [|cbn; tauto]. apply (step_nz _ _ _ (shelf_proper true) shelf_unit).
Qed.
Lemma plane_case : proper_dem (shelf false coast_box) 3 3 /\ d_geo (shelf false coast_box) = false /\ unfiltered "off" 50 /\
  forall i j, (i < 3)%nat -> (j < 3)%nat ->
    at_ shelf_z i j = -100 + INR i * Q2R (d_dx (shelf false coast_box)) * (-30) + INR j * Q2R (d_dy (shelf false coast_box)) * (-10) /\ at_ shelf_z i j <= -50.
Proof.
  split; [apply shelf_proper|]. split; [reflexivity|]. split.
  - split; [|left; split; discriminate]. intros H. apply contains_iff in H. vm_compute in H. discriminate.
  - intros i j Hi Hj. cbn [shelf d_dx d_dy]. replace (Q2R 1) with 1 by (unfold Q2R; simpl; lra).
    destruct i as [|[|[|]]], j as [|[|[|]]]; try lia; cbn; lra.
Qed.
Lemma coarse_case : proper_dem (shelf false coast_box) 3 3 /\ (b0 (d_box (shelf false coast_box)) < b1 (d_box (shelf false coast_box)))%Q /\
  (b2 (d_box (shelf false coast_box)) < b3 (d_box (shelf false coast_box)))%Q /\
  exists g, slope_sizing flat (shelf false coast_box) 20 50 None (Some 100) (-50) "off" (Scalar 1000) 1 = Ok g.
Proof.
  split; [apply shelf_proper|]. split; [reflexivity|]. split; [reflexivity|].
  destruct (slope_plane flat (shelf false coast_box) 3 3 20 50 None (Some 100) (-50) "off" (Scalar 1000) (-100) (-30) (-10)) as (g & h & E & _).
  - apply flat_shape.
  - apply shelf_proper.
  - reflexivity.
  - apply plane_case.
  - lra.
  - apply plane_case.
  - exists g. exact E.
Qed.
Lemma rossby_case : exists d n m z bs, array z n m /\ (2 <= n)%nat /\ (1 <= m)%nat /\ (b2 (d_box d) < b3 (d_box d))%Q /\
  rossby_filter flat d 100 100 50 true z = Ok bs.
Proof.
  destruct (shelf_rossby flat 100 100 50 true shelf_z) as (bs & E); [split; [reflexivity|repeat constructor]|lra|lra|].
  exists (shelf true coast_box), 3%nat, 3%nat, shelf_z, bs. split; [split; [reflexivity|repeat constructor]|]. split; [lia|]. split; [lia|]. split; [reflexivity|exact E].
Qed.
Lemma wave_case : proper_dem (shelf true tropic_box) 3 3 /\ d_geo (shelf true tropic_box) = true /\ at_ (d_z (shelf true tropic_box)) 1 1 = -140.
Proof. split; [apply tropic_proper|]. split; reflexivity. Qed.
Lemma projected_case : array shelf_z 3 3 /\ (10 * inject_Z (Z.of_nat 3) <= b3 (0, 300, 0, 300)%Q - b2 (0, 300, 0, 300)%Q)%Q.
Proof. split; [split; [reflexivity|repeat constructor]|vm_compute; congruence]. Qed.
