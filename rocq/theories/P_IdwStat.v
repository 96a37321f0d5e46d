(** Proofs about weights and statistics of inverse-distance weighting. *)
From Coq Require Import List Arith Bool Reals Lra Lia.
From Verif Require Import M_Base M_Idw S_Idw P_Idw M_IdwStat S_IdwStat.
Import ListNotations.
Open Scope R_scope.

Lemma eps_pos' : 0 < eps_same.
Proof. unfold eps_same. apply Rinv_0_lt_compat, pow_lt. lra. Qed.
(** Rows as lists of distances and indices. *)
Lemma full_rows n k eps row : full_answer n k eps row -> exists l, row = map (fun a : R * nat => (Some (fst a), snd a)) l /\ length l = k /\ forall d i, In (d, i) l -> (i < n)%nat /\ 0 < d /\ eps <= d.
Proof.
  intros [L H]. subst k. induction row as [|[d i] row IH]; [exists []; split; [reflexivity|split; [reflexivity|intros ? ? []]]|].
  destruct IH as (l & E & L & F); [intros d' i' I; apply H; right; exact I|]. destruct (H d i (or_introl eq_refl)) as (A & r & -> & B & C).
  exists ((r, i) :: l). split; [cbn; rewrite E; reflexivity|]. split; [cbn; rewrite L; reflexivity|]. intros d' i' [X|I]; [injection X as <- <-; auto|apply F, I].
Qed.
Fixpoint tot (f : R * nat -> R) (l : list (R * nat)) : R := match l with [] => 0 | a :: r => f a + tot f r end.
Lemma tot_over f l : sum_over f (map (fun a : R * nat => (Some (fst a), snd a)) l) = tot (fun a => f (fst a) (snd a)) l.
Proof. induction l as [|a l IH]; [reflexivity|]. cbn. rewrite IH. reflexivity. Qed.
Lemma tot_sum f l : sum (map f l) = tot f l.
Proof. induction l as [|a l IH]; [reflexivity|]. cbn. rewrite IH. reflexivity. Qed.
Lemma tot_dot s f (g : R * nat -> R) l : dot (map (fun x => x / s) (map f l)) (map g l) = tot (fun a => f a / s * g a) l.
Proof. induction l as [|a l IH]; [reflexivity|]. cbn. rewrite IH. reflexivity. Qed.
Lemma tot_scale c f l : tot (fun a => c * f a) l = c * tot f l.
Proof. induction l as [|a l IH]; cbn; [ring|]. rewrite IH. ring. Qed.
Lemma tot_ext f g l : (forall a, In a l -> f a = g a) -> tot f l = tot g l.
Proof. induction l as [|a l IH]; intros H; [reflexivity|]. cbn. rewrite H, IH; [reflexivity|intros; apply H; right; assumption|left; reflexivity]. Qed.
Lemma tot_le f g l : (forall a, In a l -> f a <= g a) -> tot f l <= tot g l.
Proof. induction l as [|a l IH]; intros H; [cbn; lra|]. cbn. assert (f a <= g a) by (apply H; left; reflexivity). assert (tot f l <= tot g l) by (apply IH; intros; apply H; right; assumption). lra. Qed.
Lemma tot_nonneg f l : (forall a, In a l -> 0 <= f a) -> 0 <= tot f l.
Proof. intros H. replace 0 with (tot (fun _ => 0) l); [apply tot_le; auto|]. clear. induction l as [|a l IH]; [reflexivity|]. cbn. rewrite IH. ring. Qed.
Lemma tot_pos f l : (forall a, In a l -> 0 <= f a) -> (exists a, In a l /\ 0 < f a) -> 0 < tot f l.
Proof.
  intros H (a & I & P). induction l as [|b l IH]; [destruct I|]. cbn. destruct I as [->|I].
  - assert (0 <= tot f l) by (apply tot_nonneg; intros; apply H; right; assumption). lra.
  - assert (0 <= f b) by (apply H; left; reflexivity). assert (0 < tot f l) by (apply IH; [intros; apply H; right; assumption|exact I]). lra.
Qed.
Definition wt (p : nat) (weights : option (list R)) (a : R * nat) : R := match weights with Some ws => nth (snd a) ws 0 / fst a ^ p | None => 1 / fst a ^ p end.
Definition covers (n : nat) (weights : option (list R)) : Prop := match weights with Some ws => length ws = n | None => True end.
Lemma raw_ok p weights n l : covers n weights -> (forall d i, In (d, i) l -> (i < n)%nat) ->
  raw_weights p weights (map (fun a : R * nat => (Some (fst a), snd a)) l) = Ok (map (wt p weights) l).
Proof.
  intros C H. unfold raw_weights. rewrite map_map. cbn [fst weight]. destruct weights as [ws|]; [|reflexivity]. rewrite mapM_map'. cbn [snd].
  assert (M : mapM (fun a : R * nat => get ws (snd a)) l = Ok (map (fun a => nth (snd a) ws 0) l)).
  { clear -C H. cbn in C. induction l as [|[d i] l IH]; [reflexivity|]. cbn [mapM snd]. rewrite (get_nth ws i (nth i ws 0)).
    - cbn [bind]. rewrite IH by (intros d' i' I; apply (H d'); right; exact I). reflexivity.
    - apply nth_error_nth'. rewrite C. apply (H d i). left; reflexivity. }
  rewrite M. cbn [bind]. f_equal. unfold zip_with. clear. induction l as [|a l IH]; [reflexivity|]. cbn [map combine]. f_equal; [|exact IH]. cbn [fst snd wt]. unfold Rdiv. ring.
Qed.
Lemma values_ok z l : (forall d i, In (d, i) l -> (i < length z)%nat) ->
  mapM (fun a : option R * nat => get z (snd a)) (map (fun a : R * nat => (Some (fst a), snd a)) l) = Ok (map (fun a => nth (snd a) z 0) l).
Proof.
  intros H. rewrite mapM_map'. cbn [snd]. induction l as [|[d i] l IH]; [reflexivity|]. cbn [mapM snd]. rewrite (get_nth z i (nth i z 0)).
  - cbn [bind]. rewrite IH by (intros d' i' I; apply (H d'); right; exact I). reflexivity.
  - apply nth_error_nth'. apply (H d i). left; reflexivity.
Qed.
(** The weighted mean, where the weights do not add up to 0. *)
Lemma one_value z k p weights stat row st : (2 <= k)%nat -> full_answer (length z) k eps_same row -> covers (length z) weights ->
  (stat = true -> length (snd st) = k) ->
  exists l w, row = map (fun a : R * nat => (Some (fst a), snd a)) l /\ length l = k /\ (forall d i, In (d, i) l -> (i < length z)%nat /\ 0 < d) /\ w = map (wt p weights) l /\
    one z k p weights stat row st = Ok (match shares w with Some s => Some (dot s (map (fun a => nth (snd a) z 0) l)) | None => None end,
      if stat then (S (fst st), zip_with plus_opt (snd st) (match shares w with Some s => map Some s | None => repeat None k end)) else st).
Proof.
  intros K2 F C L. destruct (full_rows _ _ _ _ F) as (l & E & LL & H). exists l, (map (wt p weights) l). split; [exact E|]. split; [exact LL|].
  split; [intros d i I; destruct (H d i I) as (A & B & _); auto|]. split; [reflexivity|].
  unfold one. rewrite E. destruct l as [|[r i0] l]; [cbn in LL; lia|]. cbn [map fst snd].
  destruct (Nat.eqb_spec k 1) as [X|_]; [lia|]. destruct (H r i0 (or_introl eq_refl)) as (_ & _ & G). destruct (Rlt_dec r eps_same) as [X|_]; [lra|].
  change ((Some r, i0) :: map (fun a : R * nat => (Some (fst a), snd a)) l) with (map (fun a : R * nat => (Some (fst a), snd a)) ((r, i0) :: l)).
  rewrite (raw_ok p weights (length z)); [|exact C|intros d i I; apply (H d i I)]. cbn [bind]. rewrite values_ok by (intros d i I; apply (H d i I)). cbn [bind].
  rewrite map_length, LL. destruct stat; [|reflexivity]. unfold count. rewrite (L eq_refl), Nat.eqb_refl. cbn [bind]. reflexivity.
Qed.
Lemma mean_eq p weights z l : tot (wt p weights) l <> 0 ->
  shares (map (wt p weights) l) = Some (map (fun x => x / tot (wt p weights) l) (map (wt p weights) l)) /\
  dot (map (fun x => x / tot (wt p weights) l) (map (wt p weights) l)) (map (fun a => nth (snd a) z 0) l) = tot (fun a => wt p weights a * nth (snd a) z 0) l / tot (wt p weights) l.
Proof.
  intros N. unfold shares. rewrite tot_sum. destruct (Req_EM_T (tot (wt p weights) l) 0) as [X|_]; [contradiction|]. split; [reflexivity|].
  rewrite tot_dot. rewrite (tot_ext _ (fun a => / tot (wt p weights) l * (wt p weights a * nth (snd a) z 0))) by (intros; unfold Rdiv; ring). rewrite tot_scale. unfold Rdiv. ring.
Qed.
Lemma weighted_mean z k p ws row : (2 <= k)%nat -> full_answer (length z) k eps_same row -> length ws = length z ->
  sum_over (fun d i => nth i ws 0 / d ^ p) row <> 0 -> forall st, exists v, one z k p (Some ws) false row st = Ok (Some v, st) /\
  v * sum_over (fun d i => nth i ws 0 / d ^ p) row = sum_over (fun d i => nth i ws 0 / d ^ p * nth i z 0) row.
Proof.
  intros K2 F C N st. destruct (one_value z k p (Some ws) false row st K2 F C ltac:(discriminate)) as (l & w & E & LL & H & EW & O).
  rewrite E in N. rewrite tot_over in N. change (tot (fun a => nth (snd a) ws 0 / fst a ^ p) l) with (tot (wt p (Some ws)) l) in N.
  destruct (mean_eq p (Some ws) z l N) as (S1 & S2). rewrite EW, S1 in O. eexists. split; [exact O|]. rewrite S2, E, !tot_over.
  change (tot (fun a => nth (snd a) ws 0 / fst a ^ p) l) with (tot (wt p (Some ws)) l).
  change (tot (fun a => nth (snd a) ws 0 / fst a ^ p * nth (snd a) z 0) l) with (tot (fun a => wt p (Some ws) a * nth (snd a) z 0) l). field. exact N.
Qed.
Lemma wt_nonneg p ws d i : 0 < d -> 0 <= nth i ws 0 -> 0 <= wt p (Some ws) (d, i).
Proof. intros A B. cbn. apply Rmult_le_pos; [exact B|]. apply Rlt_le, Rinv_0_lt_compat, pow_lt, A. Qed.
Lemma weighted_range z k p ws row lo hi : (2 <= k)%nat -> full_answer (length z) k eps_same row -> length ws = length z ->
  (forall d i, In (d, i) row -> 0 <= nth i ws 0) -> (exists d i, In (d, i) row /\ 0 < nth i ws 0) ->
  (forall d i, In (d, i) row -> 0 < nth i ws 0 -> lo <= nth i z 0 <= hi) ->
  forall st, exists v, one z k p (Some ws) false row st = Ok (Some v, st) /\ lo <= v <= hi.
Proof.
  intros K2 F C NN PP B st. destruct (one_value z k p (Some ws) false row st K2 F C ltac:(discriminate)) as (l & w & E & LL & H & EW & O).
  assert (IN : forall d i, In (d, i) l -> In (Some d, i) row). { intros d i I. rewrite E. apply in_map_iff. exists (d, i). auto. }
  assert (NW : forall a, In a l -> 0 <= wt p (Some ws) a). { intros [d i] I. destruct (H d i I). apply wt_nonneg; [assumption|]. apply (NN (Some d)), IN, I. }
  assert (P : 0 < tot (wt p (Some ws)) l).
  { apply tot_pos; [exact NW|]. destruct PP as (d & i & I & P). rewrite E in I. apply in_map_iff in I. destruct I as ([d' i'] & X & J). injection X as _ <-. exists (d', i'). split; [exact J|].
    cbn. destruct (H d' i' J). apply Rdiv_lt_0_compat; [exact P|]. apply pow_lt. assumption. }
  destruct (mean_eq p (Some ws) z l ltac:(lra)) as (S1 & S2). rewrite EW, S1 in O. eexists. split; [exact O|]. rewrite S2.
  assert (LB : forall a, In a l -> lo * wt p (Some ws) a <= wt p (Some ws) a * nth (snd a) z 0 <= hi * wt p (Some ws) a).
  { intros [d i] I. specialize (NW (d, i) I). destruct (Rle_lt_or_eq_dec 0 (nth i ws 0) (NN (Some d) i (IN d i I))) as [Q|Q].
    - specialize (B (Some d) i (IN d i I) Q). cbn [snd]. split; rewrite (Rmult_comm _ (nth i z 0)); apply Rmult_le_compat_r; lra.
    - cbn [wt fst snd]. rewrite <- Q. unfold Rdiv. rewrite Rmult_0_l. lra. }
  pose proof (tot_le (fun a => lo * wt p (Some ws) a) _ l (fun a I => proj1 (LB a I))) as T1. pose proof (tot_le _ (fun a => hi * wt p (Some ws) a) l (fun a I => proj2 (LB a I))) as T2.
  rewrite tot_scale in T1, T2. split.
  - apply Rmult_le_reg_r with (tot (wt p (Some ws)) l); [exact P|]. unfold Rdiv. rewrite Rmult_assoc, Rinv_l by lra. lra.
  - apply Rmult_le_reg_r with (tot (wt p (Some ws)) l); [exact P|]. unfold Rdiv. rewrite Rmult_assoc, Rinv_l by lra. lra.
Qed.
Lemma no_weights z k p row st : (forall d i, In (d, i) row -> exists r, d = Some r /\ 0 < r) ->
  forall v, idw_one z k p row = Ok v -> one z k p None false row st = Ok (Some v, st).
Proof.
  intros H v. unfold idw_one, one. destruct row as [|[d0 i0] row]; [discriminate|]. destruct (k =? 1)%nat eqn:K1; [intros ->; reflexivity|].
  destruct (match d0 with Some r => if Rlt_dec r eps_same then true else false | None => false end); [intros ->; reflexivity|].
  unfold raw_weights. cbn [bind]. destruct (mapM (fun a => get z (snd a)) ((d0, i0) :: row)) as [zs| |]; try discriminate. cbn [bind]. intros E. injection E as <-.
  unfold shares. assert (P : 0 < sum (map (fun a : option R * nat => weight p (fst a)) ((d0, i0) :: row))).
  { clear -H. assert (W : forall l, (forall d i, In (d, i) l -> exists r, d = Some r /\ 0 < r) -> 0 <= sum (map (fun a : option R * nat => weight p (fst a)) l)).
    { induction l as [|[d i] l IH]; intros G; [cbn; lra|]. cbn [map sum fst]. destruct (G d i (or_introl eq_refl)) as (r & -> & R0). cbn [weight].
      assert (0 < 1 / r ^ p) by (apply Rdiv_lt_0_compat; [lra|apply pow_lt, R0]). specialize (IH (fun d i I => G d i (or_intror I))). lra. }
    cbn [map sum fst]. destruct (H d0 i0 (or_introl eq_refl)) as (r & -> & R0). cbn [weight]. assert (0 < 1 / r ^ p) by (apply Rdiv_lt_0_compat; [lra|apply pow_lt, R0]).
    specialize (W row (fun d i I => H d i (or_intror I))). lra. }
  destruct (Req_EM_T _ 0) as [X|_]; [rewrite X in P; lra|]. reflexivity.
Qed.
Lemma weights_scale z k p ws c row st stat : c <> 0 ->
  one z k p (Some (map (Rmult c) ws)) stat row st = one z k p (Some ws) stat row st.
Proof.
  intros C. unfold one. destruct row as [|[d0 i0] row]; [reflexivity|]. destruct (k =? 1)%nat; [reflexivity|].
  destruct (match d0 with Some r => if Rlt_dec r eps_same then true else false | None => false end); [reflexivity|].
  set (rw := (d0, i0) :: row). clearbody rw. clear d0 i0 row.
  assert (M : match raw_weights p (Some ws) rw with Ok w => raw_weights p (Some (map (Rmult c) ws)) rw = Ok (map (Rmult c) w) | Raise e => raw_weights p (Some (map (Rmult c) ws)) rw = Raise e | OutOfFuel => True end).
  { unfold raw_weights. assert (G : match mapM (fun a : option R * nat => get ws (snd a)) rw with Ok m => mapM (fun a : option R * nat => get (map (Rmult c) ws) (snd a)) rw = Ok (map (Rmult c) m)
        | Raise e => mapM (fun a : option R * nat => get (map (Rmult c) ws) (snd a)) rw = Raise e | OutOfFuel => True end).
    { induction rw as [|[d i] rw IH]; [reflexivity|]. cbn [mapM snd]. assert (GI : get (map (Rmult c) ws) i = match get ws i with Ok x => Ok (c * x) | Raise e => Raise e | OutOfFuel => OutOfFuel end).
      { unfold get. rewrite nth_error_map. destruct (nth_error ws i); reflexivity. }
      rewrite GI. unfold get. destruct (nth_error ws i); cbn [bind]; [|reflexivity]. unfold get in IH. destruct (mapM (fun a : option R * nat => match nth_error ws (snd a) with Some x => Ok x | None => Raise IndexError end) rw) as [m| |] eqn:MM; cbn [bind]; try rewrite IH; try reflexivity; exact I. }
    destruct (mapM (fun a : option R * nat => get ws (snd a)) rw) as [m| |]; cbn [bind]; [|rewrite G; reflexivity|exact I]. rewrite G. cbn [bind]. f_equal. unfold zip_with. clear G.
    generalize (map (fun a : option R * nat => weight p (fst a)) rw). intros w. revert m. induction w as [|x w IH]; intros [|y m]; try reflexivity. cbn [map combine]. f_equal; [cbn; ring|apply IH]. }
  destruct (raw_weights p (Some ws) rw) as [w|e|] eqn:RW.
  - rewrite M. cbn [bind]. assert (SH : shares (map (Rmult c) w) = shares w).
    { unfold shares. assert (SU : sum (map (Rmult c) w) = c * sum w) by (clear; induction w as [|x w IH]; cbn; [ring|]; rewrite IH; ring). rewrite SU.
      destruct (Req_EM_T (sum w) 0) as [Z|Z], (Req_EM_T (c * sum w) 0) as [Y|Y].
      - reflexivity.
      - exfalso. apply Y. rewrite Z. ring.
      - exfalso. apply Rmult_integral in Y. tauto.
      - f_equal. rewrite map_map. apply map_ext. intros x. field. auto. }
    rewrite SH. reflexivity.
  - rewrite M. reflexivity.
  - exfalso. unfold raw_weights in RW. assert (G : forall l, mapM (fun a : option R * nat => get ws (snd a)) l <> OutOfFuel).
    { induction l as [|a l IH]; [discriminate|]. cbn [mapM]. unfold get at 1. destruct (nth_error ws (snd a)); cbn [bind]; [|discriminate]. destruct (mapM (fun a0 : option R * nat => get ws (snd a0)) l); cbn [bind]; try discriminate. congruence. }
    destruct (mapM (fun a : option R * nat => get ws (snd a)) rw) eqn:X; cbn [bind] in RW; try discriminate. apply (G rw X).
Qed.

(** * Statistics *)
Lemma zip_some a b : zip_with plus_opt (map Some a) (map Some b) = map Some (zip_with Rplus a b).
Proof. unfold zip_with. revert b. induction a as [|x a IH]; intros [|y b]; try reflexivity. cbn. f_equal. apply IH. Qed.
Lemma zip_length {A B C} (f : A -> B -> C) a b : length a = length b -> length (zip_with f a b) = length a.
Proof. intros H. unfold zip_with. rewrite map_length, combine_length. lia. Qed.
Lemma zip_sum a b : length a = length b -> fold_right Rplus 0 (zip_with Rplus a b) = fold_right Rplus 0 a + fold_right Rplus 0 b.
Proof. unfold zip_with. revert b. induction a as [|x a IH]; intros [|y b] H; cbn in H; try discriminate; [cbn; ring|]. cbn. rewrite IH by congruence. ring. Qed.
Lemma shares_sum w s : shares w = Some s -> length s = length w /\ fold_right Rplus 0 s = 1.
Proof.
  unfold shares. destruct (Req_EM_T (sum w) 0) as [X|X]; [discriminate|]. intros E. injection E as <-. split; [apply map_length|].
  assert (G : forall l c, fold_right Rplus 0 (map (fun x => x / c) l) = sum l / c) by (induction l as [|y l IH]; intros c; cbn; [unfold Rdiv; ring|rewrite IH; unfold Rdiv; ring]).
  rewrite G. field. exact X.
Qed.
Definition weighable (p : nat) (weights : option (list R)) (row : answer) : Prop :=
  match weights with Some ws => sum_over (fun d i => nth i ws 0 / d ^ p) row <> 0 | None => True end.
Lemma wt_sum_pos p l : l <> [] -> (forall d i, In (d, i) l -> 0 < d) -> 0 < tot (wt p None) l.
Proof.
  intros N H. apply tot_pos.
  - intros [d i] I. cbn. apply Rlt_le, Rdiv_lt_0_compat; [lra|]. apply pow_lt, (H d i I).
  - destruct l as [|[d i] l]; [congruence|]. exists (d, i). split; [left; reflexivity|]. cbn. apply Rdiv_lt_0_compat; [lra|]. apply pow_lt, (H d i (or_introl eq_refl)).
Qed.
Lemma many_stats z k p weights rows : (2 <= k)%nat -> covers (length z) weights -> Forall (full_answer (length z) k eps_same) rows -> Forall (weighable p weights) rows ->
  forall wn xs, length xs = k -> exists vs ys, many z k p weights true rows (wn, map Some xs) = Ok (map Some vs, ((wn + length rows)%nat, map Some ys)) /\
    length vs = length rows /\ length ys = k /\ fold_right Rplus 0 ys = fold_right Rplus 0 xs + INR (length rows).
Proof.
  intros K2 C F W. induction rows as [|row rows IH]; intros wn xs L.
  - exists [], xs. cbn. rewrite Nat.add_0_r. repeat split; auto. lra.
  - inversion F as [|? ? F1 F2]; subst. inversion W as [|? ? W1 W2]; subst.
    destruct (one_value z (length xs) p weights true row (wn, map Some xs) K2 F1 C (fun _ => map_length _ _)) as (l & w & E & LL & H & EW & O).
    assert (N : tot (wt p weights) l <> 0).
    { destruct weights as [ws|]; cbn [weighable] in W1.
      - rewrite E, tot_over in W1. exact W1.
      - apply Rgt_not_eq, wt_sum_pos; [intros ->; cbn in LL; lia|intros d i I; apply (H d i I)]. }
    destruct (mean_eq p weights z l N) as (S1 & S2). rewrite EW in O. rewrite S1 in O. cbn [fst snd] in O. rewrite zip_some in O.
    destruct (shares_sum _ _ S1) as [_ SS]. assert (SL : length (map (fun x => x / tot (wt p weights) l) (map (wt p weights) l)) = length xs) by (rewrite !map_length; exact LL). set (sh := map (fun x => x / tot (wt p weights) l) (map (wt p weights) l)) in *.
    destruct (IH F2 W2 (S wn) (zip_with Rplus xs sh)) as (vs & ys & M & LV & LY & SY); [rewrite zip_length; congruence|].
    exists (dot sh (map (fun a => nth (snd a) z 0) l) :: vs), ys. cbn [many]. rewrite O. cbn [bind fst snd]. rewrite M. cbn [bind fst snd map length].
    split; [f_equal; f_equal; f_equal; lia|]. split; [congruence|]. split; [exact LY|]. rewrite SY, zip_sum by congruence. rewrite SS. change (length (row :: rows)) with (S (length rows)). rewrite S_INR. ring.
Qed.
Lemma call_stats z k p weights rows : (2 <= k)%nat -> z <> [] -> covers (length z) weights -> Forall (full_answer (length z) k eps_same) rows -> Forall (weighable p weights) rows ->
  exists vs ws, call z k p weights true rows fresh = Ok (map Some vs, {| s_wn := length rows; s_wsum := Some ws |}) /\ length vs = length rows /\ length ws = k /\ finite_sum ws (INR (length rows)).
Proof.
  intros K2 NZ C F W. unfold call. destruct z as [|z0 z]; [congruence|]. change (length (z0 :: z) =? 0)%nat with false. cbv iota. cbn [fresh s_wsum s_wn].
  assert (R : repeat (Some 0) k = map Some (repeat 0 k)) by (clear; induction k; cbn; congruence). rewrite R.
  destruct (many_stats (z0 :: z) k p weights rows K2 C F W 0 (repeat 0 k) (repeat_length 0 k)) as (vs & ys & M & LV & LY & SY). rewrite M. cbn [bind fst snd].
  exists vs, (map Some ys). split; [reflexivity|]. split; [exact LV|]. split; [rewrite map_length; exact LY|]. exists ys. split; [reflexivity|]. rewrite SY.
  assert (Z : forall n, fold_right Rplus 0 (repeat 0 n) = 0) by (induction n; cbn; [reflexivity|rewrite IHn; ring]). rewrite Z. ring.
Qed.
Lemma other_count z k p weights rows row st ws : (2 <= k)%nat -> z <> [] -> covers (length z) weights -> full_answer (length z) k eps_same row ->
  s_wsum st = Some ws -> length ws <> k -> call z k p weights true (row :: rows) st = Raise ValueError.
Proof.
  intros K2 NZ C F E L. unfold call. destruct z as [|z0 z]; [congruence|]. change (length (z0 :: z) =? 0)%nat with false. cbv iota. rewrite E. cbn [many]. set (zz := z0 :: z) in *.
  destruct (full_rows _ _ _ _ F) as (l & -> & LL & H). unfold one. destruct l as [|[r i0] l]; [cbn in LL; lia|]. cbn [map fst snd].
  destruct (Nat.eqb_spec k 1) as [X|_]; [lia|]. destruct (H r i0 (or_introl eq_refl)) as (_ & _ & G). destruct (Rlt_dec r eps_same) as [X|_]; [lra|].
  change ((Some r, i0) :: map (fun a : R * nat => (Some (fst a), snd a)) l) with (map (fun a : R * nat => (Some (fst a), snd a)) ((r, i0) :: l)).
  rewrite (raw_ok p weights (length zz)); [|exact C|intros d i I; apply (H d i I)]. cbn [bind]. rewrite values_ok by (intros d i I; apply (H d i I)). cbn [bind].
  unfold count. rewrite map_length, LL. destruct (Nat.eqb_spec (length ws) k) as [X|_]; [contradiction|]. reflexivity.
Qed.
Lemma equal_weights z k p c row st stat : c <> 0 -> (forall d i, In (d, i) row -> (i < length z)%nat) ->
  one z k p (Some (repeat c (length z))) stat row st = one z k p None stat row st.
Proof.
  intros C H.
  assert (E : repeat c (length z) = map (Rmult c) (repeat 1 (length z))) by (clear; induction (length z); cbn; [reflexivity|f_equal; [ring|assumption]]).
  rewrite E, weights_scale by exact C. unfold one. destruct row as [|[d0 i0] row]; [reflexivity|]. destruct (k =? 1)%nat; [reflexivity|].
  destruct (match d0 with Some r => if Rlt_dec r eps_same then true else false | None => false end); [reflexivity|].
  assert (R : forall l : answer, (forall d i, In (d, i) l -> (i < length z)%nat) -> raw_weights p (Some (repeat 1 (length z))) l = raw_weights p None l).
  { intros l G. unfold raw_weights. assert (M : mapM (fun a : option R * nat => get (repeat 1 (length z)) (snd a)) l = Ok (map (fun _ => 1) l)).
    { clear -G. induction l as [|[d i] l IH]; [reflexivity|]. cbn [mapM snd map]. rewrite (get_nth _ i 1).
      - cbn [bind]. rewrite IH by (intros d' i' I; apply (G d'); right; exact I). reflexivity.
      - assert (L : (i < length z)%nat) by (apply (G d i); left; reflexivity). rewrite <- (repeat_length 1 (length z)) in L. pose proof (@nth_error_nth' R (repeat 1 (length z)) i 1 L) as Q1. rewrite nth_repeat in Q1. exact Q1. }
    rewrite M. cbn [bind]. f_equal. unfold zip_with. clear. induction l as [|a l IH]; [reflexivity|]. cbn [map combine]. f_equal; [cbn; ring|exact IH]. }
  rewrite R by exact H. reflexivity.
Qed.
Lemma eps_le_1 : / 10 ^ 10 <= 1.
Proof. rewrite <- Rinv_1. apply Rinv_le_contravar; lra. Qed.
Ltac good_rows := pose proof eps_le_1; split; [reflexivity|]; intros ? ? X; repeat (destruct X as [X|X]; [injection X as <- <-; split; [cbn; lia|eexists; split; [reflexivity|split; lra]]|]); destruct X.
Lemma all_zero : exists z k p ws row, (2 <= k)%nat /\ full_answer (length z) k (/ 10 ^ 10) row /\ length ws = length z /\ Forall (fun w => 0 <= w) ws /\
  (exists w, In w ws /\ 0 < w) /\ forall st, one z k p (Some ws) false row st = Ok (None, st).
Proof.
  exists [7; 8; 9], 2%nat, 1%nat, [0; 0; 1], [(Some 1, 0%nat); (Some 2, 1%nat)]. split; [lia|]. assert (F : full_answer (length [7; 8; 9]) 2 (/ 10 ^ 10) [(Some 1, 0%nat); (Some 2, 1%nat)]) by good_rows.
  split; [exact F|]. split; [reflexivity|]. split; [repeat constructor; lra|]. split; [exists 1; split; [right; right; left; reflexivity|lra]|]. intros st.
  destruct (one_value [7; 8; 9] 2 1 (Some [0; 0; 1]) false _ st ltac:(lia) F eq_refl ltac:(discriminate)) as (l & w & E & LL & H & EW & O). rewrite O.
  destruct l as [|[a i] [|[b j] [|? ?]]]; try discriminate. injection E as <- <- <- <-. subst w. unfold shares. cbn [map wt nth fst snd sum].
  destruct (Req_EM_T (0 / 1 ^ 1 + (0 / 2 ^ 1 + 0)) 0) as [_|X]; [reflexivity|]. exfalso. apply X. unfold Rdiv. ring.
Qed.
Lemma shape_of_q : exists z k p ws rows, (2 <= k)%nat /\ Forall (full_answer (length z) k (/ 10 ^ 10)) rows /\ length ws = length rows /\ Forall (fun w => 0 < w) ws /\
  call z k p (Some ws) false rows fresh = Raise IndexError.
Proof.
  exists [7; 8; 9], 2%nat, 1%nat, [1], [[(Some 1, 0%nat); (Some 2, 1%nat)]]. split; [lia|]. split; [constructor; [good_rows|constructor]|]. split; [reflexivity|]. split; [repeat constructor; lra|].
  unfold call. cbn [length Nat.eqb fresh s_wsum s_wn many]. unfold one. cbn [Nat.eqb]. destruct (Rlt_dec 1 eps_same) as [X|_]; [pose proof eps_le_1; unfold eps_same in X; lra|].
  unfold raw_weights. cbn [mapM snd get nth_error bind]. reflexivity.
Qed.
Lemma weights_case : full_answer 3 2 (/ 10 ^ 10) [(Some 1, 2%nat); (Some 2, 0%nat)] /\ exists v, one [10; 20; 40] 2 1 (Some [2; 5; 1]) false [(Some 1, 2%nat); (Some 2, 0%nat)] (0%nat, []) = Ok (Some v, (0%nat, [])) /\ v = 25.
Proof.
  assert (F : full_answer 3 2 (/ 10 ^ 10) [(Some 1, 2%nat); (Some 2, 0%nat)]) by good_rows. split; [exact F|].
  assert (S : sum_over (fun d i => nth i [2; 5; 1] 0 / d ^ 1) [(Some 1, 2%nat); (Some 2, 0%nat)] = 2) by (cbn; field).
  destruct (weighted_mean [10; 20; 40] 2 1 [2; 5; 1] _ ltac:(lia) F eq_refl ltac:(rewrite S; lra) (0%nat, [])) as (v & O & V). exists v. split; [exact O|]. rewrite S in V. cbn in V. lra.
Qed.
Definition sorted_down (xs : list R) : Prop := forall i j, (i <= j < length xs)%nat -> nth j xs 0 <= nth i xs 0.
Lemma zip_nth a b i : length a = length b -> nth i (zip_with Rplus a b) 0 = nth i a 0 + nth i b 0.
Proof. unfold zip_with. revert b i. induction a as [|x a IH]; intros [|y b] i H; cbn in H; try discriminate; [destruct i; cbn; ring|]. destruct i as [|i]; [reflexivity|]. cbn. apply IH. congruence. Qed.
Lemma shares_sorted p l : (forall d i, In (d, i) l -> 0 < d) -> nearest_first (map (fun a : R * nat => (Some (fst a), snd a)) l) -> 0 < tot (wt p None) l ->
  sorted_down (map (fun x => x / tot (wt p None) l) (map (wt p None) l)).
Proof.
  intros H N T i j [A B]. rewrite map_map in *. rewrite map_length in B. set (s := tot (wt p None) l) in *. clearbody s.
  destruct (nth_error l i) as [[di a]|] eqn:Ei; [|apply nth_error_None in Ei; lia]. destruct (nth_error l j) as [[dj b]|] eqn:Ej; [|apply nth_error_None in Ej; lia].
  rewrite (nth_indep _ 0 (wt p None (0, 0%nat) / s)) by (rewrite map_length; lia). rewrite (nth_indep (map _ l) 0 (wt p None (0, 0%nat) / s)) by (rewrite map_length; lia).
  rewrite !(map_nth (fun a => wt p None a / s)). rewrite (nth_error_nth l j _ Ej), (nth_error_nth l i _ Ei). cbn [wt fst].
  assert (D : di <= dj). { apply (N i j di dj a b A); rewrite nth_error_map; [rewrite Ei|rewrite Ej]; reflexivity. }
  assert (P : 0 < di) by (apply (H di a), nth_error_In with i, Ei). apply Rmult_le_compat_r; [apply Rlt_le, Rinv_0_lt_compat, T|].
  unfold Rdiv. rewrite !Rmult_1_l. apply Rinv_le_contravar; [apply pow_lt, P|]. apply pow_incr. lra.
Qed.
Lemma many_sorted z k p rows : (2 <= k)%nat -> Forall (full_answer (length z) k eps_same) rows -> Forall nearest_first rows ->
  forall wn xs, length xs = k -> sorted_down xs -> exists vs ys, many z k p None true rows (wn, map Some xs) = Ok (vs, ((wn + length rows)%nat, map Some ys)) /\ length ys = k /\ sorted_down ys.
Proof.
  intros K2 F N. induction rows as [|row rows IH]; intros wn xs L SD.
  - exists [], xs. cbn. rewrite Nat.add_0_r. auto.
  - inversion F as [|? ? F1 F2]; subst. inversion N as [|? ? N1 N2]; subst.
    destruct (one_value z (length xs) p None true row (wn, map Some xs) K2 F1 I (fun _ => map_length _ _)) as (l & w & E & LL & H & EW & O).
    assert (T : 0 < tot (wt p None) l) by (apply wt_sum_pos; [intros ->; cbn in LL; lia|intros d i J; apply (H d i J)]).
    destruct (mean_eq p None z l ltac:(lra)) as (S1 & S2). rewrite EW in O. rewrite S1 in O. cbn [fst snd] in O. rewrite zip_some in O.
    assert (SS : sorted_down (map (fun x => x / tot (wt p None) l) (map (wt p None) l))) by (apply shares_sorted; [intros d i J; apply (H d i J)|rewrite <- E; exact N1|exact T]).
    assert (SL : length (map (fun x => x / tot (wt p None) l) (map (wt p None) l)) = length xs) by (rewrite !map_length; exact LL).
    set (sh := map (fun x => x / tot (wt p None) l) (map (wt p None) l)) in *.
    destruct (IH F2 N2 (S wn) (zip_with Rplus xs sh)) as (vs & ys & M & LY & SY); [rewrite zip_length; congruence| |].
    { intros i j [A B]. rewrite zip_length in B by congruence. rewrite !zip_nth by congruence. specialize (SD i j (conj A B)). specialize (SS i j). rewrite SL in SS. specialize (SS (conj A B)). lra. }
    eexists. exists ys. cbn [many]. rewrite O. cbn [bind fst snd]. rewrite M. cbn [bind fst snd length]. split; [f_equal; f_equal; f_equal; lia|]. auto.
Qed.
Lemma call_sorted z k p rows : (2 <= k)%nat -> z <> [] -> Forall (full_answer (length z) k eps_same) rows -> Forall nearest_first rows ->
  exists vs xs, call z k p None true rows fresh = Ok (vs, {| s_wn := length rows; s_wsum := Some (map Some xs) |}) /\ forall i j, (i <= j < k)%nat -> nth j xs 0 <= nth i xs 0.
Proof.
  intros K2 NZ F N. unfold call. destruct z as [|z0 z]; [congruence|]. change (length (z0 :: z) =? 0)%nat with false. cbv iota. cbn [fresh s_wsum s_wn].
  assert (R : repeat (Some 0) k = map Some (repeat 0 k)) by (clear; induction k; cbn; congruence). rewrite R.
  destruct (many_sorted (z0 :: z) k p rows K2 F N 0 (repeat 0 k) (repeat_length 0 k)) as (vs & ys & M & LY & SY).
  { intros i j _. rewrite !nth_repeat. lra. }
  rewrite M. cbn [bind fst snd]. exists vs, ys. split; [reflexivity|]. intros i j H. apply SY. lia.
Qed.
Lemma many_off z k p weights rows : forall st vs st', many z k p weights false rows st = Ok (vs, st') -> st' = st.
Proof.
  induction rows as [|row rows IH]; intros st vs st' H; cbn [many] in H; [congruence|].
  assert (O : forall v s, one z k p weights false row st = Ok (v, s) -> s = st).
  { intros v s. unfold one. destruct row as [|[d0 i0] row]; [discriminate|]. destruct (k =? 1)%nat; [destruct (get z i0); cbn [bind]; congruence|].
    destruct (match d0 with Some r => if Rlt_dec r eps_same then true else false | None => false end); [destruct (get z i0); cbn [bind]; congruence|].
    destruct (raw_weights p weights _); cbn [bind]; try discriminate. destruct (mapM _ _); cbn [bind]; try discriminate. congruence. }
  destruct (one z k p weights false row st) as [[v s]| |]; cbn [bind fst snd] in H; try discriminate. rewrite (O v s eq_refl) in H.
  destruct (many z k p weights false rows st) as [[vs2 s2]| |] eqn:M; cbn [bind fst snd] in H; try discriminate. injection H as _ <-. apply (IH _ _ _ M).
Qed.
Lemma call_off z k p weights rows vs st st' : call z k p weights false rows st = Ok (vs, st') -> s_wn st' = s_wn st /\ (forall ws, s_wsum st = Some ws -> s_wsum st' = Some ws).
Proof.
  unfold call. destruct (length z =? 0)%nat; [discriminate|]. destruct (many _ _ _ _ _ _ _) as [[v s]| |] eqn:M; cbn [bind fst snd]; try discriminate. intros E. injection E as <- <-.
  apply many_off in M. subst s. cbn. split; [reflexivity|]. intros ws ->. reflexivity.
Qed.
Lemma two_calls : exists z k k' rows rows' vs st, (2 <= k)%nat /\ (2 <= k')%nat /\ Forall (full_answer (length z) k (/ 10 ^ 10)) rows /\ Forall (full_answer (length z) k' (/ 10 ^ 10)) rows' /\
  call z k 1 None true rows fresh = Ok (vs, st) /\ call z k' 1 None true rows' st = Raise ValueError.
Proof.
  set (r2 := [(Some 1, 0%nat); (Some 2, 1%nat)]). set (r3 := [(Some 1, 0%nat); (Some 2, 1%nat); (Some 3, 2%nat)]).
  assert (F2 : full_answer 3 2 (/ 10 ^ 10) r2) by good_rows. assert (F3 : full_answer 3 3 (/ 10 ^ 10) r3) by good_rows.
  destruct (call_stats [7; 8; 9] 2 1 None [r2] ltac:(lia) ltac:(discriminate) I ltac:(constructor; [exact F2|constructor]) ltac:(repeat constructor)) as (vs & ws & C & _ & L & _).
  exists [7; 8; 9], 2%nat, 3%nat, [r2], [r3], (map Some vs). eexists. split; [lia|]. split; [lia|]. split; [constructor; [exact F2|constructor]|]. split; [constructor; [exact F3|constructor]|].
  split; [exact C|]. apply (other_count [7; 8; 9] 3 1 None [] r3 _ ws); [lia|discriminate|exact I|exact F3|reflexivity|lia].
Qed.
Lemma stats_case : Forall (full_answer 3 2 (/ 10 ^ 10)) [[(Some 1, 2%nat); (Some 3, 0%nat)]; [(Some 2, 1%nat); (Some 2, 0%nat)]] /\ Forall nearest_first [[(Some 1, 2%nat); (Some 3, 0%nat)]; [(Some 2, 1%nat); (Some 2, 0%nat)]].
Proof.
  split; [apply Forall_cons; [good_rows|apply Forall_cons; [good_rows|apply Forall_nil]]|]. apply Forall_cons; [|apply Forall_cons; [|apply Forall_nil]]; intros i j di dj a b H A B; destruct i as [|[|[|i]]], j as [|[|[|j]]]; cbn in A, B; try discriminate; try lia; injection A as <- _; injection B as <- _; lra.
Qed.
(** * Points without a weight *)
Lemma zip_none n a : length a = n -> zip_with plus_opt a (repeat None n) = repeat None n /\ zip_with plus_opt (repeat None n) a = repeat None n.
Proof.
  revert n. unfold zip_with. induction a as [|x a IH]; intros [|n] H; cbn in H; try discriminate; [split; reflexivity|]. cbn [repeat combine map fst snd].
  destruct (IH n ltac:(congruence)) as [-> ->]. split; [|reflexivity]. destruct x; reflexivity.
Qed.
Lemma step_length k p weights l st : length l = k -> length st = k ->
  let w := map (wt p weights) l in length (zip_with plus_opt st (match shares w with Some s => map Some s | None => repeat None k end)) = k.
Proof.
  intros H1 H2. cbn zeta. rewrite zip_length; [exact H2|]. destruct (shares _) as [s|] eqn:E; [|rewrite repeat_length; exact H2].
  apply shares_sum in E. destruct E as [E _]. rewrite map_length, E, map_length. congruence.
Qed.
Lemma many_poisoned z k p ws rows : (2 <= k)%nat -> length ws = length z -> Forall (full_answer (length z) k eps_same) rows ->
  forall st, length (snd st) = k -> (snd st = repeat None k \/ Exists (fun row => sum_over (fun d i => nth i ws 0 / d ^ p) row = 0) rows) ->
  exists vs, many z k p (Some ws) true rows st = Ok (vs, ((fst st + length rows)%nat, repeat None k)).
Proof.
  intros K2 C F. induction F as [|row rows Fr F IH]; intros st L H; cbn [many].
  - destruct H as [H|H]; [|inversion H]. exists []. destruct st as [n s]. cbn in *. subst s. rewrite Nat.add_0_r. reflexivity.
  - destruct (one_value z k p (Some ws) true row st K2 Fr C (fun _ => L)) as (l & w & E & LL & HI & EW & O). rewrite O. cbn [bind fst snd].
    match goal with |- context [many z k p (Some ws) true rows (_, ?s)] => set (s1 := s) end.
    assert (L1 : length s1 = k) by (unfold s1; rewrite EW; apply step_length; auto).
    destruct (IH (S (fst st), s1)) as [vs E2]; [exact L1| |].
    + cbn [snd]. destruct H as [H|H].
      * left. unfold s1. rewrite H. apply zip_none. clear O L1 IH. clear s1. rewrite EW. destruct (shares _) as [s|] eqn:Es; [|apply repeat_length].
        apply shares_sum in Es. destruct Es as [Es _]. rewrite map_length, Es, map_length. exact LL.
      * inversion H as [? ? H0|? ? H0]; [|right; exact H0]. left. unfold s1. rewrite E, tot_over in H0. rewrite EW.
        change (tot (fun a => nth (snd a) ws 0 / fst a ^ p) l) with (tot (wt p (Some ws)) l) in H0.
        unfold shares. rewrite tot_sum. destruct (Req_EM_T _ 0) as [_|N]; [|contradiction]. apply zip_none. exact L.
    + rewrite E2. cbn [bind fst snd]. eexists. f_equal. f_equal. f_equal. cbn [length]. lia.
Qed.
Lemma call_poisoned z k p ws rows st wsum : (2 <= k)%nat -> z <> [] -> length ws = length z -> Forall (full_answer (length z) k eps_same) rows ->
  s_wsum st = Some wsum \/ (s_wsum st = None /\ wsum = repeat (Some 0) k) -> length wsum = k ->
  wsum = repeat None k \/ Exists (fun row => sum_over (fun d i => nth i ws 0 / d ^ p) row = 0) rows ->
  exists vs, call z k p (Some ws) true rows st = Ok (vs, {| s_wn := s_wn st + length rows; s_wsum := Some (repeat None k) |}).
Proof.
  intros K2 Z C F S L H. unfold call. destruct (Nat.eqb_spec (length z) 0) as [E|_]; [destruct z; [congruence|discriminate]|].
  assert (E : match s_wsum st with Some l => l | None => repeat (Some 0) k end = wsum) by (destruct S as [->|[-> ->]]; reflexivity). rewrite E.
  destruct (many_poisoned z k p ws rows K2 C F (s_wn st, wsum) L H) as [vs ->]. cbn [bind fst snd]. eexists. reflexivity.
Qed.
Lemma poisoned_case : Forall (full_answer 3 2 eps_same) [[(Some 1, 2%nat); (Some 3, 0%nat)]; [(Some 2, 1%nat); (Some 2, 0%nat)]] /\
  Exists (fun row => sum_over (fun d i => nth i [0; 4; 0] 0 / d ^ 1) row = 0) [[(Some 1, 2%nat); (Some 3, 0%nat)]; [(Some 2, 1%nat); (Some 2, 0%nat)]].
Proof. split; [apply stats_case|]. left. cbn. lra. Qed.
