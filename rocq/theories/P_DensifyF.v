(** Proofs about densifying on doubles. *)
From Coq Require Import List Arith Bool ZArith Lia Reals Lra Psatz SpecFloat.
From Flocq Require Import Core IEEE754.BinarySingleNaN.
From Verif Require Import Util M_Base M_Numpy M_FixMesh M_LimitF M_QualF M_Ieee M_StartF M_DensifyF.
From Verif Require M_Forces P_ForceF.
From Verif Require Import S_Double S_Ieee S_LapF S_StartF S_DensifyF P_Double P_LimitF P_Ieee P_Ieee2 P_Ieee3 P_QualF P_ForceF2 P_ProjF P_StartF.
Import ListNotations.

(** * The rows written *)
Lemma write_repeat {A} (x : A) w v m : (length v <= m)%nat -> write_at (w ++ repeat x m) (length w) v = (w ++ v) ++ repeat x (m - length v).
Proof.
  intros H. unfold write_at. rewrite firstn_app, firstn_all, Nat.sub_diag, firstn_O, app_nil_r.
  rewrite skipn_app. rewrite (skipn_all2 w) by lia. replace (length w + length v - length w)%nat with (length v) by lia.
  cbn [app]. rewrite <- app_assoc. do 2 f_equal.
  replace m with (length v + (m - length v))%nat at 1 by lia. rewrite repeat_app.
  rewrite skipn_app, skipn_all2, repeat_length, Nat.sub_diag; [reflexivity|rewrite repeat_length; lia].
Qed.
Definition number (c : count) : nat := match c with Count z => Z.to_nat z | _ => 0%nat end.
Definition cut (a b : fpt) (k : nat) : list fpt := combine (firstn (k + 1) (create_range_f (fst a) (fst b) (k + 2))) (firstn (k + 1) (create_range_f (snd a) (snd b) (k + 2))).
Definition segment_f (a b : fpt) (c : count) : list fpt := if (number c =? 0)%nat then [a] else cut a b (number c).
Lemma cut_length a b k : length (cut a b k) = (k + 1)%nat.
Proof. unfold cut. rewrite combine_length, !firstn_length. unfold create_range_f. rewrite !map_length, !seq_length. lia. Qed.
Lemma segment_length a b c : length (segment_f a b c) = S (number c).
Proof. unfold segment_f. destruct (Nat.eqb_spec (number c) 0) as [->|N]; [reflexivity|]. rewrite cut_length. lia. Qed.
Fixpoint pieces_f (poly : list fpt) (nin : list count) : list fpt :=
  match poly, nin with a :: ((b :: _) as t), ni :: ns => segment_f a b ni ++ pieces_f t ns | _, _ => [] end.
Lemma loop_step a b t ni ns n out : densify_loop_f (a :: b :: t) (ni :: ns) n out = densify_loop_f (b :: t) ns (n + length (segment_f a b ni)) (write_at out n (segment_f a b ni)).
Proof.
  rewrite segment_length. change (densify_loop_f (a :: b :: t) (ni :: ns) n out) with (if (number ni =? 0)%nat then densify_loop_f (b :: t) ns (n + 1) (write_at out n [a]) else densify_loop_f (b :: t) ns (n + (number ni + 1)) (write_at out n (cut a b (number ni)))).
  unfold segment_f. destruct (Nat.eqb_spec (number ni) 0) as [->|N]; [reflexivity|]. f_equal. lia.
Qed.
Lemma loop_pieces : forall poly nin w m, (length (pieces_f poly nin) <= m)%nat ->
  densify_loop_f poly nin (length w) (w ++ repeat nan2 m) = (w ++ pieces_f poly nin) ++ repeat nan2 (m - length (pieces_f poly nin)).
Proof.
  induction poly as [|a [|b t] IH]; intros nin w m H.
  - cbn. rewrite app_nil_r, Nat.sub_0_r. reflexivity.
  - cbn. rewrite app_nil_r, Nat.sub_0_r. reflexivity.
  - destruct nin as [|ni ns]; [cbn; rewrite app_nil_r, Nat.sub_0_r; reflexivity|].
    change (pieces_f (a :: b :: t) (ni :: ns)) with (segment_f a b ni ++ pieces_f (b :: t) ns) in *.
    rewrite app_length in H. rewrite loop_step. rewrite write_repeat by lia.
    rewrite <- app_length. rewrite IH by lia. rewrite (app_length (segment_f a b ni)). rewrite <- !app_assoc. do 4 f_equal. lia.
Qed.
Lemma count_nonneg d a b m z : count_of d a b m = Count z -> (0 <= z)%Z.
Proof.
  unfold count_of. destruct m; cbn [negb]; [|intros [= <-]; lia]. destruct (fdiv _ d) as [s|s| |s m e]; try discriminate.
  - cbn [f_ceil]. intros [= <-]. cbn. lia.
  - destruct s; intros [= <-]; lia.
  - cbn [f_ceil]. set (n := if (0 <=? e)%Z then _ else _). destruct (Z.ltb_spec (n - 1) 0); intros [= <-]; lia.
Qed.
Lemma sum_nonneg d : forall poly mask, (0 <= count_sum (counts d poly mask))%Z.
Proof.
  induction poly as [|a [|b t] IH]; intros [|m [|m' ms]]; try (cbn; lia).
  change (count_sum (counts d (a :: b :: t) (m :: m' :: ms))) with ((match count_of d a b m' with Count n => n | _ => 0 end + count_sum (counts d (b :: t) (m' :: ms)))%Z).
  specialize (IH (m' :: ms)). destruct (count_of d a b m') as [| |z] eqn:E; [| |apply count_nonneg in E]; lia.
Qed.
Lemma number_sum d a b m : Z.of_nat (number (count_of d a b m)) = match count_of d a b m with Count n => n | _ => 0%Z end.
Proof. destruct (count_of d a b m) as [| |z] eqn:E; try reflexivity. apply count_nonneg in E. apply Z2Nat.id, E. Qed.
Lemma pieces_length d : forall poly mask, length mask = length poly -> poly <> [] ->
  (length (pieces_f poly (counts d poly mask)) + 1 = Z.to_nat (count_sum (counts d poly mask)) + length poly)%nat.
Proof.
  induction poly as [|a [|b t] IH]; intros [|m [|m' ms]] L N; try (cbn in L; lia); try congruence.
  - reflexivity.
  - change (counts d (a :: b :: t) (m :: m' :: ms)) with (count_of d a b m' :: counts d (b :: t) (m' :: ms)).
    change (count_sum (count_of d a b m' :: counts d (b :: t) (m' :: ms))) with ((match count_of d a b m' with Count n => n | _ => 0 end + count_sum (counts d (b :: t) (m' :: ms)))%Z).
    change (pieces_f (a :: b :: t) (count_of d a b m' :: counts d (b :: t) (m' :: ms))) with (segment_f a b (count_of d a b m') ++ pieces_f (b :: t) (counts d (b :: t) (m' :: ms))).
    rewrite app_length, segment_length. specialize (IH (m' :: ms) ltac:(cbn in *; lia) ltac:(discriminate)).
    pose proof (sum_nonneg d (b :: t) (m' :: ms)). change (length (a :: b :: t)) with (S (length (b :: t))). rewrite <- number_sum. lia.
Qed.
Lemma pieces_zero d : forall poly mask, length mask = length poly -> poly <> [] -> count_sum (counts d poly mask) = 0%Z ->
  pieces_f poly (counts d poly mask) ++ [last poly nan2] = poly.
Proof.
  induction poly as [|a [|b t] IH]; intros [|m [|m' ms]] L N S; try (cbn in L; lia); try congruence.
  - reflexivity.
  - change (counts d (a :: b :: t) (m :: m' :: ms)) with (count_of d a b m' :: counts d (b :: t) (m' :: ms)) in *.
    change (count_sum (count_of d a b m' :: counts d (b :: t) (m' :: ms))) with ((match count_of d a b m' with Count n => n | _ => 0 end + count_sum (counts d (b :: t) (m' :: ms)))%Z) in S.
    change (pieces_f (a :: b :: t) (count_of d a b m' :: counts d (b :: t) (m' :: ms))) with (segment_f a b (count_of d a b m') ++ pieces_f (b :: t) (counts d (b :: t) (m' :: ms))).
    pose proof (sum_nonneg d (b :: t) (m' :: ms)) as H. rewrite <- number_sum in S.
    change (last (a :: b :: t) nan2) with (last (b :: t) nan2). rewrite <- app_assoc.
    rewrite IH; [|cbn in *; lia|discriminate|lia]. unfold segment_f. replace (number (count_of d a b m')) with 0%nat by lia. reflexivity.
Qed.
Lemma densify_all d poly mask out : length mask = length poly -> poly <> [] -> densify_f poly d mask = Ok out -> out = pieces_f poly (counts d poly mask) ++ [last poly nan2].
Proof.
  intros L N. unfold densify_f, count_total. cbv zeta. destruct (existsb is_inf (counts d poly mask)); [cbn [bind]; discriminate|]. destruct (Z.ltb (2 ^ 52) (count_sum (counts d poly mask))); [cbn [bind]; discriminate|]. cbn [bind].
  destruct (Z.eqb_spec (count_sum (counts d poly mask)) 0) as [E|E]; intros [= <-]; [symmetry; apply pieces_zero; assumption|].
  pose proof (pieces_length d poly mask L N) as PL. set (nout := (Z.to_nat _ + length poly)%nat) in *.
  rewrite <- (app_nil_l (repeat nan2 nout)). rewrite (loop_pieces poly (counts d poly mask) []) by lia. cbn [app].
  replace (nout - length (pieces_f poly (counts d poly mask)))%nat with 1%nat by lia.
  replace (nout - 1)%nat with (length (pieces_f poly (counts d poly mask))) by lia.
  rewrite write_repeat by (cbn; lia). cbn [length Nat.sub repeat]. rewrite app_nil_r. reflexivity.
Qed.

(** * One segment *)
Open Scope R_scope.
Lemma length_axis M d : good_length M d -> good_axis M d d d.
Proof.
  intros (F & [A B] & C & D). assert (P : 0 < / 2 ^ 900) by (apply Rinv_0_lt_compat, pow_lt; lra). assert (E : 2 ^ 20 = 1048576) by lra. assert (E4 : 2 ^ 40 = 1099511627776) by lra.
  split; [exact F|]. split; [exact F|]. split; [exact F|]. rewrite Rabs_pos_eq by lra. split; [exact B|]. split; [exact B|]. split; [lra|]. split; [lra|]. split; [lra|exact D].
Qed.
Lemma tiny_many M d : good_length M d -> bp (-1075) * 2 ^ 24 <= u * (M / 1000).
Proof.
  intros (_ & [A B] & _). assert (E9 : / 2 ^ 900 = bp (-900)) by (rewrite two_pow; change (-900)%Z with (- Z.of_nat 900)%Z; rewrite bpow_opp; reflexivity).
  apply Rle_trans with (u * (bp (-900) / 1000)); [|apply Rmult_le_compat_l; [apply bpow_ge_0|lra]]. apply Rle_trans with (bp (-53) * bp (-900) * bp (-10)).
  - rewrite (two_pow 24), <- !bpow_plus. apply bpow_le. lia.
  - unfold u, Rdiv. rewrite Rmult_assoc. apply Rmult_le_compat_l; [apply bpow_ge_0|]. apply Rmult_le_compat_l; [apply bpow_ge_0|]. change (bp (-10)) with (/ 1024). lra.
Qed.
Lemma abs_val x : finite_double x -> finite_double (SFabs x) /\ val (SFabs x) = Rabs (val x).
Proof.
  intros [V F]. destruct x as [s|s| |s m e]; try discriminate.
  - split; [split; reflexivity|]. change (val (SFabs (S754_zero s))) with 0. change (val (S754_zero s)) with 0. rewrite Rabs_R0. reflexivity.
  - split; [split; [exact V|reflexivity]|]. unfold val, SFabs, SF2R, F2R. cbn [cond_Zopp Fnum Fexp]. rewrite Rabs_mult, (Rabs_pos_eq (bpow radix2 e)) by apply bpow_ge_0. f_equal.
    rewrite <- abs_IZR. destruct s; reflexivity.
Qed.
Lemma maximum_val x y : finite_double x -> finite_double y -> finite_double (np_maximum x y) /\ val (np_maximum x y) = Rmax (val x) (val y).
Proof.
  intros Fx Fy. unfold np_maximum. assert (Nx : is_nan x = false) by (destruct Fx as [_ H]; destruct x; auto; discriminate). assert (Ny : is_nan y = false) by (destruct Fy as [_ H]; destruct y; auto; discriminate). rewrite Nx, Ny.
  pose proof (ltb_val x y Fx Fy) as L. destruct (SFltb x y).
  - assert (val x < val y) by (apply L; reflexivity). split; [exact Fy|]. rewrite Rmax_right by lra. reflexivity.
  - assert (~ val x < val y) by (intros C; apply L in C; discriminate). split; [exact Fx|]. rewrite Rmax_left by lra. reflexivity.
Qed.
Lemma Rmax_near a b c d e : Rabs (a - c) <= e -> Rabs (b - d) <= e -> Rabs (Rmax a b - Rmax c d) <= e.
Proof. intros A B. apply Rabs_le_inv in A, B. apply Rabs_le. unfold Rmax. destruct (Rle_dec a b), (Rle_dec c d); lra. Qed.
Lemma diff_ok M d a b : good_length M d -> finite_double a -> finite_double b -> Rabs (val a) <= M -> Rabs (val b) <= M ->
  finite_double (fsub b a) /\ Rabs (val (fsub b a) - (val b - val a)) <= u * (2 * M) + u * (M / 1000) /\ finite_double (SFabs (fsub b a)) /\ Rabs (val (SFabs (fsub b a)) - Rabs (val b - val a)) <= u * (2 * M) + u * (M / 1000).
Proof.
  intros G Fa Fb A B. destruct (axis_facts M d d d (length_axis M d G)) as (Hd & HM & T & T1 & UM & Bg & R). apply Rabs_le_inv in A, B.
  destruct (sub_ok b a Fb Fa) as [F V]; [apply Rabs_le; lra|]. pose proof (err_in (val b - val a) (2 * M) M) as E. specialize (E ltac:(apply Rabs_le; lra) T). rewrite <- V in E.
  destruct (abs_val _ F) as [F2 V2]. split; [exact F|]. split; [exact E|]. split; [exact F2|]. rewrite V2. apply Rle_trans with (2 := E). apply Rabs_triang_inv2.
Qed.
Lemma count_ok M d p q : good_length M d -> finite_point p -> finite_point q -> Rabs (val (fst p)) <= M -> Rabs (val (snd p)) <= M -> Rabs (val (fst q)) <= M -> Rabs (val (snd q)) <= M ->
  exists z, count_of d p q true = Count z /\ (0 <= z <= 2 ^ 22)%Z /\ span p q <= (IZR z + 1) * val d + cut_error M /\ (z = 0%Z \/ IZR z * val d < span p q + cut_error M).
Proof.
  intros G [F1 F2] [F3 F4] B1 B2 B3 B4. destruct (axis_facts M d d d (length_axis M d G)) as (Hd & HM & T & T1 & UM & Bg & R). pose proof u_bounds as U. assert (U0 : 0 < u * M) by (apply Rmult_lt_0_compat; lra).
  assert (U1 : u * M <= M / 1000000) by (replace (M / 1000000) with (/ 1000000 * M) by field; apply Rmult_le_compat_r; lra).
  destruct (diff_ok M d _ _ G F1 F3 B1 B3) as (_ & _ & Fx & Ex). destruct (diff_ok M d _ _ G F2 F4 B2 B4) as (_ & _ & Fy & Ey).
  destruct (maximum_val _ _ Fy Fx) as [Fm Vm]. assert (Em : Rabs (val (np_maximum (SFabs (fsub (snd q) (snd p))) (SFabs (fsub (fst q) (fst p)))) - span p q) <= u * (2 * M) + u * (M / 1000)).
  { rewrite Vm. unfold span. rewrite (Rmax_comm (Rabs (val (fst q) - val (fst p)))). apply Rmax_near; assumption. }
  set (D := np_maximum _ _) in *. assert (S0 : 0 <= span p q <= 2 * M).
  { unfold span. apply Rabs_le_inv in B1, B2, B3, B4. split; [apply Rle_trans with (2 := Rmax_l _ _), Rabs_pos|]. apply Rmax_lub; apply Rabs_le; lra. }
  assert (D0 : 0 <= val D). { rewrite Vm. apply Rle_trans with (2 := Rmax_l _ _). destruct (abs_val (fsub (snd q) (snd p))) as [_ ->]; [apply (diff_ok M d _ _ G F2 F4 B2 B4)|apply Rabs_pos]. }
  apply Rabs_le_inv in Em. destruct G as (Fd & [L1 L2] & L3 & L4).
  assert (DH : 0 <= val D / val d <= 3 * 2 ^ 20).
  { split; [apply Rmult_le_pos; [exact D0|left; apply Rinv_0_lt_compat, Hd]|]. apply Rmult_le_reg_r with (val d); [exact Hd|]. unfold Rdiv. rewrite Rmult_assoc, Rinv_l, Rmult_1_r by lra. lra. }
  assert (Bq : 3 * 2 ^ 20 <= big). { apply Rle_trans with (bp 22); [rewrite two_pow; change (bp 22) with 4194304; change (bp (Z.of_nat 20)) with 1048576; lra|apply bpow_le; lia]. }
  destruct (div_ok D d Fm Fd) as [Fq Vq]; [lra|rewrite Rabs_pos_eq; lra|]. pose proof (rnd_err (val D / val d)) as E3.
  assert (E3h : Rabs ((rnd (val D / val d) - val D / val d) * val d) <= u * (21 / 10 * M) + u * (M / 1000)).
  { rewrite Rabs_mult, (Rabs_pos_eq (val d)) by lra. apply Rle_trans with ((u * Rabs (val D / val d) + bp (-1075)) * val d); [apply Rmult_le_compat_r; lra|]. rewrite Rmult_plus_distr_r.
    apply Rplus_le_compat.
    - rewrite Rmult_assoc. apply Rmult_le_compat_l; [lra|]. rewrite Rabs_pos_eq by lra. unfold Rdiv. rewrite Rmult_assoc, Rinv_l, Rmult_1_r by lra. lra.
    - apply Rle_trans with (bp (-1075) * M); [apply Rmult_le_compat_l; [apply bpow_ge_0|lra]|]. replace (u * (M / 1000)) with (u / 1000 * M) by field. apply Rmult_le_compat_r; [lra|]. apply Rle_trans with (bp (-53) * bp (-10)); [rewrite <- bpow_plus; apply bpow_le; lia|]. unfold u, Rdiv. apply Rmult_le_compat_l; [apply bpow_ge_0|]. change (bp (-10)) with (/ 1024). lra. }
  rewrite Rmult_minus_distr_r in E3h. replace (val D / val d * val d) with (val D) in E3h by (field; lra). rewrite <- Vq in E3h. apply Rabs_le_inv in E3h.
  destruct (ceil_ok _ Fq) as (n & En & N1 & N2). set (Q := fdiv D d) in *.
  exists (if (n - 1 <? 0)%Z then 0%Z else (n - 1)%Z). split.
  { unfold count_of. cbn [negb]. cbv zeta. fold D. fold Q. destruct Fq as [_ Fq]. destruct Q; try discriminate Fq; rewrite En; reflexivity. }
  assert (QB : val Q < 2 ^ 22). { apply Rmult_lt_reg_r with (val d); [exact Hd|]. assert (2 ^ 22 = 4194304) by lra. assert (2 ^ 20 = 1048576) by lra. lra. }
  unfold cut_error. destruct (Z.ltb_spec (n - 1) 0) as [Hn|Hn].
  - split; [lia|]. split; [|left; reflexivity]. assert (IZR n <= 0) by (apply IZR_le; lia). assert (val Q * val d <= 0 * val d) by (apply Rmult_le_compat_r; lra). lra.
  - assert (val Q * val d <= IZR n * val d) by (apply Rmult_le_compat_r; lra). assert ((IZR n - 1) * val d < val Q * val d) by (apply Rmult_lt_compat_r; lra). rewrite minus_IZR. split; [|split; [lra|right; lra]].
    split; [lia|]. apply le_IZR. rewrite minus_IZR. change (IZR (2 ^ 22)) with 4194304. assert (2 ^ 22 = 4194304) by lra. lra.
Qed.
Lemma nth_firstn {A} (l : list A) : forall n j, (j < n)%nat -> nth_error (firstn n l) j = nth_error l j.
Proof. induction l as [|x l IH]; intros [|n] [|j] H; try lia; try reflexivity. apply IH. lia. Qed.
Lemma range_nth a b k j : (j <= k)%nat -> nth_error (firstn (k + 1) (create_range_f a b (k + 2))) j = Some (fadd (fmul (fmul (fdiv f_one (of_nat_f (S k))) (fsub b a)) (of_nat_f j)) a).
Proof.
  intros H. rewrite nth_firstn by lia. unfold create_range_f. rewrite nth_error_map, (nth_error_nth' _ 0%nat) by (rewrite seq_length; lia). rewrite seq_nth by lia. replace (k + 2 - 1)%nat with (S k) by lia. reflexivity.
Qed.
Lemma one_ok : finite_double f_one /\ val f_one = 1.
Proof. split; [split; reflexivity|]. unfold val, f_one, SF2R, F2R. cbn. lra. Qed.
Lemma range_point M d a b k j : good_length M d -> finite_double a -> finite_double b -> Rabs (val a) <= M -> Rabs (val b) <= M -> (Z.of_nat k <= 2 ^ 22)%Z -> (j <= k)%nat ->
  let x := fadd (fmul (fmul (fdiv f_one (of_nat_f (S k))) (fsub b a)) (of_nat_f j)) a in
  finite_double x /\ Rabs (val x - (val a + INR j / INR (S k) * (val b - val a))) <= cut_error M /\ (j = 0%nat -> val x = val a).
Proof.
  intros G Fa Fb A B Hk Hj x. destruct (axis_facts M d d d (length_axis M d G)) as (Hd & HM & T & T1 & UM & Bg & R). pose proof (tiny_many M d G) as TM. pose proof u_bounds as U. assert (U0 : 0 < u * M) by (apply Rmult_lt_0_compat; lra).
  assert (U1 : u * M <= M / 1000000) by (replace (M / 1000000) with (/ 1000000 * M) by field; apply Rmult_le_compat_r; lra).
  destruct (diff_ok M d a b G Fa Fb A B) as (Ft & Et & _ & _). assert (BA : Rabs (val b - val a) <= 2 * M) by (apply Rabs_le_inv in A, B; apply Rabs_le; lra). set (t := fsub b a) in *.
  assert (Bt : Rabs (val t) <= 21 / 10 * M) by (apply Rabs_le_inv in Et, BA; apply Rabs_le; lra).
  destruct (of_nat_val (S k)) as [Fn Vn]; [lia|]. destruct (of_nat_val j) as [Fj Vj]; [lia|].
  set (n := INR (S k)) in *. assert (N1 : 1 <= n) by (unfold n; rewrite S_INR; pose proof (pos_INR k); lra). assert (N2 : n <= 2 ^ 23). { unfold n. rewrite INR_IZR_INZ. apply Rle_trans with (IZR (2 ^ 23)); [apply IZR_le; lia|]. change (IZR (2 ^ 23)) with 8388608. lra. }
  assert (I0 : 0 < / n) by (apply Rinv_0_lt_compat; lra). assert (I1 : / n <= 1) by (rewrite <- Rinv_1; apply Rinv_le; lra).
  destruct one_ok as [F1 V1]. destruct (div_ok f_one (of_nat_f (S k)) F1 Fn) as [Fr Vr]; [rewrite Vn; lra|rewrite V1, Vn; unfold Rdiv; rewrite Rmult_1_l, Rabs_pos_eq by lra; apply Rle_trans with (bp 1); [change (bp 1) with 2; lra|apply bpow_le; lia]|].
  rewrite V1, Vn in Vr. unfold Rdiv in Vr. rewrite Rmult_1_l in Vr. set (r := fdiv f_one (of_nat_f (S k))) in *.
  pose proof (rnd_err (/ n)) as Er. rewrite <- Vr, (Rabs_pos_eq (/ n)) in Er by lra.
  (* rho = r n *)
  assert (Erho : Rabs (val r * n - 1) <= 1001 / 1000 * u).
  { replace (val r * n - 1) with ((val r - / n) * n) by (field; lra). rewrite Rabs_mult, (Rabs_pos_eq n) by lra. apply Rle_trans with ((u * / n + bp (-1075)) * n); [apply Rmult_le_compat_r; lra|].
    rewrite Rmult_plus_distr_r, Rmult_assoc, Rinv_l by lra. assert (bp (-1075) * n <= u / 1000); [|lra].
    apply Rle_trans with (bp (-1075) * 2 ^ 23); [apply Rmult_le_compat_l; [apply bpow_ge_0|exact N2]|]. rewrite (two_pow 23), <- bpow_plus. apply Rle_trans with (bp (-53) * bp (-10)); [rewrite <- bpow_plus; apply bpow_le; lia|]. unfold u, Rdiv. apply Rmult_le_compat_l; [apply bpow_ge_0|]. change (bp (-10)) with (/ 1024). lra. }
  set (rho := val r * n) in *. assert (Rr : val r = rho * / n) by (unfold rho; rewrite Rmult_assoc, Rinv_r, Rmult_1_r by lra; reflexivity). assert (Rho1 : Rabs rho <= 1001 / 1000) by (apply Rabs_le_inv in Erho; apply Rabs_le; lra).
  assert (Brt : Rabs (val r * val t) <= 2103 / 1000 * M * / n).
  { rewrite Rr. replace (rho * / n * val t) with (rho * val t * / n) by ring. rewrite Rabs_mult, (Rabs_pos_eq (/ n)), Rabs_mult by lra. apply Rmult_le_compat_r; [lra|]. apply Rle_trans with (1001 / 1000 * (21 / 10 * M)); [apply Rmult_le_compat; try apply Rabs_pos; assumption|lra]. }
  assert (Bin : 2103 / 1000 * M * / n <= 2103 / 1000 * M) by (rewrite <- (Rmult_1_r (2103 / 1000 * M)) at 2; apply Rmult_le_compat_l; lra).
  destruct (mul_ok r t Fr Ft) as [Fs Vs]; [lra|]. pose proof (rnd_err (val r * val t)) as Es. rewrite <- Vs in Es. set (s := fmul r t) in *.
  set (J := INR j / n). assert (J0 : 0 <= J <= 1). { unfold J. split; [apply Rmult_le_pos; [apply pos_INR|lra]|]. apply Rmult_le_reg_r with n; [lra|]. unfold Rdiv. rewrite Rmult_assoc, Rinv_l, Rmult_1_r, Rmult_1_l by lra. unfold n. apply le_INR. lia. }
  assert (Jn : INR j = J * n) by (unfold J, Rdiv; rewrite Rmult_assoc, Rinv_l, Rmult_1_r by lra; reflexivity).
  assert (Jb : INR j <= 2 ^ 24). { rewrite Jn. apply Rle_trans with (1 * 2 ^ 23); [apply Rmult_le_compat; lra|lra]. }
  assert (Esj : Rabs (val s * INR j - J * (val b - val a)) <= 67 / 10 * (u * M)).
  { replace (val s * INR j - J * (val b - val a)) with ((val s - val r * val t) * INR j + ((rho - 1) * val t * J + (val t - (val b - val a)) * J)) by (rewrite Rr, Jn; field; lra).
    assert (X1 : Rabs ((val s - val r * val t) * INR j) <= 2104 / 1000 * (u * M)).
    { rewrite Rabs_mult, (Rabs_pos_eq (INR j)) by apply pos_INR. apply Rle_trans with ((u * Rabs (val r * val t) + bp (-1075)) * INR j); [apply Rmult_le_compat_r; [apply pos_INR|exact Es]|]. rewrite Rmult_plus_distr_r.
      assert (Y1 : u * Rabs (val r * val t) * INR j <= u * (2103 / 1000 * M)). { rewrite Rmult_assoc. apply Rmult_le_compat_l; [lra|]. apply Rle_trans with (2103 / 1000 * M * / n * (J * n)); [rewrite Jn; apply Rmult_le_compat_r; [apply Rmult_le_pos; lra|exact Brt]|].
        replace (2103 / 1000 * M * / n * (J * n)) with (2103 / 1000 * M * J) by (field; lra). rewrite <- (Rmult_1_r (2103 / 1000 * M)) at 2. apply Rmult_le_compat_l; lra. }
      assert (Y2 : bp (-1075) * INR j <= u * (M / 1000)) by (apply Rle_trans with (2 := TM); apply Rmult_le_compat_l; [apply bpow_ge_0|exact Jb]). lra. }
    assert (X2 : Rabs ((rho - 1) * val t * J) <= 2103 / 1000 * (u * M)).
    { rewrite !Rabs_mult, (Rabs_pos_eq J) by lra. apply Rle_trans with (1001 / 1000 * u * (21 / 10 * M) * 1); [|lra]. apply Rmult_le_compat; [apply Rmult_le_pos; apply Rabs_pos|lra| |lra]. apply Rmult_le_compat; try apply Rabs_pos; assumption. }
    assert (X3 : Rabs ((val t - (val b - val a)) * J) <= 2002 / 1000 * (u * M)).
    { rewrite Rabs_mult, (Rabs_pos_eq J) by lra. apply Rle_trans with ((u * (2 * M) + u * (M / 1000)) * 1); [|lra]. apply Rmult_le_compat; [apply Rabs_pos|lra|exact Et|lra]. }
    apply Rabs_le_inv in X1, X2, X3. apply Rabs_le. lra. }
  assert (BJ : Rabs (J * (val b - val a)) <= 2 * M). { rewrite Rabs_mult, (Rabs_pos_eq J) by lra. apply Rle_trans with (1 * (2 * M)); [apply Rmult_le_compat; try apply Rabs_pos; lra|lra]. }
  apply Rabs_le_inv in Esj, BJ, A. destruct (mul_ok s (of_nat_f j) Fs Fj) as [Fm Vm]; [rewrite Vj; apply Rabs_le; lra|]. rewrite Vj in Vm. pose proof (err_in (val s * INR j) (21 / 10 * M) M) as E1. specialize (E1 ltac:(apply Rabs_le; lra) T). rewrite <- Vm in E1. apply Rabs_le_inv in E1.
  destruct (add_ok _ a Fm Fa) as [Fx Vx]; [apply Rabs_le; lra|]. pose proof (err_in (val (fmul s (of_nat_f j)) + val a) (32 / 10 * M) M) as E2. specialize (E2 ltac:(apply Rabs_le; lra) T). rewrite <- Vx in E2. apply Rabs_le_inv in E2. fold x in Fx, Vx, E2.
  split; [exact Fx|]. split; [unfold cut_error; fold n; fold J; apply Rabs_le; lra|]. intros ->. rewrite Vx, Vm. cbn [INR]. rewrite Rmult_0_r. replace (rnd 0) with 0 by (symmetry; apply rnd_id; apply generic_format_0). rewrite Rplus_0_l. apply rnd_id. apply format_val. exact Fa.
Qed.
Lemma combine_nth_error {A B} (l : list A) (l' : list B) : forall k, nth_error (combine l l') k = match nth_error l k, nth_error l' k with Some x, Some y => Some (x, y) | _, _ => None end.
Proof. revert l'. induction l as [|x l IH]; intros [|y l'] [|k]; cbn; try reflexivity; [destruct (nth_error l k); reflexivity|apply IH]. Qed.
Definition in_size (M : R) (p : fpt) : Prop := finite_point p /\ Rabs (val (fst p)) <= M /\ Rabs (val (snd p)) <= M.
Lemma cut_ok M d p q k : good_length M d -> in_size M p -> in_size M q -> (Z.of_nat k <= 2 ^ 22)%Z ->
  exists p' mids, cut p q k = p' :: mids /\ length mids = k /\ same_row p p' /\ forall j r, nth_error mids j = Some r -> near_along (cut_error M) p q (INR (S j) / INR (S k)) r.
Proof.
  intros G ([F1 F2] & B1 & B2) ([F3 F4] & B3 & B4) Hk. pose proof (cut_length p q k) as L. destruct (cut p q k) as [|p' mids] eqn:E; [cbn in L; lia|].
  assert (NT : forall j, (j <= k)%nat -> nth_error (p' :: mids) j = Some (fadd (fmul (fmul (fdiv f_one (of_nat_f (S k))) (fsub (fst q) (fst p))) (of_nat_f j)) (fst p), fadd (fmul (fmul (fdiv f_one (of_nat_f (S k))) (fsub (snd q) (snd p))) (of_nat_f j)) (snd p))).
  { intros j Hj. rewrite <- E. unfold cut. rewrite combine_nth_error, !range_nth by exact Hj. reflexivity. }
  exists p', mids. split; [reflexivity|]. cbn [length] in L. split; [lia|]. split.
  - specialize (NT 0%nat ltac:(lia)). cbn [nth_error] in NT. injection NT as ->. right.
    destruct (range_point M d (fst p) (fst q) k 0 G F1 F3 B1 B3 Hk ltac:(lia)) as (X1 & _ & X2). destruct (range_point M d (snd p) (snd q) k 0 G F2 F4 B2 B4 Hk ltac:(lia)) as (Y1 & _ & Y2).
    split; [split; assumption|]. split; [split; assumption|]. cbn [fst snd]. split; symmetry; [apply X2|apply Y2]; reflexivity.
  - intros j r H. assert (Hj : (S j <= k)%nat). { assert (X : nth_error mids j <> None) by congruence. apply nth_error_Some in X. lia. }
    specialize (NT (S j) Hj). cbn [nth_error] in NT. rewrite H in NT. injection NT as ->.
    destruct (range_point M d (fst p) (fst q) k (S j) G F1 F3 B1 B3 Hk Hj) as (X1 & X2 & _). destruct (range_point M d (snd p) (snd q) k (S j) G F2 F4 B2 B4 Hk Hj) as (Y1 & Y2 & _).
    split; [split; assumption|]. split; [exact X2|exact Y2].
Qed.
Lemma nan_diff d a b : val d <> 0 -> finite_double d -> a = nan2 \/ b = nan2 -> count_of d a b true = NanCount.
Proof.
  intros V F H. assert (X : SFabs (fsub (snd b) (snd a)) = S754_nan). { destruct H as [-> | ->]; cbn [snd]; [destruct (snd b) as [s|s| |s m e]; reflexivity|destruct (snd a) as [s|s| |s m e]; reflexivity]. }
  unfold count_of. cbn [negb]. cbv zeta. rewrite X. cbn [np_maximum is_nan]. destruct d as [s|s| |s m e]; reflexivity.
Qed.
Lemma last_cons {A} (a b : A) l x : last (a :: b :: l) x = last (b :: l) x. Proof. reflexivity. Qed.
Lemma pieces_densified M d : good_length M d -> forall poly mask, length mask = length poly -> poly <> [] -> Forall (plain_row M) poly ->
  densified_f M (val d) poly mask (pieces_f poly (counts d poly mask) ++ [last poly nan2]) /\ existsb is_inf (counts d poly mask) = false /\ (count_sum (counts d poly mask) <= Z.of_nat (length poly) * 2 ^ 22)%Z.
Proof.
  intros G. destruct (axis_facts M d d d (length_axis M d G)) as (Hd & HM & _). pose proof G as (Fd & _).
  induction poly as [|a [|b t] IH]; intros [|m [|m' ms]] L N P; try (cbn in L; lia); try congruence.
  - split; [apply densf_one|]. split; [reflexivity|cbn; lia].
  - inversion_clear P as [|? ? Pa P']. pose proof (Forall_inv P') as Pb.
    change (counts d (a :: b :: t) (m :: m' :: ms)) with (count_of d a b m' :: counts d (b :: t) (m' :: ms)).
    change (pieces_f (a :: b :: t) (count_of d a b m' :: counts d (b :: t) (m' :: ms))) with (segment_f a b (count_of d a b m') ++ pieces_f (b :: t) (counts d (b :: t) (m' :: ms))).
    rewrite last_cons, <- app_assoc. destruct (IH (m' :: ms)) as (D & I & S); [cbn in *; lia|discriminate|exact P'|].
    change (count_sum (count_of d a b m' :: counts d (b :: t) (m' :: ms))) with ((match count_of d a b m' with Count n => n | _ => 0 end + count_sum (counts d (b :: t) (m' :: ms)))%Z).
    cbn [existsb]. rewrite I. replace (Z.of_nat (length (a :: b :: t))) with (1 + Z.of_nat (length (b :: t)))%Z by (cbn [length]; lia).
    destruct m'; [|split; [apply densf_keep; [left; reflexivity|exact D]|split; [reflexivity|cbn [count_of negb]; lia]]].
    destruct Pa as [Na|(Fa & A1 & A2)]; [rewrite nan_diff by (try assumption; try lra; left; exact Na); split; [apply densf_keep; [right; left; exact Na|exact D]|split; [reflexivity|lia]]|].
    destruct Pb as [Nb|(Fb & B1 & B2)]; [rewrite nan_diff by (try assumption; try lra; right; exact Nb); split; [apply densf_keep; [right; right; exact Nb|exact D]|split; [reflexivity|lia]]|].
    destruct (count_ok M d a b G Fa Fb A1 A2 B1 B2) as (z & Ez & Hz & S1 & S2). rewrite Ez. split; [|split; [reflexivity|lia]].
    assert (NZ : IZR z = INR (Z.to_nat z)) by (rewrite INR_IZR_INZ, Z2Nat.id by lia; reflexivity). rewrite NZ, <- S_INR in S1. rewrite NZ in S2.
    unfold segment_f. cbn [number]. destruct (Nat.eqb_spec (Z.to_nat z) 0) as [Z0|Z0].
    + rewrite Z0 in *. change ([a] ++ pieces_f (b :: t) (counts d (b :: t) (true :: ms)) ++ [last (b :: t) nan2]) with (a :: [] ++ pieces_f (b :: t) (counts d (b :: t) (true :: ms)) ++ [last (b :: t) nan2]).
      apply densf_cut; [exact Fa|exact Fb|left; reflexivity|exact S1|left; reflexivity|intros [|j] r; discriminate|exact D].
    + destruct (cut_ok M d a b (Z.to_nat z) G) as (p' & mids & E & LM & SR & NR); [split; [exact Fa|split; assumption]|split; [exact Fb|split; assumption]|rewrite Z2Nat.id; lia|].
      rewrite E. cbn [app]. apply densf_cut; [exact Fa|exact Fb|exact SR|rewrite LM; exact S1| |rewrite LM; exact NR|exact D]. right. rewrite LM. destruct S2 as [S2|S2]; [lia|exact S2].
Qed.
Theorem densify_ok M d poly mask : good_length M d -> length mask = length poly -> Forall (plain_row M) poly -> (Z.of_nat (length poly) <= 2 ^ 30)%Z ->
  exists out, densify_f poly d mask = Ok out /\ densified_f M (val d) poly mask out.
Proof.
  intros G L P B. destruct poly as [|a t].
  - destruct mask; [|discriminate]. exists []. split; [reflexivity|apply densf_nil].
  - destruct (pieces_densified M d G (a :: t) mask L ltac:(discriminate) P) as (D & I & S).
    assert (X : exists out, densify_f (a :: t) d mask = Ok out). { unfold densify_f, count_total. cbv zeta. rewrite I. destruct (Z.ltb_spec (2 ^ 52) (count_sum (counts d (a :: t) mask))) as [C|C]; [lia|]. cbn [bind]. destruct (_ =? 0)%Z; eexists; reflexivity. }
    destruct X as [out E]. exists out. split; [exact E|]. rewrite (densify_all d (a :: t) mask out L ltac:(discriminate) E). exact D.
Qed.
