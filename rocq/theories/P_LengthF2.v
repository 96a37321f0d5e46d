(** Closed and open rings, nan and cases for lengths of rings of doubles. *)
From Coq Require Import List Arith Bool ZArith Lia Reals Lra SpecFloat Permutation.
From Flocq Require Import Core IEEE754.BinarySingleNaN.
From Verif Require Import Util M_Base M_FixMesh M_QualF M_LimitF M_ForceF M_OrientF M_LengthF S_Double S_Ieee S_AreaF S_LengthF P_Double P_LimitF P_Ieee P_Ieee2 P_Ieee3 P_ForceF P_ForceF2 P_ProjF P_StartF P_DensifyF P_OrientF P_AreaF P_AreaF2 P_LengthF.
From Verif Require P_PipF.
Import ListNotations.
Open Scope R_scope.
Local Notation bp := (bpow radix2).

(** * np.isclose *)
Lemma eqb_same x y : finite_double x -> finite_double y -> SFeqb x y = true -> val x = val y.
Proof.
  intros X Y E. assert (L : SFleb x y = true) by (unfold SFeqb, SFleb in *; destruct (SFcompare x y) as [[]|]; congruence). assert (N : SFltb x y = false) by (unfold SFeqb, SFltb in *; destruct (SFcompare x y) as [[]|]; congruence).
  apply (P_PipF.leb_val x y X Y) in L. destruct (Rle_lt_or_eq_dec _ _ L) as [H|H]; [|exact H]. apply (ltb_val x y X Y) in H. congruence.
Qed.
Lemma rtol_val : finite_double f_1e5 /\ 0 < val f_1e5 <= / 10 ^ 5 * (1 + / 2 ^ 40).
Proof. split; [split; reflexivity|]. unfold val, f_1e5, SF2R, F2R. cbn [cond_Zopp Fnum Fexp]. change (bpow radix2 (-69)) with (/ 590295810358705651712). split; cbn; lra. Qed.
Lemma apart_not_close a b : finite_double a -> finite_double b -> Rabs (val a) <= 2 ^ 400 -> Rabs (val b) <= 2 ^ 400 -> apart a b -> isclose_f a b = false.
Proof.
  intros FA FB A B H. unfold apart in H. pose proof (Rabs_pos (val b)) as PB. pose proof u_bounds as U. pose proof tau_pos as T. destruct rtol_val as [F5 V5]. pose proof atol_val as V8. assert (F8 : finite_double f_1e8) by (split; reflexivity).
  assert (TS : tau <= / 10 ^ 20). { unfold tau. apply Rinv_le_contravar; [apply pow_lt; lra|]. apply Rle_trans with (2 ^ 100); [cbn; lra|apply pow_up; lia]. }
  destruct (diff_tame b a FB FA B A) as (FD & _ & D1 & _). fold tau in D1. destruct (abs_val b FB) as [FAb VAb]. destruct (abs_val _ FD) as [FAd VAd].
  set (r := val f_1e5) in *. set (y := Rabs (val b)) in *. set (D := Rabs (val a - val b)) in *.
  assert (RB : 0 <= r * y <= / 10 ^ 5 * (1 + / 2 ^ 40) * y). { split; [apply Rmult_le_pos; lra|apply Rmult_le_compat_r; lra]. }
  assert (P4 : 1 <= 2 ^ 400) by (apply pow_R1_Rle; lra). assert (P8 : 100 * 2 ^ 400 <= 2 ^ 862). { change 862%nat with (62 + (400 + 400))%nat. rewrite !pow_add. assert (100 <= 2 ^ 62) by (cbn; lra). assert (1 * 2 ^ 400 <= 2 ^ 400 * 2 ^ 400) by (apply Rmult_le_compat_r; lra). apply Rmult_le_compat; lra. }
  assert (C5 : / 10 ^ 5 * (1 + / 2 ^ 40) <= / 2) by (cbn; lra). assert (RY : r * y <= / 2 * y) by (eapply Rle_trans; [apply RB|apply Rmult_le_compat_r; lra]).
  destruct (mul_ok f_1e5 (SFabs b) F5 FAb) as [FM VM]. { apply up_860. rewrite VAb. fold r y. rewrite Rabs_pos_eq by lra. lra. } rewrite VAb in VM. fold r y in VM. pose proof (rnd_near (r * y)) as NM. rewrite <- VM, (Rabs_pos_eq (r * y)) in NM by lra. apply Rabs_le_inv in NM. assert (M0 : 0 <= val (fmul f_1e5 (SFabs b))) by (rewrite VM; apply rnd_sign_pos; lra). set (m := val (fmul f_1e5 (SFabs b))) in *.
  rewrite u_val in *. replace (10 ^ 8) with 100000000 in * by (cbn; lra). replace (10 ^ 5) with 100000 in * by (cbn; lra). replace (10 ^ 20) with 100000000000000000000 in * by (cbn; lra). replace (2 ^ 60) with 1152921504606846976 in * by (cbn; lra). replace (2 ^ 40) with 1099511627776 in * by (cbn; lra). replace (2 ^ 20) with 1048576 in * by (cbn; lra).
  destruct (add_ok f_1e8 (fmul f_1e5 (SFabs b)) F8 FM) as [FS VS]. { apply up_860. fold m. rewrite Rabs_pos_eq by lra. lra. } fold m in VS. pose proof (rnd_near (val f_1e8 + m)) as NS. rewrite <- VS, u_val, (Rabs_pos_eq (val f_1e8 + m)) in NS by lra. apply Rabs_le_inv in NS. set (s := val (fadd f_1e8 (fmul f_1e5 (SFabs b)))) in *.
  assert (DD : D - / 9007199254740992 * D - tau <= Rabs (val (fsub a b))). { pose proof (Rabs_triang_inv (val a - val b) (val a - val b - val (fsub a b))) as Q. replace (val a - val b - (val a - val b - val (fsub a b))) with (val (fsub a b)) in Q by ring. rewrite (Rabs_minus_sym (val a - val b)) in Q. fold D in Q. lra. }
  assert (LT : s < Rabs (val (fsub a b))) by lra. unfold isclose_f. apply orb_false_iff. split.
  - apply andb_false_iff. right. destruct (SFleb _ _) eqn:L; [|reflexivity]. exfalso. apply (P_PipF.leb_val _ _ FAd FS) in L. rewrite VAd in L. fold s in L. lra.
  - destruct (SFeqb a b) eqn:E; [|reflexivity]. exfalso. apply eqb_same in E; try assumption. unfold D in *. rewrite E, Rminus_diag_eq, Rabs_R0 in * by reflexivity. lra.
Qed.
(** * Theorems *)
Section Length.
Variable sum : list spec_float -> spec_float.
Hypothesis OK : sum_contract sum.
Theorem length_bound l : l <> [] -> INR (length l) <= 2 ^ 50 -> Forall moderate_point l -> exists v, poly_length_f sum l = Ok v /\ finite_double v /\
  (Rabs (val v - perimeter l) <= length_error l \/ Rabs (val v - (perimeter l - closing l)) <= length_error l).
Proof. intros N F M. destruct (length_close sum OK l N F M) as (v & E & FV & H). exists v. split; [exact E|]. split; [exact FV|]. destruct (match l with [] => true | _ => _ end); [right|left]; exact H. Qed.
Theorem length_exact a l z : INR (length (a :: l)) <= 2 ^ 50 -> Forall moderate_point (a :: l) -> z = last (a :: l) a -> (val (fst a) = val (fst z) /\ val (snd a) = val (snd z)) \/ apart (fst a) (fst z) \/ apart (snd a) (snd z) ->
  exists v, poly_length_f sum (a :: l) = Ok v /\ finite_double v /\ Rabs (val v - perimeter (a :: l)) <= length_error (a :: l).
Proof.
  intros F M -> H. destruct (length_close sum OK (a :: l)) as (v & E & FV & C); [discriminate|exact F|exact M|]. exists v. split; [exact E|]. split; [exact FV|]. destruct H as [[H1 H2]|H].
  - assert (Z : closing (a :: l) = 0). { unfold closing, distance. rewrite H1, H2. replace ((_ - _) ^ 2 + (_ - _) ^ 2) with 0 by ring. apply sqrt_0. } rewrite Z, Rminus_0_r in C. destruct (_ && _); exact C.
  - assert (ML : moderate_point (last (a :: l) a)). { rewrite Forall_forall in M. apply M. destruct (exists_last (l := a :: l)) as (k & x & ->); [discriminate|]. rewrite last_last. apply in_or_app. right. left. reflexivity. } inversion M as [|? ? MA _]; subst. destruct MA as ((A1 & A2) & A3 & A4). destruct ML as ((L1 & L2) & L3 & L4). destruct H as [H|H]; apply apart_not_close in H; try assumption; rewrite H in C; [|rewrite andb_false_r in C]; exact C.
Qed.
Lemma added_nan l v : added l v -> In S754_nan l -> v = S754_nan.
Proof.
  induction 1 as [x|l m v w _ I1 _ I2|l v _ I1|l m v _ I1 P]; intros I.
  - destruct I as [I|[]]. exact I.
  - apply in_app_or in I. destruct I as [I|I]; [rewrite I1 by exact I; apply nan_add_l|rewrite I2 by exact I; apply nan_add_r].
  - rewrite I1 by exact I. apply nan_add_l.
  - apply I1. eapply Permutation_in; [symmetry; exact P|exact I].
Qed.
Definition has_nan (p : spec_float * spec_float) : Prop := fst p = S754_nan \/ snd p = S754_nan.
Lemma nan_sub_l y : fsub S754_nan y = S754_nan. Proof. destruct y; reflexivity. Qed.
Lemma nan_sub_r y : fsub y S754_nan = S754_nan. Proof. destruct y; reflexivity. Qed.
Lemma nan_length p : has_nan p -> length_f p = S754_nan.
Proof. intros [H|H]; unfold length_f; rewrite H, nan_mul_l, ?nan_add_l, ?nan_add_r; reflexivity. Qed.
Lemma nan_diff a b : has_nan a \/ has_nan b -> length_f (fsub (fst b) (fst a), fsub (snd b) (snd a)) = S754_nan.
Proof. intros H. apply nan_length. unfold has_nan in *. cbn [fst snd]. destruct H as [[H|H]|[H|H]]; rewrite H, ?nan_sub_l, ?nan_sub_r; tauto. Qed.
Lemma nan_steps : forall c a b p, In p (a :: b :: c) -> has_nan p -> In S754_nan (steps_f (a :: b :: c)).
Proof.
  induction c as [|d c IH]; intros a b p I H; change (steps_f (a :: b :: ?c)) with (length_f (fsub (fst b) (fst a), fsub (snd b) (snd a)) :: steps_f (b :: c)) in *.
  - left. apply nan_diff. destruct I as [<-|[<-|[]]]; tauto.
  - destruct I as [<-|I]; [left; apply nan_diff; tauto|right]. exact (IH b d p I H).
Qed.
Lemma nan_close a b : a = S754_nan -> isclose_f a b = false. Proof. intros ->. unfold isclose_f. destruct b; reflexivity. Qed.
Theorem length_nan l : (exists p, In p l /\ (fst p = S754_nan \/ snd p = S754_nan)) -> poly_length_f sum l = Ok S754_nan.
Proof.
  intros (p & I & H). destruct l as [|a r]; [destruct I|]. unfold poly_length_f. cbv zeta. f_equal.
  assert (G : forall b c, In p (a :: b :: c) -> sum (steps_f (a :: b :: c)) = S754_nan). { intros b c Ip. destruct OK as [_ O]. eapply added_nan; [apply O; discriminate|]. eapply nan_steps; [exact Ip|exact H]. }
  destruct (_ && _) eqn:C.
  - destruct r as [|b r]; [|apply G, I]. exfalso. destruct I as [->|[]]. cbn [last] in C. apply andb_true_iff in C. destruct C as [C1 C2]. destruct H as [H|H]; [rewrite (nan_close _ _ H) in C1|rewrite (nan_close _ _ H) in C2]; discriminate.
  - destruct r as [|b r]; cbn [app]; apply G; [destruct I as [->|[]]; left; reflexivity|]. destruct I as [->|I]; [left; reflexivity|right]. change (b :: r ++ [a]) with ((b :: r) ++ [a]). apply in_or_app. left. exact I.
Qed.
End Length.
Lemma seq_added : forall r l x, added l x -> added (l ++ r) (fold_left fadd r x).
Proof. induction r as [|y r IH]; intros l x A; cbn [fold_left]; [rewrite app_nil_r; exact A|]. replace (l ++ y :: r) with ((l ++ [y]) ++ r) by (rewrite <- app_assoc; reflexivity). apply IH. apply add_app; [exact A|apply add_one]. Qed.
Theorem seq_sum : sum_contract sum_seq.
Proof. split; [reflexivity|]. intros [|x r] N; [congruence|]. cbn [sum_seq]. exact (seq_added r [x] x (add_one x)). Qed.
(** * A corner of a thousandth of a degree at 128 degrees east passes as closed. *)
Definition g1 : spec_float := S754_finite false 4503633987108864 (-45).
Definition g2 : spec_float := S754_finite false 4503633987108864 (-47).
Definition corner : list (spec_float * spec_float) := [(a1, b1); (g1, b1); (g1, g2)].
Lemma corner_vals : val a1 = 128 /\ val b1 = 32 /\ val g1 = 128 + / 1024 /\ val g2 = 32 + / 4096.
Proof. unfold val, a1, b1, g1, g2, SF2R, F2R. cbn. lra. Qed.
Theorem corner_short : Forall moderate_point corner /\ closing corner > / 1024 /\ exists v, poly_length_f sum_seq corner = Ok v /\ val v = 5 / 4096 /\ val v <= 6 / 10 * perimeter corner.
Proof.
  destruct corner_vals as (V1 & V2 & V3 & V4). assert (C : closing corner > / 1024). { unfold closing, corner, distance. cbn [last fst snd]. rewrite V1, V2, V3, V4. apply Rlt_gt. rewrite <- (sqrt_pow2 (/ 1024)) at 1 by lra. apply sqrt_lt_1; lra. } split; [|split; [exact C|]].
  - repeat apply Forall_cons; try apply Forall_nil; (eapply small_moderate; [split; split; reflexivity|cbn [fst snd]; eassumption|cbn [fst snd]; eassumption|lra|lra]).
  - assert (P : perimeter corner > 9 / 4096). { unfold corner. rewrite perimeter_cons. fold corner. assert (D1 : distance (g1, b1) (a1, b1) = / 1024) by (unfold distance; cbn [fst snd]; rewrite V1, V2, V3; replace ((128 + / 1024 - 128) ^ 2 + (32 - 32) ^ 2) with ((/ 1024) ^ 2) by lra; apply sqrt_pow2; lra). assert (D2 : distance (g1, g2) (g1, b1) = / 4096) by (unfold distance; cbn [fst snd]; rewrite V2, V3, V4; replace ((128 + / 1024 - (128 + / 1024)) ^ 2 + (32 + / 4096 - 32) ^ 2) with ((/ 4096) ^ 2) by lra; apply sqrt_pow2; lra). cbn [around]. rewrite D1, D2. lra. }
    assert (V : val (sum_seq (steps_f corner)) = 5 / 4096). { match goal with |- val ?t = _ => let t' := eval vm_compute in t in change t with t' end. unfold val, SF2R, F2R. cbn. lra. }
    eexists. split; [vm_compute; reflexivity|]. change (val (sum_seq (steps_f corner)) = 5 / 4096 /\ val (sum_seq (steps_f corner)) <= 6 / 10 * perimeter corner). rewrite V. split; [reflexivity|lra].
Qed.
(** The quarter degree square of C213, with and without its last point, and a line with a nan. *)
Definition open_block : list (spec_float * spec_float) := [(a1, b1); (e1, b1); (e1, e2); (a1, e2)].
Theorem block_vals : val a1 = 128 /\ val b1 = 32 /\ val e1 = 128 + / 4 /\ val e2 = 32 + / 4. Proof. unfold val, a1, b1, e1, e2, SF2R, F2R. cbn. lra. Qed.
Lemma block_perimeter : perimeter block = 1 /\ perimeter open_block = 1.
Proof.
  destruct block_vals as (V1 & V2 & V3 & V4). assert (D : forall p q, (val (fst p) - val (fst q)) ^ 2 + (val (snd p) - val (snd q)) ^ 2 = (/ 4) ^ 2 -> distance p q = / 4) by (intros p q H; unfold distance; rewrite H; apply sqrt_pow2; lra). assert (D0 : forall p, distance p p = 0) by (intros p; unfold distance; replace ((_ - _) ^ 2 + (_ - _) ^ 2) with 0 by ring; apply sqrt_0).
  unfold perimeter, ring_sum, block, open_block. cbn [last around]. rewrite D0. rewrite !D by (cbn [fst snd]; rewrite ?V1, ?V2, ?V3, ?V4; lra). lra.
Qed.
Theorem block_lengths : Forall moderate_point block /\ Forall moderate_point open_block /\ block <> [] /\ INR (length block) <= 2 ^ 50 /\ last block (a1, b1) = (a1, b1) /\ perimeter block = 1 /\ perimeter open_block = 1 /\ apart b1 (snd (last open_block (a1, b1))) /\
  poly_length_f sum_seq block = poly_length_f sum_seq open_block.
Proof.
  destruct block_vals as (V1 & V2 & V3 & V4). destruct block_perimeter as [P1 P2].
  split; [repeat apply Forall_cons; try apply Forall_nil; (eapply small_moderate; [split; split; reflexivity|cbn [fst snd]; eassumption|cbn [fst snd]; eassumption|lra|lra])|]. split; [repeat apply Forall_cons; try apply Forall_nil; (eapply small_moderate; [split; split; reflexivity|cbn [fst snd]; eassumption|cbn [fst snd]; eassumption|lra|lra])|].
  split; [discriminate|]. split; [cbn; lra|]. split; [reflexivity|]. split; [exact P1|]. split; [exact P2|]. split; [|vm_compute; reflexivity].
  unfold apart, open_block. cbn [last snd]. rewrite V2, V4. replace (32 - (32 + / 4)) with (- / 4) by lra. rewrite Rabs_Ropp, !Rabs_pos_eq by lra. cbn. lra.
Qed.
