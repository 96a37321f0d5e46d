(** Fixed points through the iterations of generate_mesh on doubles. *)
From Coq Require Import List Arith Bool ZArith Lia Reals Lra Psatz SpecFloat.
From Flocq Require Import Core IEEE754.BinarySingleNaN Relative Plus_error.
From Verif Require Import Util M_Base M_Numpy M_Edges M_FixMesh M_LimitF M_LapF M_QualF M_Ieee M_ForceF M_ProjF M_GenF.
From Verif Require Import S_Double S_Ieee S_LapF S_ProjF S_GenF P_Double P_LimitF P_CutF P_LapF P_Ieee P_Ieee3 P_QualF P_ForceF P_ForceF2 P_ProjF.
Import ListNotations.
Open Scope R_scope.

Lemma upd_len {A} (l : list A) i v : length (upd l i v) = length l.
Proof. revert i. induction l as [|x l IH]; intros [|i]; simpl; auto. Qed.
Lemma upd_at {A} (l : list A) i j v d : (i < length l)%nat -> nth j (upd l i v) d = if (j =? i)%nat then v else nth j l d.
Proof. revert i j. induction l as [|x l IH]; intros [|i] [|j] H; simpl in *; try lia; auto. apply IH. lia. Qed.
Lemma same_refl x : same_place x x. Proof. split; reflexivity. Qed.
Lemma same_sym x y : same_place x y -> same_place y x. Proof. intros [A B]. split; symmetry; assumption. Qed.
Lemma same_trans x y z : same_place x y -> same_place y z -> same_place x z. Proof. intros [A B] [C D]. split; congruence. Qed.
Lemma apart_same x y z : apart x y -> same_place y z -> apart x z.
Proof. intros H [A B]. unfold apart in *. rewrite <- A, <- B. exact H. Qed.
Lemma forall_upd {A} (P : A -> Prop) l i v : Forall P l -> P v -> Forall P (upd l i v).
Proof. intros H V. revert i. induction H as [|x l X L IH]; intros [|i]; simpl; constructor; auto. Qed.
Lemma nearest_zero x p i : closest_node_f x p = Ok i -> moderate x -> Forall moderate p -> present p x -> (i < length p)%nat /\ ~ apart x (pt p i).
Proof.
  intros E Mx Mp (k & Hk & Sk). destruct (closest_f_ok x p i E (moderate_small x Mx)) as [Hi Hm]; [eapply Forall_impl; [|exact Mp]; exact moderate_small|].
  split; [exact Hi|]. intros Ha. specialize (Hm k Hk). rewrite (rdist2_same _ _ Sk) in Hm. pose proof (rdist2_apart _ _ Ha). assert (0 < bpow radix2 (-1000)) by apply bpow_gt_0. lra.
Qed.
Lemma place_ok pfix : forall all p p' inds, (forall x, In x pfix -> In x all) -> distinguishable all -> Forall moderate all -> Forall moderate p -> (forall x, In x all -> present p x) ->
  place_fixed_f pfix p = Ok (p', inds) ->
  length p' = length p /\ Forall moderate p' /\ (forall x, In x all -> present p' x) /\ (forall i, In i inds -> (i < length p')%nat) /\
  forall x, In x pfix -> exists i, In i inds /\ same_place x (pt p' i).
Proof.
  induction pfix as [|x r IH]; intros all p p' inds Sub Dis Ma Mp Pr E; cbn [place_fixed_f] in E.
  - injection E as <- <-. split; [reflexivity|]. split; [exact Mp|]. split; [exact Pr|]. split; intros ? [].
  - destruct (closest_node_f x p) as [ind| |] eqn:C; cbn [bind] in E; try discriminate. destruct (place_fixed_f r (upd p ind x)) as [[q is]| |] eqn:R; cbn [bind] in E; try discriminate. injection E as <- <-. cbn [fst snd].
    assert (Ix : In x all) by (apply Sub; left; reflexivity). assert (Mx : moderate x) by (rewrite Forall_forall in Ma; apply Ma, Ix).
    destruct (nearest_zero x p ind C Mx Mp (Pr x Ix)) as [Hi Na].
    assert (Pr' : forall z, In z all -> present (upd p ind x) z).
    { intros z Hz. destruct (Pr z Hz) as (k & Hk & Sk). destruct (Nat.eq_dec k ind) as [->|N].
      - exists ind. rewrite upd_len. split; [exact Hi|]. unfold pt. rewrite upd_at by exact Hi. rewrite Nat.eqb_refl. destruct (Dis x z Ix Hz) as [S|A]; [apply same_sym; exact S|]. elim Na. eapply apart_same; [exact A|exact Sk].
      - exists k. rewrite upd_len. split; [exact Hk|]. unfold pt. rewrite upd_at by exact Hi. apply Nat.eqb_neq in N. rewrite N. exact Sk. }
    destruct (IH all (upd p ind x) q is) as (L & Mq & Pq & Rg & Al); [intros z Hz; apply Sub; right; exact Hz|exact Dis|exact Ma|apply forall_upd; assumption|exact Pr'|exact R|].
    rewrite upd_len in L. split; [exact L|]. split; [exact Mq|]. split; [exact Pq|]. split; [intros i [<-|I]; [rewrite L; exact Hi|apply Rg, I]|].
    intros z [->|Hz]; [|destruct (Al z Hz) as (i & I & S); exists i; split; [right; exact I|exact S]].
    (* the place of x may have been taken by an equal fixed point later *)
    assert (G : forall l p0 p1 js k, (k < length p0)%nat -> Forall moderate p0 -> (forall y, In y l -> In y all) -> (forall y, In y all -> present p0 y) -> place_fixed_f l p0 = Ok (p1, js) -> same_place z (pt p0 k) -> same_place z (pt p1 k)).
    { clear - Dis Ma Ix. induction l as [|y l IHl]; intros p0 p1 js k Hk Mp Sub Pr E S; cbn [place_fixed_f] in E; [injection E as <- _; exact S|].
      destruct (closest_node_f y p0) as [j| |] eqn:C; cbn [bind] in E; try discriminate. destruct (place_fixed_f l (upd p0 j y)) as [[q is]| |] eqn:R; cbn [bind] in E; try discriminate. injection E as <- <-.
      assert (Iy : In y all) by (apply Sub; left; reflexivity). assert (My : moderate y) by (rewrite Forall_forall in Ma; apply Ma, Iy).
      destruct (nearest_zero y p0 j C My Mp (Pr y Iy)) as [Hj Na].
      assert (K : forall w, In w all -> forall n, (n < length p0)%nat -> same_place w (pt p0 n) -> same_place w (pt (upd p0 j y) n)).
      { intros w Hw n Hn Sn. unfold pt. rewrite upd_at by exact Hj. destruct (n =? j)%nat eqn:N; [|exact Sn]. apply Nat.eqb_eq in N. subst n. destruct (Dis y w Iy Hw) as [S'|A]; [apply same_sym, S'|]. elim Na. eapply apart_same; [exact A|exact Sn]. }
      apply (IHl (upd p0 j y) q is k); [rewrite upd_len; exact Hk|apply forall_upd; assumption|intros w Hw; apply Sub; right; exact Hw| |exact R|apply K; assumption].
      intros w Hw. destruct (Pr w Hw) as (n & Hn & Sn). exists n. rewrite upd_len. split; [exact Hn|apply K; assumption]. }
    exists ind. split; [left; reflexivity|]. apply (G r (upd p ind z) q is ind); [rewrite upd_len; exact Hi|apply forall_upd; assumption|intros y Hy; apply Sub; right; exact Hy|exact Pr'|exact R|].
    unfold pt. rewrite upd_at by exact Hi. rewrite Nat.eqb_refl. apply same_refl.
Qed.
Lemma zero_times dt : finite_double dt -> finite_double (fmul dt f_0) /\ val (fmul dt f_0) = 0.
Proof.
  intros D. destruct (mul_ok dt f_0 D (proj1 zero_ok)) as [F V]; [rewrite (proj2 zero_ok), Rmult_0_r, Rabs_R0; apply bpow_ge_0|]. split; [exact F|]. rewrite V, (proj2 zero_ok), Rmult_0_r. apply rnd_0.
Qed.
Lemma moderate_big x : Rabs x <= bpow radix2 500 -> Rabs x <= big.
Proof. intros H. apply Rle_trans with (1 := H). apply bpow_le. lia. Qed.
Lemma add_zero a z : finite_double a -> finite_double z -> val z = 0 -> Rabs (val a) <= bpow radix2 500 -> finite_double (fadd a z) /\ val (fadd a z) = val a.
Proof.
  intros A Z V B. destruct (add_ok a z A Z) as [F E]; [rewrite V, Rplus_0_r; apply moderate_big, B|]. split; [exact F|]. rewrite E, V, Rplus_0_r. apply rnd_id, format_val, A.
Qed.
Lemma move_parts dt p F fixed q : move_f dt p F fixed = Ok q -> length F = length p /\ length q = length p /\
  forall i, (i < length p)%nat -> pt q i = let f := if existsb (Nat.eqb i) fixed then zero2 else nth i F zero2 in (fadd (fst (pt p i)) (fmul dt (fst f)), fadd (snd (pt p i)) (fmul dt (snd f))).
Proof.
  unfold move_f. destruct (length F =? length p)%nat eqn:L; [|discriminate]. apply Nat.eqb_eq in L. intros H. injection H as <-. split; [exact L|]. split; [rewrite map_length, seq_length; reflexivity|].
  intros i Hi. unfold pt at 1. set (g := fun i0 : nat => _). rewrite (nth_indep _ nan2 (g 0%nat)) by (rewrite map_length, seq_length; exact Hi). rewrite map_nth, seq_nth by exact Hi. unfold g. cbn [Nat.add]. unfold pt. rewrite (nth_indep p zero2 nan2) by exact Hi. reflexivity.
Qed.
Lemma move_fixed dt p F fixed q i : finite_double dt -> move_f dt p F fixed = Ok q -> In i fixed -> (i < length p)%nat -> moderate (pt p i) -> finite_point (pt q i) /\ same_place (pt p i) (pt q i).
Proof.
  intros D M I Hi [[Fx Fy] [Bx By]]. destruct (move_parts _ _ _ _ _ M) as (_ & _ & P). rewrite (P i Hi). cbn zeta.
  assert (E : existsb (Nat.eqb i) fixed = true) by (apply existsb_exists; exists i; split; [exact I|apply Nat.eqb_refl]). rewrite E. cbn [zero2 fst snd].
  destruct (zero_times dt D) as [ZF ZV]. destruct (add_zero _ _ Fx ZF ZV Bx) as [A B]. destruct (add_zero _ _ Fy ZF ZV By) as [A' B'].
  split; split; cbn [fst snd]; try assumption; symmetry; assumption.
Qed.
Lemma pt_nth_error (p : list fpt) i : (i < length p)%nat -> nth_error p i = Some (pt p i).
Proof. intros H. unfold pt. apply nth_error_nth'. exact H. Qed.
Section Loop.
  Variable triangulate : nat -> list fpt -> res (list fpt * list tri).
  Variable locked : list fpt -> list tri -> res (list nat).
  Variable fd : fpt -> spec_float.
  Variable fh : list fpt -> res (list spec_float).
  Variables (geps deps dt m : spec_float) (pfix : list fpt).
  Lemma step_fixed p t fixed q i : finite_double dt -> same_outside fd -> move_step_f fd fh deps dt m p t fixed = Ok q -> In i fixed -> (i < length p)%nat -> moderate (pt p i) -> SFltb (S754_zero false) (fd (pt p i)) = false ->
    length q = length p /\ finite_point (pt q i) /\ same_place (pt p i) (pt q i).
  Proof.
    intros D SO E I Hi M O. unfold move_step_f in E. destruct (compute_forces_f fh m p t) as [F| |]; cbn [bind] in E; try discriminate. destruct (move_f dt p F fixed) as [p1| |] eqn:Mv; cbn [bind] in E; try discriminate. injection E as <-.
    destruct (move_parts _ _ _ _ _ Mv) as (_ & L & _). destruct (move_fixed _ _ _ _ _ i D Mv I Hi M) as [Fq Sq]. destruct (keeps p1 fd deps) as [KL KI].
    split; [rewrite KL; exact L|]. assert (H : nth_error (project_points_back_f p1 fd deps) i = Some (pt p1 i)).
    { apply KI; [apply pt_nth_error; rewrite L; exact Hi|]. rewrite <- (SO (pt p i) (pt p1 i) (proj1 M) Fq Sq). exact O. }
    unfold pt at 1 3. rewrite (nth_error_nth _ _ nan2 H). split; assumption.
  Qed.
  Hypothesis Tr : keeps_places triangulate.
  Hypothesis Dt : finite_double dt.
  Hypothesis SO : same_outside fd.
  Hypothesis Mf : Forall moderate pfix.
  Hypothesis Df : distinguishable pfix.
  Hypothesis In_f : forall x, In x pfix -> SFltb (S754_zero false) (fd x) = false.
  Lemma topo_parts count p p1 t fixed : (forall x, In x pfix -> present p x) -> topology_step_f triangulate locked fd geps pfix count p = Ok (p1, t, fixed) ->
    Forall moderate p1 /\ (forall x, In x pfix -> exists i, In i fixed /\ (i < length p1)%nat /\ same_place x (pt p1 i)).
  Proof.
    intros Pr E. unfold topology_step_f in E. destruct (triangulate count p) as [[pd td]| |] eqn:T; cbn [bind fst snd] in E; try discriminate. destruct (locked pd td) as [l| |]; cbn [bind] in E; try discriminate.
    destruct (place_fixed_f pfix pd) as [[pf is]| |] eqn:PF; cbn [bind fst snd] in E; try discriminate. destruct (remove_triangles_outside_f pf td fd geps) as [t0| |]; cbn [bind] in E; try discriminate. injection E as <- <- <-.
    destruct (Tr _ _ _ _ T) as [Kp Mp]. destruct (place_ok pfix pfix pd pf is (fun x H => H) Df Mf Mp (fun x H => Kp x (Pr x H)) PF) as (_ & Mq & _ & Rg & Al).
    split; [exact Mq|]. intros x Hx. destruct (Al x Hx) as (i & I & S). exists i. split; [apply in_or_app; right; exact I|]. split; [apply Rg, I|exact S].
  Qed.
  Theorem loop_fixed n : forall count p p' t', (forall x, In x pfix -> present p x) -> mesh_loop_f triangulate locked fd fh geps deps dt m pfix n count p = Ok (p', t') -> Forall moderate p' /\ forall x, In x pfix -> present p' x.
  Proof.
    induction n as [|n IH]; intros count p p' t' Pr E; cbn [mesh_loop_f] in E; destruct (topology_step_f triangulate locked fd geps pfix count p) as [[[p1 t] fixed]| |] eqn:T; cbn [bind] in E; try discriminate; destruct (topo_parts _ _ _ _ _ Pr T) as [M Al].
    - injection E as <- <-. split; [exact M|]. intros x Hx. destruct (Al x Hx) as (i & _ & Hi & S). exists i. split; assumption.
    - destruct (move_step_f fd fh deps dt m p1 t fixed) as [p2| |] eqn:MS; cbn [bind] in E; try discriminate. apply (IH (S count) p2 p' t'); [|exact E].
      intros x Hx. destruct (Al x Hx) as (i & I & Hi & S). assert (Mi : moderate (pt p1 i)) by (rewrite Forall_forall in M; apply M, nth_In, Hi).
      destruct (step_fixed p1 t fixed p2 i Dt SO MS I Hi Mi) as (L & _ & S2).
      + rewrite <- (SO x (pt p1 i)); [apply In_f, Hx|rewrite Forall_forall in Mf; apply (Mf x Hx)|apply Mi|exact S].
      + exists i. split; [rewrite L; exact Hi|eapply same_trans; eassumption].
  Qed.
End Loop.

(** * Free points *)
Lemma move_free dt p F fixed q i : finite_double dt -> move_f dt p F fixed = Ok q -> ~ In i fixed -> (i < length p)%nat -> moderate (pt p i) -> moderate (nth i F nan2) -> Rabs (val dt) <= bpow radix2 300 ->
  finite_point (pt q i) /\
  Rabs (val (fst (pt q i)) - (val (fst (pt p i)) + val dt * val (fst (nth i F nan2)))) <= u * Rabs (val (fst (pt p i))) + 3 * u * Rabs (val dt * val (fst (nth i F nan2))) + bpow radix2 (-1073) /\
  Rabs (val (snd (pt q i)) - (val (snd (pt p i)) + val dt * val (snd (nth i F nan2)))) <= u * Rabs (val (snd (pt p i))) + 3 * u * Rabs (val dt * val (snd (nth i F nan2))) + bpow radix2 (-1073).
Proof.
  intros D M NI Hi [[Fx Fy] [Bx By]] [[Gx Gy] [Cx Cy]] Bd. destruct (move_parts _ _ _ _ _ M) as (LF & _ & P). rewrite (P i Hi). cbn zeta.
  assert (E : existsb (Nat.eqb i) fixed = false). { destruct (existsb (Nat.eqb i) fixed) eqn:E; [|reflexivity]. apply existsb_exists in E. destruct E as (j & I & J). apply Nat.eqb_eq in J. subst j. elim (NI I). }
  rewrite E. rewrite (nth_indep F zero2 nan2) by lia. cbn [fst snd].
  assert (K : forall a f, finite_double a -> finite_double f -> Rabs (val a) <= bpow radix2 500 -> Rabs (val f) <= bpow radix2 500 ->
    finite_double (fadd a (fmul dt f)) /\ Rabs (val (fadd a (fmul dt f)) - (val a + val dt * val f)) <= u * Rabs (val a) + 3 * u * Rabs (val dt * val f) + bpow radix2 (-1073)).
  { intros a f A G Ba Bf. assert (Bm : Rabs (val dt * val f) <= bpow radix2 800). { rewrite Rabs_mult. change 800%Z with (300 + 500)%Z. rewrite bpow_plus. apply Rmult_le_compat; try apply Rabs_pos; assumption. }
    assert (T1 : 0 < bpow radix2 (-1075)) by apply bpow_gt_0. assert (T3 : bpow radix2 (-1073) = 4 * bpow radix2 (-1075)) by (change (-1073)%Z with (2 + -1075)%Z; rewrite bpow_plus; reflexivity).
    assert (U : 0 < u <= / 4) by (split; [apply bpow_gt_0|change (/ 4) with (bpow radix2 (-2)); apply bpow_le; lia]).
    destruct (mul_ok dt f D G) as [MF MV]; [apply Rle_trans with (1 := Bm), bpow_le; lia|]. set (w := val dt * val f) in *.
    pose proof (rnd_err w) as E1. assert (R1 : Rabs (rnd w) <= bpow radix2 800) by (apply rnd_abs_le; [apply rep_bp; lia|exact Bm]).
    assert (S : Rabs (val a + rnd w) <= big). { apply Rle_trans with (1 := Rabs_triang _ _). apply Rle_trans with (bpow radix2 899 + bpow radix2 899); [apply Rplus_le_compat; eapply Rle_trans; try eassumption; apply bpow_le; lia|]. unfold big. change 900%Z with (1 + 899)%Z. rewrite bpow_plus. change (bpow radix2 1) with 2. lra. }
    destruct (add_ok a (fmul dt f) A MF) as [AF AV]; [rewrite MV; exact S|]. split; [exact AF|]. rewrite AV, MV. pose proof (rnd_err (val a + rnd w)) as E2.
    assert (Q : Rabs (val a + rnd w) <= Rabs (val a) + Rabs w + (u * Rabs w + bpow radix2 (-1075))).
    { replace (val a + rnd w) with (val a + w + (rnd w - w)) by ring. apply Rle_trans with (1 := Rabs_triang _ _). apply Rplus_le_compat; [apply Rabs_triang|exact E1]. }
    replace (rnd (val a + rnd w) - (val a + w)) with ((rnd (val a + rnd w) - (val a + rnd w)) + (rnd w - w)) by ring. apply Rle_trans with (1 := Rabs_triang _ _).
    assert (W : 0 <= Rabs w) by apply Rabs_pos. assert (u * Rabs (val a + rnd w) <= u * (Rabs (val a) + Rabs w + (u * Rabs w + bpow radix2 (-1075)))) by (apply Rmult_le_compat_l; lra).
    assert (u * (u * Rabs w) <= u * Rabs w) by (apply Rmult_le_compat_l; [lra|]; assert (u * Rabs w <= 1 * Rabs w) by (apply Rmult_le_compat_r; lra); lra).
    assert (u * bpow radix2 (-1075) <= 1 * bpow radix2 (-1075)) by (apply Rmult_le_compat_r; lra). change (bp (-1075)) with (bpow radix2 (-1075)) in *. nra. }
  destruct (K _ _ Fx Gx Bx Cx) as [A1 A2]. destruct (K _ _ Fy Gy By Cy) as [B1 B2]. split; [split; assumption|]. split; assumption.
Qed.

(** * Boxes *)
Lemma box_same_outside x0 xN y0 yN : finite_double x0 -> finite_double xN -> finite_double y0 -> finite_double yN -> same_outside (fun q => bbox_f x0 xN y0 yN (fst q) (snd q)).
Proof.
  intros A B C D x y [X1 X2] [Y1 Y2] [E F]. pose proof (proj1 (proj2 (box_signs x0 xN y0 yN (fst x) (snd x) A B C D X1 X2))) as P. pose proof (proj1 (proj2 (box_signs x0 xN y0 yN (fst y) (snd y) A B C D Y1 Y2))) as Q.
  rewrite E, F in P. destruct (SFltb (S754_zero false) (bbox_f x0 xN y0 yN (fst x) (snd x))) eqn:U, (SFltb (S754_zero false) (bbox_f x0 xN y0 yN (fst y) (snd y))) eqn:V; try reflexivity; [elim (proj1 P eq_refl)|elim (proj1 Q eq_refl)]; [destruct (Classical_Prop.classic (val x0 <= val (fst y) <= val xN /\ val y0 <= val (snd y) <= val yN)) as [W|W]; [exact W|apply Q in W; discriminate]|].
  destruct (Classical_Prop.classic (val x0 <= val (fst y) <= val xN /\ val y0 <= val (snd y) <= val yN)) as [W|W]; [exact W|apply P in W; discriminate].
Qed.
Lemma box_in x0 xN y0 yN q : finite_double x0 -> finite_double xN -> finite_double y0 -> finite_double yN -> finite_point q -> val x0 <= val (fst q) <= val xN -> val y0 <= val (snd q) <= val yN ->
  SFltb (S754_zero false) (bbox_f x0 xN y0 yN (fst q) (snd q)) = false.
Proof.
  intros A B C D [E F] X Y. destruct (SFltb (S754_zero false) _) eqn:S; [|reflexivity]. apply (proj1 (proj2 (box_signs x0 xN y0 yN (fst q) (snd q) A B C D E F))) in S. elim S. split; assumption.
Qed.
Theorem loop_box tr locked fh geps deps dt m pfix x0 xN y0 yN n p p' t' : finite_double x0 -> finite_double xN -> finite_double y0 -> finite_double yN -> keeps_places tr -> finite_double dt ->
  Forall moderate pfix -> distinguishable pfix -> (forall x, In x pfix -> val x0 <= val (fst x) <= val xN /\ val y0 <= val (snd x) <= val yN) -> (forall x, In x pfix -> present p x) ->
  mesh_loop_f tr locked (fun q => bbox_f x0 xN y0 yN (fst q) (snd q)) fh geps deps dt m pfix n 0 p = Ok (p', t') -> forall x, In x pfix -> present p' x.
Proof.
  intros A B C D T Dt M Di I Pr E. apply (loop_fixed tr locked (fun q => bbox_f x0 xN y0 yN (fst q) (snd q)) fh geps deps dt m pfix T Dt (box_same_outside x0 xN y0 yN A B C D) M Di) with (n := n) (count := 0%nat) (p := p) (t' := t'); [|exact Pr|exact E].
  intros x Hx. rewrite Forall_forall in M. destruct (I x Hx) as [X Y]. apply box_in; try assumption. apply (M x Hx).
Qed.

(** * Cases *)
Definition b500 : spec_float := S754_finite false 4503599627370496 448.
Definition ok_coord (x : spec_float) : bool := valid_binary 53 1024 x && is_finite_SF x && SFltb x b500 && SFltb (SFopp b500) x.
(** A triangulation that leaves points alone and refuses large ones. *)
Definition same_points (t : list tri) (k : nat) (p : list fpt) : res (list fpt * list tri) :=
  if forallb (fun q => ok_coord (fst q) && ok_coord (snd q)) p then Ok (p, t) else Raise ValueError.
Lemma b500_ok : finite_double b500 /\ val b500 = bpow radix2 500 /\ finite_double (SFopp b500) /\ val (SFopp b500) = - bpow radix2 500.
Proof.
  assert (V : val b500 = bpow radix2 500). { unfold val, b500, SF2R, F2R. cbn [Fnum Fexp cond_Zopp]. change (IZR (Z.pos 4503599627370496)) with (bpow radix2 52). rewrite <- bpow_plus. reflexivity. }
  assert (F : finite_double b500) by (split; reflexivity). destruct (opp_double b500 F) as [G W]. rewrite W, V. split; [exact F|]. split; [reflexivity|]. split; [exact G|reflexivity].
Qed.
Lemma ok_coord_ok x : ok_coord x = true -> finite_double x /\ Rabs (val x) <= bpow radix2 500.
Proof.
  unfold ok_coord. intros H. apply andb_true_iff in H. destruct H as [H L2]. apply andb_true_iff in H. destruct H as [H L1]. apply andb_true_iff in H. destruct H as [V F]. destruct b500_ok as (B1 & B2 & B3 & B4).
  assert (X : finite_double x) by (split; assumption). apply (ltb_val x b500 X B1) in L1. apply (ltb_val (SFopp b500) x B3 X) in L2. split; [exact X|]. apply Rabs_le. lra.
Qed.
Lemma same_keeps t : keeps_places (same_points t).
Proof.
  intros k p p' t' H. unfold same_points in H. destruct (forallb _ p) eqn:E; [|discriminate]. injection H as <- <-. split; [auto|]. apply Forall_forall. intros q Hq. rewrite forallb_forall in E. specialize (E q Hq). apply andb_true_iff in E. destruct E as [E1 E2].
  apply ok_coord_ok in E1, E2. destruct E1 as [A B], E2 as [C D]. repeat split; try apply A; try apply C; assumption.
Qed.

Definition g_1 : spec_float := S754_finite false 4503599627370496 (-52).
Definition g_02 : spec_float := S754_finite false 7205759403792794 (-55).
Definition g_eps : spec_float := S754_finite false 4503599627370496 (-62).
Definition g_tiny : spec_float := S754_finite false 4503599627370496 (-652).
Definition g_p : list fpt := [(f_0, f_0); (g_1, f_0); (f_0, g_1); (g_1, g_1); (g_1, ftwo)].
Definition g_t : list tri := [(0, 1, 2); (1, 3, 2)]%nat.
Definition g_fh (q : list fpt) : res (list spec_float) := Ok (map (fun _ => g_1) q).
Definition no_lock (p : list fpt) (t : list tri) : res (list nat) := Ok [].
Definition unit_box (q : fpt) : spec_float := bbox_f f_0 g_1 f_0 g_1 (fst q) (snd q).
Definition g_run (n : nat) (pfix p : list fpt) : res (list fpt * list tri) := mesh_loop_f (same_points g_t) no_lock unit_box g_fh g_eps deps_f g_02 L0mult_f pfix n 0 p.
Lemma val_nonzero s m e : val (S754_finite s m e) <> 0.
Proof. unfold val, SF2R. intros H. apply eq_0_F2R in H. destruct s; discriminate. Qed.
Lemma ordinary_coord x : ok_coord x = true -> finite_double x /\ Rabs (val x) <= bpow radix2 500. Proof. exact (ok_coord_ok x). Qed.
Lemma mod_pt x y : ok_coord x = true -> ok_coord y = true -> moderate (x, y).
Proof. intros A B. apply ok_coord_ok in A, B. destruct A as [A1 A2], B as [B1 B2]. repeat split; try apply A1; try apply B1; assumption. Qed.
Lemma g_vals : val f_0 = 0 /\ val g_1 = 1 /\ 0 < val g_tiny < 1.
Proof.
  split; [reflexivity|]. split; [unfold val, g_1, SF2R, F2R; cbn; lra|]. unfold val, g_tiny, SF2R, F2R. cbn [Fnum Fexp cond_Zopp]. change (IZR (Z.pos 4503599627370496)) with (bpow radix2 52). rewrite <- bpow_plus. split; [apply bpow_gt_0|]. change 1 with (bpow radix2 0). apply bpow_lt. lia.
Qed.
Lemma lost_fixed : exists pfix p p' t', keeps_places (same_points g_t) /\ Forall moderate pfix /\ (forall x, In x pfix -> 0 <= val (fst x) <= 1 /\ 0 <= val (snd x) <= 1) /\ (forall x, In x pfix -> present p x) /\
  g_run 1 pfix p = Ok (p', t') /\ exists x, In x pfix /\ ~ present p' x.
Proof.
  exists [(f_0, f_0); (g_tiny, f_0)], ((g_tiny, f_0) :: g_p). do 2 eexists. split; [apply same_keeps|]. split; [repeat (apply Forall_cons; [apply mod_pt; reflexivity|]); apply Forall_nil|]. destruct g_vals as (V0 & V1 & Vt).
  split; [intros x [<-|[<-|[]]]; cbn [fst snd]; rewrite ?V0; lra|]. split; [intros x [<-|[<-|[]]]; [exists 1%nat|exists 0%nat]; (split; [cbn; lia|apply same_refl])|].
  split; [vm_compute; reflexivity|]. exists (f_0, f_0). split; [left; reflexivity|]. intros (i & Hi & A & B). cbn [fst snd] in A, B. rewrite V0 in A, B.
  do 6 (destruct i as [|i]; [unfold pt in A, B; cbn [nth fst snd] in A, B; first [exact (val_nonzero _ _ _ (eq_sym A))|exact (val_nonzero _ _ _ (eq_sym B))]|]). cbn in Hi. lia.
Qed.
Lemma g_case : keeps_places (same_points g_t) /\ Forall moderate [(f_0, f_0); (g_1, g_1)] /\ distinguishable [(f_0, f_0); (g_1, g_1)] /\ finite_double g_02 /\ (forall x, In x [(f_0, f_0); (g_1, g_1)] -> present g_p x) /\
  exists p' t', g_run 1 [(f_0, f_0); (g_1, g_1)] g_p = Ok (p', t') /\ nth 0 p' nan2 = (f_0, f_0) /\ nth 3 p' nan2 = (g_1, g_1) /\ nth 1 p' nan2 = (g_1, S754_finite true 5764607523034234 (-57)).
Proof.
  split; [apply same_keeps|]. split; [repeat (apply Forall_cons; [apply mod_pt; reflexivity|]); apply Forall_nil|]. destruct g_vals as (V0 & V1 & _). split.
  { assert (A : apart (f_0, f_0) (g_1, g_1) /\ apart (g_1, g_1) (f_0, f_0)). { assert (bpow radix2 (-500) <= 1) by (change 1 with (bpow radix2 0); apply bpow_le; lia). split; left; cbn [fst]; rewrite V0, V1; [rewrite Rabs_minus_sym|]; rewrite Rminus_0_r, Rabs_R1; assumption. }
    intros x y [<-|[<-|[]]] [<-|[<-|[]]]; [left; apply same_refl|right; apply A|right; apply A|left; apply same_refl]. }
  split; [split; reflexivity|]. split; [intros x [<-|[<-|[]]]; [exists 0%nat|exists 3%nat]; (split; [cbn; lia|apply same_refl])|].
  do 2 eexists. split; [vm_compute; reflexivity|]. repeat split.
Qed.
Lemma fixed_kept_f tr locked fd fh geps deps dt m pfix n p p' t' : keeps_places tr -> finite_double dt -> same_outside fd -> Forall moderate pfix -> distinguishable pfix ->
  (forall x, In x pfix -> SFltb (S754_zero false) (fd x) = false) -> (forall x, In x pfix -> present p x) ->
  mesh_loop_f tr locked fd fh geps deps dt m pfix n 0 p = Ok (p', t') -> Forall moderate p' /\ forall x, In x pfix -> present p' x.
Proof. intros T D SO M Di I Pr E. exact (loop_fixed tr locked fd fh geps deps dt m pfix T D SO M Di I n 0 p p' t' Pr E). Qed.
