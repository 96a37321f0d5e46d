(** Proofs about the point-in-polygon kernels. *)
From Coq Require Import List Arith Bool Lia ZArith QArith Qabs Qfield Lqa Permutation.
From Verif Require Import M_Base M_Sdf M_Inpoly S_Sdf S_Inpoly P_Sdf.
Import ListNotations.
Open Scope Q_scope.

Lemma Qltb_iff a b : Qltb a b = true <-> a < b.
Proof.
  unfold Qltb. rewrite negb_true_iff. split.
  - intros H. apply Qnot_le_lt. rewrite <- Qle_bool_iff. congruence.
  - intros H. destruct (Qle_bool b a) eqn:E; auto. apply Qle_bool_iff in E. lra.
Qed.
Lemma Qltb_false a b : Qltb a b = false <-> b <= a.
Proof. unfold Qltb. rewrite negb_false_iff. apply Qle_bool_iff. Qed.
Lemma Qleb_false a b : Qle_bool a b = false <-> b < a.
Proof. rewrite <- Qltb_iff. unfold Qltb. rewrite negb_true_iff. reflexivity. Qed.
Lemma npmin_cases a b : (npmin a b == a /\ a <= b) \/ (npmin a b == b /\ b <= a).
Proof. unfold npmin. destruct (Qle_bool a b) eqn:E; [apply Qle_bool_iff in E; left|apply Qleb_false in E; right]; split; try reflexivity; lra. Qed.
Lemma npmax_cases a b : (npmax a b == b /\ a <= b) \/ (npmax a b == a /\ b <= a).
Proof. unfold npmax. destruct (Qle_bool a b) eqn:E; [apply Qle_bool_iff in E; left|apply Qleb_false in E; right]; split; try reflexivity; lra. Qed.

(** * Parity *)
Definition par {A} (f : A -> bool) (l : list A) : bool := fold_right (fun x b => xorb (f x) b) false l.
Lemma om_par {A} (P : A -> Prop) (f : A -> bool) l : (forall x, In x l -> f x = true <-> P x) -> forall b, odd_many P b l <-> b = par f l.
Proof.
  induction l as [|x l IH]; intros H b; [|change (par f (x :: l)) with (xorb (f x) (par f l))].
  - split; [inversion 1; auto|intros ->; constructor].
  - assert (Hl : forall y, In y l -> f y = true <-> P y) by (intros; apply H; now right). specialize (IH Hl). specialize (H x (or_introl eq_refl)). split.
    + inversion 1 as [|y l' b' Hp Ho|y l' b' Hp Ho]; subst.
      * apply IH in Ho. apply H in Hp. rewrite Hp, Ho. reflexivity.
      * apply IH in Ho. assert (f x = false) as ->. { destruct (f x); auto. exfalso. apply Hp, H. reflexivity. } rewrite Ho. now rewrite xorb_false_l.
    + intros ->. destruct (f x) eqn:E.
      * apply (om_yes _ x l (par f l)); [now apply H|now apply IH].
      * rewrite xorb_false_l. apply om_no; [|now apply IH]. intros Hp. apply H in Hp. congruence.
Qed.
Lemma par_ext {A} (f g : A -> bool) l : (forall x, In x l -> f x = g x) -> par f l = par g l.
Proof. induction l as [|x l IH]; intros H; simpl; auto. rewrite (H x (or_introl eq_refl)), IH; auto. intros y Hy. apply H. now right. Qed.
Lemma par_none {A} (f : A -> bool) l : (forall x, In x l -> f x = false) -> par f l = false.
Proof. induction l as [|x l IH]; intros H; simpl; auto. rewrite (H x (or_introl eq_refl)), IH; auto. intros y Hy. apply H. now right. Qed.
Lemma par_split {A} (f g : A -> bool) l : par f l = xorb (par f (filter g l)) (par f (filter (fun x => negb (g x)) l)).
Proof. induction l as [|x l IH]; simpl; auto. destruct (g x); simpl; rewrite IH; destruct (f x), (par f (filter g l)), (par f (filter (fun x => negb (g x)) l)); reflexivity. Qed.
Lemma par_const {A} (f g : A -> bool) c l : (forall x, In x l -> g x = true -> f x = c) -> par f (filter g l) = c && par g l.
Proof.
  induction l as [|x l IH]; intros H; simpl; [now rewrite andb_false_r|].
  assert (Hl : forall y, In y l -> g y = true -> f y = c) by (intros; apply H; auto; now right). specialize (IH Hl).
  destruct (g x) eqn:E; simpl; [|rewrite IH; now destruct (par g l)]. rewrite (H x (or_introl eq_refl) E), IH. destruct c, (par g l); reflexivity.
Qed.

Definition place_eqb (a b : xy) : bool := Qeq_bool (fst a) (fst b) && Qeq_bool (snd a) (snd b).
Lemma place_eqb_iff a b : place_eqb a b = true <-> same_place a b.
Proof. unfold place_eqb, same_place. rewrite andb_true_iff, !Qeq_bool_iff. tauto. Qed.
Lemma same_place_trans a b c : same_place a b -> same_place b c -> same_place a c.
Proof. intros [H1 H2] [H3 H4]. split; lra. Qed.
Lemma same_place_sym a b : same_place a b -> same_place b a.
Proof. intros [H1 H2]. split; lra. Qed.
Lemma filter_len {A} (g : A -> bool) l : (length (filter g l) <= length l)%nat.
Proof. induction l as [|a l IH]; simpl; auto. destruct (g a); simpl; lia. Qed.
Lemma even_classes f l : (forall c, par (place_eqb c) l = false) -> (forall a b, same_place a b -> f a = f b) -> par f l = false.
Proof.
  intros H Hf. remember (length l) as n eqn:En. assert (Hn : (length l <= n)%nat) by lia. clear En. revert l Hn H.
  induction n as [|n IH]; intros l Hn H; [destruct l; [reflexivity|simpl in Hn; lia]|].
  destruct l as [|c l]; [reflexivity|]. rewrite (par_split f (place_eqb c)).
  rewrite (par_const f (place_eqb c) (f c)) by (intros x _ E; symmetry; apply Hf, place_eqb_iff, E).
  rewrite H, andb_false_r. rewrite xorb_false_l. apply IH.
  - simpl filter. assert (place_eqb c c = true) as -> by (apply place_eqb_iff; split; reflexivity). cbn [negb].
    pose proof (filter_len (fun x => negb (place_eqb c x)) l). simpl in Hn. lia.
  - intros c'. destruct (place_eqb c c') eqn:E.
    + apply par_none. intros x Hx. apply filter_In in Hx. destruct Hx as [_ Hx]. apply negb_true_iff in Hx.
      destruct (place_eqb c' x) eqn:E'; auto. exfalso. apply place_eqb_iff in E, E'. pose proof (same_place_trans _ _ _ E E') as G. apply place_eqb_iff in G. congruence.
    + specialize (H c'). rewrite (par_split _ (place_eqb c)) in H. rewrite (par_none _ (filter (place_eqb c) (c :: l))) in H; [now rewrite xorb_false_l in H|].
      intros x Hx. apply filter_In in Hx. destruct Hx as [_ Hx]. destruct (place_eqb c' x) eqn:E'; auto. exfalso.
      apply place_eqb_iff in Hx, E'. pose proof (same_place_trans _ _ _ Hx (same_place_sym _ _ E')) as G. apply place_eqb_iff in G. congruence.
Qed.

(** * One edge, any tolerance *)
Definition rc_hit ftol q s := negb (rc_skip ftol q s) && rc_boundary ftol q s.
Definition rc_tog ftol q s := negb (rc_skip ftol q s) && rc_crossing ftol q s.
Definition fk_hit ftol q s := negb (fk_skip ftol q s) && fk_boundary ftol q s.
Definition fk_tog ftol q s := negb (fk_skip ftol q s) && fk_crossing q s.
Lemma rc_loop_spec ftol q segs : forall c,
  match rc_loop ftol q segs c with
  | None => existsb (rc_hit ftol q) segs = true
  | Some c' => existsb (rc_hit ftol q) segs = false /\ Nat.odd c' = xorb (Nat.odd c) (par (rc_tog ftol q) segs)
  end.
Proof.
  induction segs as [|s r IH]; intros c; cbn [rc_loop existsb par fold_right]; [split; [auto|now rewrite xorb_false_r]|].
  unfold rc_hit at 1 3, rc_tog at 1. destruct (rc_skip ftol q s); cbn [negb andb orb]; [rewrite xorb_false_l; apply IH|].
  destruct (rc_boundary ftol q s); cbn [orb]; auto.
  destruct (rc_crossing ftol q s).
  - specialize (IH (S c)). destruct (rc_loop ftol q r (S c)); auto. destruct IH as [H1 H2]. split; auto. rewrite H2.
    rewrite Nat.odd_succ, <- Nat.negb_odd. unfold par. destruct (Nat.odd c), (fold_right (fun x b => xorb (rc_tog ftol q x) b) false r); reflexivity.
  - rewrite xorb_false_l. apply IH.
Qed.
Lemma fk_loop_spec ftol q segs : forall c,
  match fk_loop ftol q segs c with
  | None => existsb (fk_hit ftol q) segs = true
  | Some c' => existsb (fk_hit ftol q) segs = false /\ c' = xorb c (par (fk_tog ftol q) segs)
  end.
Proof.
  induction segs as [|s r IH]; intros c; cbn [fk_loop existsb par fold_right]; [split; [auto|now rewrite xorb_false_r]|].
  unfold fk_hit at 1 3, fk_tog at 1. destruct (fk_skip ftol q s); cbn [negb andb orb]; [rewrite xorb_false_l; apply IH|].
  destruct (fk_boundary ftol q s); cbn [orb]; auto.
  destruct (fk_crossing q s).
  - specialize (IH (negb c)). destruct (fk_loop ftol q r (negb c)); auto. destruct IH as [H1 H2]. split; auto. rewrite H2.
    unfold par. destruct c, (fold_right (fun x b => xorb (fk_tog ftol q x) b) false r); reflexivity.
  - rewrite xorb_false_l. apply IH.
Qed.
Lemma mod2_odd c : Nat.eqb (Nat.modulo c 2) 1 = Nat.odd c.
Proof.
  destruct (Nat.odd c) eqn:E.
  - apply Nat.odd_spec in E. destruct E as [m ->]. rewrite Nat.add_comm, Nat.mul_comm, Nat.mod_add by lia. reflexivity.
  - rewrite <- Nat.negb_even, negb_false_iff in E. apply Nat.even_spec in E. destruct E as [m ->]. rewrite Nat.mul_comm, Nat.mod_mul by lia. reflexivity.
Qed.
Lemma rc_point_spec ftol segs q : rc_point ftol segs q =
  (existsb (rc_hit ftol q) segs || par (rc_tog ftol q) segs, existsb (rc_hit ftol q) segs).
Proof.
  unfold rc_point. pose proof (rc_loop_spec ftol q segs 0) as H. destruct (rc_loop ftol q segs 0).
  - destruct H as [-> H2]. rewrite mod2_odd, H2. change (Nat.odd 0) with false. rewrite xorb_false_l. reflexivity.
  - rewrite H. reflexivity.
Qed.
Lemma fk_point_spec ftol segs q : fk_point ftol segs q =
  (existsb (fk_hit ftol q) segs || par (fk_tog ftol q) segs, existsb (fk_hit ftol q) segs).
Proof.
  unfold fk_point. pose proof (fk_loop_spec ftol q segs false) as H. destruct (fk_loop ftol q segs false).
  - destruct H as [-> H2]. rewrite H2, xorb_false_l. reflexivity.
  - rewrite H. reflexivity.
Qed.

(** * One edge, zero tolerance *)
Lemma sq_sum_pos a b : 0 < a * a + b * b <-> ~ (a == 0 /\ b == 0).
Proof.
  split.
  - intros H [Ha Hb]. rewrite Ha, Hb in H. lra.
  - intros H. destruct (Qeq_dec a 0) as [Ha|Ha]; destruct (Qeq_dec b 0) as [Hb|Hb]; try tauto; nra.
Qed.
Lemma on_segment_algebra q s : let '((x1, y1), (x2, y2)) := s in
  on_segment q s <-> 0 < (x2 - x1) * (x2 - x1) + (y2 - y1) * (y2 - y1) /\
    (x2 - x1) * (snd q - y1) - (y2 - y1) * (fst q - x1) == 0 /\
    0 <= (x2 - x1) * (fst q - x1) + (y2 - y1) * (snd q - y1) <= (x2 - x1) * (x2 - x1) + (y2 - y1) * (y2 - y1).
Proof.
  destruct s as [[x1 y1] [x2 y2]]. destruct q as [x y]. unfold on_segment, same_place. cbn [fst snd].
  rewrite sq_sum_pos. split.
  - intros [Hne (t & Ht & Ex & Ey)]. split; [intros [H1 H2]; apply Hne; split; lra|].
    assert (Wx : x - x1 == t * (x2 - x1)) by lra. assert (Wy : y - y1 == t * (y2 - y1)) by lra. rewrite Wx, Wy.
    assert (P : 0 <= (x2 - x1) * (x2 - x1) + (y2 - y1) * (y2 - y1)) by (pose proof (Qsq_nn (x2 - x1)); pose proof (Qsq_nn (y2 - y1)); lra).
    set (L := (x2 - x1) * (x2 - x1) + (y2 - y1) * (y2 - y1)) in *.
    setoid_replace ((x2 - x1) * (t * (x2 - x1)) + (y2 - y1) * (t * (y2 - y1))) with (t * L) by (unfold L; ring).
    split; [ring|]. assert (0 <= t * L) by (apply Qmult_le_0_compat; lra). assert (0 <= (1 - t) * L) by (apply Qmult_le_0_compat; lra). split; lra.
  - intros (Hne & Hc & Hd). split; [intros [H1 H2]; apply Hne; split; lra|].
    assert (P : 0 < (x2 - x1) * (x2 - x1) + (y2 - y1) * (y2 - y1)) by now apply sq_sum_pos.
    set (vx := x2 - x1) in *. set (vy := y2 - y1) in *. set (wx := x - x1) in *. set (wy := y - y1) in *. set (L := vx * vx + vy * vy) in *.
    assert (HL : ~ L == 0) by lra.
    exists ((vx * wx + vy * wy) / L). split; [split|split].
    + apply Qle_shift_div_l; [exact P|]. lra.
    + apply Qle_shift_div_r; [exact P|]. lra.
    + assert (E : wx * L == (vx * wx + vy * wy) * vx). { unfold L. assert (vy * (vx * wy - vy * wx) == 0) by (rewrite Hc; ring). nra. }
      assert (E2 : wx == (vx * wx + vy * wy) / L * vx). { setoid_replace ((vx * wx + vy * wy) / L * vx) with ((vx * wx + vy * wy) * vx / L) by (field; exact HL). rewrite <- E. field. exact HL. }
      rewrite <- E2. unfold wx. ring.
    + assert (E : wy * L == (vx * wx + vy * wy) * vy). { unfold L. assert (vx * (vx * wy - vy * wx) == 0) by (rewrite Hc; ring). nra. }
      assert (E2 : wy == (vx * wx + vy * wy) / L * vy). { setoid_replace ((vx * wx + vy * wy) / L * vy) with ((vx * wx + vy * wy) * vy / L) by (field; exact HL). rewrite <- E. field. exact HL. }
      rewrite <- E2. unfold wy. ring.
Qed.
Lemma between_of t y1 y2 y : 0 <= t <= 1 -> y == y1 + t * (y2 - y1) -> (y1 <= y2 -> y1 <= y <= y2) /\ (y2 <= y1 -> y2 <= y <= y1).
Proof.
  intros Ht E. split; intros H.
  - assert (0 <= t * (y2 - y1)) by (apply Qmult_le_0_compat; lra). assert (0 <= (1 - t) * (y2 - y1)) by (apply Qmult_le_0_compat; lra). split; lra.
  - assert (0 <= t * (y1 - y2)) by (apply Qmult_le_0_compat; lra). assert (0 <= (1 - t) * (y1 - y2)) by (apply Qmult_le_0_compat; lra). split; lra.
Qed.
Lemma Qsq_zero a : a * a <= 0 <-> a == 0.
Proof. split; [intros H; destruct (Qeq_dec a 0); auto; exfalso; nra|intros ->; lra]. Qed.
Lemma rc_boundary0 q s : rc_boundary 0 q s = true <-> on_segment q s.
Proof.
  pose proof (on_segment_algebra q s) as G. destruct s as [[x1 y1] [x2 y2]]. rewrite G. unfold rc_boundary.
  set (L := (x2 - x1) * (x2 - x1) + (y2 - y1) * (y2 - y1)). set (C := (x2 - x1) * (snd q - y1) - (y2 - y1) * (fst q - x1)).
  set (D := (x2 - x1) * (fst q - x1) + (y2 - y1) * (snd q - y1)).
  destruct (Qltb 0 L) eqn:EL; [apply Qltb_iff in EL|apply Qltb_false in EL; split; [discriminate|intros [H _]; lra]].
  assert (HC : C * C / L <= 0 * 0 <-> C == 0).
  { rewrite <- Qsq_zero. split; intros H.
    - assert (E : C * C == C * C / L * L) by (field; lra). rewrite E. rewrite <- (Qmult_0_l L). apply Qmult_le_compat_r; [|lra]. lra.
    - apply Qle_shift_div_r; auto. lra. }
  destruct (Qle_bool (C * C / L) (0 * 0)) eqn:EC.
  - apply Qle_bool_iff in EC. rewrite HC in EC. rewrite andb_true_iff, !Qle_bool_iff. split; [intros [H1 H2]; repeat split; auto; lra|intros (_ & _ & H1 & H2); split; lra].
  - split; [discriminate|]. intros (_ & H & _). apply HC in H. apply Qle_bool_iff in H. congruence.
Qed.
Lemma skip_false_iff (lo hi y : Q) : Qltb y (lo - 0) || Qltb (hi + 0) y = false <-> lo <= y <= hi.
Proof. rewrite orb_false_iff, !Qltb_false. split; intros [H1 H2]; split; lra. Qed.
Lemma rc_skip0 q s : rc_skip 0 q s = false <-> (npmin (snd (fst s)) (snd (snd s)) <= snd q <= npmax (snd (fst s)) (snd (snd s))).
Proof. destruct s as [[x1 y1] [x2 y2]]. unfold rc_skip. apply skip_false_iff. Qed.
Lemma fk_skip0 q s : fk_skip 0 q s = false <-> (npmin (snd (fst s)) (snd (snd s)) <= snd q <= npmax (snd (fst s)) (snd (snd s))).
Proof.
  destruct s as [[x1 y1] [x2 y2]]. unfold fk_skip. rewrite skip_false_iff. cbn [fst snd].
  pose proof (npmin_cases y1 y2). pose proof (npmax_cases y1 y2).
  destruct (Qltb y1 y2) eqn:E; [apply Qltb_iff in E|apply Qltb_false in E]; split; intros; split; lra.
Qed.
Lemma on_segment_range q s : on_segment q s -> npmin (snd (fst s)) (snd (snd s)) <= snd q <= npmax (snd (fst s)) (snd (snd s)).
Proof.
  intros [_ (t & Ht & _ & Ey)]. pose proof (between_of _ _ _ _ Ht Ey) as [G1 G2].
  pose proof (npmin_cases (snd (fst s)) (snd (snd s))) as [[A1 A2]|[A1 A2]]; pose proof (npmax_cases (snd (fst s)) (snd (snd s))) as [[B1 B2]|[B1 B2]];
    try specialize (G1 A2); try specialize (G2 A2); try specialize (G1 B2); try specialize (G2 B2); split; lra.
Qed.
Lemma crosses_range q s : crosses q s -> npmin (snd (fst s)) (snd (snd s)) <= snd q <= npmax (snd (fst s)) (snd (snd s)).
Proof.
  destruct s as [a b]. intros [H _]. cbn [fst snd].
  pose proof (npmin_cases (snd a) (snd b)). pose proof (npmax_cases (snd a) (snd b)). split; lra.
Qed.
Lemma rc_hit0 q s : rc_hit 0 q s = true <-> on_segment q s.
Proof.
  unfold rc_hit. rewrite andb_true_iff, negb_true_iff, rc_boundary0, rc_skip0. split; [tauto|]. intros H. split; auto. now apply on_segment_range.
Qed.
Lemma fk_boundary0 q s : fk_boundary 0 q s = true <-> on_segment q s.
Proof.
  destruct s as [[x1 y1] [x2 y2]]. destruct q as [x y]. unfold fk_boundary, on_segment, same_place. cbn [fst snd].
  destruct (negb (Qeq_bool (x2 - x1) 0) || negb (Qeq_bool (y2 - y1) 0)) eqn:E.
  - assert (Hne : ~ (x2 - x1 == 0 /\ y2 - y1 == 0)). { intros [H1 H2]. apply Qeq_bool_iff in H1, H2. rewrite H1, H2 in E. discriminate. }
    assert (P : 0 < (x2 - x1) * (x2 - x1) + (y2 - y1) * (y2 - y1)) by now apply sq_sum_pos.
    set (t := ((x - x1) * (x2 - x1) + (y - y1) * (y2 - y1)) / ((x2 - x1) * (x2 - x1) + (y2 - y1) * (y2 - y1))).
    destruct (Qle_bool 0 t && Qle_bool t 1) eqn:Et.
    + apply andb_true_iff in Et. rewrite !Qle_bool_iff in Et. rewrite Qle_bool_iff. split.
      * intros H. pose proof (Qabs_nonneg (x - (x1 + t * (x2 - x1)))) as N1. pose proof (Qabs_nonneg (y - (y1 + t * (y2 - y1)))) as N2.
        assert (Z1 : Qabs (x - (x1 + t * (x2 - x1))) <= 0) by lra. assert (Z2 : Qabs (y - (y1 + t * (y2 - y1))) <= 0) by lra.
        apply Qabs_Qle_condition in Z1, Z2. split; [intros [? ?]; apply Hne; split; lra|]. exists t. split; auto. split; lra.
      * intros [_ (u & Hu & Ex & Ey)]. assert (Etu : t == u).
        { unfold t. assert (Wx : x - x1 == u * (x2 - x1)) by lra. assert (Wy : y - y1 == u * (y2 - y1)) by lra. rewrite Wx, Wy. field. lra. }
        assert (A1 : x - (x1 + t * (x2 - x1)) == 0) by (rewrite Etu; lra). assert (A2 : y - (y1 + t * (y2 - y1)) == 0) by (rewrite Etu; lra).
        rewrite A1, A2. cbn. apply Qle_refl.
    + split; [discriminate|]. intros [_ (u & Hu & Ex & Ey)]. exfalso.
      assert (Etu : t == u).
      { unfold t. assert (Wx : x - x1 == u * (x2 - x1)) by lra. assert (Wy : y - y1 == u * (y2 - y1)) by lra. rewrite Wx, Wy. field. lra. }
      assert (Qle_bool 0 t && Qle_bool t 1 = true); [|congruence]. rewrite andb_true_iff, !Qle_bool_iff. lra.
  - split; [discriminate|]. intros [H _]. exfalso. apply H. apply orb_false_iff in E. rewrite !negb_false_iff, !Qeq_bool_iff in E. lra.
Qed.
Lemma fk_hit0 q s : fk_hit 0 q s = true <-> on_segment q s.
Proof.
  unfold fk_hit. rewrite andb_true_iff, negb_true_iff, fk_boundary0, fk_skip0. split; [tauto|]. intros H. split; auto. now apply on_segment_range.
Qed.

(** crossing abscissa *)
Lemma crosses_algebra q s : let '((x1, y1), (x2, y2)) := s in
  crosses q s <-> (y1 <= snd q < y2 \/ y2 <= snd q < y1) /\ fst q < x1 + (snd q - y1) * ((x2 - x1) / (y2 - y1)).
Proof.
  destruct s as [[x1 y1] [x2 y2]]. destruct q as [x y]. unfold crosses. cbn [fst snd]. split.
  - intros [H (t & Hx & Hy)]. split; auto. assert (Hd : ~ y2 - y1 == 0) by lra.
    assert (Et : t == (y - y1) / (y2 - y1)). { assert (E : y - y1 == t * (y2 - y1)) by lra. rewrite E. field. exact Hd. }
    setoid_replace ((y - y1) * ((x2 - x1) / (y2 - y1))) with (t * (x2 - x1)); [exact Hx|]. rewrite Et. field. exact Hd.
  - intros [H Hx]. split; auto. assert (Hd : ~ y2 - y1 == 0) by lra. exists ((y - y1) / (y2 - y1)). split.
    + setoid_replace ((y - y1) / (y2 - y1) * (x2 - x1)) with ((y - y1) * ((x2 - x1) / (y2 - y1))) by (field; exact Hd). exact Hx.
    + field. exact Hd.
Qed.
Lemma rc_crossing0 q s : rc_crossing 0 q s = true <-> crosses q s.
Proof.
  pose proof (crosses_algebra q s) as G. destruct s as [[x1 y1] [x2 y2]]. rewrite G. unfold rc_crossing. clear G.
  destruct (Qle_bool (Qabs (y2 - y1)) 0) eqn:E.
  - apply Qle_bool_iff, Qabs_Qle_condition in E. split; [discriminate|]. intros [H _]. lra.
  - assert (Hd : ~ y2 - y1 == 0). { intros H. apply Qleb_false in E. assert (Qabs (y2 - y1) == 0) by (rewrite H; reflexivity). lra. }
    destruct (Qltb (snd q) y1) eqn:E1; destruct (Qltb (snd q) y2) eqn:E2; cbn [xorb];
      rewrite ?Qltb_iff, ?Qltb_false in E1; rewrite ?Qltb_iff, ?Qltb_false in E2;
      try (split; [discriminate|intros [H _]; lra]); rewrite Qltb_iff;
      (setoid_replace ((snd q - y1) * (x2 - x1) / (y2 - y1)) with ((snd q - y1) * ((x2 - x1) / (y2 - y1))) by (field; exact Hd));
      (split; [intros H; split; [lra|exact H]|intros [_ H]; exact H]).
Qed.
Lemma fk_crossing0 q s : fk_crossing q s = true <-> crosses q s.
Proof.
  pose proof (crosses_algebra q s) as G. destruct s as [[x1 y1] [x2 y2]]. rewrite G. unfold fk_crossing. clear G.
  destruct ((Qle_bool y1 (snd q) && Qltb (snd q) y2) || (Qle_bool y2 (snd q) && Qltb (snd q) y1)) eqn:E.
  - rewrite orb_true_iff, !andb_true_iff, !Qle_bool_iff, !Qltb_iff in E. rewrite Qltb_iff.
    assert (Qeq_bool (y2 - y1) 0 = false) as ->. { destruct (Qeq_bool (y2 - y1) 0) eqn:E'; auto. apply Qeq_bool_iff in E'. lra. }
    split; [intros H; split; [exact E|exact H]|intros [_ H]; exact H].
  - split; [discriminate|]. intros [H _]. exfalso. apply orb_false_iff in E. destruct E as [E1 E2].
    apply andb_false_iff in E1, E2. rewrite Qltb_false, Qleb_false in E1. rewrite Qltb_false, Qleb_false in E2. lra.
Qed.
Lemma rc_tog0 q s : rc_tog 0 q s = true <-> crosses q s.
Proof.
  unfold rc_tog. rewrite andb_true_iff, negb_true_iff, rc_crossing0, rc_skip0. split; [tauto|]. intros H. split; auto. now apply crosses_range.
Qed.
Lemma fk_tog0 q s : fk_tog 0 q s = true <-> crosses q s.
Proof.
  unfold fk_tog. rewrite andb_true_iff, negb_true_iff, fk_crossing0, fk_skip0. split; [tauto|]. intros H. split; auto. now apply crosses_range.
Qed.

Lemma even_odd_of hit tog segs q : (forall s, hit q s = true <-> on_segment q s) -> (forall s, tog q s = true <-> crosses q s) ->
  even_odd segs q (existsb (hit q) segs || par (tog q) segs) (existsb (hit q) segs).
Proof.
  intros Hh Ht. split.
  - rewrite existsb_exists. split; intros (s & Hs & H); exists s; split; auto; now apply Hh.
  - rewrite orb_true_iff. rewrite (om_par (crosses q) (tog q) segs) by (intros; apply Ht). split; intros [H|H]; auto.
Qed.
Lemma rc_even_odd segs q : even_odd segs q (fst (rc_point 0 segs q)) (snd (rc_point 0 segs q)).
Proof. rewrite rc_point_spec. apply (even_odd_of (rc_hit 0) (rc_tog 0)); intros; [apply rc_hit0|apply rc_tog0]. Qed.
Lemma fk_even_odd segs q : even_odd segs q (fst (fk_point 0 segs q)) (snd (fk_point 0 segs q)).
Proof. rewrite fk_point_spec. apply (even_odd_of (fk_hit 0) (fk_tog 0)); intros; [apply fk_hit0|apply fk_tog0]. Qed.
Lemma even_odd_unique segs q a b a' b' : even_odd segs q a b -> even_odd segs q a' b' -> a = a' /\ b = b'.
Proof.
  intros [H1 H2] [H3 H4]. assert (b = b') as <-. { destruct b, b'; auto; exfalso; [assert (true = true) as G by auto; apply H1, H3 in G; discriminate|assert (true = true) as G by auto; apply H3, H1 in G; discriminate]. }
  split; auto. destruct a, a'; auto; exfalso; [assert (true = true) as G by auto; apply H2, H4 in G; discriminate|assert (true = true) as G by auto; apply H4, H2 in G; discriminate].
Qed.

(** * Outside the box *)
Definition above (h : Q) (c : xy) : bool := Qltb h (snd c).
Lemma straddle_par h segs : par (fun s => xorb (above h (fst s)) (above h (snd s))) segs = par (above h) (ends segs).
Proof. induction segs as [|s r IH]; simpl; auto. rewrite IH. unfold ends. now rewrite xorb_assoc. Qed.
Lemma closed_even h segs : closed_curve segs -> par (above h) (ends segs) = false.
Proof.
  intros H. apply even_classes.
  - intros c. specialize (H c). rewrite (om_par (same_place c) (place_eqb c)) in H by (intros; apply place_eqb_iff). auto.
  - intros a b [_ E]. unfold above. destruct (Qltb h (snd a)) eqn:E1; destruct (Qltb h (snd b)) eqn:E2; auto; rewrite ?Qltb_iff, ?Qltb_false in *; lra.
Qed.
Lemma ends_In segs s : In s segs -> In (fst s) (ends segs) /\ In (snd s) (ends segs).
Proof. intros H. unfold ends. split; apply in_flat_map; exists s; simpl; auto. Qed.
Lemma straddle_iff h (s : seg) : xorb (above h (fst s)) (above h (snd s)) = true <-> (snd (fst s) <= h < snd (snd s) \/ snd (snd s) <= h < snd (fst s)).
Proof.
  unfold above. destruct (Qltb h (snd (fst s))) eqn:E1; destruct (Qltb h (snd (snd s))) eqn:E2; cbn;
    rewrite ?Qltb_iff, ?Qltb_false in E1; rewrite ?Qltb_iff, ?Qltb_false in E2; split; intros; try discriminate; auto; lra.
Qed.
Lemma on_segment_x q s : on_segment q s -> (fst (fst s) <= fst q <= fst (snd s)) \/ (fst (snd s) <= fst q <= fst (fst s)).
Proof.
  intros [_ (t & Ht & Ex & _)]. pose proof (between_of _ _ _ _ Ht Ex) as [G1 G2].
  destruct (Qlt_le_dec (fst (fst s)) (fst (snd s))); [left; apply G1; lra|right; apply G2; auto].
Qed.
Lemma on_segment_y q s : on_segment q s -> (snd (fst s) <= snd q <= snd (snd s)) \/ (snd (snd s) <= snd q <= snd (fst s)).
Proof.
  intros [_ (t & Ht & _ & Ey)]. pose proof (between_of _ _ _ _ Ht Ey) as [G1 G2].
  destruct (Qlt_le_dec (snd (fst s)) (snd (snd s))); [left; apply G1; lra|right; apply G2; auto].
Qed.
(** the crossing point lies between the ends *)
Lemma crossing_between y1 y2 y t : (y1 <= y < y2 \/ y2 <= y < y1) -> y1 + t * (y2 - y1) == y -> 0 <= t <= 1.
Proof.
  intros H E. destruct H as [H|H].
  - split; apply Qnot_lt_le; intros Hc.
    + assert (0 < (- t) * (y2 - y1)) by (apply Qmult_lt_0_compat; lra). lra.
    + assert (0 < (t - 1) * (y2 - y1)) by (apply Qmult_lt_0_compat; lra). lra.
  - split; apply Qnot_lt_le; intros Hc.
    + assert (0 < (- t) * (y1 - y2)) by (apply Qmult_lt_0_compat; lra). lra.
    + assert (0 < (t - 1) * (y1 - y2)) by (apply Qmult_lt_0_compat; lra). lra.
Qed.
Lemma crosses_right q s : fst (fst s) < fst q -> fst (snd s) < fst q -> ~ crosses q s.
Proof.
  destruct s as [a b]. cbn [fst snd]. intros Ha Hb [H (t & Hx & Hy)]. pose proof (crossing_between _ _ _ _ H Hy) as Ht.
  pose proof (between_of t (fst a) (fst b) (fst a + t * (fst b - fst a)) Ht (Qeq_refl _)) as [G1 G2].
  destruct (Qlt_le_dec (fst a) (fst b)) as [D|D]; [specialize (G1 ltac:(lra)); lra|specialize (G2 D); lra].
Qed.
Lemma crosses_left q s : fst q < fst (fst s) -> fst q < fst (snd s) ->
  (crosses q s <-> (snd (fst s) <= snd q < snd (snd s) \/ snd (snd s) <= snd q < snd (fst s))).
Proof.
  destruct s as [a b]. cbn [fst snd]. intros Ha Hb. split; [intros [H _]; auto|]. intros H. split; auto.
  assert (Hd : ~ snd b - snd a == 0) by lra. exists ((snd q - snd a) / (snd b - snd a)).
  assert (E : snd a + (snd q - snd a) / (snd b - snd a) * (snd b - snd a) == snd q) by (field; exact Hd). split; auto.
  pose proof (crossing_between _ _ _ _ H E) as Ht. set (t := (snd q - snd a) / (snd b - snd a)) in *.
  pose proof (between_of t (fst a) (fst b) (fst a + t * (fst b - fst a)) Ht (Qeq_refl _)) as [G1 G2].
  destruct (Qlt_le_dec (fst a) (fst b)) as [D|D]; [specialize (G1 ltac:(lra)); lra|specialize (G2 D); lra].
Qed.
Lemma outside_even segs q : closed_curve segs -> outside_ends segs q -> even_odd segs q false false.
Proof.
  intros Hc Ho. assert (Hb : forall s, In s segs -> ~ on_segment q s).
  { intros s Hs H. pose proof (ends_In segs s Hs) as [E1 E2]. pose proof (on_segment_x q s H). pose proof (on_segment_y q s H).
    destruct Ho as [Ho|[Ho|[Ho|Ho]]]; pose proof (Ho _ E1); pose proof (Ho _ E2); lra. }
  assert (Hp : odd_many (crosses q) false segs).
  { destruct Ho as [Ho|Ho].
    - rewrite (om_par (crosses q) (fun s => xorb (above (snd q) (fst s)) (above (snd q) (snd s)))).
      + rewrite straddle_par, closed_even; auto.
      + intros s Hs. pose proof (ends_In segs s Hs) as [E1 E2]. rewrite straddle_iff. symmetry. apply crosses_left; auto.
    - assert (Hn : forall s, In s segs -> ~ crosses q s).
      { intros s Hs. pose proof (ends_In segs s Hs) as [E1 E2]. destruct Ho as [Ho|[Ho|Ho]]; pose proof (Ho _ E1); pose proof (Ho _ E2).
        - now apply crosses_right.
        - destruct s as [a b]. intros [K _]. cbn in *. lra.
        - destruct s as [a b]. intros [K _]. cbn in *. lra. }
      rewrite (om_par (crosses q) (fun _ => false)); [symmetry; apply par_none; auto|]. intros s Hs. split; [discriminate|]. intros K. exfalso. exact (Hn s Hs K). }
  split.
  - split; [discriminate|]. intros (s & Hs & H). exfalso. exact (Hb s Hs H).
  - split; [discriminate|]. intros [H|H]; [discriminate|]. rewrite (om_par (crosses q) (rc_tog 0 q)) in Hp, H by (intros; apply rc_tog0). congruence.
Qed.

(** * The kernels *)
Lemma seg_xs_ends segs : seg_xs segs = map fst (ends segs).
Proof. unfold seg_xs, ends. induction segs as [|s r IH]; simpl; auto. now rewrite IH. Qed.
Lemma seg_ys_ends segs : seg_ys segs = map snd (ends segs).
Proof. unfold seg_ys, ends. induction segs as [|s r IH]; simpl; auto. now rewrite IH. Qed.
Lemma lmin_le l x : In x l -> lmin l <= x.
Proof.
  destruct l as [|a r]; [contradiction|]. intros H. unfold lmin. apply Qnot_lt_le. intros Hc.
  pose proof (proj2 (list_min_lt r a (fold_left npmin r a)) (ex_intro _ x (conj H Hc))) as G. unfold list_min in G. lra.
Qed.
Lemma lmax_lt l c : l <> [] -> lmax l < c -> forall x, In x l -> x < c.
Proof. destruct l as [|a r]; [congruence|]. intros _ H x Hx. unfold lmax in H. apply (proj1 (list_max_lt r a c) H x Hx). Qed.
Lemma lmin_gt l c : l <> [] -> c < lmin l -> forall x, In x l -> c < x.
Proof. intros _ H x Hx. pose proof (lmin_le l x Hx). lra. Qed.
Lemma not_in_bbox segs q : segs <> [] -> in_bbox 0 segs q = false -> outside_ends segs q.
Proof.
  intros Hne H. unfold in_bbox in H. rewrite seg_xs_ends, seg_ys_ends in H.
  assert (N : forall f : xy -> Q, map f (ends segs) <> []). { intros f. destruct segs; [congruence|]. simpl. congruence. }
  apply andb_false_iff in H. destruct H as [H|H]; [apply andb_false_iff in H; destruct H as [H|H]; [apply andb_false_iff in H; destruct H as [H|H]|]|]; apply Qleb_false in H.
  - left. intros c Hc. apply (lmin_gt (map fst (ends segs))); [apply N|lra|now apply in_map].
  - right. left. intros c Hc. apply (lmax_lt (map fst (ends segs))); [apply N|lra|now apply in_map].
  - right. right. left. intros c Hc. apply (lmin_gt (map snd (ends segs))); [apply N|lra|now apply in_map].
  - right. right. right. intros c Hc. apply (lmax_lt (map snd (ends segs))); [apply N|lra|now apply in_map].
Qed.
Lemma in_bbox_inside segs q : in_bbox 0 segs q = true -> segs <> [] -> ~ outside_ends segs q.
Proof.
  intros H Hne Ho. unfold in_bbox in H. rewrite seg_xs_ends, seg_ys_ends in H. rewrite !andb_true_iff, !Qle_bool_iff in H. destruct H as [[[H1 H2] H3] H4].
  assert (N : exists c, In c (ends segs)). { destruct segs as [|s r]; [congruence|]. exists (fst s). simpl. auto. }
  assert (M : forall l, l <> [] -> In (lmin l) l \/ exists x, In x l /\ x <= lmin l).
  { intros l Hl. right. destruct l as [|a r]; [congruence|]. destruct (proj1 (list_min_lt r a (lmin (a :: r) + 1))) as (g & Hg & Hlt); [unfold list_min, lmin; lra|].
    clear Hlt. unfold lmin. clear. revert a. induction r as [|b r IH]; intros a; cbn [fold_left]; [exists a; simpl; split; [auto|apply Qle_refl]|].
    destruct (IH (npmin a b)) as (x & [<-|Hx] & Hle); [|exists x; simpl; auto].
    destruct (npmin_cases a b) as [[E _]|[E _]]; [exists a|exists b]; simpl; (split; [auto|]); lra. }
  assert (MX : forall l, l <> [] -> exists x, In x l /\ lmax l <= x).
  { intros l Hl. destruct l as [|a r]; [congruence|]. unfold lmax. clear. revert a. induction r as [|b r IH]; intros a; cbn [fold_left]; [exists a; simpl; split; [auto|apply Qle_refl]|].
    destruct (IH (npmax a b)) as (x & [<-|Hx] & Hle); [|exists x; simpl; auto].
    destruct (npmax_cases a b) as [[E _]|[E _]]; [exists b|exists a]; simpl; (split; [auto|]); lra. }
  assert (NN : forall f : xy -> Q, map f (ends segs) <> []). { intros f. destruct segs; [congruence|]. simpl. congruence. }
  destruct Ho as [Ho|[Ho|[Ho|Ho]]].
  - destruct (M (map fst (ends segs)) (NN _)) as [G|(x & Hx & G)]; [apply in_map_iff in G; destruct G as (c & E & Hc); specialize (Ho c Hc); rewrite E in Ho; lra|].
    apply in_map_iff in Hx. destruct Hx as (c & <- & Hc). specialize (Ho c Hc). lra.
  - destruct (MX (map fst (ends segs)) (NN _)) as (x & Hx & G). apply in_map_iff in Hx. destruct Hx as (c & <- & Hc). specialize (Ho c Hc). lra.
  - destruct (M (map snd (ends segs)) (NN _)) as [G|(x & Hx & G)]; [apply in_map_iff in G; destruct G as (c & E & Hc); specialize (Ho c Hc); rewrite E in Ho; lra|].
    apply in_map_iff in Hx. destruct Hx as (c & <- & Hc). specialize (Ho c Hc). lra.
  - destruct (MX (map snd (ends segs)) (NN _)) as (x & Hx & G). apply in_map_iff in Hx. destruct Hx as (c & <- & Hc). specialize (Ho c Hc). lra.
Qed.
(** ray-cast answer of one query, including the box test *)
Definition rc_answer (ftol : Q) (node : list xy) (edge : list (nat * nat)) (q : xy) : bool * bool :=
  if (match edge with [] => true | _ => false end) || Nat.ltb (length node) 3 then (false, false)
  else if in_bbox ftol (map (lookup node) edge) q then rc_point ftol (map (lookup node) edge) q else (false, false).
Lemma raycasting_map ftol node edge vert : inpoly_raycasting ftol node edge vert = map (rc_answer ftol node edge) vert.
Proof.
  unfold inpoly_raycasting, rc_answer. destruct vert as [|v vs]; [destruct (_ || _); reflexivity|]. rewrite orb_false_r.
  destruct ((match edge with [] => true | _ => false end) || Nat.ltb (length node) 3); reflexivity.
Qed.
Lemma rc_answer_even_odd node edge q : closed_curve (map (lookup node) edge) -> (3 <= length node)%nat ->
  even_odd (map (lookup node) edge) q (fst (rc_answer 0 node edge q)) (snd (rc_answer 0 node edge q)).
Proof.
  intros Hc Hn. unfold rc_answer. assert (Nat.ltb (length node) 3 = false) as -> by (apply Nat.ltb_ge; auto). rewrite orb_false_r.
  destruct edge as [|e es].
  - cbn. split; [split; [discriminate|intros (s & [] & _)]|split; [discriminate|intros [H|H]; [discriminate|inversion H]]].
  - set (segs := map (lookup node) (e :: es)) in *. destruct (in_bbox 0 segs q) eqn:E; [apply rc_even_odd|]. cbn [fst snd].
    apply outside_even; auto. apply not_in_bbox; auto. subst segs. simpl. congruence.
Qed.
Lemma rc_answer_even_odd_box node edge q : edge <> [] -> in_bbox 0 (map (lookup node) edge) q = true -> (3 <= length node)%nat ->
  even_odd (map (lookup node) edge) q (fst (rc_answer 0 node edge q)) (snd (rc_answer 0 node edge q)).
Proof.
  intros Hc Hb Hn. unfold rc_answer. assert (Nat.ltb (length node) 3 = false) as -> by (apply Nat.ltb_ge; auto). rewrite orb_false_r.
  destruct edge as [|e es]; [congruence|]. rewrite Hb. apply rc_even_odd.
Qed.
Lemma kernels_agree node edge vert : closed_curve (map (lookup node) edge) -> (3 <= length node)%nat ->
  inpoly_raycasting 0 node edge vert = inpoly_fast 0 node edge vert.
Proof.
  intros Hc Hn. rewrite raycasting_map. unfold inpoly_fast. apply map_ext. intros q.
  destruct (even_odd_unique _ _ _ _ _ _ (rc_answer_even_odd node edge q Hc Hn) (fk_even_odd (map (lookup node) edge) q)) as [E1 E2].
  destruct (rc_answer 0 node edge q), (fk_point 0 (map (lookup node) edge) q). cbn in *. now subst.
Qed.

(** * The ring of a node list is closed *)
Lemma par_app {A} (f : A -> bool) l l' : par f (l ++ l') = xorb (par f l) (par f l').
Proof. induction l as [|x l IH]; simpl; [now destruct (par f l')|]. rewrite IH. now rewrite xorb_assoc. Qed.
Lemma par_ends_combine f : forall a b : list xy, length a = length b -> par f (ends (combine a b)) = xorb (par f a) (par f b).
Proof.
  induction a as [|x a IH]; intros [|y b] H; try discriminate; [reflexivity|]. injection H as H. change (xorb (f x) (xorb (f y) (par f (ends (combine a b)))) = xorb (xorb (f x) (par f a)) (xorb (f y) (par f b))). rewrite (IH b H).
  destruct (f x), (f y), (par f a), (par f b); reflexivity.
Qed.
Lemma map_lookup_combine node : forall a b : list nat, map (lookup node) (combine a b) = combine (map (fun i => nth i node (0,0)) a) (map (fun i => nth i node (0,0)) b).
Proof. induction a as [|x a IH]; intros [|y b]; simpl; auto. now rewrite IH. Qed.
Lemma nth_seq_id {A} (d : A) l : map (fun i => nth i l d) (seq 0 (length l)) = l.
Proof. induction l as [|x l IH]; simpl; auto. rewrite <- seq_shift, map_map. simpl. now rewrite IH. Qed.
Lemma ring_closed node : closed_curve (map (lookup node) (ring_edges (length node))).
Proof.
  intros c. rewrite (om_par (same_place c) (place_eqb c)) by (intros; apply place_eqb_iff). unfold ring_edges. rewrite map_lookup_combine, nth_seq_id.
  destruct node as [|x node]; [reflexivity|].
  assert (E : map (fun i => nth i (x :: node) (0, 0)) (seq 1 (length (x :: node) - 1) ++ [0%nat]) = node ++ [x]).
  { rewrite map_app. simpl. rewrite Nat.sub_0_r, <- seq_shift, map_map. simpl. now rewrite nth_seq_id. }
  rewrite E, par_ends_combine by (rewrite app_length; simpl; lia). rewrite par_app.
  change (par (place_eqb c) (x :: node)) with (xorb (place_eqb c x) (par (place_eqb c) node)). change (par (place_eqb c) [x]) with (xorb (place_eqb c x) false).
  destruct (place_eqb c x), (par (place_eqb c) node); reflexivity.
Qed.

(** * inpoly2 *)
Definition nat_edges (es : list (Z * Z)) : list (nat * nat) := map (fun e => (Z.to_nat (fst e), Z.to_nat (snd e))) es.
Lemma valid_edges_iff node es : forallb (fun e => (0 <=? fst e)%Z && (0 <=? snd e)%Z && (fst e <? Z.of_nat (length node))%Z && (snd e <? Z.of_nat (length node))%Z) es = true <-> valid_edges node es.
Proof.
  rewrite forallb_forall. unfold valid_edges. split; intros H e He; specialize (H e He).
  - rewrite !andb_true_iff, !Z.leb_le, !Z.ltb_lt in H. lia.
  - rewrite !andb_true_iff, !Z.leb_le, !Z.ltb_lt. lia.
Qed.
Definition kernel_map (k : Q -> list xy -> list (nat * nat) -> list xy -> list (bool * bool)) (h : Q -> list xy -> list (nat * nat) -> xy -> bool * bool) : Prop :=
  forall f n e v, k f n e v = map (h f n e) v.
Lemma inpoly2_run k h ftol node edges vert : kernel_map k h ->
  (let zeros := repeat false (length vert) in let mask := finite_mask vert in
   if existsb (fun b => b) mask then
     let r := k ftol node edges (map to_xy (mask_select mask vert)) in
     let! s := mask_assign zeros mask (map fst r) in
     let! b := mask_assign zeros mask (map snd r) in Ok (s, b)
   else Ok (zeros, zeros))
  = Ok (map (fun p => if finite_pt p then fst (h ftol node edges (to_xy p)) else false) vert,
        map (fun p => if finite_pt p then snd (h ftol node edges (to_xy p)) else false) vert).
Proof.
  intros Hk. cbv zeta. destruct (existsb (fun b => b) (finite_mask vert)) eqn:E.
  - rewrite Hk, mask_select_map, !map_map.
    rewrite (mask_assign_map (fun p => fst (h ftol node edges (to_xy p))) false). cbn [bind].
    rewrite Hk, !map_map. rewrite (mask_assign_map (fun p => snd (h ftol node edges (to_xy p))) false). reflexivity.
  - pose proof (no_finite vert E) as G. f_equal. f_equal; symmetry; clear E; induction vert as [|p vs IH]; simpl; auto;
      rewrite (G p (or_introl eq_refl)); (rewrite IH; [reflexivity|intros; apply G; now right]).
Qed.
Lemma inpoly2_edges k h ftol node es vert : kernel_map k h -> node <> [] -> valid_edges node es ->
  inpoly2 k ftol node (Some es) vert =
  Ok (map (fun p => if finite_pt p then fst (h ftol node (nat_edges es) (to_xy p)) else false) vert,
      map (fun p => if finite_pt p then snd (h ftol node (nat_edges es) (to_xy p)) else false) vert).
Proof.
  intros Hk Hne Hv. unfold inpoly2. destruct node as [|x node]; [congruence|]. cbv zeta. rewrite (proj2 (valid_edges_iff (x :: node) es) Hv).
  exact (inpoly2_run k h ftol (x :: node) (nat_edges es) vert Hk).
Qed.
Lemma inpoly2_ring k h ftol node vert : kernel_map k h -> (2 <= length node)%nat ->
  inpoly2 k ftol node None vert =
  Ok (map (fun p => if finite_pt p then fst (h ftol node (ring_edges (length node)) (to_xy p)) else false) vert,
      map (fun p => if finite_pt p then snd (h ftol node (ring_edges (length node)) (to_xy p)) else false) vert).
Proof.
  intros Hk Hne. unfold inpoly2. destruct node as [|x node]; [simpl in Hne; lia|]. cbv zeta.
  assert (Nat.ltb (length (x :: node)) 2 = false) as -> by (apply Nat.ltb_ge; auto).
  exact (inpoly2_run k h ftol (x :: node) (ring_edges (length (x :: node))) vert Hk).
Qed.
Lemma inpoly2_bad_edges k ftol node es vert : node <> [] -> ~ valid_edges node es -> inpoly2 k ftol node (Some es) vert = Raise ValueError.
Proof.
  intros Hne Hv. unfold inpoly2. destruct node as [|x node]; [congruence|]. cbv zeta.
  destruct (forallb _ es) eqn:E; auto. exfalso. apply Hv. exact (proj1 (valid_edges_iff (x :: node) es) E).
Qed.
Lemma rc_kernel : kernel_map inpoly_raycasting rc_answer.
Proof. intros f n e v. apply raycasting_map. Qed.
Lemma fk_kernel : kernel_map inpoly_fast (fun f n e => fk_point f (map (lookup n) e)).
Proof. intros f n e v. reflexivity. Qed.

(** * Order and direction *)
Lemma npmin_comm a b : npmin a b == npmin b a.
Proof. pose proof (npmin_cases a b). pose proof (npmin_cases b a). lra. Qed.
Lemma npmax_comm a b : npmax a b == npmax b a.
Proof. pose proof (npmax_cases a b). pose proof (npmax_cases b a). lra. Qed.
Lemma bool_iff (a b : bool) : (a = true <-> b = true) -> a = b.
Proof. destruct a, b; intros [H1 H2]; auto; symmetry; auto. Qed.
Lemma Qltb_eq a b c d : a == c -> b == d -> Qltb a b = Qltb c d.
Proof. intros H1 H2. apply bool_iff. rewrite !Qltb_iff. split; lra. Qed.
Lemma Qleb_eq a b c d : a == c -> b == d -> Qle_bool a b = Qle_bool c d.
Proof. intros H1 H2. apply bool_iff. rewrite !Qle_bool_iff. split; lra. Qed.
Definition flip (s : seg) : seg := (snd s, fst s).
Lemma rc_skip_flip f q s : rc_skip f q (flip s) = rc_skip f q s.
Proof.
  destruct s as [[x1 y1] [x2 y2]]. unfold rc_skip, flip. cbn [fst snd]. pose proof (npmin_comm y1 y2). pose proof (npmax_comm y1 y2).
  f_equal; apply Qltb_eq; lra.
Qed.
Lemma rc_boundary_flip f q s : rc_boundary f q (flip s) = rc_boundary f q s.
Proof.
  destruct s as [[x1 y1] [x2 y2]]. unfold rc_boundary, flip. cbn [fst snd].
  assert (EL : (x1 - x2) * (x1 - x2) + (y1 - y2) * (y1 - y2) == (x2 - x1) * (x2 - x1) + (y2 - y1) * (y2 - y1)) by ring.
  rewrite (Qltb_eq 0 _ 0 _ (Qeq_refl 0) EL). destruct (Qltb 0 ((x2 - x1) * (x2 - x1) + (y2 - y1) * (y2 - y1))) eqn:E; auto. apply Qltb_iff in E.
  assert (EC : ((x1 - x2) * (snd q - y2) - (y1 - y2) * (fst q - x2)) * ((x1 - x2) * (snd q - y2) - (y1 - y2) * (fst q - x2)) / ((x1 - x2) * (x1 - x2) + (y1 - y2) * (y1 - y2))
    == ((x2 - x1) * (snd q - y1) - (y2 - y1) * (fst q - x1)) * ((x2 - x1) * (snd q - y1) - (y2 - y1) * (fst q - x1)) / ((x2 - x1) * (x2 - x1) + (y2 - y1) * (y2 - y1))).
  { rewrite EL. field. lra. }
  rewrite (Qleb_eq _ _ _ _ EC (Qeq_refl (f * f))). destruct (Qle_bool _ (f * f)); auto.
  apply bool_iff. rewrite !andb_true_iff, !Qle_bool_iff.
  assert (ED : (x1 - x2) * (fst q - x2) + (y1 - y2) * (snd q - y2) == ((x2 - x1) * (x2 - x1) + (y2 - y1) * (y2 - y1)) - ((x2 - x1) * (fst q - x1) + (y2 - y1) * (snd q - y1))) by ring.
  rewrite ED, EL. split; intros [H1 H2]; split; lra.
Qed.
Lemma Qabs_flip a b : Qabs (a - b) == Qabs (b - a).
Proof. rewrite Qabs_Qminus. reflexivity. Qed.
Lemma rc_crossing_flip f q s : rc_crossing f q (flip s) = rc_crossing f q s.
Proof.
  destruct s as [[x1 y1] [x2 y2]]. unfold rc_crossing, flip. cbn [fst snd]. rewrite (Qleb_eq _ _ _ _ (Qabs_flip y1 y2) (Qeq_refl f)).
  destruct (Qle_bool (Qabs (y2 - y1)) f); auto. rewrite (xorb_comm (Qltb (snd q) y2)).
  destruct (xorb (Qltb (snd q) y1) (Qltb (snd q) y2)) eqn:E; auto.
  assert (Hd : ~ y1 == y2). { intros H. rewrite (Qltb_eq _ _ _ _ (Qeq_refl (snd q)) H) in E. now rewrite xorb_nilpotent in E. }
  apply Qltb_eq; [reflexivity|]. field. split; lra.
Qed.
Lemma fk_skip_flip f q s : fk_skip f q (flip s) = fk_skip f q s.
Proof.
  destruct s as [[x1 y1] [x2 y2]]. unfold fk_skip, flip. cbn [fst snd].
  destruct (Qltb y1 y2) eqn:E1; destruct (Qltb y2 y1) eqn:E2; auto; rewrite ?Qltb_iff, ?Qltb_false in E1; rewrite ?Qltb_iff, ?Qltb_false in E2; f_equal; apply Qltb_eq; lra.
Qed.
Lemma fk_boundary_flip f q s : fk_boundary f q (flip s) = fk_boundary f q s.
Proof.
  destruct s as [[x1 y1] [x2 y2]]. unfold fk_boundary, flip. cbn [fst snd].
  assert (Z : forall a b, Qeq_bool (a - b) 0 = Qeq_bool (b - a) 0) by (intros a b; apply bool_iff; rewrite !Qeq_bool_iff; split; lra).
  rewrite (Z x1 x2), (Z y1 y2). destruct (negb (Qeq_bool (x2 - x1) 0) || negb (Qeq_bool (y2 - y1) 0)) eqn:E; auto.
  assert (P : 0 < (x2 - x1) * (x2 - x1) + (y2 - y1) * (y2 - y1)).
  { apply sq_sum_pos. intros [H1 H2]. apply Qeq_bool_iff in H1, H2. rewrite H1, H2 in E. discriminate. }
  set (t := ((fst q - x1) * (x2 - x1) + (snd q - y1) * (y2 - y1)) / ((x2 - x1) * (x2 - x1) + (y2 - y1) * (y2 - y1))).
  set (t' := ((fst q - x2) * (x1 - x2) + (snd q - y2) * (y1 - y2)) / ((x1 - x2) * (x1 - x2) + (y1 - y2) * (y1 - y2))).
  assert (Et : t' == 1 - t).
  { unfold t, t'. setoid_replace ((x1 - x2) * (x1 - x2) + (y1 - y2) * (y1 - y2)) with ((x2 - x1) * (x2 - x1) + (y2 - y1) * (y2 - y1)) by ring. field. lra. }
  assert (Eb : Qle_bool 0 t' && Qle_bool t' 1 = Qle_bool 0 t && Qle_bool t 1) by (apply bool_iff; rewrite !andb_true_iff, !Qle_bool_iff; split; intros [? ?]; split; lra).
  rewrite Eb. destruct (Qle_bool 0 t && Qle_bool t 1); auto. apply Qleb_eq; [|reflexivity].
  assert (Ex : fst q - (x2 + t' * (x1 - x2)) == fst q - (x1 + t * (x2 - x1))) by (rewrite Et; ring).
  assert (Ey : snd q - (y2 + t' * (y1 - y2)) == snd q - (y1 + t * (y2 - y1))) by (rewrite Et; ring). rewrite Ex, Ey. reflexivity.
Qed.
Lemma fk_crossing_flip q s : fk_crossing q (flip s) = fk_crossing q s.
Proof. apply bool_iff. rewrite !fk_crossing0, <- !rc_crossing0, rc_crossing_flip. reflexivity. Qed.
Lemma rc_hit_flip f q s : rc_hit f q (flip s) = rc_hit f q s.
Proof. unfold rc_hit. now rewrite rc_skip_flip, rc_boundary_flip. Qed.
Lemma rc_tog_flip f q s : rc_tog f q (flip s) = rc_tog f q s.
Proof. unfold rc_tog. now rewrite rc_skip_flip, rc_crossing_flip. Qed.
Lemma fk_hit_flip f q s : fk_hit f q (flip s) = fk_hit f q s.
Proof. unfold fk_hit. now rewrite fk_skip_flip, fk_boundary_flip. Qed.
Lemma fk_tog_flip f q s : fk_tog f q (flip s) = fk_tog f q s.
Proof. unfold fk_tog. now rewrite fk_skip_flip, fk_crossing_flip. Qed.
Lemma same_edges_par g : (forall s, g (flip s) = g s) -> forall l l', same_edges l l' -> par g l = par g l' /\ existsb g l = existsb g l'.
Proof.
  intros Hg. induction 1 as [|a b l l' _ [IH1 IH2]|a b l l' _ [IH1 IH2]|s t l l' _ [IH1 IH2]|l1 l2 l3 _ [A1 A2] _ [B1 B2]].
  - auto.
  - simpl. now rewrite IH1, IH2.
  - simpl. specialize (Hg (a, b)). unfold flip in Hg. cbn in Hg. now rewrite IH1, IH2, Hg.
  - simpl. rewrite IH1, IH2. split; [destruct (g s), (g t), (par g l'); reflexivity|destruct (g s), (g t), (existsb g l'); reflexivity].
  - split; congruence.
Qed.
Lemma same_edges_ends l l' : same_edges l l' -> Permutation (ends l) (ends l').
Proof.
  induction 1 as [|a b l l' _ IH|a b l l' _ IH|s t l l' _ IH|l1 l2 l3 _ A _ B]; simpl; auto.
  - rewrite perm_swap. auto.
  - apply (Permutation_trans (l' := fst t :: snd t :: fst s :: snd s :: ends l)); [|repeat apply perm_skip; auto].
    change (Permutation ([fst s; snd s] ++ [fst t; snd t] ++ ends l) ([fst t; snd t] ++ [fst s; snd s] ++ ends l)).
    rewrite !app_assoc. apply Permutation_app_tail, Permutation_app_comm.
  - eapply Permutation_trans; eauto.
Qed.
Lemma same_edges_len l l' : same_edges l l' -> length l = length l'.
Proof. induction 1; simpl; congruence. Qed.
Lemma lmin_exists l c : l <> [] -> (lmin l <= c <-> exists x, In x l /\ x <= c).
Proof.
  intros Hl. split.
  - intros H. destruct l as [|a r]; [congruence|]. unfold lmin in H. clear Hl. revert a H. induction r as [|b r IH]; intros a H; cbn [fold_left] in H; [exists a; simpl; auto|].
    destruct (IH _ H) as (x & [<-|Hx] & Hle); [|exists x; simpl; auto].
    destruct (npmin_cases a b) as [[E _]|[E _]]; [exists a|exists b]; simpl; (split; [auto|]); lra.
  - intros (x & Hx & H). pose proof (lmin_le l x Hx). lra.
Qed.
Lemma lmax_exists l c : l <> [] -> (c <= lmax l <-> exists x, In x l /\ c <= x).
Proof.
  intros Hl. split.
  - intros H. destruct l as [|a r]; [congruence|]. unfold lmax in H. clear Hl. revert a H. induction r as [|b r IH]; intros a H; cbn [fold_left] in H; [exists a; simpl; auto|].
    destruct (IH _ H) as (x & [<-|Hx] & Hle); [|exists x; simpl; auto].
    destruct (npmax_cases a b) as [[E _]|[E _]]; [exists b|exists a]; simpl; (split; [auto|]); lra.
  - intros (x & Hx & H). apply Qnot_lt_le. intros Hc. pose proof (lmax_lt l c Hl Hc x Hx). lra.
Qed.
Lemma in_bbox_iff f segs q : segs <> [] -> in_bbox f segs q = true <->
  (exists c, In c (ends segs) /\ fst c <= fst q + f) /\ (exists c, In c (ends segs) /\ fst q - f <= fst c) /\
  (exists c, In c (ends segs) /\ snd c <= snd q + f) /\ (exists c, In c (ends segs) /\ snd q - f <= snd c).
Proof.
  intros Hs. assert (NN : forall g : xy -> Q, map g (ends segs) <> []). { intros g. destruct segs; [congruence|]. simpl. congruence. }
  unfold in_bbox. rewrite seg_xs_ends, seg_ys_ends, !andb_true_iff, !Qle_bool_iff.
  assert (A : forall g : xy -> Q, (lmin (map g (ends segs)) - f <= g q <-> exists c, In c (ends segs) /\ g c <= g q + f)).
  { intros g. transitivity (lmin (map g (ends segs)) <= g q + f); [split; lra|]. rewrite lmin_exists by auto. split.
    - intros (x & Hx & H). apply in_map_iff in Hx. destruct Hx as (c & <- & Hc). eauto.
    - intros (c & Hc & H). exists (g c). split; auto. now apply in_map. }
  assert (B : forall g : xy -> Q, (g q <= lmax (map g (ends segs)) + f <-> exists c, In c (ends segs) /\ g q - f <= g c)).
  { intros g. transitivity (g q - f <= lmax (map g (ends segs))); [split; lra|]. rewrite lmax_exists by auto. split.
    - intros (x & Hx & H). apply in_map_iff in Hx. destruct Hx as (c & <- & Hc). eauto.
    - intros (c & Hc & H). exists (g c). split; auto. now apply in_map. }
  rewrite (A fst), (A snd), (B fst), (B snd). tauto.
Qed.
Lemma in_bbox_same f l l' q : same_edges l l' -> in_bbox f l q = in_bbox f l' q.
Proof.
  intros H. pose proof (same_edges_len _ _ H) as HL. destruct l as [|s r]; [destruct l'; [reflexivity|discriminate]|]. destruct l' as [|s' r']; [discriminate|].
  pose proof (same_edges_ends _ _ H) as P. apply bool_iff. rewrite !in_bbox_iff by congruence.
  assert (G : forall Z : xy -> Prop, (exists c, In c (ends (s :: r)) /\ Z c) <-> (exists c, In c (ends (s' :: r')) /\ Z c)).
  { intros Z. split; intros (c & Hc & Hz); exists c; split; auto; [now apply (Permutation_in c P)|now apply (Permutation_in c (Permutation_sym P))]. }
  rewrite (G (fun c => fst c <= fst q + f)), (G (fun c => fst q - f <= fst c)), (G (fun c => snd c <= snd q + f)), (G (fun c => snd q - f <= snd c)). tauto.
Qed.
Lemma raycasting_same ftol node e1 e2 vert : same_edges (map (lookup node) e1) (map (lookup node) e2) ->
  inpoly_raycasting ftol node e1 vert = inpoly_raycasting ftol node e2 vert.
Proof.
  intros H. rewrite !raycasting_map. apply map_ext. intros q. unfold rc_answer.
  pose proof (same_edges_len _ _ H) as HL. rewrite !map_length in HL.
  assert ((match e1 with [] => true | _ => false end) = (match e2 with [] => true | _ => false end)) as -> by (destruct e1, e2; try discriminate; reflexivity).
  destruct (_ || _); auto. rewrite (in_bbox_same _ _ _ _ H). destruct (in_bbox _ _ _); auto. rewrite !rc_point_spec.
  destruct (same_edges_par (rc_hit ftol q) (rc_hit_flip ftol q) _ _ H) as [_ ->]. destruct (same_edges_par (rc_tog ftol q) (rc_tog_flip ftol q) _ _ H) as [-> _]. reflexivity.
Qed.
Lemma fast_same ftol node e1 e2 vert : same_edges (map (lookup node) e1) (map (lookup node) e2) ->
  inpoly_fast ftol node e1 vert = inpoly_fast ftol node e2 vert.
Proof.
  intros H. unfold inpoly_fast. apply map_ext. intros q. rewrite !fk_point_spec.
  destruct (same_edges_par (fk_hit ftol q) (fk_hit_flip ftol q) _ _ H) as [_ ->]. destruct (same_edges_par (fk_tog ftol q) (fk_tog_flip ftol q) _ _ H) as [-> _]. reflexivity.
Qed.

(** * Rectangles *)
Lemma on_seg_h q a c b : a < c -> (on_segment q ((a, b), (c, b)) <-> a <= fst q <= c /\ snd q == b).
Proof.
  intros H. pose proof (on_segment_algebra q ((a, b), (c, b))) as G. cbn in G. rewrite G. clear G. destruct q as [x y]. cbn [fst snd]. split.
  - intros (_ & Hc & H1 & H2). assert (E : (c - a) * (y - b) == 0) by lra. apply Qmult_integral in E. destruct E as [E|E]; [lra|].
    assert (H1' : 0 <= (c - a) * (x - a)) by lra. assert (H2' : (c - a) * (x - a) <= (c - a) * (c - a)) by lra. split; [split|lra].
    + apply Qnot_lt_le. intros K. assert (0 < (c - a) * (a - x)) by (apply Qmult_lt_0_compat; lra). lra.
    + apply Qnot_lt_le. intros K. assert (0 < (c - a) * (x - c)) by (apply Qmult_lt_0_compat; lra). lra.
  - intros [Hx Hy]. assert (0 < (c - a) * (c - a)) by (apply Qmult_lt_0_compat; lra).
    assert (0 <= (c - a) * (x - a)) by (apply Qmult_le_0_compat; lra). assert (0 <= (c - a) * (c - x)) by (apply Qmult_le_0_compat; lra).
    assert (E0 : y - b == 0) by lra. rewrite E0. repeat split; lra.
Qed.
Lemma on_seg_v q a b d : b < d -> (on_segment q ((a, b), (a, d)) <-> b <= snd q <= d /\ fst q == a).
Proof.
  intros H. pose proof (on_segment_algebra q ((a, b), (a, d))) as G. cbn in G. rewrite G. clear G. destruct q as [x y]. cbn [fst snd]. split.
  - intros (_ & Hc & H1 & H2). assert (E : (d - b) * (x - a) == 0) by lra. apply Qmult_integral in E. destruct E as [E|E]; [lra|].
    assert (H1' : 0 <= (d - b) * (y - b)) by lra. assert (H2' : (d - b) * (y - b) <= (d - b) * (d - b)) by lra. split; [split|lra].
    + apply Qnot_lt_le. intros K. assert (0 < (d - b) * (b - y)) by (apply Qmult_lt_0_compat; lra). lra.
    + apply Qnot_lt_le. intros K. assert (0 < (d - b) * (y - d)) by (apply Qmult_lt_0_compat; lra). lra.
  - intros [Hx Hy]. assert (0 < (d - b) * (d - b)) by (apply Qmult_lt_0_compat; lra).
    assert (0 <= (d - b) * (y - b)) by (apply Qmult_le_0_compat; lra). assert (0 <= (d - b) * (d - y)) by (apply Qmult_le_0_compat; lra).
    assert (E0 : x - a == 0) by lra. rewrite E0. repeat split; lra.
Qed.
Lemma on_seg_flip q s : on_segment q (flip s) <-> on_segment q s.
Proof. rewrite <- !rc_hit0. now rewrite rc_hit_flip. Qed.
Lemma crosses_v q a b d : crosses q ((a, b), (a, d)) <-> (b <= snd q < d \/ d <= snd q < b) /\ fst q < a.
Proof.
  pose proof (crosses_algebra q ((a, b), (a, d))) as G. cbn in G. rewrite G. setoid_replace (a + (snd q - b) * ((a - a) / (d - b))) with a; [reflexivity|].
  assert (E : a - a == 0) by ring. rewrite E. unfold Qdiv. ring.
Qed.
Lemma crosses_h q a c b : ~ crosses q ((a, b), (c, b)).
Proof. intros [H _]. cbn in H. lra. Qed.
Definition rect (a b c d : Q) : list xy := [(a, b); (c, b); (c, d); (a, d)].
Lemma rect_even_odd a b c d q s n : a < c -> b < d -> even_odd (map (lookup (rect a b c d)) (ring_edges 4)) q s n ->
  (s = true <-> a <= fst q <= c /\ b <= snd q <= d) /\
  (n = true <-> (a <= fst q <= c /\ b <= snd q <= d) /\ (fst q == a \/ fst q == c \/ snd q == b \/ snd q == d)).
Proof.
  intros Hac Hbd [H1 H2]. change (map (lookup (rect a b c d)) (ring_edges 4)) with [((a, b), (c, b)); ((c, b), (c, d)); ((c, d), (a, d)); ((a, d), (a, b))] in *.
  assert (B1 := on_seg_h q a c b Hac). assert (B2 := on_seg_v q c b d Hbd).
  assert (B3 : on_segment q ((c, d), (a, d)) <-> a <= fst q <= c /\ snd q == d) by (rewrite <- (on_seg_h q a c d Hac); apply (on_seg_flip q ((a, d), (c, d)))).
  assert (B4 : on_segment q ((a, d), (a, b)) <-> b <= snd q <= d /\ fst q == a) by (rewrite <- (on_seg_v q a b d Hbd); apply (on_seg_flip q ((a, b), (a, d)))).
  assert (HB : n = true <-> (a <= fst q <= c /\ b <= snd q <= d) /\ (fst q == a \/ fst q == c \/ snd q == b \/ snd q == d)).
  { rewrite H1. split.
    - intros (t & Ht & Ho). simpl in Ht. destruct Ht as [<-|[<-|[<-|[<-|[]]]]]; [apply B1 in Ho|apply B2 in Ho|apply B3 in Ho|apply B4 in Ho]; lra.
    - intros [Hin [E|[E|[E|E]]]]; [exists ((a, d), (a, b))|exists ((c, b), (c, d))|exists ((a, b), (c, b))|exists ((c, d), (a, d))]; simpl; (split; [tauto|]); [apply B4|apply B2|apply B1|apply B3]; lra. }
  split; auto. rewrite H2, HB. clear H1 H2 HB B1 B2 B3 B4 n s.
  assert (P : odd_many (crosses q) true [((a, b), (c, b)); ((c, b), (c, d)); ((c, d), (a, d)); ((a, d), (a, b))] <-> b <= snd q < d /\ a <= fst q < c).
  { set (g := rc_tog 0 q). rewrite (om_par (crosses q) g) by (intros; apply rc_tog0).
    assert (G : forall t, ~ crosses q t -> g t = false) by (intros t N; apply not_true_is_false; intros K; apply N, rc_tog0, K).
    assert (E1 := G ((a, b), (c, b)) (crosses_h _ _ _ _)).
    assert (E3 := G ((c, d), (a, d)) (crosses_h _ _ _ _)).
    cbn [par fold_right]. rewrite E1, E3, !xorb_false_l, xorb_false_r.
    destruct (g ((c, b), (c, d))) eqn:E2; destruct (g ((a, d), (a, b))) eqn:E4;
      try (apply rc_tog0, crosses_v in E2); try (apply rc_tog0, crosses_v in E4); cbn [xorb].
    - split; [discriminate|]. lra.
    - assert (~ crosses q ((a, d), (a, b))) as N by (rewrite <- rc_tog0; unfold g in E4; congruence). rewrite crosses_v in N.
      split; auto. intros _. destruct (Qlt_le_dec (fst q) a); [exfalso; apply N; split; [lra|auto]|lra].
    - exfalso. assert (crosses q ((c, b), (c, d))) as N by (apply crosses_v; lra). apply rc_tog0 in N. unfold g in E2. congruence.
    - assert (~ crosses q ((c, b), (c, d))) as N by (rewrite <- rc_tog0; unfold g in E2; congruence). rewrite crosses_v in N. split; [discriminate|]. intros K. exfalso. apply N. lra. }
  rewrite P. split; [lra|]. intros [Hx Hy].
  destruct (Qeq_dec (snd q) d); [left; tauto|]. destruct (Qeq_dec (fst q) c); [left; tauto|]. right. lra.
Qed.

(** * Whole-function statements *)
Lemma edge_segments_lookup node es : edge_segments node es = map (lookup node) (nat_edges es).
Proof. unfold edge_segments, nat_edges. rewrite map_map. reflexivity. Qed.
Lemma finite_pt_false p : ~ finite_point p -> finite_pt p = false.
Proof.
  intros H. destruct p as [[x| |] [y| |]]; try reflexivity. exfalso. apply H. exists x, y. reflexivity.
Qed.
Lemma inpoly2_same_rc ftol node es1 es2 vert : valid_edges node es1 -> valid_edges node es2 ->
  same_edges (edge_segments node es1) (edge_segments node es2) ->
  inpoly2 inpoly_raycasting ftol node (Some es1) vert = inpoly2 inpoly_raycasting ftol node (Some es2) vert.
Proof.
  intros H1 H2 H. destruct node as [|x node]; [reflexivity|]. rewrite !(inpoly2_edges _ _ _ _ _ _ rc_kernel) by (auto; congruence).
  rewrite !edge_segments_lookup in H.
  assert (E : forall q, rc_answer ftol (x :: node) (nat_edges es1) q = rc_answer ftol (x :: node) (nat_edges es2) q).
  { intros q. pose proof (raycasting_same ftol (x :: node) _ _ [q] H) as G. rewrite !raycasting_map in G. cbn [map] in G. congruence. }
  f_equal. f_equal; apply map_ext; intros p; now rewrite E.
Qed.
Lemma inpoly2_same_fk ftol node es1 es2 vert : valid_edges node es1 -> valid_edges node es2 ->
  same_edges (edge_segments node es1) (edge_segments node es2) ->
  inpoly2 inpoly_fast ftol node (Some es1) vert = inpoly2 inpoly_fast ftol node (Some es2) vert.
Proof.
  intros H1 H2 H. destruct node as [|x node]; [reflexivity|]. rewrite !(inpoly2_edges _ _ _ _ _ _ fk_kernel) by (auto; congruence).
  rewrite !edge_segments_lookup in H.
  assert (E : forall q, fk_point ftol (map (lookup (x :: node)) (nat_edges es1)) q = fk_point ftol (map (lookup (x :: node)) (nat_edges es2)) q).
  { intros q. pose proof (fast_same ftol (x :: node) _ _ [q] H) as G. unfold inpoly_fast in G. cbn [map] in G. congruence. }
  f_equal. f_equal; apply map_ext; intros p; now rewrite E.
Qed.
Lemma inpoly2_pointwise k h ftol node edge : kernel_map k h -> (forall es, edge = Some es -> valid_edges node es) ->
  exists f, (forall p, ~ finite_point p -> f p = (false, false)) /\
  forall vert, inpoly2 k ftol node edge vert = Ok (map (fun p => fst (f p)) vert, map (fun p => snd (f p)) vert).
Proof.
  intros Hk Hv. assert (Zr : forall vert : list pt, repeat false (length vert) = map (fun _ => false) vert) by (induction vert; simpl; congruence).
  destruct node as [|x node].
  { exists (fun _ => (false, false)). split; auto. intros vert. unfold inpoly2. cbn [fst snd]. now rewrite Zr. }
  destruct edge as [es|].
  - exists (fun p => if finite_pt p then h ftol (x :: node) (nat_edges es) (to_xy p) else (false, false)). split; [intros p Hp; now rewrite finite_pt_false|].
    intros vert. rewrite (inpoly2_edges _ _ _ _ _ _ Hk) by (auto; congruence). f_equal. f_equal; apply map_ext; intros p; destruct (finite_pt p); reflexivity.
  - destruct node as [|y node]; [exists (fun _ => (false, false)); split; auto; intros vert; unfold inpoly2; cbn [fst snd]; now rewrite Zr|].
    exists (fun p => if finite_pt p then h ftol (x :: y :: node) (ring_edges (length (x :: y :: node))) (to_xy p) else (false, false)). split; [intros p Hp; now rewrite finite_pt_false|].
    intros vert. rewrite (inpoly2_ring _ _ _ _ _ Hk) by (simpl; lia). f_equal. f_equal; apply map_ext; intros p; destruct (finite_pt p); reflexivity.
Qed.
Lemma pointwise_rc ftol node edge : (forall es, edge = Some es -> valid_edges node es) ->
  exists f, (forall p, ~ finite_point p -> f p = (false, false)) /\
  forall vert, inpoly2 inpoly_raycasting ftol node edge vert = Ok (map (fun p => fst (f p)) vert, map (fun p => snd (f p)) vert).
Proof. apply inpoly2_pointwise with (h := rc_answer). exact rc_kernel. Qed.
Lemma pointwise_fk ftol node edge : (forall es, edge = Some es -> valid_edges node es) ->
  exists f, (forall p, ~ finite_point p -> f p = (false, false)) /\
  forall vert, inpoly2 inpoly_fast ftol node edge vert = Ok (map (fun p => fst (f p)) vert, map (fun p => snd (f p)) vert).
Proof. apply inpoly2_pointwise with (h := fun f n e => fk_point f (map (lookup n) e)). exact fk_kernel. Qed.
Lemma ring_segments_lookup node : ring_segments node = map (lookup node) (ring_edges (length node)).
Proof.
  unfold ring_segments, ring_edges. rewrite map_lookup_combine, nth_seq_id. destruct node as [|x node]; [reflexivity|]. f_equal.
  rewrite map_app. cbn [map nth]. cbn [length tl hd firstn]. replace (S (length node) - 1)%nat with (length node) by lia.
  rewrite <- seq_shift, map_map. cbn [nth]. now rewrite nth_seq_id.
Qed.
Lemma agree_edges node es vert : (3 <= length node)%nat -> valid_edges node es -> closed_curve (edge_segments node es) ->
  inpoly2 inpoly_raycasting 0 node (Some es) vert = inpoly2 inpoly_fast 0 node (Some es) vert.
Proof.
  intros Hn Hv Hc. rewrite edge_segments_lookup in Hc. assert (Hne : node <> []) by (destruct node; simpl in *; [lia|congruence]).
  rewrite (inpoly2_edges _ _ _ _ _ _ rc_kernel), (inpoly2_edges _ _ _ _ _ _ fk_kernel) by auto.
  assert (E : forall q, rc_answer 0 node (nat_edges es) q = fk_point 0 (map (lookup node) (nat_edges es)) q).
  { intros q. pose proof (kernels_agree node _ [q] Hc Hn) as G. rewrite raycasting_map in G. unfold inpoly_fast in G. cbn [map] in G. congruence. }
  f_equal. f_equal; apply map_ext; intros p; now rewrite E.
Qed.
Lemma agree_ring node vert : (3 <= length node)%nat -> inpoly2 inpoly_raycasting 0 node None vert = inpoly2 inpoly_fast 0 node None vert.
Proof.
  intros Hn. rewrite (inpoly2_ring _ _ _ _ _ rc_kernel), (inpoly2_ring _ _ _ _ _ fk_kernel) by lia.
  assert (E : forall q, rc_answer 0 node (ring_edges (length node)) q = fk_point 0 (map (lookup node) (ring_edges (length node))) q).
  { intros q. pose proof (kernels_agree node _ [q] (ring_closed node) Hn) as G. rewrite raycasting_map in G. unfold inpoly_fast in G. cbn [map] in G. congruence. }
  f_equal. f_equal; apply map_ext; intros p; now rewrite E.
Qed.
Lemma nth_error_fin {A} (f : xy -> A) (d : A) vert i x y : nth_error vert i = Some (Fin x, Fin y) ->
  nth_error (map (fun p => if finite_pt p then f (to_xy p) else d) vert) i = Some (f (x, y)).
Proof. intros H. exact (map_nth_error (fun p => if finite_pt p then f (to_xy p) else d) i vert H). Qed.
Lemma rule_edges_fk node es vert s b i x y : node <> [] -> valid_edges node es -> inpoly2 inpoly_fast 0 node (Some es) vert = Ok (s, b) ->
  nth_error vert i = Some (Fin x, Fin y) -> exists si bi, nth_error s i = Some si /\ nth_error b i = Some bi /\ even_odd (edge_segments node es) (x, y) si bi.
Proof.
  intros Hne Hv H Hi. rewrite (inpoly2_edges _ _ _ _ _ _ fk_kernel) in H by auto. injection H as <- <-.
  exists (fst (fk_point 0 (map (lookup node) (nat_edges es)) (x, y))), (snd (fk_point 0 (map (lookup node) (nat_edges es)) (x, y))).
  rewrite edge_segments_lookup. split; [|split; [|apply fk_even_odd]].
  - exact (nth_error_fin (fun q => fst (fk_point 0 (map (lookup node) (nat_edges es)) q)) false vert i x y Hi).
  - exact (nth_error_fin (fun q => snd (fk_point 0 (map (lookup node) (nat_edges es)) q)) false vert i x y Hi).
Qed.
Lemma rule_ring k node vert s b i x y : k = inpoly_raycasting \/ k = inpoly_fast -> (3 <= length node)%nat -> inpoly2 k 0 node None vert = Ok (s, b) ->
  nth_error vert i = Some (Fin x, Fin y) -> exists si bi, nth_error s i = Some si /\ nth_error b i = Some bi /\ even_odd (ring_segments node) (x, y) si bi.
Proof.
  intros Hk Hn H Hi. assert (H' : inpoly2 inpoly_fast 0 node None vert = Ok (s, b)) by (destruct Hk as [->| ->]; [rewrite <- agree_ring|]; auto). clear H Hk.
  rewrite (inpoly2_ring _ _ _ _ _ fk_kernel) in H' by lia. injection H' as <- <-.
  exists (fst (fk_point 0 (map (lookup node) (ring_edges (length node))) (x, y))), (snd (fk_point 0 (map (lookup node) (ring_edges (length node))) (x, y))).
  rewrite ring_segments_lookup. split; [|split; [|apply fk_even_odd]].
  - exact (nth_error_fin (fun q => fst (fk_point 0 (map (lookup node) (ring_edges (length node))) q)) false vert i x y Hi).
  - exact (nth_error_fin (fun q => snd (fk_point 0 (map (lookup node) (ring_edges (length node))) q)) false vert i x y Hi).
Qed.
Lemma rule_edges k node es vert s b i x y : k = inpoly_raycasting \/ k = inpoly_fast -> (3 <= length node)%nat -> valid_edges node es -> closed_curve (edge_segments node es) ->
  inpoly2 k 0 node (Some es) vert = Ok (s, b) ->
  nth_error vert i = Some (Fin x, Fin y) -> exists si bi, nth_error s i = Some si /\ nth_error b i = Some bi /\ even_odd (edge_segments node es) (x, y) si bi.
Proof.
  intros Hk Hn Hv Hc H Hi. apply (rule_edges_fk node es vert s b i x y); auto; [destruct node; simpl in *; [lia|congruence]|].
  destruct Hk as [->| ->]; auto. now rewrite <- agree_edges.
Qed.
Lemma outside_edges k node es vert s b i x y : k = inpoly_raycasting \/ k = inpoly_fast -> (3 <= length node)%nat -> valid_edges node es -> closed_curve (edge_segments node es) ->
  inpoly2 k 0 node (Some es) vert = Ok (s, b) -> nth_error vert i = Some (Fin x, Fin y) -> outside_ends (edge_segments node es) (x, y) ->
  nth_error s i = Some false /\ nth_error b i = Some false.
Proof.
  intros Hk Hn Hv Hc H Hi Ho. destruct (rule_edges k node es vert s b i x y Hk Hn Hv Hc H Hi) as (si & bi & E1 & E2 & G).
  destruct (even_odd_unique _ _ _ _ _ _ G (outside_even _ _ Hc Ho)) as [-> ->]. auto.
Qed.
Lemma outside_ring k node vert s b i x y : k = inpoly_raycasting \/ k = inpoly_fast -> (3 <= length node)%nat ->
  inpoly2 k 0 node None vert = Ok (s, b) -> nth_error vert i = Some (Fin x, Fin y) -> outside_ends (ring_segments node) (x, y) ->
  nth_error s i = Some false /\ nth_error b i = Some false.
Proof.
  intros Hk Hn H Hi Ho. destruct (rule_ring k node vert s b i x y Hk Hn H Hi) as (si & bi & E1 & E2 & G).
  assert (Hc : closed_curve (ring_segments node)) by (rewrite ring_segments_lookup; apply ring_closed).
  destruct (even_odd_unique _ _ _ _ _ _ G (outside_even _ _ Hc Ho)) as [-> ->]. auto.
Qed.
Lemma rectangle k a b c d vert s n i x y : k = inpoly_raycasting \/ k = inpoly_fast -> a < c -> b < d ->
  inpoly2 k 0 [(a, b); (c, b); (c, d); (a, d)] None vert = Ok (s, n) -> nth_error vert i = Some (Fin x, Fin y) ->
  exists si ni, nth_error s i = Some si /\ nth_error n i = Some ni /\
   (si = true <-> a <= x <= c /\ b <= y <= d) /\
   (ni = true <-> (a <= x <= c /\ b <= y <= d) /\ (x == a \/ x == c \/ y == b \/ y == d)).
Proof.
  intros Hk Hac Hbd H Hi. assert (L : (3 <= length [(a, b); (c, b); (c, d); (a, d)])%nat) by (simpl; lia). destruct (rule_ring k _ vert s n i x y Hk L H Hi) as (si & ni & E1 & E2 & G).
  exists si, ni. rewrite ring_segments_lookup in G. destruct (rect_even_odd a b c d (x, y) si ni Hac Hbd G) as [R1 R2]. auto.
Qed.

(** * Findings *)
Lemma open_disagree : exists node es p, (3 <= length node)%nat /\ valid_edges node es /\
  inpoly2 inpoly_fast 0 node (Some es) [p] = Ok ([true], [false]) /\ inpoly2 inpoly_raycasting 0 node (Some es) [p] = Ok ([false], [false]).
Proof.
  exists [(0, 0); (2, 1); (0, 2)], [(0, 1)%Z; (1, 2)%Z], (Fin (-1), Fin (1 # 2)). split; [simpl; lia|]. split; [|split; vm_compute; reflexivity].
  intros e [<-|[<-|[]]]; simpl; lia.
Qed.
Lemma tol_disagree : exists node p, (3 <= length node)%nat /\
  inpoly2 inpoly_fast (5 # 100000000000000) node None [p] = Ok ([false], [false]) /\ inpoly2 inpoly_raycasting (5 # 100000000000000) node None [p] = Ok ([true], [true]).
Proof.
  exists [(0, 0); (1, 0); (1, 1); (0, 1)], (Fin (-1 # 100000000000000), Fin (-1 # 100000000000000)). split; [simpl; lia|]. split; vm_compute; reflexivity.
Qed.
(** ftol is compared with a dot product, so on short edges the ray caster reaches far beyond the ends. *)
Lemma on_segment_halfplane p s : 0 <= fst (fst s) + snd (fst s) -> 0 <= fst (snd s) + snd (snd s) -> on_segment p s -> 0 <= fst p + snd p.
Proof.
  destruct s as [[x1 y1] [x2 y2]]. cbn [fst snd]. intros H1 H2 [_ (t & Ht & Ex & Ey)]. cbn [fst snd] in Ex, Ey. rewrite Ex, Ey.
  assert (A : 0 <= t * (x2 + y2)) by (apply Qmult_le_0_compat; lra). assert (B : 0 <= (1 - t) * (x1 + y1)) by (apply Qmult_le_0_compat; lra).
  setoid_replace (x1 + t * (x2 - x1) + (y1 + t * (y2 - y1))) with (t * (x2 + y2) + (1 - t) * (x1 + y1)) by ring. lra.
Qed.
Lemma rc_far : exists node x y, inpoly2 inpoly_raycasting (5 # 100000000000000) node None [(Fin x, Fin y)] = Ok ([true], [true]) /\
  forall s p, In s (ring_segments node) -> on_segment p s -> 4 # 100000000 <= Qabs (x - fst p) + Qabs (y - snd p).
Proof.
  exists [(0, 0); (1 # 1000000, 0); (1, 1); (-1, 1)], (-4 # 100000000), 0. split; [vm_compute; reflexivity|].
  intros s p Hs Hp. assert (G : 0 <= fst p + snd p).
  { apply (on_segment_halfplane p s); auto; simpl in Hs; repeat destruct Hs as [<-|Hs]; try contradiction; cbn; lra. }
  pose proof (Qle_Qabs (-((-4 # 100000000) - fst p))) as A1. pose proof (Qle_Qabs (-(0 - snd p))) as A2. rewrite Qabs_opp in A1, A2. lra.
Qed.
Lemma fk_boundary_near ftol q s : fk_boundary ftol q s = true -> exists p, on_segment p s /\ Qabs (fst q - fst p) + Qabs (snd q - snd p) <= ftol.
Proof.
  destruct s as [[x1 y1] [x2 y2]]. destruct q as [x y]. unfold fk_boundary. cbn [fst snd].
  destruct (negb (Qeq_bool (x2 - x1) 0) || negb (Qeq_bool (y2 - y1) 0)) eqn:E; [|discriminate].
  assert (Hne : ~ (x2 - x1 == 0 /\ y2 - y1 == 0)). { intros [H1 H2]. apply Qeq_bool_iff in H1, H2. rewrite H1, H2 in E. discriminate. }
  set (t := ((x - x1) * (x2 - x1) + (y - y1) * (y2 - y1)) / ((x2 - x1) * (x2 - x1) + (y2 - y1) * (y2 - y1))).
  destruct (Qle_bool 0 t && Qle_bool t 1) eqn:Et; [|discriminate]. apply andb_true_iff in Et. rewrite !Qle_bool_iff in Et.
  intros H. apply Qle_bool_iff in H. exists (x1 + t * (x2 - x1), y1 + t * (y2 - y1)). split; [|exact H]. split.
  - intros [K1 K2]. cbn in K1, K2. apply Hne. split; lra.
  - exists t. split; [exact Et|]. cbn. split; reflexivity.
Qed.
Lemma fk_bnds_near ftol node edge vert s b i x y : (forall es, edge = Some es -> valid_edges node es) ->
  inpoly2 inpoly_fast ftol node edge vert = Ok (s, b) -> nth_error vert i = Some (Fin x, Fin y) -> nth_error b i = Some true ->
  exists sg p, In sg (match edge with Some es => edge_segments node es | None => ring_segments node end) /\ on_segment p sg /\ Qabs (x - fst p) + Qabs (y - snd p) <= ftol.
Proof.
  intros Hv H Hi Hb. assert (Zr : nth_error (repeat false (length vert)) i = Some true -> False).
  { clear. intros H. apply nth_error_In, repeat_spec in H. discriminate. }
  destruct node as [|n0 node]; [injection H as <- <-; contradiction|].
  assert (G : forall edges, snd (fk_point ftol (map (lookup (n0 :: node)) edges) (x, y)) = true -> exists sg p, In sg (map (lookup (n0 :: node)) edges) /\ on_segment p sg /\ Qabs (x - fst p) + Qabs (y - snd p) <= ftol).
  { intros edges K. rewrite fk_point_spec in K. cbn [snd] in K. apply existsb_exists in K. destruct K as (sg & Hin & K). unfold fk_hit in K. apply andb_true_iff in K. destruct K as [_ K].
    apply fk_boundary_near in K. destruct K as (p & K1 & K2). exists sg, p. auto. }
  destruct edge as [es|].
  - rewrite (inpoly2_edges _ _ _ _ _ _ fk_kernel) in H by (auto; congruence). injection H as <- <-. rewrite edge_segments_lookup. apply G.
    pose proof (nth_error_fin (fun q => snd (fk_point ftol (map (lookup (n0 :: node)) (nat_edges es)) q)) false vert i x y Hi) as K. pose proof (eq_trans (eq_sym Hb) K) as K'. injection K' as K'. symmetry. exact K'.
  - destruct node as [|n1 node]; [injection H as <- <-; contradiction|].
    rewrite (inpoly2_ring _ _ _ _ _ fk_kernel) in H by (simpl; lia). injection H as <- <-. rewrite ring_segments_lookup. apply G.
    pose proof (nth_error_fin (fun q => snd (fk_point ftol (map (lookup (n0 :: n1 :: node)) (ring_edges (length (n0 :: n1 :: node)))) q)) false vert i x y Hi) as K. pose proof (eq_trans (eq_sym Hb) K) as K'. injection K' as K'. symmetry. exact K'.
Qed.
