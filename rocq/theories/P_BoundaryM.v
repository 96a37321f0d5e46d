(** Proofs about ocean sections on a closed boundary. *)
From Coq Require Import List Arith Bool ZArith QArith Lia.
From Verif Require Import M_Base M_Edges M_Sdf M_Boundary S_Edges S_Boundary S_BoundaryM P_Edges P_Boundary.
Import ListNotations.
Open Scope nat_scope.

(** * Coverage *)
Lemma in_first_seen x : forall l seen, In x (first_seen seen l) <-> In x l /\ ~ In x seen.
Proof.
  induction l as [|y l IH]; simpl; intros seen; [tauto|]. destruct (existsb (Nat.eqb y) seen) eqn:E.
  - rewrite IH. apply existsb_exists in E. destruct E as (z & Hz & Ez). apply Nat.eqb_eq in Ez. subst z. split; [tauto|]. intros [[->|H] H2]; tauto.
  - assert (N : ~ In y seen). { intros H. assert (existsb (Nat.eqb y) seen = true) by (apply existsb_exists; exists y; split; auto; apply Nat.eqb_refl). congruence. }
    simpl. rewrite IH. simpl. split; [intros [->|[H1 H2]]; tauto|]. intros [[->|H1] H2]; [tauto|]. destruct (Nat.eq_dec y x) as [->|]; [tauto|]. right. split; auto. intros [|]; auto.
Qed.
Lemma loop_covers ts nodes : Forall nondegenerate ts -> (exists u v, on_boundary ts u v) ->
  (forall v, boundary_degree ts v = 0 \/ boundary_degree ts v = 2) -> one_boundary ts -> boundary_nodes ts = Ok nodes ->
  forall u v, on_boundary ts u v -> In u nodes /\ In v nodes.
Proof.
  intros H1 H2 H3 H4 E. destruct (winded_component ts None H1 H2 H3) as (w & s & Ew & Hne & _ & _ & Hb & Hc).
  unfold boundary_nodes in E. rewrite Ew in E. cbn [bind] in E. injection E as <-.
  assert (K : forall u v, u < v -> on_boundary ts u v -> In u (first_seen [] (flatten w)) /\ In v (first_seen [] (flatten w))).
  { intros u v Hlt Hon. destruct w as [|[a b] w']; [congruence|]. destruct (Hb a b (or_introl eq_refl)) as [B1 B2].
    assert (I : In (u, v) ((a, b) :: w')). { apply (Hc (a, b)); [now left|exact Hlt|exact Hon|]. apply H4; auto. }
    rewrite !in_first_seen. unfold flatten. rewrite !in_flat_map. split; (split; [exists (u, v); split; [exact I|simpl; auto]|tauto]). }
  intros u v Hon. assert (N : u <> v) by (apply (edge_uses_nondeg ts); auto; unfold on_boundary in Hon; lia).
  destruct (Nat.lt_total u v) as [L|[L|L]]; [now apply K|congruence|].
  destruct (K v u L); [unfold on_boundary in *; now rewrite edge_uses_sym|]. auto.
Qed.

(** * Maximal runs at threshold 2 are maximal blocks of consecutive numbers *)
Definition block (ps : list nat) (a k : nat) : Prop := 0 < k /\ (forall i, a <= i < a + k -> In i ps) /\ ~ In (a + k) ps /\ (a = 0 \/ ~ In (a - 1) ps).
Lemma increasing_app : forall l l', increasing (l ++ l') -> increasing l /\ increasing l' /\ forall x y, In x l -> In y l' -> x < y.
Proof.
  induction l as [|x l IH]; simpl app; intros l' H.
  - split; [exact I|]. split; auto. intros x y [].
  - apply increasing_cons in H. destruct H as [H1 H2]. destruct (IH l' H2) as (A & B & C). split; [|split; auto].
    + apply increasing_cons. split; auto. intros y Hy. apply H1, in_or_app. auto.
    + intros a y [<-|Ha] Hy; [apply H1, in_or_app; auto|auto].
Qed.
Lemma run2_seq : forall r, run 2 r -> increasing r -> r = seq (hd 0 r) (length r).
Proof.
  induction 1 as [x|x y l Hn Hr IH]; intros Hi; auto. apply increasing_cons in Hi. destruct Hi as [H1 H2].
  assert (y = S x). { specialize (H1 y (or_introl eq_refl)). unfold near in Hn. lia. } subst y.
  change (hd 0 (x :: S x :: l)) with x. change (length (x :: S x :: l)) with (S (length (S x :: l))). cbn [seq]. f_equal. exact (IH H2).
Qed.
Lemma runs_blocks rs : max_runs 2 rs -> increasing (concat rs) -> forall r, In r rs -> exists a k, r = seq a k /\ block (concat rs) a k.
Proof.
  induction 1 as [|r Hr|r x y l rs Hr Hn Hm IH]; intros Hi q Hq; [destruct Hq| |].
  - destruct Hq as [<-|[]]. simpl in *. rewrite app_nil_r in *. exists (hd 0 r), (length r). assert (E := run2_seq r Hr Hi). split; auto.
    apply run_nonempty in Hr. assert (0 < length r) by (destruct r; simpl; [congruence|lia]). set (a := hd 0 r) in *. set (k := length r) in *.
    assert (M : forall i, In i r <-> a <= i < a + k) by (intros i; rewrite E; apply in_seq).
    split; auto. split; [intros i Hj; now apply M|]. split; [rewrite M; lia|]. destruct a; auto. right. rewrite M. lia.
  - change (concat ((r ++ [x]) :: (y :: l) :: rs)) with ((r ++ [x]) ++ concat ((y :: l) :: rs)) in *.
    destruct (increasing_app _ _ Hi) as (A & B & C). specialize (IH B). set (ps := concat ((y :: l) :: rs)) in *.
    assert (Ly : forall i, In i ps -> x + 2 <= i).
    { intros i Hj. assert (y <= i). { unfold ps in *. simpl in B, Hj. destruct Hj as [->|Hj]; auto. apply increasing_cons in B. destruct B as [B _]. specialize (B i Hj). lia. }
      assert (x < y) by (apply C; [apply in_or_app; right; now left|now left]). unfold near in Hn. lia. }
    assert (Lx : forall i, In i (r ++ [x]) -> i <= x).
    { intros i Hj. apply in_app_or in Hj. destruct Hj as [Hj|[->|[]]]; auto. destruct (increasing_app _ _ A) as (_ & _ & C2). specialize (C2 i x Hj (or_introl eq_refl)). lia. }
    destruct Hq as [<-|Hq].
    + exists (hd 0 (r ++ [x])), (length (r ++ [x])). assert (E := run2_seq _ Hr A). split; auto.
      set (a := hd 0 (r ++ [x])) in *. set (k := length (r ++ [x])) in *. assert (0 < k) by (unfold k; rewrite app_length; simpl; lia).
      assert (Ix : In x (r ++ [x])) by (apply in_or_app; right; now left). assert (x = a + k - 1).
      { assert (In (a + k - 1) (r ++ [x])) as Q by (rewrite E; apply in_seq; lia). specialize (Lx _ Q). rewrite E in Ix. apply in_seq in Ix. lia. }
      split; auto. split; [|split].
      * intros i Hj. apply in_or_app. left. rewrite E. now apply in_seq.
      * rewrite in_app_iff. intros [Q|Q]; [rewrite E in Q; apply in_seq in Q; lia|]. apply Ly in Q. lia.
      * destruct a as [|a']; auto. right. rewrite in_app_iff. intros [Q|Q]; [rewrite E in Q; apply in_seq in Q; lia|]. apply Ly in Q. lia.
    + destruct (IH q Hq) as (a & k & Eq & H0 & H1 & H2 & H3). exists a, k. split; auto.
      assert (x + 2 <= a) by (apply Ly, H1; lia). split; auto. split; [|split].
      * intros i Hj. apply in_or_app. auto.
      * rewrite in_app_iff. intros [Q|Q]; [apply Lx in Q; lia|auto].
      * right. rewrite in_app_iff. intros [Q|Q]; [apply Lx in Q; lia|]. destruct H3; [lia|auto].
Qed.
Lemma block_unique ps a k b j : block ps a k -> block ps b j -> a <= b < a + k -> a = b /\ k = j.
Proof.
  intros (A0 & A1 & A2 & A3) (B0 & B1 & B2 & B3) H. assert (a = b). { destruct (Nat.eq_dec a b); auto. exfalso. destruct B3 as [B3|B3]; [lia|]. apply B3, A1. lia. }
  subst b. split; auto. destruct (Nat.lt_total k j) as [L|[L|L]]; auto; exfalso.
  - apply A2, B1. lia.
  - apply B2, A1. lia.
Qed.
Lemma blocks_runs rs : max_runs 2 rs -> increasing (concat rs) -> forall a k, block (concat rs) a k -> In (seq a k) rs.
Proof.
  intros Hm Hi a k Hb. assert (Ia : In a (concat rs)) by (destruct Hb as (B0 & B1 & _); apply B1; lia).
  apply in_concat in Ia. destruct Ia as (r & Hr & Ha). destruct (runs_blocks rs Hm Hi r Hr) as (b & j & -> & Hbj). apply in_seq in Ha.
  destruct (block_unique _ _ _ _ _ Hbj Hb Ha) as [-> ->]. auto.
Qed.

Lemma skip_skip {A} k : forall a (l : list A), skipn k (skipn a l) = skipn (a + k) l.
Proof. induction a as [|a IH]; intros l; simpl; auto. destruct l; [now rewrite skipn_nil|]. apply IH. Qed.
Lemma err_skip {A} i : forall a (l : list A), nth_error (skipn a l) i = nth_error l (a + i).
Proof. induction a as [|a IH]; intros l; simpl; auto. destruct l; simpl; auto. now destruct i. Qed.
Lemma err_first {A} : forall k i (l : list A), i < k -> nth_error (firstn k l) i = nth_error l i.
Proof. induction k as [|k IH]; intros i l H; [lia|]. destruct l; simpl; auto. destruct i; simpl; auto. apply IH. lia. Qed.

(** * Blocks of positions and stretches of the loop *)
Lemma first_at (nodes : list nat) v : nth_error nodes 0 = Some v -> hd_error nodes = Some v.
Proof. destruct nodes; auto. Qed.
Lemma last_at (nodes : list nat) v : nth_error nodes (length nodes - 1) = Some v -> hd_error (rev nodes) = Some v.
Proof.
  destruct (rev nodes) as [|c l] eqn:R; apply (f_equal (@rev nat)) in R; rewrite rev_involutive in R; simpl in R; rewrite R; [simpl; discriminate|].
  rewrite app_length, rev_length. simpl. rewrite nth_error_app2 by (rewrite rev_length; lia). rewrite rev_length. replace (length l + 1 - 1 - length l) with 0 by lia. auto.
Qed.
Section At.
Variables (topo : list num) (t : Q) (nodes ps : list nat).
Hypothesis Hps : deep_positions topo t nodes ps.
Lemma deep_at i v : nth_error nodes i = Some v -> (In i ps <-> deep_node topo t v).
Proof.
  intros E. destruct Hps as [_ H]. rewrite H. split.
  - intros (v' & d & E' & Ed & Hd). assert (v' = v) by congruence. subst. exists d. auto.
  - intros (d & Ed & Hd). exists v, d. auto.
Qed.
Hypothesis Hseam : forall u v, hd_error nodes = Some u -> hd_error (rev nodes) = Some v -> ~ (deep_node topo t u /\ deep_node topo t v).
Lemma not_both : nodes <> [] -> ~ (In 0 ps /\ In (length nodes - 1) ps).
Proof.
  intros Hne [A B]. destruct (nth_error nodes 0) as [u|] eqn:E1; [|apply nth_error_None in E1; destruct nodes; simpl in *; [congruence|lia]].
  destruct (nth_error nodes (length nodes - 1)) as [v|] eqn:E2; [|apply nth_error_None in E2; destruct nodes; simpl in *; [congruence|lia]].
  apply (Hseam u v (first_at _ _ E1) (last_at _ _ E2)). split; [now apply (deep_at _ _ E1)|now apply (deep_at _ _ E2)].
Qed.
Lemma block_arc a k : block ps a k -> deep_arc topo t nodes (firstn k (skipn a nodes)) /\ a + k <= length nodes.
Proof.
  intros (B0 & B1 & B2 & B3).
  assert (L : a + k <= length nodes). { assert (I : In (a + k - 1) ps) by (apply B1; lia). apply (deep_positions_lt topo t nodes) in I; auto. lia. }
  assert (Hne : nodes <> []) by (intros E; rewrite E in L; simpl in L; lia).
  assert (NB := not_both Hne).
  assert (C : ~ (a = 0 /\ a + k = length nodes)). { intros [-> C]. apply NB. split; apply B1; lia. }
  split; auto. exists (skipn (a + k) nodes ++ firstn a nodes).
  assert (Lk : length (firstn k (skipn a nodes)) = k) by (rewrite firstn_length, skipn_length; lia).
  assert (La : length (firstn a nodes) = a) by (rewrite firstn_length; lia).
  assert (Ls : length (skipn (a + k) nodes) = length nodes - (a + k)) by (rewrite skipn_length; lia).
  split; [|split; [|split; [|split]]].
  - exists (firstn a nodes), (skipn a nodes). split; [symmetry; apply firstn_skipn|]. rewrite app_assoc. f_equal.
    rewrite <- skip_skip. apply firstn_skipn.
  - intros E. rewrite E in Lk. simpl in Lk. lia.
  - intros E. apply app_eq_nil in E. destruct E as [E1 E]. rewrite E in La. rewrite E1 in Ls. simpl in La, Ls. lia.
  - apply Forall_forall. intros v Hv. apply In_nth_error in Hv. destruct Hv as (i & Hv).
    assert (i < k). { rewrite <- Lk. apply nth_error_Some. congruence. }
    rewrite err_first in Hv by auto. rewrite err_skip in Hv. apply (deep_at _ _ Hv). apply B1. lia.
  - intros v [E|E].
    + destruct (Nat.eq_dec (a + k) (length nodes)) as [El|El].
      * rewrite skipn_all2 in E by lia. simpl in E. assert (Es : nth_error nodes 0 = Some v) by (rewrite <- (err_first a 0) by lia; destruct (firstn a nodes); auto).
        intros D. apply NB. split; [now apply (deep_at _ _ Es)|]. apply B1. lia.
      * assert (Es : nth_error nodes (a + k) = Some v). { rewrite <- (Nat.add_0_r (a + k)), <- err_skip. destruct (skipn (a + k) nodes) eqn:Q; [|exact E].
          simpl in Ls. lia. }
        intros D. apply B2. now apply (deep_at _ _ Es).
    + destruct (Nat.eq_dec a 0) as [Ea|Ea].
      * subst a. simpl in E. rewrite app_nil_r in E. assert (Es : nth_error nodes (length nodes - 1) = Some v).
        { assert (Q : nth_error (skipn k nodes) (length nodes - k - 1) = Some v).
          { destruct (rev (skipn k nodes)) as [|c l] eqn:R; [discriminate|]. simpl in E. inversion E. subst c.
            apply (f_equal (@rev nat)) in R. rewrite rev_involutive in R. simpl in R. rewrite R. simpl in Ls. rewrite R, app_length, rev_length in Ls. simpl in Ls.
            rewrite nth_error_app2 by (rewrite rev_length; lia). rewrite rev_length. replace (length nodes - k - 1 - length l) with 0 by lia. reflexivity. }
          rewrite err_skip in Q. rewrite <- Q. f_equal. lia. }
        intros D. apply NB. split; [apply B1; lia|now apply (deep_at _ _ Es)].
      * rewrite rev_app_distr in E. assert (Es : nth_error nodes (a - 1) = Some v).
        { assert (Q : nth_error (firstn a nodes) (a - 1) = Some v).
          { destruct (rev (firstn a nodes)) as [|c l] eqn:R; [apply (f_equal (@length nat)) in R; rewrite rev_length in R; simpl in R; lia|]. simpl in E. inversion E. subst c.
            apply (f_equal (@rev nat)) in R. rewrite rev_involutive in R. simpl in R. rewrite R. rewrite R, app_length, rev_length in La. simpl in La.
            rewrite nth_error_app2 by (rewrite rev_length; lia). rewrite rev_length. replace (a - 1 - length l) with 0 by lia. reflexivity. }
          rewrite err_first in Q by lia. exact Q. }
        intros D. destruct B3 as [B3|B3]; [lia|]. apply B3. now apply (deep_at _ _ Es).
Qed.
Lemma arc_block_at x y l z : nodes = x ++ y -> l ++ z = y ++ x -> l <> [] -> Forall (deep_node topo t) l -> length l <= length y ->
  (forall v, hd_error z = Some v \/ hd_error (rev z) = Some v -> ~ deep_node topo t v) ->
  exists a, block ps a (length l) /\ l = firstn (length l) (skipn a nodes).
Proof.
  intros En Er Hl Hf L He.
  assert (K : exists z1, y = l ++ z1 /\ z = z1 ++ x).
  { exists (skipn (length l) y). assert (El : firstn (length l) y = l).
    { apply (f_equal (firstn (length l))) in Er. rewrite !firstn_app, Nat.sub_diag, firstn_all in Er. replace (length l - length y) with 0 in Er by lia. simpl in Er. rewrite !app_nil_r in Er. auto. }
    split; [rewrite <- El at 1; symmetry; apply firstn_skipn|].
    apply (app_inv_head l). rewrite Er. rewrite app_assoc. f_equal. rewrite <- El at 1. symmetry. apply firstn_skipn. }
  destruct K as (z1 & Ey & Ez). exists (length x).
  assert (El : l = firstn (length l) (skipn (length x) nodes)).
  { rewrite En, skipn_app, skipn_all, Nat.sub_diag. simpl. rewrite Ey, firstn_app, firstn_all, Nat.sub_diag. simpl. now rewrite app_nil_r. }
  split; auto. assert (P0 : 0 < length l) by (destruct l; simpl; [congruence|lia]). split; auto.
  assert (At : forall i, i < length l -> nth_error nodes (length x + i) = nth_error l i).
  { intros i Hi. rewrite En, nth_error_app2 by lia. replace (length x + i - length x) with i by lia. rewrite Ey, nth_error_app1 by lia. reflexivity. }
  split; [|split].
  - intros i Hi. destruct (nth_error l (i - length x)) as [v|] eqn:Q; [|apply nth_error_None in Q; lia].
    assert (E1 : nth_error nodes i = Some v). { rewrite <- Q, <- At by lia. f_equal. lia. }
    apply (deep_at _ _ E1). rewrite Forall_forall in Hf. apply Hf. eapply nth_error_In; eauto.
  - intros I. assert (I2 := deep_positions_lt _ _ _ _ _ Hps I). destruct (nth_error nodes (length x + length l)) as [v|] eqn:Q; [|apply nth_error_None in Q; lia].
    apply (deep_at _ _ Q) in I. revert I. apply He. left. rewrite En, nth_error_app2 in Q by lia. replace (length x + length l - length x) with (length l) in Q by lia.
    rewrite Ey, nth_error_app2, Nat.sub_diag in Q by lia. rewrite Ez. destruct z1; [discriminate|exact Q].
  - destruct x as [|x0 xr]; [now left|]. right. intros I. destruct (@exists_last _ (x0 :: xr) ltac:(discriminate)) as (x' & c & Ex). assert (Q : nth_error nodes (length (x0 :: xr) - 1) = Some c).
    { rewrite En, Ex, app_length. cbn [length]. rewrite <- app_assoc, nth_error_app2 by lia. replace (length x' + 1 - 1 - length x') with 0 by lia. reflexivity. }
    apply (deep_at _ _ Q) in I. revert I. apply He. right. rewrite Ez, Ex, rev_app_distr, rev_app_distr. reflexivity.
Qed.
Lemma arc_block l : deep_arc topo t nodes l -> exists a, block ps a (length l) /\ l = firstn (length l) (skipn a nodes).
Proof.
  intros (z & (x & y & En & Er) & Hl & Hz & Hf & He).
  destruct (Nat.le_gt_cases (length l) (length y)) as [L|L]; [eapply arc_block_at; eauto|].
  destruct y as [|y0 yr].
  - rewrite app_nil_r in En. simpl in Er. apply (arc_block_at [] x l z); auto; [now rewrite app_nil_r|]. rewrite <- Er, app_length. lia.
  - exfalso. set (y := y0 :: yr) in *. destruct x as [|x0 xr]; [rewrite app_nil_r in Er; rewrite <- Er, app_length in L; lia|].
    assert (F : forall i v, i < length l -> nth_error (y ++ x0 :: xr) i = Some v -> deep_node topo t v).
    { intros i v Hi Q. rewrite <- Er, nth_error_app1 in Q by auto. rewrite Forall_forall in Hf. apply Hf. eapply nth_error_In; eauto. }
    destruct (@exists_last _ y ltac:(unfold y; discriminate)) as (y' & c & Ey).
    apply (Hseam x0 c).
    + now rewrite En.
    + rewrite En, Ey, rev_app_distr, rev_app_distr. reflexivity.
    + split.
      * apply (F (length y)); auto. rewrite nth_error_app2, Nat.sub_diag by lia. reflexivity.
      * apply (F (length y')); [rewrite Ey, app_length in L; simpl in L; lia|]. rewrite Ey, <- app_assoc, nth_error_app2, Nat.sub_diag by lia. reflexivity.
Qed.
End At.

(** * The sections of a mesh with one boundary *)
Lemma seq_ends a k (nodes : list nat) : 0 < k -> a + k <= length nodes ->
  hd_error (firstn k (skipn a nodes)) = Some (nth (hd 0 (seq a k)) nodes 0) /\ hd_error (rev (firstn k (skipn a nodes))) = Some (nth (last (seq a k) 0) nodes 0).
Proof.
  intros Hk L. assert (Q : forall i, i < k -> nth_error (firstn k (skipn a nodes)) i = Some (nth (a + i) nodes 0)).
  { intros i Hi. rewrite err_first, err_skip by auto. apply nth_error_nth'. lia. }
  assert (Lk : length (firstn k (skipn a nodes)) = k) by (rewrite firstn_length, skipn_length; lia). split.
  - specialize (Q 0 Hk). rewrite Nat.add_0_r in Q. destruct k; [lia|]. cbn [seq hd]. destruct (firstn (S k) (skipn a nodes)); auto; discriminate.
  - rewrite (last_at _ (nth (a + (k - 1)) nodes 0)) by (rewrite Lk; apply Q; lia). f_equal. f_equal.
    destruct k; [lia|]. rewrite seq_S, last_last. lia.
Qed.
Lemma one_loop ts (topo : list num) : Forall nondegenerate ts -> (exists u v, on_boundary ts u v) ->
  (forall v, boundary_degree ts v = 0 \/ boundary_degree ts v = 2) -> (forall t v, In t ts -> has_vertex v t -> v < length topo) -> one_boundary ts ->
  exists nodes, nodes <> [] /\ boundary_loop ts nodes /\ (forall u v, on_boundary ts u v -> In u nodes /\ In v nodes) /\
  forall t, (forall u v, hd_error nodes = Some u -> hd_error (rev nodes) = Some v -> ~ (deep_node topo t u /\ deep_node topo t v)) ->
    (forall l, deep_arc topo t nodes l -> 3 <= length l) ->
    exists secs, identify_ocean_boundary_sections ts topo t 2 = Ok secs /\ NoDup secs /\
      forall u v, In (u, v) secs <-> exists l, deep_arc topo t nodes l /\ hd_error l = Some u /\ hd_error (rev l) = Some v.
Proof.
  intros H1 H2 H3 H4 H5. destruct (nodes_loop ts H1 H2 H3) as (nodes & E & Hne & Hl). exists nodes. split; auto. split; auto.
  split; [now apply (loop_covers ts)|]. intros t Hs Ha.
  destruct (find_stops_spec topo nodes t (nodes_lt ts topo nodes H4 Hl)) as (ps & _ & Hp).
  destruct (cut_runs 2 ps) as (rs & Hm & Hc). rewrite <- Hc in Hp. clear ps Hc. assert (Hi : increasing (concat rs)) by apply Hp.
  destruct (sections_all_at ts topo nodes H4 E Hl t 2%Z rs Hm Hp) as (_ & _ & Hx).
  assert (L3 : forall r, In r rs -> exists a k, r = seq a k /\ block (concat rs) a k /\ a + k <= length nodes /\ 3 <= k /\ deep_arc topo t nodes (firstn k (skipn a nodes))).
  { intros r Hr. destruct (runs_blocks rs Hm Hi r Hr) as (a & k & Er & Hb). destruct (block_arc topo t nodes _ Hp Hs a k Hb) as [Hda Hle].
    exists a, k. repeat (split; auto). specialize (Ha _ Hda). rewrite firstn_length, skipn_length in Ha. lia. }
  assert (Len : forall r, In r rs -> 3 <= length r) by (intros r Hr; destruct (L3 r Hr) as (a & k & -> & _ & _ & Hk & _); now rewrite seq_length).
  assert (Ef : filter (fun r => 3 <=? length r) rs = rs).
  { assert (G : forall l, (forall r : list nat, In r l -> 3 <= length r) -> filter (fun r => 3 <=? length r) l = l); [|now apply G].
    induction l as [|r l IH]; intros G; auto. cbn [filter]. assert (3 <= length r) as Q by (apply G; now left). apply Nat.leb_le in Q. rewrite Q. f_equal. apply IH. intros; apply G; now right. }
  rewrite Ef in Hx. exists (map (fun r => (nth (hd 0 r) nodes 0, nth (last r 0) nodes 0)) rs). split; [|split].
  - apply Hx. split.
    + intros (pre & x & y & post & Q & _). assert (I : In [x; y] rs) by (rewrite Q; apply in_or_app; right; now left). specialize (Len _ I). simpl in Len. lia.
    + intros (pre & x & y & Q). assert (I : In [x] rs) by (rewrite Q; apply in_or_app; right; now left). specialize (Len _ I). simpl in Len. lia.
  - assert (ND : NoDup nodes) by apply Hl.
    assert (G : forall l, (forall r, In r l -> In r rs) -> increasing (concat l) -> NoDup (map (fun r => (nth (hd 0 r) nodes 0, nth (last r 0) nodes 0)) l)).
    { induction l as [|r l IH]; intros G I; simpl; constructor.
      - simpl in I. apply increasing_app in I. destruct I as (_ & _ & I). intros Q. apply in_map_iff in Q. destruct Q as (q & Q & Hq). inversion Q as [[Q1 _]].
        destruct (L3 r (G r (or_introl eq_refl))) as (a & k & -> & Hb & Hle & Hk & _). destruct (L3 q (G q (or_intror Hq))) as (b & j & -> & Hb2 & Hle2 & Hj & _).
        destruct k; [lia|]. destruct j; [lia|]. cbn [seq hd] in Q1. rewrite (NoDup_nth nodes 0) in ND. assert (a = b) by (apply ND; [lia|lia|congruence]). subst b.
        assert (a < a); [|lia]. apply I; [now left|]. apply in_concat. exists (seq a (S j)). split; auto. now left.
      - apply IH; [intros; apply G; now right|]. simpl in I. apply increasing_app in I. apply I. }
    now apply G.
  - intros u v. rewrite in_map_iff. split.
    + intros (r & Er & Hr). destruct (L3 r Hr) as (a & k & -> & Hb & Hle & Hk & Hda). exists (firstn k (skipn a nodes)). split; auto.
      destruct (seq_ends a k nodes) as [S1 S2]; [lia|auto|]. rewrite S1, S2. inversion Er. auto.
    + intros (l & Hda & Hu & Hv). assert (Hk := Ha l Hda). destruct (arc_block topo t nodes _ Hp Hs l Hda) as (a & Hb & El). exists (seq a (length l)).
      split; [|now apply blocks_runs]. destruct (block_arc topo t nodes _ Hp Hs a (length l) Hb) as [_ Hle].
      destruct (seq_ends a (length l) nodes) as [S1 S2]; [lia|auto|]. rewrite <- El in S1, S2. congruence.
Qed.

(** * One stretch, any threshold *)
Lemma run_seqm m : (2 <= m)%Z -> forall k a, run m (seq a (S k)).
Proof. intros Hm. induction k as [|k IH]; intros a; [constructor|]. cbn [seq]. constructor; [unfold near; lia|]. apply (IH (S a)). Qed.
Lemma threshold_ignored ts (topo : list num) : Forall nondegenerate ts -> (exists u v, on_boundary ts u v) ->
  (forall v, boundary_degree ts v = 0 \/ boundary_degree ts v = 2) -> (forall t v, In t ts -> has_vertex v t -> v < length topo) ->
  exists nodes, nodes <> [] /\ boundary_loop ts nodes /\ forall t a k m, 3 <= k -> (2 <= m)%Z -> deep_positions topo t nodes (seq a k) ->
    identify_ocean_boundary_sections ts topo t m = Ok [(nth a nodes 0, nth (a + k - 1) nodes 0)].
Proof.
  intros H1 H2 H3 H4. destruct (nodes_loop ts H1 H2 H3) as (nodes & E & Hne & Hl). exists nodes. split; auto. split; auto.
  intros t a k m Hk Hm Hp. destruct k as [|k]; [lia|]. assert (Hr : max_runs m [seq a (S k)]) by (apply mr_one; now apply run_seqm).
  assert (Hc : deep_positions topo t nodes (concat [seq a (S k)])) by (simpl; rewrite app_nil_r; exact Hp).
  destruct (sections_all_at ts topo nodes H4 E Hl t m [seq a (S k)] Hr Hc) as (_ & _ & Hx). destruct Hx as [_ Hx].
  assert (F : filter (fun r => 3 <=? length r) [seq a (S k)] = [seq a (S k)]).
  { cbn [filter]. rewrite seq_length. destruct (Nat.leb_spec 3 (S k)); [auto|lia]. }
  rewrite F in Hx. cbn [map] in Hx. rewrite seq_S, last_last in Hx. rewrite Hx.
  - f_equal. f_equal. f_equal; [|f_equal; lia]. destruct k; [lia|reflexivity].
  - split.
    + intros (pre & x & y & post & Q & Hn). apply (f_equal (@length (list nat))) in Q. rewrite app_length in Q. destruct post; [congruence|]. simpl in Q. lia.
    + intros (pre & x & y & Q). apply (f_equal (@length (list nat))) in Q. rewrite app_length in Q. simpl in Q. lia.
Qed.

(** * A mesh with two stretches on its boundary *)
Lemma fan_edge u v : u < v -> on_boundary fan u v -> (v = S u /\ v <= 11) \/ (u = 0 /\ v = 11).
Proof.
  intros H B. assert (L : edge_uses u v fan >= 1) by (unfold on_boundary in B; lia). apply edge_uses_lt in L. cbv in L.
  revert H B. assert (C : u < 12 /\ v < 12) by lia. destruct C as [C1 C2]. clear L.
  assert (K : forallb (fun u => forallb (fun v => implb ((u <? v) && (edge_uses u v fan =? 1)) (((v =? S u) && (v <=? 11)) || ((u =? 0) && (v =? 11)))) (seq 0 12)) (seq 0 12) = true) by (vm_compute; reflexivity).
  rewrite forallb_forall in K. specialize (K u). rewrite in_seq in K. specialize (K ltac:(lia)). cbv beta in K. rewrite forallb_forall in K. specialize (K v). rewrite in_seq in K. specialize (K ltac:(lia)). cbv beta in K.
  intros H B. unfold on_boundary in B. apply Nat.ltb_lt in H. rewrite H, B in K. simpl in K. apply orb_true_iff in K. rewrite !andb_true_iff, !Nat.eqb_eq, Nat.leb_le in K. tauto.
Qed.
Lemma fan_step i : i < 11 -> on_boundary fan i (S i).
Proof. intros H. do 11 (destruct i as [|i]; [reflexivity|]). lia. Qed.
Lemma fan_down i j : i <= j -> j < 11 -> blinked fan (j, S j) (i, S i).
Proof.
  intros H. induction H as [|j H IH]; intros L; [apply bl_refl|].
  apply (bl_step fan _ (j, S j) _ (S j)); [apply fan_step; simpl; lia|left; reflexivity|right; reflexivity|apply IH; lia].
Qed.
Lemma fan_up i j : i <= j -> j < 11 -> blinked fan (i, S i) (j, S j).
Proof.
  intros H. revert i H. induction j as [|j IH]; intros i H L; [replace i with 0 by lia; apply bl_refl|].
  destruct (Nat.eq_dec i (S j)) as [->|N]; [apply bl_refl|].
  apply (bl_step fan _ (S i, S (S i)) _ (S i)); [apply fan_step; simpl; lia|right; reflexivity|left; reflexivity|].
  assert (Q : forall d i, i + d = S j -> blinked fan (i, S i) (S j, S (S j))).
  { induction d as [|d IHd]; intros i' Hi; [replace i' with (S j) by lia; apply bl_refl|].
    apply (bl_step fan _ (S i', S (S i')) _ (S i')); [apply fan_step; simpl; lia|right; reflexivity|left; reflexivity|]. apply IHd. lia. }
  apply (Q (j - i)). lia.
Qed.
Lemma fan_one : one_boundary fan.
Proof.
  assert (R : on_boundary fan 0 11) by reflexivity.
  assert (G : forall j, j < 11 -> blinked fan (0, 11) (j, S j)).
  { intros j Hj. apply (bl_step fan _ (0, 1) _ 0); [reflexivity|left; reflexivity|left; reflexivity|]. apply fan_up; lia. }
  assert (D : forall j, j < 11 -> blinked fan (j, S j) (0, 11)).
  { induction j as [|j IH]; intros Hj.
    - apply (bl_step fan _ (0, 11) _ 0); [reflexivity|left; reflexivity|left; reflexivity|apply bl_refl].
    - apply (bl_step fan _ (j, S j) _ (S j)); [apply fan_step; simpl; lia|left; reflexivity|right; reflexivity|apply IH; lia]. }
  intros u v x y H1 H2 B1 B2. destruct (fan_edge u v H1 B1) as [[-> L1]|[-> ->]], (fan_edge x y H2 B2) as [[-> L2]|[-> ->]].
  - destruct (Nat.le_gt_cases u x); [apply fan_up; lia|apply fan_down; lia].
  - apply D. lia.
  - apply G. lia.
  - apply bl_refl.
Qed.
Lemma mem_iff x l : existsb (Nat.eqb x) l = true <-> In x l.
Proof. rewrite existsb_exists. split; [intros (y & H & E); apply Nat.eqb_eq in E; now subst|intros H; exists x; split; auto; apply Nat.eqb_refl]. Qed.
Definition twice : list num := topo_of 12 [4; 5; 6; 8; 9; 10].
Lemma twice_deep v : deep_node twice (-50) v <-> In v [4; 5; 6; 8; 9; 10].
Proof.
  unfold deep_node. destruct (le_lt_dec 12 v) as [H|H].
  - split.
    + intros (d & E & _). assert (v < length twice) by (apply nth_error_Some; congruence). cbv in H0. lia.
    + simpl. lia.
  - assert (K : forall d, nth_error twice v = Some d -> (deep (-50) d <-> In v [4; 5; 6; 8; 9; 10])).
    { intros d E. unfold twice, topo_of in E. rewrite nth_error_map in E. rewrite nth_error_nth' with (d := 0) in E by (rewrite seq_length; lia).
      rewrite seq_nth in E by lia. cbn [option_map Nat.add] in E. assert (Ed : d = Fin (if existsb (Nat.eqb v) [4; 5; 6; 8; 9; 10] then (-100)%Q else 0%Q)) by congruence. clear E. subst d.
      rewrite <- mem_iff. destruct (existsb (Nat.eqb v) [4; 5; 6; 8; 9; 10]); cbv; split; intros Q; try reflexivity; try (intros Q2; discriminate); try discriminate; exfalso; now apply Q. }
    split.
    + intros (d & E & D). now apply (K d).
    + intros I. destruct (nth_error twice v) as [d|] eqn:E; [|apply nth_error_None in E; cbv in E; lia]. exists d. split; auto. now apply (K d).
Qed.
Lemma seq12 i v : nth_error (seq 0 12) i = Some v -> v = i.
Proof. intros H. assert (L : i < length (seq 0 12)) by (apply nth_error_Some; congruence). rewrite nth_error_nth' with (d := 0) in H by auto. rewrite seq_length in L. rewrite seq_nth in H by lia. simpl in H. congruence. Qed.
Lemma twice_positions : deep_positions twice (-50) (seq 0 12) [4; 5; 6; 8; 9; 10].
Proof.
  split; [simpl; lia|]. intros i. rewrite <- twice_deep. unfold deep_node. split.
  - intros (d & E & D). exists i, d. split; auto. assert (i < 12) by (change 12 with (length twice); apply nth_error_Some; congruence).
    rewrite nth_error_nth' with (d := 0) by (rewrite seq_length; lia). rewrite seq_nth by lia. reflexivity.
  - intros (v & d & E & D). apply seq12 in E. subst v. eauto.
Qed.
Lemma twice_case : (Forall nondegenerate fan /\ (exists u v, on_boundary fan u v) /\ (forall v, boundary_degree fan v = 0 \/ boundary_degree fan v = 2) /\
    (forall t v, In t fan -> has_vertex v t -> v < length twice) /\ one_boundary fan) /\
  boundary_nodes fan = Ok (seq 0 12) /\
  (forall u v, hd_error (seq 0 12) = Some u -> hd_error (rev (seq 0 12)) = Some v -> ~ (deep_node twice (-50) u /\ deep_node twice (-50) v)) /\
  (forall l, deep_arc twice (-50) (seq 0 12) l -> 3 <= length l) /\
  identify_ocean_boundary_sections fan twice (-50) 2 = Ok [(4, 6); (8, 10)].
Proof.
  destruct fan_ok as (A & B & C & D). split; [split; [|split; [|split; [|split]]]; auto using fan_one|]. split; [vm_compute; reflexivity|].
  assert (HS : forall u v, hd_error (seq 0 12) = Some u -> hd_error (rev (seq 0 12)) = Some v -> ~ (deep_node twice (-50) u /\ deep_node twice (-50) v)).
  { intros u v Hu Hv [Q _]. simpl in Hu. injection Hu as <-. apply twice_deep in Q. simpl in Q. lia. }
  split; [exact HS|]. split; [|vm_compute; reflexivity].
  intros l Hl. destruct (arc_block _ _ _ _ twice_positions HS l Hl) as (a & (B0 & B1 & B2 & B3) & _). simpl in B2, B3.
  destruct (le_lt_dec 3 (length l)) as [|L]; auto. exfalso. assert (Q := B1 a ltac:(lia)). simpl in Q.
  assert (K : length l = 1 \/ length l = 2) by lia. destruct K as [K|K]; rewrite K in *; [lia|]. assert (Q2 := B1 (S a) ltac:(lia)). simpl in Q2. lia.
Qed.
