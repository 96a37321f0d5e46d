(** Proofs about the gradient limiter. *)
From Coq Require Import List Arith Bool Lia Relations ZArith QArith Qabs Qround Lqa.
From Verif Require Import M_Base M_GradLimit S_GradLimit Util.
Import ListNotations.
Open Scope nat_scope.

Notation "f .[ i ]" := (nth i f 0%Q) (at level 2, format "f .[ i ]").

Lemma Qgtb_spec x y : Qgtb x y = true <-> (y < x)%Q.
Proof.
  unfold Qgtb. rewrite negb_true_iff. split.
  - intros H. apply Qnot_le_lt. rewrite <- Qle_bool_iff. congruence.
  - intros H. apply not_true_iff_false. rewrite Qle_bool_iff. now apply Qlt_not_le.
Qed.
Lemma Qgtb_false x y : Qgtb x y = false <-> (x <= y)%Q.
Proof. unfold Qgtb. rewrite negb_false_iff. apply Qle_bool_iff. Qed.

Lemma find_indices_In A v i : In i (find_indices A v) <-> i < length A /\ nth i A 0%Z = v.
Proof. unfold find_indices. rewrite filter_In, in_seq, Z.eqb_eq. split; intros [H ?]; split; auto; lia. Qed.

Section Graph.
  Variables (d0 d1 : nat) (w wd ftol : Q) (n : nat).
  Notation moves := (node_moves d0 d1 w wd).
  Hypothesis moves_lt : forall x y we, x < n -> In (y, we) (moves x) -> y < n /\ (0 <= we)%Q.
  Hypothesis ftol_nn : (0 <= ftol)%Q.

  Definition okpair (f : list Q) (x y : nat) (we : Q) : Prop :=
    (f.[x] <= f.[y] + we + ftol)%Q /\ (f.[y] <= f.[x] + we + ftol)%Q.

  (** One lowering of entry z from entry o. *)
  Definition lowered (iter : Z) (z o : nat) (we : Q) (s s' : list Q * list Z) : Prop :=
    z < n /\ o < n /\ (In (o, we) (moves z) \/ In (z, we) (moves o)) /\ (0 <= we)%Q /\
    ((fst s).[o] + we + ftol < (fst s).[z])%Q /\
    s' = (upd (fst s) z ((fst s).[o] + we)%Q, upd (snd s) z iter).
  Definition event (iter : Z) (s s' : list Q * list Z) : Prop := exists z o we, lowered iter z o we s s'.
  Definition events (iter : Z) := clos_refl_trans_1n _ (event iter).
  Definition sized (s : list Q * list Z) : Prop := length (fst s) = n /\ length (snd s) = n.

  Lemma event_sized iter s s' : sized s -> event iter s s' -> sized s'.
  Proof. intros [H1 H2] (z & o & we & _ & _ & _ & _ & _ & ->). split; simpl; now rewrite upd_length. Qed.
  Lemma events_ind iter (P : list Q * list Z -> Prop) : (forall s s', sized s -> P s -> event iter s s' -> P s') ->
    forall s s', events iter s s' -> sized s -> P s -> sized s' /\ P s'.
  Proof.
    intros HP s s' H. induction H as [|s s1 s' H1 H2 IH]; intros Hs Hps; [auto|].
    apply IH; [eapply event_sized; eauto|eapply HP; eauto].
  Qed.
  Lemma events_trans iter s1 s2 s3 : events iter s1 s2 -> events iter s2 s3 -> events iter s1 s3.
  Proof.
    intros H1. revert s3. induction H1 as [|s1 s' s2 H H1 IH]; intros s3 H2; [exact H2|].
    eapply Relation_Operators.rt1n_trans; [exact H|apply IH; exact H2].
  Qed.

  Lemma relax_cases iter x y we s : x < n -> In (y, we) (moves x) ->
    (relax ftol iter x y we s = s /\ okpair (fst s) x y we) \/
    (exists z o, (z = x /\ o = y \/ z = y /\ o = x) /\ lowered iter z o we s (relax ftol iter x y we s)).
  Proof.
    intros Hx Hin. destruct (moves_lt x y we Hx Hin) as [Hy Hwe]. destruct s as [f a]. unfold relax. cbn [fst snd].
    destruct (Qgtb f.[x] f.[y]) eqn:E1.
    - apply Qgtb_spec in E1. destruct (Qgtb f.[x] (f.[y] + we + ftol)%Q) eqn:E2.
      + right. apply Qgtb_spec in E2. exists x, y. split; auto. unfold lowered. cbn [fst snd]. auto 8.
      + left. apply Qgtb_false in E2. split; auto. split; auto. lra.
    - apply Qgtb_false in E1. destruct (Qgtb f.[y] (f.[x] + we + ftol)%Q) eqn:E2.
      + right. apply Qgtb_spec in E2. exists y, x. split; auto. unfold lowered. cbn [fst snd]. auto 8.
      + left. apply Qgtb_false in E2. split; auto. split; auto. lra.
  Qed.
  Lemma relax_events iter x y we s : x < n -> In (y, we) (moves x) -> events iter s (relax ftol iter x y we s).
  Proof.
    intros Hx Hin. destruct (relax_cases iter x y we s Hx Hin) as [[-> _]|(z & o & _ & H)]; [apply Relation_Operators.rt1n_refl|].
    eapply Relation_Operators.rt1n_trans; [exists z, o, we; exact H|apply Relation_Operators.rt1n_refl].
  Qed.
  Lemma moves_events iter x l : x < n -> incl l (moves x) -> forall s,
    events iter s (fold_left (fun st m => relax ftol iter x (fst m) (snd m) st) l s).
  Proof.
    intros Hx. induction l as [|[y we] l IH]; intros Hl s; simpl; [apply Relation_Operators.rt1n_refl|].
    eapply events_trans; [exact (relax_events iter x y we s Hx (Hl _ (or_introl eq_refl)))|]. apply IH. intros m Hm. apply Hl. now right.
  Qed.
  Lemma node_events iter x s : x < n -> events iter s (relax_node d0 d1 w wd ftol iter x s).
  Proof. intros Hx. apply moves_events; auto. apply incl_refl. Qed.
  Lemma sweep_events iter l : (forall x, In x l -> x < n) -> forall s, events iter s (sweep d0 d1 w wd ftol iter l s).
  Proof.
    intros Hl. unfold sweep. induction l as [|x l IH]; intros s; simpl; [apply Relation_Operators.rt1n_refl|].
    eapply events_trans; [exact (node_events iter x s (Hl _ (or_introl eq_refl)))|]. apply IH. intros y Hy. apply Hl. now right.
  Qed.

  (** Invariants of the field that do not depend on the active set. *)
  Lemma loop_inv (P : list Q -> Prop) :
    (forall iter z o we s s', sized s -> P (fst s) -> lowered iter z o we s s' -> P (fst s')) ->
    forall k iter s, sized s -> P (fst s) -> P (fst (limit_loop d0 d1 w wd ftol k iter s)) /\ length (fst (limit_loop d0 d1 w wd ftol k iter s)) = n.
  Proof.
    intros HP. induction k as [|k IH]; intros iter s Hs Hps; cbn [limit_loop]; [split; auto; apply Hs|].
    destruct (find_indices (snd s) (iter - 1)) as [|x l] eqn:E; [split; auto; apply Hs|].
    destruct (events_ind iter (fun s => P (fst s))) with (s := s) (s' := sweep d0 d1 w wd ftol iter (x :: l) s) as [G1 G2]; auto.
    - intros s1 s2 H1 H2 (z & o & we & H3). eapply HP; eauto.
    - apply sweep_events. intros y Hy. rewrite <- E in Hy. apply find_indices_In in Hy. destruct Hs as [_ H2]. lia.
  Qed.

  (** * Convergence implies the limit on symmetric pairs *)
  Definition settled (iter : Z) (s : list Q * list Z) x y we : Prop :=
    okpair (fst s) x y we \/ nth x (snd s) 0%Z = iter \/ nth y (snd s) 0%Z = iter.
  Lemma settled_event iter s s' x y we : sized s -> x < n -> y < n -> settled iter s x y we -> event iter s s' -> settled iter s' x y we.
  Proof.
    intros [L1 L2] Hx Hy Hs (z & o & we' & Hz & Ho & _ & _ & _ & ->). unfold settled in *. cbn [fst snd].
    destruct (Nat.eq_dec z x) as [->|Hzx]; [right; left; apply upd_nth_same; lia|].
    destruct (Nat.eq_dec z y) as [->|Hzy]; [right; right; apply upd_nth_same; lia|].
    unfold okpair in *. rewrite !upd_nth_other by auto. exact Hs.
  Qed.
  Lemma settled_events iter s s' x y we : sized s -> x < n -> y < n -> settled iter s x y we -> events iter s s' -> settled iter s' x y we.
  Proof.
    intros Hs Hx Hy Hst He. apply (events_ind iter (fun s => settled iter s x y we)) with (s := s); auto.
    intros s1 s2 H1 H2 H3. eapply settled_event; eauto.
  Qed.
  Lemma relax_settled iter s x y we : sized s -> x < n -> In (y, we) (moves x) -> settled iter (relax ftol iter x y we s) x y we.
  Proof.
    intros [L1 L2] Hx Hin. destruct (relax_cases iter x y we s Hx Hin) as [[-> H]|(z & o & Hzo & H)]; [now left|right].
    destruct H as (Hz & Ho & _ & _ & _ & ->). cbn [snd].
    destruct Hzo as [[-> _]|[-> _]]; [left|right]; apply upd_nth_same; lia.
  Qed.
  Lemma events_sized iter s s' : sized s -> events iter s s' -> sized s'.
  Proof. intros Hs He. apply (events_ind iter (fun _ => True)) with (s := s); auto. Qed.
  Lemma node_settled iter x : x < n -> forall s, sized s -> forall y we, In (y, we) (moves x) ->
    settled iter (relax_node d0 d1 w wd ftol iter x s) x y we.
  Proof.
    intros Hx s Hs y we Hin. unfold relax_node.
    assert (G : forall l1 l2, moves x = l1 ++ (y, we) :: l2 ->
      settled iter (fold_left (fun st m => relax ftol iter x (fst m) (snd m) st) (moves x) s) x y we).
    { intros l1 l2 E. rewrite E at 1. rewrite fold_left_app. cbn [fold_left fst snd].
      set (s1 := fold_left _ l1 s).
      assert (Hs1 : sized s1). { apply (events_sized iter s); auto. apply moves_events; auto. rewrite E. intros m Hm. apply in_or_app. now left. }
      assert (Hs2 : sized (relax ftol iter x y we s1)) by (eapply events_sized; [exact Hs1|now apply relax_events]).
      apply settled_events with (s := relax ftol iter x y we s1); auto.
      - apply (moves_lt x y we Hx Hin).
      - now apply relax_settled.
      - apply moves_events; auto. rewrite E. intros m Hm. apply in_or_app. right. now right. }
    apply in_split in Hin. destruct Hin as (l1 & l2 & E). eapply G; eauto.
  Qed.

  Definition sympair x y we := In (y, we) (moves x) /\ In (x, we) (moves y).
  Lemma okpair_sym f x y we : okpair f x y we -> okpair f y x we.
  Proof. intros [H1 H2]; split; auto. Qed.
  Lemma settled_sym iter s x y we : settled iter s x y we -> settled iter s y x we.
  Proof. intros [H|[H|H]]; [left; now apply okpair_sym|right; now right|right; now left]. Qed.
  Lemma sweep_settled iter l : (forall x, In x l -> x < n) -> forall s, sized s -> forall x y we, x < n -> y < n -> sympair x y we ->
    (settled iter s x y we \/ In x l \/ In y l) -> settled iter (sweep d0 d1 w wd ftol iter l s) x y we.
  Proof.
    intros Hl. induction l as [|z l IH]; intros s Hs x y we Hx Hy Hsym H; unfold sweep in *; cbn [fold_left].
    - destruct H as [H|[[]|[]]]; auto.
    - assert (Hz : z < n) by (apply Hl; now left).
      pose proof (node_events iter z s Hz) as He.
      apply IH; auto; [intros q Hq; apply Hl; now right|now apply (events_sized iter s)|].
      destruct (Nat.eq_dec z x) as [->|Hzx]; [left; apply node_settled; auto; apply Hsym|].
      destruct (Nat.eq_dec z y) as [->|Hzy]; [left; apply settled_sym; apply node_settled; auto; apply Hsym|].
      destruct H as [H|[[H|H]|[H|H]]]; try congruence; auto. left. eapply settled_events; eauto.
  Qed.
  Lemma loop_converged k : forall iter s, sized s ->
    (forall x y we, x < n -> y < n -> sympair x y we -> settled (iter - 1) s x y we) ->
    snd (limit_loop d0 d1 w wd ftol k iter s) = true ->
    forall x y we, x < n -> y < n -> sympair x y we -> okpair (fst (limit_loop d0 d1 w wd ftol k iter s)) x y we.
  Proof.
    induction k as [|k IH]; intros iter s Hs Hinv Hc; cbn [limit_loop] in *; [discriminate|].
    destruct (find_indices (snd s) (iter - 1)) as [|z l] eqn:E.
    - intros x y we Hx Hy Hsym. cbn [fst].
      destruct (Hinv x y we Hx Hy Hsym) as [H|[H|H]]; auto; exfalso.
      + assert (In x (find_indices (snd s) (iter - 1))) as Hi by (apply find_indices_In; split; [destruct Hs; lia|auto]). rewrite E in Hi. contradiction.
      + assert (In y (find_indices (snd s) (iter - 1))) as Hi by (apply find_indices_In; split; [destruct Hs; lia|auto]). rewrite E in Hi. contradiction.
    - assert (Hl : forall x, In x (z :: l) -> x < n).
      { intros x Hx. rewrite <- E in Hx. apply find_indices_In in Hx. destruct Hs; lia. }
      apply IH; auto.
      + apply (events_sized iter s); auto. now apply sweep_events.
      + intros x y we Hx Hy Hsym. replace (iter + 1 - 1)%Z with iter by lia.
        apply sweep_settled; auto. destruct (Hinv x y we Hx Hy Hsym) as [H|[H|H]]; [left; now left| |].
        * right. left. rewrite <- E. apply find_indices_In. split; [destruct Hs; lia|auto].
        * right. right. rewrite <- E. apply find_indices_In. split; [destruct Hs; lia|auto].
  Qed.

  (** * Termination *)
  Notation total := (fold_right Qplus 0%Q).
  Lemma total_upd f z v : z < length f -> (total (upd f z v) == total f - f.[z] + v)%Q.
  Proof.
    revert z. induction f as [|x f IH]; intros z Hz; [simpl in Hz; lia|]. destruct z as [|z]; cbn [upd fold_right nth]; [ring|].
    rewrite IH by (simpl in Hz; lia). ring.
  Qed.
  Lemma total_ge f m : (forall i, i < length f -> (m <= f.[i])%Q) -> (inject_Z (Z.of_nat (length f)) * m <= total f)%Q.
  Proof.
    induction f as [|x f IH]; intros H; [simpl; change (inject_Z 0) with 0%Q; lra|].
    replace (Z.of_nat (length (x :: f))) with (1 + Z.of_nat (length f))%Z by (cbn [length]; lia).
    rewrite inject_Z_plus. change (inject_Z 1) with 1%Q. cbn [fold_right].
    assert (H0 : (m <= x)%Q) by (apply (H 0); simpl; lia).
    assert (H1 : (inject_Z (Z.of_nat (length f)) * m <= total f)%Q) by (apply IH; intros i Hi; apply (H (S i)); simpl; lia).
    lra.
  Qed.
  Lemma sweep_progress iter s s' : sized s -> events iter s s' ->
    (total (fst s') <= total (fst s))%Q /\ (s' = s \/ (total (fst s') <= total (fst s) - ftol)%Q).
  Proof.
    intros Hs He. induction He as [|s s1 s' H1 H2 IH]; [split; [lra|now left]|].
    pose proof (event_sized _ _ _ Hs H1) as Hs1. destruct (IH Hs1) as [I1 _].
    destruct H1 as (z & o & we & Hz & Ho & _ & Hwe & Hlt & ->). cbn [fst] in *.
    assert (E : (total (upd (fst s) z ((fst s).[o] + we)) == total (fst s) - (fst s).[z] + ((fst s).[o] + we))%Q)
      by (apply total_upd; destruct Hs; lia).
    split; [lra|right; lra].
  Qed.
  Lemma event_bound iter s s' m : sized s -> (forall i, i < n -> (m <= (fst s).[i])%Q) -> events iter s s' ->
    forall i, i < n -> (m <= (fst s').[i])%Q.
  Proof.
    intros Hs Hm He. refine (proj2 (events_ind iter (fun s => forall i, i < n -> (m <= (fst s).[i])%Q) _ s s' He Hs Hm)).
    intros s1 s2 [L1 L2] H1 (z & o & we & Hz & Ho & _ & Hwe & Hlt & ->) i Hi. cbn [fst].
    destruct (Nat.eq_dec z i) as [->|Hne]; [rewrite upd_nth_same by lia|rewrite upd_nth_other by auto; auto].
    specialize (H1 o Ho). lra.
  Qed.
  Lemma loop_terminates m k : (0 < ftol)%Q -> forall N iter s, sized s -> N < k ->
    (forall i, i < n -> (m <= (fst s).[i])%Q) -> (forall i, i < n -> (nth i (snd s) 0 <= iter - 1)%Z) ->
    (total (fst s) - inject_Z (Z.of_nat n) * m < inject_Z (Z.of_nat N) * ftol)%Q ->
    snd (limit_loop d0 d1 w wd ftol k iter s) = true.
  Proof.
    intros Hft. induction k as [|k IH]; intros N iter s Hs HN Hm Ha HT; [lia|]. cbn [limit_loop].
    destruct (find_indices (snd s) (iter - 1)) as [|x l] eqn:E; auto.
    assert (Hl : forall y, In y (x :: l) -> y < n).
    { intros y Hy. rewrite <- E in Hy. apply find_indices_In in Hy. destruct Hs; lia. }
    assert (Hge : (inject_Z (Z.of_nat n) * m <= total (fst s))%Q).
    { destruct Hs as [L1 _]. rewrite <- L1. apply total_ge. intros i Hi. apply Hm. lia. }
    destruct N as [|N]; [change (inject_Z (Z.of_nat 0)) with 0%Q in HT; lra|].
    set (s' := sweep d0 d1 w wd ftol iter (x :: l) s).
    assert (He : events iter s s') by (now apply sweep_events).
    pose proof (events_sized _ _ _ Hs He) as Hs'.
    destruct (sweep_progress _ _ _ Hs He) as [_ [Eq|Hlt]].
    - rewrite Eq. destruct k as [|k]; [lia|]. cbn [limit_loop].
      replace (iter + 1 - 1)%Z with iter by lia.
      destruct (find_indices (snd s) iter) as [|y l'] eqn:E'; auto. exfalso.
      assert (Hy : In y (find_indices (snd s) iter)) by (rewrite E'; now left). apply find_indices_In in Hy.
      destruct Hy as [Hy1 Hy2]. specialize (Ha y). destruct Hs as [_ L2]. rewrite Hy2 in Ha. lia.
    - apply (IH N); [exact Hs'|lia|exact (event_bound iter s s' m Hs Hm He)| |].
      + replace (iter + 1 - 1)%Z with iter by lia.
        refine (proj2 (events_ind iter (fun s => forall i, i < n -> (nth i (snd s) 0 <= iter)%Z) _ s s' He Hs _)).
        * intros s1 s2 [L1 L2] H1 (z & o & we & Hz & _ & _ & _ & _ & ->) i Hi. cbn [snd].
          destruct (Nat.eq_dec z i) as [->|Hne]; [rewrite upd_nth_same by lia; lia|rewrite upd_nth_other by auto; auto].
        * intros i Hi. specialize (Ha i Hi). lia.
      + replace (Z.of_nat (S N)) with (1 + Z.of_nat N)%Z in HT by lia.
        rewrite inject_Z_plus in HT. change (inject_Z 1) with 1%Q in HT. lra.
  Qed.
  Lemma loop_stable k : forall j iter s, snd (limit_loop d0 d1 w wd ftol k iter s) = true ->
    limit_loop d0 d1 w wd ftol (k + j) iter s = limit_loop d0 d1 w wd ftol k iter s.
  Proof.
    induction k as [|k IH]; intros j iter s H; cbn [limit_loop Nat.add] in *; [discriminate|].
    destruct (find_indices (snd s) (iter - 1)); auto.
  Qed.
  Lemma loop_fixed k iter s : sized s -> (forall z o we, z < n -> o < n -> (In (o, we) (moves z) \/ In (z, we) (moves o)) ->
      ((fst s).[z] <= (fst s).[o] + we + ftol)%Q) -> fst (limit_loop d0 d1 w wd ftol k iter s) = fst s.
  Proof.
    intros Hs H. apply (loop_inv (fun f => f = fst s)); auto.
    intros it z o we s1 s2 _ E (Hz & Ho & Hin & _ & Hlt & _). exfalso. rewrite E in Hlt. specialize (H z o we Hz Ho Hin). lra.
  Qed.
End Graph.

(** * The grid *)
Section Grid.
  Variables (d0 d1 d2 : nat).
  Notation cell := (S_GradLimit.cell d0 d1).

  Lemma cell_lt i j k : i < d0 -> j < d1 -> k < d2 -> cell i j k < d0 * d1 * d2.
  Proof.
    intros Hi Hj Hk. unfold S_GradLimit.cell.
    assert (k * d1 + j < d2 * d1) by nia. assert ((k * d1 + j + 1) * d0 <= d2 * d1 * d0) by (apply Nat.mul_le_mono_r; lia). nia.
  Qed.
  Lemma cell_ind2sub i j k : i < d0 -> j < d1 -> ind2sub (cell i j k + 1) d0 d1 = (S i, S j, S k).
  Proof.
    intros Hi Hj. unfold ind2sub, S_GradLimit.cell. replace ((k * d1 + j) * d0 + i + 1 - 1) with ((k * d1 + j) * d0 + i) by lia.
    assert (E : (k * d1 + j) * d0 + i = (d0 * d1) * k + (j * d0 + i)) by ring.
    assert (Hlt : j * d0 + i < d0 * d1) by nia.
    rewrite E, (Nat.add_comm _ (j * d0 + i)), (Nat.mul_comm (d0 * d1) k), Nat.mod_add by lia.
    rewrite (Nat.mod_small _ _ Hlt), Nat.div_add by lia. rewrite (Nat.div_small _ _ Hlt).
    replace (j * d0 + i) with (i + j * d0) by lia. rewrite Nat.mod_add, Nat.div_add by lia.
    rewrite Nat.mod_small, Nat.div_small by lia. reflexivity.
  Qed.
  Lemma sub2ind_cell i j k : sub2ind (S i) (S j) (S k) d0 d1 - 1 = cell i j k.
  Proof. unfold sub2ind, S_GradLimit.cell. rewrite !Nat.sub_succ, !Nat.sub_0_r. ring_simplify. lia. Qed.
  Lemma cell_of x : 0 < d0 -> 0 < d1 -> x < d0 * d1 * d2 -> exists i j k, i < d0 /\ j < d1 /\ k < d2 /\ x = cell i j k.
  Proof.
    intros H0 H1 Hx. exists (x mod d0), ((x / d0) mod d1), ((x / d0) / d1).
    split; [apply Nat.mod_upper_bound; lia|]. split; [apply Nat.mod_upper_bound; lia|]. split.
    - apply Nat.div_lt_upper_bound; [lia|]. apply Nat.div_lt_upper_bound; [lia|]. lia.
    - unfold S_GradLimit.cell. pose proof (Nat.div_mod (x / d0) d1 ltac:(lia)). pose proof (Nat.div_mod x d0 ltac:(lia)). nia.
  Qed.
  Lemma cell_inj i j k i' j' k' : i < d0 -> j < d1 -> i' < d0 -> j' < d1 -> cell i j k = cell i' j' k' -> i = i' /\ j = j' /\ k = k'.
  Proof.
    intros H1 H2 H3 H4 E. pose proof (cell_ind2sub i j k H1 H2) as E1. pose proof (cell_ind2sub i' j' k' H3 H4) as E2.
    rewrite E in E1. rewrite E1 in E2. injection E2 as -> -> ->. auto.
  Qed.

  Lemma stencil_cell i j k : i < d0 -> j < d1 -> stencil d0 d1 (cell i j k) =
    [cell i (Nat.min (j + 1) (d1 - 1)) k; cell i (j - 1) k; cell (Nat.min (i + 1) (d0 - 1)) j k; cell (i - 1) j k;
     cell (Nat.min (i + 1) (d0 - 1)) (Nat.min (j + 1) (d1 - 1)) k; cell (i - 1) (Nat.min (j + 1) (d1 - 1)) k;
     cell (i - 1) (j - 1) k; cell (Nat.min (i + 1) (d0 - 1)) (Nat.min (j + 1) (d1 - 1)) k].
  Proof.
    intros Hi Hj. unfold stencil. rewrite cell_ind2sub by auto. cbn [map].
    replace (Nat.min (S j + 1) d1) with (S (Nat.min (j + 1) (d1 - 1))) by lia.
    replace (Nat.min (S i + 1) d0) with (S (Nat.min (i + 1) (d0 - 1))) by lia.
    replace (Nat.max (S j - 1) 1) with (S (j - 1)) by lia.
    replace (Nat.max (S i - 1) 1) with (S (i - 1)) by lia.
    rewrite !sub2ind_cell. reflexivity.
  Qed.

  Variables (w wd : Q).
  Notation moves := (node_moves d0 d1 w wd).
  Lemma moves_cell i j k y we : i < d0 -> j < d1 -> In (y, we) (moves (cell i j k)) ->
    exists i' j', i' < d0 /\ j' < d1 /\ y = cell i' j' k /\
      ((we = w /\ gap i i' + gap j j' <= 1) \/ (we = wd /\ touching i j i' j')).
  Proof.
    intros Hi Hj. unfold node_moves. rewrite stencil_cell by auto. cbn [combine]. unfold touching, gap. intros H.
    simpl in H. decompose [or] H; try contradiction;
    match goal with E : (S_GradLimit.cell d0 d1 ?a ?b k, ?v) = (y, we) |- _ =>
      injection E as <- <-; exists a, b; repeat split; try lia; first [left; split; [reflexivity|lia]|right; split; [reflexivity|lia]] end.
  Qed.
  Lemma moves_lt_grid x y we : 0 < d0 -> 0 < d1 -> (0 <= w)%Q -> (0 <= wd)%Q -> x < d0 * d1 * d2 -> In (y, we) (moves x) ->
    y < d0 * d1 * d2 /\ (0 <= we)%Q.
  Proof.
    intros H0 H1 Hw Hwd Hx Hin. destruct (cell_of x H0 H1 Hx) as (i & j & k & Hi & Hj & Hk & ->).
    apply moves_cell in Hin; auto. destruct Hin as (i' & j' & Hi' & Hj' & -> & H). split; [now apply cell_lt|].
    destruct H as [[-> _]|[-> _]]; auto.
  Qed.
  Lemma sym_col i j k : i < d0 -> S j < d1 -> sympair d0 d1 w wd (cell i j k) (cell i (S j) k) w.
  Proof.
    intros Hi Hj. unfold sympair, node_moves. rewrite !stencil_cell by lia. cbn [combine]. split.
    - left. f_equal. f_equal. lia.
    - right. left. f_equal. f_equal. lia.
  Qed.
  Lemma sym_row i j k : S i < d0 -> j < d1 -> sympair d0 d1 w wd (cell i j k) (cell (S i) j k) w.
  Proof.
    intros Hi Hj. unfold sympair, node_moves. rewrite !stencil_cell by lia. cbn [combine]. split.
    - do 2 right. left. f_equal. f_equal. lia.
    - do 3 right. left. f_equal. f_equal. lia.
  Qed.
  Lemma sym_diag i j k : S i < d0 -> S j < d1 -> sympair d0 d1 w wd (cell i j k) (cell (S i) (S j) k) wd.
  Proof.
    intros Hi Hj. unfold sympair, node_moves. rewrite !stencil_cell by lia. cbn [combine]. split.
    - do 4 right. left. f_equal. f_equal; lia.
    - do 6 right. left. f_equal. f_equal; lia.
  Qed.
End Grid.

(** * The function *)
Lemma Qmin_fold r : forall x, let m := fold_left (fun m y => if Qle_bool m y then m else y) r x in
  (m = x \/ In m r) /\ (m <= x)%Q /\ forall y, In y r -> (m <= y)%Q.
Proof.
  induction r as [|z r IH]; intros x; cbn [fold_left].
  - split; [now left|]. split; [apply Qle_refl|]. intros y [].
  - destruct (Qle_bool x z) eqn:E.
    + apply Qle_bool_iff in E. destruct (IH x) as (H1 & H2 & H3). split; [destruct H1; [left|right; right]; auto|].
      split; auto. intros y [<-|Hy]; auto. eapply Qle_trans; eauto.
    + assert (z <= x)%Q. { apply Qlt_le_weak, Qnot_le_lt. rewrite <- Qle_bool_iff. congruence. }
      destruct (IH z) as (H1 & H2 & H3). split; [destruct H1 as [->|H1]; right; [left|right]; auto|].
      split; [eapply Qle_trans; eauto|]. intros y [<-|Hy]; auto.
Qed.
Lemma Qmin_list_spec l : l <> [] -> smallest l (Qmin_list l).
Proof.
  destruct l as [|x r]; [congruence|]. intros _. unfold Qmin_list. destruct (Qmin_fold r x) as (H1 & H2 & H3). split.
  - exists (fold_left (fun m y => if Qle_bool m y then m else y) r x). split; [destruct H1 as [->|H1]; [now left|now right]|reflexivity].
  - intros y [<-|Hy]; auto.
Qed.
Lemma smallest_unique l m m' : smallest l m -> smallest l m' -> (m == m')%Q.
Proof.
  intros [(x & Hx & Ex) H1] [(y & Hy & Ey) H2]. specialize (H1 y Hy). specialize (H2 x Hx). lra.
Qed.

Section Function.
  Variables (s2 se elen dfdx : Q) (d0 d1 d2 : nat) (ffun : list Q).
  Hypothesis Hs2 : (1 <= s2)%Q.
  Hypothesis Hse : (0 <= se)%Q.
  Hypothesis Helen : (0 <= elen)%Q.
  Hypothesis Hg : (0 <= dfdx)%Q.
  Hypothesis H0 : 0 < d0.
  Hypothesis H1 : 0 < d1.
  Hypothesis H2 : 0 < d2.
  Hypothesis Hlen : length ffun = d0 * d1 * d2.
  Hypothesis Hnn : forall x, In x ffun -> (0 <= x)%Q.
  Let n := d0 * d1 * d2.
  Let w := (elen * dfdx)%Q.
  Let wd := (elen * s2 * dfdx)%Q.
  Let ftol := (Qmin_list ffun * se)%Q.
  Let st0 : list Q * list Z := (ffun, repeat (-1)%Z n).
  Notation loop := (limit_loop d0 d1 w wd ftol).

  Lemma npos : 0 < n. Proof. unfold n. nia. Qed.
  Lemma ffun_ne : ffun <> []. Proof. intros E. pose proof npos. rewrite E in Hlen. unfold n in *. simpl in Hlen. lia. Qed.
  Lemma min_spec : smallest ffun (Qmin_list ffun). Proof. apply Qmin_list_spec, ffun_ne. Qed.
  Lemma min_nn : (0 <= Qmin_list ffun)%Q.
  Proof. destruct min_spec as [(x & Hx & E) _]. rewrite <- E. auto. Qed.
  Lemma ftol_nn' : (0 <= ftol)%Q. Proof. unfold ftol. apply Qmult_le_0_compat; auto. apply min_nn. Qed.
  Lemma w_nn : (0 <= w)%Q. Proof. unfold w. now apply Qmult_le_0_compat. Qed.
  Lemma wd_ge : (w <= wd)%Q.
  Proof. unfold w, wd. pose proof w_nn as Hw. unfold w in Hw. assert (E : (elen * s2 * dfdx == (elen * dfdx) * s2)%Q) by ring. rewrite E. nra. Qed.
  Lemma wd_nn : (0 <= wd)%Q. Proof. pose proof w_nn. pose proof wd_ge. lra. Qed.
  Lemma sized0 : sized n st0. Proof. split; simpl; auto. apply repeat_length. Qed.
  Lemma mlt x y we : x < n -> In (y, we) (node_moves d0 d1 w wd x) -> y < n /\ (0 <= we)%Q.
  Proof. apply moves_lt_grid; auto using w_nn, wd_nn. Qed.

  Lemma flag_eq imax : gradient_limit_flag s2 se d0 d1 d2 elen dfdx imax ffun = Ok (loop imax 0 st0).
  Proof.
    unfold gradient_limit_flag. rewrite Hlen. rewrite (proj2 (Nat.ltb_lt 0 d0) H0), (proj2 (Nat.ltb_lt 0 d1) H1), (proj2 (Nat.ltb_lt 0 d2) H2), Nat.eqb_refl.
    reflexivity.
  Qed.
  Lemma limit_eq imax : gradient_limit s2 se d0 d1 d2 elen dfdx imax ffun = Ok (fst (loop imax 0 st0)).
  Proof. unfold gradient_limit. rewrite flag_eq. reflexivity. Qed.

  Lemma min_le i : i < n -> (Qmin_list ffun <= ffun.[i])%Q.
  Proof. intros Hi. apply min_spec. apply nth_In. rewrite Hlen. exact Hi. Qed.

  Lemma limit_range imax f : gradient_limit s2 se d0 d1 d2 elen dfdx imax ffun = Ok f ->
    length f = length ffun /\ forall m, smallest ffun m -> forall i, i < length ffun -> (m <= f.[i] <= ffun.[i])%Q.
  Proof.
    rewrite limit_eq. intros E. injection E as <-.
    destruct (loop_inv d0 d1 w wd ftol n mlt ftol_nn' (fun f => forall i, i < n -> (Qmin_list ffun <= f.[i] <= ffun.[i])%Q)) with (k := imax) (iter := 0%Z) (s := st0) as [G1 G2].
    - intros iter z o we s s' [L1 L2] HP (Hz & Ho & _ & Hwe & Hlt & ->) i Hi. cbn [fst].
      destruct (Nat.eq_dec z i) as [->|Hne]; [rewrite upd_nth_same by lia|rewrite upd_nth_other by auto; auto].
      pose proof ftol_nn'. pose proof (HP o Ho). pose proof (HP i Hi). lra.
    - apply sized0.
    - intros i Hi. cbn [fst st0]. split; [now apply min_le|apply Qle_refl].
    - split; [rewrite G2; now rewrite Hlen|]. intros m Hm i Hi. rewrite Hlen in Hi. rewrite (smallest_unique _ _ _ Hm min_spec). apply G1. exact Hi.
  Qed.

  Lemma limit_converged imax f : gradient_limit_flag s2 se d0 d1 d2 elen dfdx imax ffun = Ok (f, true) ->
    forall m, smallest ffun m -> forall i j k, i < d0 -> j < d1 -> k < d2 ->
    (S j < d1 -> (Qabs (f.[cell d0 d1 i j k] - f.[cell d0 d1 i (S j) k]) <= elen * dfdx + m * se)%Q) /\
    (S i < d0 -> (Qabs (f.[cell d0 d1 i j k] - f.[cell d0 d1 (S i) j k]) <= elen * dfdx + m * se)%Q) /\
    (S i < d0 -> S j < d1 -> (Qabs (f.[cell d0 d1 i j k] - f.[cell d0 d1 (S i) (S j) k]) <= elen * s2 * dfdx + m * se)%Q).
  Proof.
    rewrite flag_eq. intros E m Hm. injection E as E.
    assert (Em : (m * se == ftol)%Q) by (unfold ftol; rewrite (smallest_unique _ _ _ Hm min_spec); reflexivity).
    assert (G : forall x y we, x < n -> y < n -> sympair d0 d1 w wd x y we -> okpair ftol f x y we).
    { replace f with (fst (loop imax 0 st0)) by (rewrite E; reflexivity).
      apply (loop_converged d0 d1 w wd ftol n mlt ftol_nn'); [apply sized0| |rewrite E; reflexivity].
      intros x y we Hx Hy _. right. left. cbn [snd st0]. unfold st0. cbn [snd]. 
      rewrite nth_indep with (d' := (-1)%Z) by (rewrite repeat_length; exact Hx). apply nth_repeat. }
    assert (Gab : forall x y we, x < n -> y < n -> sympair d0 d1 w wd x y we -> (Qabs (f.[x] - f.[y]) <= we + m * se)%Q).
    { intros x y we Hx Hy Hs. destruct (G x y we Hx Hy Hs) as [G1 G2]. apply Qabs_Qle_condition. rewrite Em. split; lra. }
    intros i j k Hi Hj Hk. split; [|split].
    - intros Hj'. apply Gab; [now apply cell_lt|now apply cell_lt|now apply sym_col].
    - intros Hi'. apply Gab; [now apply cell_lt|now apply cell_lt|now apply sym_row].
    - intros Hi' Hj'. apply Gab; [now apply cell_lt|now apply cell_lt|now apply sym_diag].
  Qed.

  Lemma limit_antidiagonal imax f : gradient_limit_flag s2 se d0 d1 d2 elen dfdx imax ffun = Ok (f, true) ->
    forall m, smallest ffun m -> forall i j k, S i < d0 -> S j < d1 -> k < d2 ->
    (Qabs (f.[cell d0 d1 (S i) j k] - f.[cell d0 d1 i (S j) k]) <= 2 * (elen * dfdx + m * se))%Q.
  Proof.
    intros E m Hm i j k Hi Hj Hk.
    destruct (limit_converged imax f E m Hm i j k) as (A & B & _); try lia. specialize (A Hj). specialize (B Hi).
    apply Qabs_Qle_condition in A, B. apply Qabs_Qle_condition. lra.
  Qed.

  Lemma limit_terminates N imax : (0 < Qmin_list ffun)%Q -> (0 < se)%Q ->
    (total_of ffun - inject_Z (Z.of_nat (length ffun)) * Qmin_list ffun < inject_Z (Z.of_nat N) * (Qmin_list ffun * se))%Q ->
    N < imax -> exists f, gradient_limit_flag s2 se d0 d1 d2 elen dfdx imax ffun = Ok (f, true).
  Proof.
    intros Hm Hse' HT HN. rewrite flag_eq. exists (fst (loop imax 0 st0)).
    assert (Hft : (0 < ftol)%Q) by (unfold ftol; nra).
    rewrite Hlen in HT.
    assert (E : snd (loop imax 0 st0) = true).
    { apply (loop_terminates d0 d1 w wd ftol n mlt ftol_nn' (Qmin_list ffun) imax Hft N 0 st0); auto.
      - apply sized0.
      - intros i Hi. now apply min_le.
      - intros i Hi. unfold st0. cbn [snd]. rewrite nth_indep with (d' := (-1)%Z) by (rewrite repeat_length; exact Hi). rewrite nth_repeat. lia. }
    rewrite <- E. now destruct (loop imax 0 st0).
  Qed.
  Lemma limit_stable imax imax' f : gradient_limit_flag s2 se d0 d1 d2 elen dfdx imax ffun = Ok (f, true) -> imax <= imax' ->
    gradient_limit_flag s2 se d0 d1 d2 elen dfdx imax' ffun = Ok (f, true).
  Proof.
    rewrite !flag_eq. intros E Hle. injection E as E. replace imax' with (imax + (imax' - imax)) by lia.
    rewrite loop_stable; rewrite E; reflexivity.
  Qed.

  Lemma lowered_cells iter z o we s s' : lowered d0 d1 w wd ftol n iter z o we s s' ->
    exists i j i' j' k, i < d0 /\ j < d1 /\ i' < d0 /\ j' < d1 /\ k < d2 /\ z = cell d0 d1 i j k /\ o = cell d0 d1 i' j' k /\
      ((we = w /\ side_neighbours i j i' j') \/ (we = wd /\ touching i j i' j')).
  Proof.
    intros (Hz & Ho & Hin & Hwe & Hlt & _). destruct (cell_of d0 d1 d2 z H0 H1 Hz) as (i & j & k & Hi & Hj & Hk & ->).
    destruct (cell_of d0 d1 d2 o H0 H1 Ho) as (i' & j' & k' & Hi' & Hj' & Hk' & ->).
    assert (Hne : cell d0 d1 i j k <> cell d0 d1 i' j' k'). { intros E. rewrite E in Hlt. pose proof ftol_nn'. lra. }
    assert (G : k = k' /\ ((we = w /\ gap i i' + gap j j' <= 1) \/ (we = wd /\ touching i j i' j'))).
    { destruct Hin as [Hin|Hin]; apply moves_cell in Hin; auto; destruct Hin as (a & b & Ha & Hb & E & G);
        apply cell_inj in E; auto; destruct E as (<- & <- & <-); (split; [reflexivity|]); auto.
      unfold touching, gap in *. destruct G as [[-> G]|[-> G]]; [left|right]; (split; [reflexivity|lia]). }
    destruct G as [<- G]. exists i, j, i', j', k. repeat (split; [assumption || reflexivity|]).
    destruct G as [[-> G]|[-> G]]; [left|right; auto]. split; auto. unfold side_neighbours.
    assert (gap i i' + gap j j' <> 0); [|lia]. intros E. unfold gap in E. apply Hne. f_equal; lia.
  Qed.

  Lemma limit_walk imax f : gradient_limit s2 se d0 d1 d2 elen dfdx imax ffun = Ok f ->
    forall i j k, i < d0 -> j < d1 -> k < d2 -> exists i' j' L, i' < d0 /\ j' < d1 /\
      grid_walk d0 d1 elen (elen * s2) (i', j', k) (i, j, k) L /\ (f.[cell d0 d1 i j k] == ffun.[cell d0 d1 i' j' k] + dfdx * L)%Q.
  Proof.
    rewrite limit_eq. intros E. injection E as <-.
    apply (loop_inv d0 d1 w wd ftol n mlt ftol_nn' (fun f => forall i j k, i < d0 -> j < d1 -> k < d2 -> exists i' j' L, i' < d0 /\ j' < d1 /\
      grid_walk d0 d1 elen (elen * s2) (i', j', k) (i, j, k) L /\ (f.[cell d0 d1 i j k] == ffun.[cell d0 d1 i' j' k] + dfdx * L)%Q)).
    - intros iter z o we s s' [L1 L2] HP Hl i j k Hi Hj Hk.
      destruct (lowered_cells _ _ _ _ _ _ Hl) as (a & b & a' & b' & k' & Ha & Hb & Ha' & Hb' & Hk' & -> & -> & Hw).
      destruct Hl as (_ & _ & _ & _ & _ & ->). cbn [fst].
      destruct (Nat.eq_dec (cell d0 d1 a b k') (cell d0 d1 i j k)) as [E|Hne]; [|rewrite upd_nth_other by auto; auto].
      apply cell_inj in E; auto. destruct E as (-> & -> & ->).
      destruct (HP a' b' k Ha' Hb' Hk) as (i' & j' & L & Hi' & Hj' & HW & HE).
      rewrite upd_nth_same by (rewrite L1; now apply cell_lt).
      destruct Hw as [[-> Hw]|[-> Hw]].
      + exists i', j', (L + elen)%Q. repeat (split; [assumption|]). split.
        * apply (gw_side _ _ _ _ _ a' b'); auto. unfold side_neighbours, gap in *. lia.
        * rewrite HE. unfold w. ring.
      + exists i', j', (L + elen * s2)%Q. repeat (split; [assumption|]). split.
        * apply (gw_touch _ _ _ _ _ a' b'); auto. unfold touching, gap in *. lia.
        * rewrite HE. unfold wd. ring.
    - apply sized0.
    - intros i j k Hi Hj Hk. exists i, j, 0%Q. repeat (split; [assumption|]). split; [apply gw_here|]. cbn [fst st0]. ring.
  Qed.

  Lemma limit_maximal imax f h : gradient_limit s2 se d0 d1 d2 elen dfdx imax ffun = Ok f ->
    length h = length ffun -> limited d0 d1 d2 h (elen * dfdx)%Q (elen * s2 * dfdx)%Q ->
    (forall i, i < length ffun -> (h.[i] <= ffun.[i])%Q) -> forall i, i < length ffun -> (h.[i] <= f.[i])%Q.
  Proof.
    rewrite limit_eq. intros E Lh Hl Hle. injection E as <-. rewrite Hlen in *.
    apply (loop_inv d0 d1 w wd ftol n mlt ftol_nn' (fun f => forall i, i < n -> (h.[i] <= f.[i])%Q)); [|apply sized0|exact Hle].
    intros iter z o we s s' [L1 L2] HP Hlow i Hi.
    destruct (lowered_cells _ _ _ _ _ _ Hlow) as (a & b & a' & b' & k' & Ha & Hb & Ha' & Hb' & Hk' & -> & -> & Hw).
    destruct Hlow as (Hz & Ho & _ & _ & _ & ->). cbn [fst].
    destruct (Nat.eq_dec (cell d0 d1 a b k') i) as [<-|Hne]; [|rewrite upd_nth_other by auto; auto].
    rewrite upd_nth_same by (rewrite L1; exact Hz). specialize (HP _ Ho).
    destruct (Hl a b k' a' b' Ha Hb Hk' Ha' Hb') as [A B].
    destruct Hw as [[-> Hw]|[-> Hw]]; [specialize (A Hw); unfold w; lra|specialize (B Hw); unfold wd; lra].
  Qed.

  Lemma limit_unchanged imax m : smallest ffun m ->
    limited d0 d1 d2 ffun (elen * dfdx + m * se)%Q (elen * s2 * dfdx + m * se)%Q ->
    gradient_limit s2 se d0 d1 d2 elen dfdx imax ffun = Ok ffun.
  Proof.
    intros Hm Hl. rewrite limit_eq. f_equal.
    assert (Em : (m * se == ftol)%Q) by (unfold ftol; rewrite (smallest_unique _ _ _ Hm min_spec); reflexivity).
    apply (loop_inv d0 d1 w wd ftol n mlt ftol_nn' (fun f => f = ffun)); [|apply sized0|reflexivity].
    intros iter z o we s s' _ E Hlow. exfalso.
    destruct (lowered_cells _ _ _ _ _ _ Hlow) as (a & b & a' & b' & k' & Ha & Hb & Ha' & Hb' & Hk' & -> & -> & Hw).
    destruct Hlow as (_ & _ & _ & _ & Hlt & _). rewrite E in Hlt.
    destruct (Hl a b k' a' b' Ha Hb Hk' Ha' Hb') as [A B].
    destruct Hw as [[-> Hw]|[-> Hw]]; [specialize (A Hw); unfold w in *; lra|specialize (B Hw); unfold wd in *; lra].
  Qed.
End Function.

(** * Statements with bundled hypotheses *)
Lemma T_range s2 se elen dfdx d0 d1 d2 ffun imax : (1 <= s2)%Q -> (0 <= se)%Q -> (0 <= elen)%Q -> (0 <= dfdx)%Q -> size_grid d0 d1 d2 ffun ->
  exists f, gradient_limit s2 se d0 d1 d2 elen dfdx imax ffun = Ok f /\ length f = length ffun /\
    forall m, smallest ffun m -> forall i, i < length ffun ->
      (m <= nth i f 0 <= nth i ffun 0)%Q /\ (nth i ffun 0 == m -> nth i f 0 == m)%Q.
Proof.
  intros H1 H2 H3 H4 [(A & B & C) HL Hn]. eexists. split; [apply (limit_eq s2 se elen dfdx d0 d1 d2 ffun A B C HL)|].
  destruct (limit_range s2 se elen dfdx d0 d1 d2 ffun H1 H2 H3 H4 A B C HL Hn imax _ (limit_eq s2 se elen dfdx d0 d1 d2 ffun A B C HL imax)) as [G1 G2].
  split; auto. intros m Hm i Hi. specialize (G2 m Hm i Hi). split; auto. intros E. lra.
Qed.
Lemma T_sides s2 se elen dfdx d0 d1 d2 ffun imax f m : (1 <= s2)%Q -> (0 <= se)%Q -> (0 <= elen)%Q -> (0 <= dfdx)%Q -> size_grid d0 d1 d2 ffun ->
  gradient_limit_flag s2 se d0 d1 d2 elen dfdx imax ffun = Ok (f, true) -> smallest ffun m ->
  forall i j k i' j', i < d0 -> j < d1 -> k < d2 -> i' < d0 -> j' < d1 ->
  (side_neighbours i j i' j' -> (Qabs (nth (cell d0 d1 i j k) f 0 - nth (cell d0 d1 i' j' k) f 0) <= elen * dfdx + m * se)%Q) /\
  (i' = S i /\ j' = S j -> (Qabs (nth (cell d0 d1 i j k) f 0 - nth (cell d0 d1 i' j' k) f 0) <= elen * s2 * dfdx + m * se)%Q).
Proof.
  intros H1 H2 H3 H4 [(A & B & C) HL Hn] E Hm i j k i' j' Hi Hj Hk Hi' Hj'.
  pose proof (limit_converged s2 se elen dfdx d0 d1 d2 ffun H1 H2 H3 H4 A B C HL Hn imax f E m Hm) as G. split.
  - unfold side_neighbours, gap. intros Hs.
    destruct (Nat.lt_trichotomy i i') as [D|[D|D]].
    + assert (i' = S i) by lia. assert (j' = j) by lia. subst. now apply G.
    + destruct (Nat.lt_trichotomy j j') as [D'|[D'|D']]; [|lia|].
      * assert (j' = S j) by lia. subst. now apply G.
      * assert (j = S j') by lia. subst. rewrite Qabs_Qminus. now apply G.
    + assert (i = S i') by lia. assert (j' = j) by lia. subst. rewrite Qabs_Qminus. now apply G.
  - intros [-> ->]. now apply G.
Qed.
Lemma T_touch s2 se elen dfdx d0 d1 d2 ffun imax f m : (1 <= s2)%Q -> (0 <= se)%Q -> (0 <= elen)%Q -> (0 <= dfdx)%Q -> size_grid d0 d1 d2 ffun ->
  gradient_limit_flag s2 se d0 d1 d2 elen dfdx imax ffun = Ok (f, true) -> smallest ffun m ->
  forall i j k i' j', i < d0 -> j < d1 -> k < d2 -> i' < d0 -> j' < d1 -> touching i j i' j' ->
  (Qabs (nth (cell d0 d1 i j k) f 0 - nth (cell d0 d1 i' j' k) f 0) <= 2 * (elen * dfdx + m * se))%Q.
Proof.
  intros H1 H2 H3 H4 SG E Hm i j k i' j' Hi Hj Hk Hi' Hj' HT.
  assert (Hmm : (0 <= m)%Q). { destruct SG as [_ _ Hn]. destruct Hm as [(x & Hx & <-) _]. auto. }
  assert (Hw : (0 <= elen * dfdx + m * se)%Q) by nra.
  assert (G1 : (Qabs (nth (cell d0 d1 i j k) f 0 - nth (cell d0 d1 i' j k) f 0) <= elen * dfdx + m * se)%Q).
  { destruct (Nat.eq_dec i i') as [->|D]; [setoid_replace (nth (cell d0 d1 i' j k) f 0 - nth (cell d0 d1 i' j k) f 0)%Q with 0%Q by ring; exact Hw|].
    apply (T_sides s2 se elen dfdx d0 d1 d2 ffun imax f m H1 H2 H3 H4 SG E Hm); auto. unfold side_neighbours, touching, gap in *. lia. }
  assert (G2 : (Qabs (nth (cell d0 d1 i' j k) f 0 - nth (cell d0 d1 i' j' k) f 0) <= elen * dfdx + m * se)%Q).
  { destruct (Nat.eq_dec j j') as [->|D]; [setoid_replace (nth (cell d0 d1 i' j' k) f 0 - nth (cell d0 d1 i' j' k) f 0)%Q with 0%Q by ring; exact Hw|].
    apply (T_sides s2 se elen dfdx d0 d1 d2 ffun imax f m H1 H2 H3 H4 SG E Hm); auto. unfold side_neighbours, touching, gap in *. lia. }
  apply Qabs_Qle_condition in G1, G2. apply Qabs_Qle_condition. lra.
Qed.
Lemma T_terminates s2 se elen dfdx d0 d1 d2 ffun m N imax : (1 <= s2)%Q -> (0 < se)%Q -> (0 <= elen)%Q -> (0 <= dfdx)%Q -> size_grid d0 d1 d2 ffun ->
  smallest ffun m -> (0 < m)%Q ->
  (total_of ffun - inject_Z (Z.of_nat (length ffun)) * m < inject_Z (Z.of_nat N) * (m * se))%Q -> N < imax ->
  exists f, gradient_limit_flag s2 se d0 d1 d2 elen dfdx imax ffun = Ok (f, true).
Proof.
  intros H1 H2 H3 H4 [(A & B & C) HL Hn] Hm Hpos HT HN.
  pose proof (smallest_unique _ _ _ Hm (min_spec d0 d1 d2 ffun A B C HL)) as Em. rewrite Em in Hpos, HT.
  apply (limit_terminates s2 se elen dfdx d0 d1 d2 ffun H1 (Qlt_le_weak _ _ H2) H3 H4 A B C HL Hn N imax); auto.
Qed.
Lemma T_converges s2 se elen dfdx d0 d1 d2 ffun m : (1 <= s2)%Q -> (0 < se)%Q -> (0 <= elen)%Q -> (0 <= dfdx)%Q -> size_grid d0 d1 d2 ffun ->
  smallest ffun m -> (0 < m)%Q ->
  exists N f, forall imax, N <= imax -> gradient_limit_flag s2 se d0 d1 d2 elen dfdx imax ffun = Ok (f, true).
Proof.
  intros H1 H2 H3 H4 SG Hm Hpos.
  set (T := (total_of ffun - inject_Z (Z.of_nat (length ffun)) * m)%Q). set (t := (m * se)%Q). assert (Ht : (0 < t)%Q) by (unfold t; nra).
  set (N := S (Z.to_nat (Qceiling (T / t)))).
  assert (HN : (T < inject_Z (Z.of_nat N) * t)%Q).
  { assert (HQ : (T / t < inject_Z (Z.of_nat N))%Q).
    { unfold N. pose proof (Qle_ceiling (T / t)) as G. eapply Qle_lt_trans; [exact G|]. rewrite <- Zlt_Qlt. lia. }
    apply (Qmult_lt_r _ _ t Ht) in HQ. setoid_replace (T / t * t)%Q with T in HQ; auto. field. intros E. rewrite E in Ht. lra. }
  destruct (T_terminates s2 se elen dfdx d0 d1 d2 ffun m N (S N) H1 H2 H3 H4 SG Hm Hpos HN) as [f Hf]; auto.
  exists (S N), f. intros imax Hi. destruct SG as [(A & B & C) HL Hn]. exact (limit_stable s2 se elen dfdx d0 d1 d2 ffun A B C HL (S N) imax f Hf Hi).
Qed.
Lemma T_walk s2 se elen dfdx d0 d1 d2 ffun imax f : (1 <= s2)%Q -> (0 <= se)%Q -> (0 <= elen)%Q -> (0 <= dfdx)%Q -> size_grid d0 d1 d2 ffun ->
  gradient_limit s2 se d0 d1 d2 elen dfdx imax ffun = Ok f ->
    forall i j k, i < d0 -> j < d1 -> k < d2 -> exists i' j' L, i' < d0 /\ j' < d1 /\
      grid_walk d0 d1 elen (elen * s2) (i', j', k) (i, j, k) L /\ (nth (cell d0 d1 i j k) f 0 == nth (cell d0 d1 i' j' k) ffun 0 + dfdx * L)%Q.
Proof. intros H1 H2 H3 H4 [(A & B & C) HL Hn] E. exact (limit_walk s2 se elen dfdx d0 d1 d2 ffun H1 H2 H3 H4 A B C HL Hn imax f E). Qed.
Lemma T_unchanged s2 se elen dfdx d0 d1 d2 ffun imax m : (1 <= s2)%Q -> (0 <= se)%Q -> (0 <= elen)%Q -> (0 <= dfdx)%Q -> size_grid d0 d1 d2 ffun ->
  smallest ffun m -> limited d0 d1 d2 ffun (elen * dfdx + m * se)%Q (elen * s2 * dfdx + m * se)%Q ->
  gradient_limit s2 se d0 d1 d2 elen dfdx imax ffun = Ok ffun.
Proof. intros H1 H2 H3 H4 [(A & B & C) HL Hn] E. exact (limit_unchanged s2 se elen dfdx d0 d1 d2 ffun H1 H2 H3 H4 A B C HL Hn imax m E). Qed.
Lemma T_maximal s2 se elen dfdx d0 d1 d2 ffun imax f h : (1 <= s2)%Q -> (0 <= se)%Q -> (0 <= elen)%Q -> (0 <= dfdx)%Q -> size_grid d0 d1 d2 ffun ->
  gradient_limit s2 se d0 d1 d2 elen dfdx imax ffun = Ok f ->
  length h = length ffun -> limited d0 d1 d2 h (elen * dfdx)%Q (elen * s2 * dfdx)%Q ->
  (forall i, i < length ffun -> (nth i h 0 <= nth i ffun 0)%Q) -> forall i, i < length ffun -> (nth i h 0 <= nth i f 0)%Q.
Proof. intros H1 H2 H3 H4 [(A & B & C) HL Hn] E. exact (limit_maximal s2 se elen dfdx d0 d1 d2 ffun H1 H2 H3 H4 A B C HL Hn imax f h E). Qed.

Definition anti_f : list Q := [40; 40; 40; 40; 40; 40; 10; 40; 40]%Q.
Lemma anti_grid : size_grid 3 3 1 anti_f.
Proof. split; [lia|reflexivity|]. intros x Hx. simpl in Hx. decompose [or] Hx; subst; try contradiction; discriminate. Qed.
Lemma anti_smallest : smallest anti_f 10.
Proof.
  split; [exists 10%Q; split; [simpl; tauto|reflexivity]|]. intros x Hx. simpl in Hx. decompose [or] Hx; subst; try contradiction; discriminate.
Qed.
Definition anti_out : list Q := Eval vm_compute in
  match gradient_limit sqrt2_d sqrt_eps_d 3 3 1 100 (1 # 10) 10 anti_f with Ok f => f | _ => [] end.
Lemma anti_run : gradient_limit_flag sqrt2_d sqrt_eps_d 3 3 1 100 (1 # 10) 10 anti_f = Ok (anti_out, true).
Proof. vm_compute. reflexivity. Qed.
Lemma anti_refuted : exists d0 d1 d2 elen dfdx imax ffun f m i j k i' j',
  size_grid d0 d1 d2 ffun /\ (0 < elen)%Q /\ (0 < dfdx)%Q /\
  gradient_limit_flag sqrt2_d sqrt_eps_d d0 d1 d2 elen dfdx imax ffun = Ok (f, true) /\ smallest ffun m /\
  i < d0 /\ j < d1 /\ k < d2 /\ i' < d0 /\ j' < d1 /\ touching i j i' j' /\
  (elen * sqrt2_d * dfdx + m * sqrt_eps_d < Qabs (nth (cell d0 d1 i j k) f 0 - nth (cell d0 d1 i' j' k) f 0))%Q.
Proof.
  exists 3, 3, 1, 100%Q, (1 # 10)%Q, 10, anti_f, anti_out, 10%Q, 2, 0, 0, 1, 1.
  split; [exact anti_grid|]. split; [reflexivity|]. split; [reflexivity|]. split; [exact anti_run|]. split; [exact anti_smallest|].
  repeat (split; [lia|]). split; [unfold touching, gap; lia|]. vm_compute. reflexivity.
Qed.
