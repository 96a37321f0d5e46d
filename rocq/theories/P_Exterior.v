(** Proofs about delete_exterior_faces. *)
From Coq Require Import List Arith Bool Lia Relations Permutation ZArith QArith Lqa.
From Verif Require Import M_Base M_Numpy M_Edges M_FixMesh M_Adjacency M_Clean.
From Verif Require Import S_Edges S_FixMesh S_Adjacency S_Clean Util P_Edges P_FixMesh P_Adjacency P_Search.
Import ListNotations.
Open Scope nat_scope.

Lemma NoDup_app_remove_r {A} (l l' : list A) : NoDup (l ++ l') -> NoDup l.
Proof.
  induction l as [|a l IH]; simpl; intros H; [constructor|]. inversion H; subst. constructor; auto.
  intros Hin. apply H2. apply in_or_app. now left.
Qed.
Lemma NoDup_app_remove_l {A} (l l' : list A) : NoDup (l ++ l') -> NoDup l'.
Proof. induction l as [|a l IH]; simpl; intros H; auto. inversion H; subst. auto. Qed.
Lemma NoDup_app_intro {A} (l l' : list A) : NoDup l -> NoDup l' -> (forall x, In x l -> ~ In x l') -> NoDup (l ++ l').
Proof.
  induction 1 as [|a l Hx Hnd IH]; simpl; intros H' Hd; auto. constructor.
  - rewrite in_app_iff. intros [H|H]; [contradiction|]. apply (Hd a); auto.
  - apply IH; auto.
Qed.

Lemma take_mask_map {A B} (f : A -> B) l m : take_mask (map f l) m = map f (take_mask l m).
Proof.
  unfold take_mask. revert m. induction l as [|a l IH]; intros [|b m]; simpl; auto.
  destruct b; simpl; now rewrite IH.
Qed.
Lemma delete_mask_map {A B} (f : A -> B) l m : delete_mask (map f l) m = map f (delete_mask l m).
Proof.
  unfold delete_mask. revert m. induction l as [|a l IH]; intros [|b m]; simpl; auto.
  destruct b; simpl; now rewrite IH.
Qed.
Lemma masks_perm {A} (l : list A) m : length m = length l -> Permutation (take_mask l m ++ delete_mask l m) l.
Proof.
  unfold take_mask, delete_mask. revert m. induction l as [|a l IH]; intros [|b m] H; simpl in *; try lia; auto.
  destruct b; simpl.
  - constructor. apply IH. lia.
  - apply Permutation_trans with (a :: (map fst (filter (fun p => snd p) (combine l m)) ++ map fst (filter (fun p => negb (snd p)) (combine l m)))).
    + symmetry. apply Permutation_middle.
    + constructor. apply IH. lia.
Qed.
Lemma take_mask_In {A} (l : list A) m x : length m = length l ->
  (In x (take_mask l m) <-> exists a, nth_error l a = Some x /\ nth a m false = true).
Proof.
  unfold take_mask. revert m. induction l as [|y l IH]; intros [|b m] H; simpl in *; try lia.
  - split; [contradiction|]. intros (a & Ha & _). destruct a; discriminate.
  - injection H as H. specialize (IH m H). split.
    + intros Hin. destruct b; simpl in Hin.
      * destruct Hin as [<-|Hin]; [exists 0; auto|]. apply IH in Hin. destruct Hin as (a & Ha). exists (S a). auto.
      * apply IH in Hin. destruct Hin as (a & Ha). exists (S a). auto.
    + intros ([|a] & Ha & Hm); simpl in *.
      * injection Ha as ->. subst. now left.
      * destruct b; simpl; [right|]; apply IH; eauto.
Qed.
Lemma delete_mask_In {A} (l : list A) m x : length m = length l ->
  (In x (delete_mask l m) <-> exists a, nth_error l a = Some x /\ nth a m false = false).
Proof.
  unfold delete_mask. revert m. induction l as [|y l IH]; intros [|b m] H; simpl in *; try lia.
  - split; [contradiction|]. intros (a & Ha & _). destruct a; discriminate.
  - injection H as H. specialize (IH m H). split.
    + intros Hin. destruct b; simpl in Hin.
      * apply IH in Hin. destruct Hin as (a & Ha). exists (S a). auto.
      * destruct Hin as [<-|Hin]; [exists 0; auto|]. apply IH in Hin. destruct Hin as (a & Ha). exists (S a). auto.
    + intros ([|a] & Ha & Hm); simpl in *.
      * injection Ha as ->. subst. now left.
      * destruct b; simpl; [|right]; apply IH; eauto.
Qed.

(** A set of face numbers closed under adjacency, and the mesh of those faces. *)
Definition closed_ids (ts : list tri) (ids : list nat) : Prop :=
  (forall i, In i ids -> i < length ts) /\ forall i j, In i ids -> adjacent ts i j -> In j ids.

Lemma faces_at_nth ts ids a : a < length ids -> nth a (faces_at ts ids) no_face = nth (nth a ids 0) ts no_face.
Proof.
  intros H. unfold faces_at. rewrite (nth_indep _ no_face (nth 0 ts no_face)) by (now rewrite map_length).
  exact (map_nth (fun i => nth i ts no_face) ids 0 a).
Qed.
Lemma sub_adjacent ts ids a b : (forall i, In i ids -> i < length ts) ->
  (adjacent (faces_at ts ids) a b <-> a < length ids /\ b < length ids /\ adjacent ts (nth a ids 0) (nth b ids 0)).
Proof.
  intros Hlt. unfold adjacent. unfold faces_at at 1 2. rewrite map_length. split.
  - intros (H1 & H2 & H3). rewrite !faces_at_nth in H3 by auto. repeat split; auto; apply Hlt; now apply nth_In.
  - intros (H1 & H2 & H3 & H4 & H5). rewrite !faces_at_nth by auto. auto.
Qed.
Lemma sub_connected ts ids a b : closed_ids ts ids -> a < length ids ->
  (connected (faces_at ts ids) a b -> connected ts (nth a ids 0) (nth b ids 0)).
Proof.
  intros [Hlt Hcl] Ha H. induction H as [x y H|x|x y z H1 IH1 H2 IH2].
  - apply sub_adjacent in H; auto. apply rt_step. apply H.
  - apply rt_refl.
  - eapply rt_trans; [now apply IH1|]. apply IH2.
    assert (x < length (faces_at ts ids)) by (unfold faces_at; now rewrite map_length).
    apply (connected_lt _ x y) in H1; auto. unfold faces_at in H1. now rewrite map_length in H1.
Qed.
Lemma sub_connected_inv ts ids i j : closed_ids ts ids -> connected ts i j -> In i ids ->
  In j ids /\ forall a, nth_error ids a = Some i -> NoDup ids ->
    exists b, nth_error ids b = Some j /\ connected (faces_at ts ids) a b.
Proof.
  intros [Hlt Hcl] H Hi. apply clos_rt_rtn1 in H. induction H as [|j k Hs Hr IH].
  - split; auto. intros a Ha _. exists a. split; auto. apply rt_refl.
  - destruct IH as [Hj IH]. assert (Hk : In k ids) by eauto. split; auto.
    intros a Ha Hnd. destruct (IH a Ha Hnd) as (b & Hb & Hc).
    destruct (In_nth_error _ _ Hk) as (c & Hc'). exists c. split; auto.
    eapply rt_trans; [exact Hc|]. apply rt_step. apply sub_adjacent; auto.
    assert (b < length ids) by (apply nth_error_Some; congruence).
    assert (c < length ids) by (apply nth_error_Some; congruence).
    repeat split; auto.
    + apply nth_error_nth with (d := 0) in Hb. apply nth_error_nth with (d := 0) in Hc'. rewrite Hb. auto.
    + apply nth_error_nth with (d := 0) in Hc'. rewrite Hc'. auto.
    + apply nth_error_nth with (d := 0) in Hb. apply nth_error_nth with (d := 0) in Hc'. rewrite Hb, Hc'. apply Hs.
Qed.

Open Scope Q_scope.
Lemma simp_vol1_area2 p t : simp_vol1 p t == area2 p t / 2.
Proof.
  destruct t as [[a b] c]. unfold simp_vol1, area2.
  destruct (nth a p (0, 0)), (nth b p (0, 0)), (nth c p (0, 0)). simpl. field.
Qed.
Lemma Qsum_area p ts l : Qsum (simp_vol p (faces_at ts l)) == faces_area p ts l / 2.
Proof.
  unfold Qsum, faces_area, simp_vol, faces_at. induction l as [|i l IH]; simpl; [reflexivity|].
  rewrite IH, simp_vol1_area2. field.
Qed.
Lemma faces_area_perm p ts l l' : Permutation l l' -> faces_area p ts l == faces_area p ts l'.
Proof. unfold faces_area. induction 1; simpl; try reflexivity; try lra. Qed.
Lemma faces_area_app p ts l l' : faces_area p ts (l ++ l') == faces_area p ts l + faces_area p ts l'.
Proof. unfold faces_area. induction l; simpl; [lra|]. rewrite IHl. lra. Qed.
Lemma faces_area_nonneg p ts l : Forall (fun t => 0 <= area2 p t) ts -> 0 <= faces_area p ts l.
Proof.
  intros H. unfold faces_area. induction l as [|i l IH]; simpl; [lra|].
  assert (0 <= area2 p (nth i ts no_face)); [|lra].
  destruct (nth_in_or_default i ts no_face) as [Hin|Hd].
  - rewrite Forall_forall in H. now apply H.
  - rewrite Hd. unfold area2, no_face. lra.
Qed.
Lemma faces_area_incl p ts l l' : Forall (fun t => 0 <= area2 p t) ts -> NoDup l -> incl l l' ->
  faces_area p ts l <= faces_area p ts l'.
Proof.
  intros H Hnd. revert l'. induction Hnd as [|x l Hx Hnd IH]; intros l' Hi.
  - change (faces_area p ts []) with 0. now apply faces_area_nonneg.
  - assert (Hin : In x l') by (apply Hi; now left).
    apply in_split in Hin. destruct Hin as (l1 & l2 & ->).
    assert (Hp : Permutation (l1 ++ x :: l2) (x :: l1 ++ l2)) by (symmetry; apply Permutation_middle).
    rewrite (faces_area_perm _ _ _ _ Hp).
    assert (Hle : faces_area p ts l <= faces_area p ts (l1 ++ l2)).
    { apply IH. intros y Hy. assert (Hy' : In y (l1 ++ x :: l2)) by (apply Hi; now right).
      apply (Permutation_in _ Hp) in Hy'. destruct Hy' as [<-|]; auto. contradiction. }
    change (faces_area p ts (x :: l)) with (area2 p (nth x ts no_face) + faces_area p ts l).
    change (faces_area p ts (x :: l1 ++ l2)) with (area2 p (nth x ts no_face) + faces_area p ts (l1 ++ l2)). lra.
Qed.

Lemma frac_gt_pos X A m : 0 < A -> (frac_gt (X / 2) (A / 2) m = true <-> m * A < X).
Proof.
  intros HA. unfold frac_gt. destruct (Qeq_bool (A / 2) 0) eqn:E.
  - apply Qeq_bool_iff in E. exfalso. assert (A == 0); [|lra].
    setoid_replace A with (A / 2 * 2) by field. rewrite E. lra.
  - rewrite negb_true_iff, <- not_true_iff_false, Qle_bool_iff.
    assert (Hq : X / 2 / (A / 2) == X / A) by (field; lra).
    rewrite Hq. split; intros H.
    + apply Qnot_le_lt in H. apply (Qmult_lt_compat_r _ _ A HA) in H.
      setoid_replace (X / A * A) with X in H by (field; lra). exact H.
    + intros Hle. apply (Qmult_le_compat_r _ _ A) in Hle; [|lra].
      setoid_replace (X / A * A) with X in Hle by (field; lra). lra.
Qed.
Global Instance frac_gt_comp : Proper (Qeq ==> Qeq ==> Qeq ==> eq) frac_gt.
Proof.
  intros a a' Ha b b' Hb c c' Hc. unfold frac_gt.
  replace (Qeq_bool b 0) with (Qeq_bool b' 0).
  - destruct (Qeq_bool b' 0); auto. f_equal.
    apply eq_true_iff_eq. rewrite !Qle_bool_iff. now rewrite Ha, Hb, Hc.
  - apply eq_true_iff_eq. rewrite !Qeq_bool_iff. now rewrite Hb.
Qed.

Open Scope nat_scope.
Section Exterior.
  Variable argsort : list nat -> list nat.
  Hypothesis Ha : is_argsort argsort.
  Variable draw : nat -> nat -> nat.
  Hypothesis Hdraw : forall k n, 0 < n -> draw k n < n.
  Variables (p : list point) (ts : list tri).

  (** One pass: what the flags of the search on the remaining faces mean for the whole mesh. *)
  Lemma pass_spec ids k : closed_ids ts ids -> NoDup ids -> ids <> [] ->
    exists flag i, depth_first_search argsort (draw k (length (faces_at ts ids))) (faces_at ts ids) = Ok flag /\
      In i ids /\ length flag = length ids /\
      component ts i (take_mask ids flag) /\
      closed_ids ts (delete_mask ids flag) /\ NoDup (delete_mask ids flag) /\
      Permutation (take_mask ids flag ++ delete_mask ids flag) ids /\
      length (delete_mask ids flag) < length ids.
  Proof.
    intros Hc Hnd Hne.
    assert (Hlen : length (faces_at ts ids) = length ids) by (unfold faces_at; apply map_length).
    rewrite Hlen. assert (Hpos : 0 < length ids) by (destruct ids; [congruence|simpl; lia]).
    specialize (Hdraw k _ Hpos). set (a0 := draw k (length ids)) in *.
    destruct (dfs_spec argsort Ha (faces_at ts ids) a0) as (flag & H1 & H2 & H3); [lia|].
    exists flag, (nth a0 ids 0). rewrite Hlen in H2.
    assert (Hin : In (nth a0 ids 0) ids) by (now apply nth_In).
    assert (Hp : Permutation (take_mask ids flag ++ delete_mask ids flag) ids) by (now apply masks_perm).
    assert (Hnd2 : NoDup (take_mask ids flag ++ delete_mask ids flag)) by (eapply Permutation_NoDup; [symmetry; eauto|auto]).
    split; [auto|]. split; [exact Hin|]. split; [auto|].
    assert (Htake : forall j, In j (take_mask ids flag) <-> connected ts (nth a0 ids 0) j).
    { intros j. rewrite take_mask_In by auto. split.
      - intros (a & Hn & Hf). apply H3 in Hf. apply nth_error_nth with (d := 0) in Hn. rewrite <- Hn.
        now apply sub_connected.
      - intros Hcon. destruct (sub_connected_inv ts ids _ j Hc Hcon Hin) as [_ Hb].
        destruct (Hb a0) as (b & Hb1 & Hb2); auto.
        + destruct (nth_error ids a0) as [x|] eqn:E; [apply nth_error_nth with (d := 0) in E; congruence|].
          apply nth_error_None in E. lia.
        + exists b. split; auto. now apply H3. }
    split; [split; auto; now apply NoDup_app_remove_r in Hnd2|].
    split; [|split; [now apply NoDup_app_remove_l in Hnd2|split; [auto|]]].
    - split.
      + intros i Hi. apply Hc. apply (Permutation_in _ Hp). apply in_or_app. now right.
      + intros i j Hi Hadj.
        assert (Hiids : In i ids) by (apply (Permutation_in _ Hp); apply in_or_app; now right).
        assert (Hj : In j ids) by (eapply (proj2 Hc); eauto).
        apply (Permutation_in _ (Permutation_sym Hp)) in Hj. apply in_app_iff in Hj. destruct Hj as [Hj|]; auto.
        exfalso. assert (Hi2 : In i (take_mask ids flag)).
        { apply Htake. apply Htake in Hj. eapply rt_trans; [exact Hj|]. apply rt_step. now apply adjacent_sym. }
        clear - Hnd2 Hi Hi2. induction (take_mask ids flag) as [|x l IH]; simpl in *; [contradiction|].
        inversion Hnd2; subst. destruct Hi2 as [<-|Hi2]; [apply H1; apply in_or_app; now right|auto].
    - pose proof (Permutation_length Hp) as HL. rewrite app_length in HL.
      assert (In (nth a0 ids 0) (take_mask ids flag)) by (apply Htake; apply rt_refl).
      destruct (take_mask ids flag); [contradiction|simpl in HL; lia].
  Qed.

  Lemma faces_at_take ids flag : take_mask (faces_at ts ids) flag = faces_at ts (take_mask ids flag).
  Proof. unfold faces_at. apply take_mask_map. Qed.
  Lemma faces_at_delete ids flag : delete_mask (faces_at ts ids) flag = faces_at ts (delete_mask ids flag).
  Proof. unfold faces_at. apply delete_mask_map. Qed.

  Lemma frac_gt_zero A m : (0 <= m)%Q -> frac_gt 0 A m = false.
  Proof.
    intros Hm. unfold frac_gt. destruct (Qeq_bool A 0); auto. rewrite negb_false_iff, Qle_bool_iff.
    unfold Qdiv. lra.
  Qed.

  (** Termination and shape, whatever the areas. *)
  Lemma exterior_loop_total m A : (0 <= m)%Q -> forall fuel k ids acc, closed_ids ts ids -> NoDup ids ->
    length ids < fuel -> NoDup (acc ++ ids) ->
    exists keep, exterior_loop argsort fuel draw k p A m (faces_at ts ids) (faces_at ts acc)
                   (Qsum (simp_vol p (faces_at ts ids))) = Ok (faces_at ts keep) /\
      NoDup keep /\ incl keep (acc ++ ids) /\
      (forall i j, (forall x y, In x acc -> connected ts x y -> In y acc) -> In i keep -> connected ts i j -> In j keep).
  Proof.
    intros Hm. induction fuel as [|fuel IH]; intros k ids acc Hc Hnd Hlt Hnda; [lia|].
    cbn [exterior_loop]. destruct (frac_gt (Qsum (simp_vol p (faces_at ts ids))) A m) eqn:E.
    2:{ exists acc. split; auto. split; [now apply NoDup_app_remove_r in Hnda|]. split; [now apply incl_appl, incl_refl|].
        intros i j H Hi Hij. eauto. }
    assert (Hne : ids <> []). { intros ->. simpl in E. rewrite frac_gt_zero in E; auto. discriminate. }
    destruct (pass_spec ids k Hc Hnd Hne) as (flag & i0 & H1 & H2 & H3 & H4 & H5 & H6 & H7 & H8).
    rewrite H1. cbn [bind]. rewrite faces_at_take, faces_at_delete.
    assert (HP : Permutation (acc ++ take_mask ids flag ++ delete_mask ids flag) (acc ++ ids)) by (now apply Permutation_app_head).
    assert (Hnd3 : NoDup (acc ++ take_mask ids flag ++ delete_mask ids flag)) by (eapply Permutation_NoDup; [symmetry; exact HP|auto]).
    destruct (frac_gt (Qsum (simp_vol p (faces_at ts (take_mask ids flag)))) A m) eqn:E2.
    - assert (Happ : faces_at ts acc ++ faces_at ts (take_mask ids flag) = faces_at ts (acc ++ take_mask ids flag))
        by (unfold faces_at; now rewrite map_app).
      rewrite Happ. destruct (IH (S k) (delete_mask ids flag) (acc ++ take_mask ids flag)) as (keep & K1 & K2 & K3 & K4); auto.
      + lia.
      + now rewrite <- app_assoc.
      + exists keep. split; auto. split; auto. split.
        * intros x Hx. apply (Permutation_in _ HP). rewrite app_assoc. now apply K3.
        * intros i j Hacc. apply K4. intros x y Hx Hxy. apply in_app_iff in Hx. apply in_or_app.
          destruct Hx as [Hx|Hx]; [left; eauto|right]. apply H4 in Hx. apply H4. eapply rt_trans; eauto.
    - destruct (IH (S k) (delete_mask ids flag) acc) as (keep & K1 & K2 & K3 & K4); auto.
      + lia.
      + apply NoDup_app_remove_l with (l := take_mask ids flag).
        eapply Permutation_NoDup; [|exact Hnd3]. rewrite !app_assoc. apply Permutation_app_tail. apply Permutation_app_comm.
      + exists keep. split; auto. split; auto. split; [|exact K4].
        intros x Hx. apply K3 in Hx. apply in_app_iff in Hx. apply (Permutation_in _ HP).
        apply in_or_app. destruct Hx; [now left|right]. apply in_or_app. now right.
  Qed.

  Lemma component_unique i l l' : component ts i l -> component ts i l' -> Permutation l l'.
  Proof. intros [N1 H1] [N2 H2]. apply NoDup_Permutation; auto. intros x. rewrite H1, H2. reflexivity. Qed.
  Lemma component_member i j l : component ts i l -> connected ts i j -> component ts j l.
  Proof.
    intros [N H] Hij. split; auto. intros k. rewrite H. split; intros Hk.
    - eapply rt_trans; [|exact Hk]. clear - Hij.
      induction Hij; [apply rt_step; now apply adjacent_sym|apply rt_refl|eapply rt_trans; eauto].
    - eapply rt_trans; eauto.
  Qed.

  Lemma exterior_loop_exact m : (0 <= m)%Q -> Forall (fun t => (0 <= area2 p t)%Q) ts -> (0 < mesh_area p ts)%Q ->
    forall fuel k ids acc, closed_ids ts ids -> NoDup ids -> length ids < fuel ->
    (forall i, i < length ts -> ~ In i ids -> (In i acc <-> large p ts m i)) -> incl acc (seq 0 (length ts)) ->
    (forall i, In i acc -> ~ In i ids) -> NoDup acc ->
    exists keep, exterior_loop argsort fuel draw k p (mesh_area p ts / 2) m (faces_at ts ids) (faces_at ts acc)
                   (Qsum (simp_vol p (faces_at ts ids))) = Ok (faces_at ts keep) /\ NoDup keep /\
      forall i, In i keep <-> i < length ts /\ large p ts m i.
  Proof.
    intros Hm Hpos HA. induction fuel as [|fuel IH]; intros k ids acc Hc Hnd Hlt Hacc Hincl Hdis Hnda; [lia|].
    cbn [exterior_loop]. destruct (frac_gt (Qsum (simp_vol p (faces_at ts ids))) (mesh_area p ts / 2) m) eqn:E.
    - assert (Hne : ids <> []). { intros ->. simpl in E. rewrite frac_gt_zero in E; auto. discriminate. }
      destruct (pass_spec ids k Hc Hnd Hne) as (flag & i0 & H1 & H2 & H3 & H4 & H5 & H6 & H7 & H8).
      rewrite H1. cbn [bind]. rewrite faces_at_take, faces_at_delete.
      assert (Hlarge : forall i, In i (take_mask ids flag) ->
                (large p ts m i <-> frac_gt (Qsum (simp_vol p (faces_at ts (take_mask ids flag)))) (mesh_area p ts / 2) m = true)).
      { intros i Hi. rewrite Qsum_area, frac_gt_pos by auto.
        assert (Hci : component ts i (take_mask ids flag)) by (apply (component_member i0); auto; now apply H4).
        split.
        - intros (l & Hl & Hgt). pose proof (component_unique i _ _ Hl Hci) as HP.
          rewrite (faces_area_perm _ _ _ _ HP) in Hgt. exact Hgt.
        - intros Hgt. exists (take_mask ids flag). auto. }
      assert (Hsplit : forall i, In i ids <-> In i (take_mask ids flag) \/ In i (delete_mask ids flag)).
      { intros i. rewrite <- in_app_iff. split; apply Permutation_in; auto. now symmetry. }
      assert (Hexcl : forall i, In i (take_mask ids flag) -> ~ In i (delete_mask ids flag)).
      { intros i Hi1 Hi2. assert (Hnd3 : NoDup (take_mask ids flag ++ delete_mask ids flag)) by (eapply Permutation_NoDup; [symmetry; eauto|auto]).
        clear - Hnd3 Hi1 Hi2. induction (take_mask ids flag) as [|x l IH]; simpl in *; [contradiction|].
        inversion Hnd3; subst. destruct Hi1 as [<-|Hi1]; [apply H1; apply in_or_app; now right|auto]. }
      destruct (frac_gt (Qsum (simp_vol p (faces_at ts (take_mask ids flag)))) (mesh_area p ts / 2) m) eqn:E2.
      + assert (Happ : faces_at ts acc ++ faces_at ts (take_mask ids flag) = faces_at ts (acc ++ take_mask ids flag))
          by (unfold faces_at; now rewrite map_app).
        rewrite Happ. apply IH; auto; try lia.
        * intros i Hi Hni. rewrite in_app_iff. destruct (in_dec Nat.eq_dec i (take_mask ids flag)) as [Ht|Ht].
          -- split; [intros _; now apply Hlarge|auto].
          -- rewrite <- Hacc by (auto; rewrite Hsplit; tauto). tauto.
        * apply incl_app; auto. intros i Hi. apply in_seq. split; [lia|]. apply Hc. apply Hsplit. auto.
        * intros i Hi. apply in_app_iff in Hi. destruct Hi as [Hi|Hi]; auto.
          intros Hd. apply (Hdis i Hi). apply Hsplit. auto.
        * apply NoDup_app_intro; auto; [apply H4|]. intros x Hx Hx'. apply (Hdis x Hx). apply Hsplit. auto.
      + apply IH; auto; try lia.
        * intros i Hi Hni. destruct (in_dec Nat.eq_dec i (take_mask ids flag)) as [Ht|Ht].
          -- split; intros Hx; [exfalso; apply (Hdis i Hx), Hsplit; auto|].
             apply Hlarge in Hx; auto. discriminate.
          -- apply Hacc; auto. rewrite Hsplit. tauto.
        * intros i Hi Hd. apply (Hdis i Hi). apply Hsplit. auto.
    - exists acc. split; auto. split; auto. intros i. split.
      + intros Hi. assert (i < length ts) by (apply Hincl in Hi; apply in_seq in Hi; lia). split; auto.
        apply Hacc; auto.
      + intros [Hi Hl]. destruct (in_dec Nat.eq_dec i ids) as [Hin|Hin]; [|now apply Hacc].
        exfalso. destruct Hl as (l & Hcomp & Hgt).
        rewrite Qsum_area in E. apply not_true_iff_false in E. apply E. apply frac_gt_pos; auto.
        apply Qlt_le_trans with (faces_area p ts l); auto.
        apply faces_area_incl; auto; [apply Hcomp|].
        intros j Hj. apply Hcomp in Hj. apply (sub_connected_inv ts ids i j Hc Hj Hin).
  Qed.
End Exterior.

Lemma in_rangeb_spec n ts : forallb (fun t => forallb (fun v => v <? n) (tri_vertices t)) ts = true <-> Forall (in_range n) ts.
Proof.
  rewrite forallb_forall, Forall_forall. unfold in_range.
  split; intros H t Ht; specialize (H t Ht); rewrite tri_vertices_corners in *.
  - rewrite Forall_forall. rewrite forallb_forall in H. intros v Hv. now apply Nat.ltb_lt, H.
  - rewrite forallb_forall. rewrite Forall_forall in H. intros v Hv. now apply Nat.ltb_lt, H.
Qed.

Lemma faces_at_all ts : faces_at ts (seq 0 (length ts)) = ts.
Proof. apply map_nth_seq. Qed.

Lemma closed_all ts : closed_ids ts (seq 0 (length ts)).
Proof.
  split; [intros i Hi; apply in_seq in Hi; lia|]. intros i j _ (H1 & H2 & _). apply in_seq. lia.
Qed.

Lemma exterior_exact argsort draw p ts m : is_argsort argsort -> (forall k n, 0 < n -> draw k n < n) ->
  Forall (in_range (length p)) ts -> Forall (fun t => (0 <= area2 p t)%Q) ts -> (0 < mesh_area p ts)%Q -> (0 <= m)%Q ->
  exists keep, delete_exterior_faces argsort draw p ts m = Ok (faces_at ts keep) /\ NoDup keep /\
    forall i, In i keep <-> i < length ts /\ large p ts m i.
Proof.
  intros Ha Hd Hr Hpos HA Hm. unfold delete_exterior_faces.
  apply in_rangeb_spec in Hr. rewrite Hr.
  assert (HAA : forall r, exterior_loop argsort (S (length ts)) draw 0 p (Qsum (simp_vol p ts)) m ts [] (Qsum (simp_vol p ts)) = r <->
     exterior_loop argsort (S (length ts)) draw 0 p (mesh_area p ts / 2) m ts [] (Qsum (simp_vol p ts)) = r).
  { assert (HQ : (Qsum (simp_vol p ts) == mesh_area p ts / 2)%Q).
    { unfold mesh_area. rewrite <- Qsum_area. now rewrite faces_at_all. }
    intros r. enough (HE : forall fuel k t1 acc An, exterior_loop argsort fuel draw k p (Qsum (simp_vol p ts)) m t1 acc An =
       exterior_loop argsort fuel draw k p (mesh_area p ts / 2) m t1 acc An) by (now rewrite HE).
    induction fuel as [|fuel IHf]; intros; cbn [exterior_loop]; auto.
    rewrite (frac_gt_comp _ _ (Qeq_refl An) _ _ HQ _ _ (Qeq_refl m)).
    destruct (frac_gt An (mesh_area p ts / 2) m); auto.
    destruct (depth_first_search argsort (draw k (length t1)) t1) as [fl| |]; auto. cbn [bind].
    rewrite (frac_gt_comp _ _ (Qeq_refl (Qsum (simp_vol p (take_mask t1 fl)))) _ _ HQ _ _ (Qeq_refl m)).
    apply IHf. }
  destruct (exterior_loop_exact argsort Ha draw Hd p ts m Hm Hpos HA (S (length ts)) 0 (seq 0 (length ts)) [])
    as (keep & K1 & K2 & K3).
  - apply closed_all.
  - apply seq_NoDup.
  - rewrite seq_length. lia.
  - intros i Hi Hni. exfalso. apply Hni. apply in_seq. lia.
  - intros x [].
  - intros x [].
  - constructor.
  - exists keep. rewrite faces_at_all in K1. split; auto. now apply HAA.
Qed.

(** Whatever the areas: it returns, and keeps whole components, each face once. *)
Lemma exterior_total argsort draw p ts m : is_argsort argsort -> (forall k n, 0 < n -> draw k n < n) ->
  Forall (in_range (length p)) ts -> (0 <= m)%Q ->
  exists keep, delete_exterior_faces argsort draw p ts m = Ok (faces_at ts keep) /\ NoDup keep /\
    (forall i, In i keep -> i < length ts) /\
    forall i j, In i keep -> connected ts i j -> In j keep.
Proof.
  intros Ha Hd Hr Hm. unfold delete_exterior_faces. apply in_rangeb_spec in Hr. rewrite Hr.
  destruct (exterior_loop_total argsort Ha draw Hd p ts m (Qsum (simp_vol p ts)) Hm (S (length ts)) 0 (seq 0 (length ts)) [])
    as (keep & K1 & K2 & K3 & K4).
  - apply closed_all.
  - apply seq_NoDup.
  - rewrite seq_length. lia.
  - apply seq_NoDup.
  - rewrite faces_at_all in K1. exists keep. split; [exact K1|]. split; auto. split.
    + intros i Hi. apply K3 in Hi. apply in_seq in Hi. lia.
    + intros i j Hi Hij. apply (K4 i j); auto.
Qed.

(** A mesh of zero area loses all its faces. *)
Lemma exterior_zero argsort draw p ts m : Forall (in_range (length p)) ts -> (mesh_area p ts == 0)%Q ->
  delete_exterior_faces argsort draw p ts m = Ok [].
Proof.
  intros Hr HA. unfold delete_exterior_faces. apply in_rangeb_spec in Hr. rewrite Hr. cbn [exterior_loop].
  assert (HQ : (Qsum (simp_vol p ts) == 0)%Q).
  { rewrite <- (faces_at_all ts), Qsum_area. fold (mesh_area p ts). rewrite HA. try reflexivity. }
  unfold frac_gt. apply Qeq_bool_iff in HQ. now rewrite HQ.
Qed.
