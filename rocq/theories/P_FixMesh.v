(** Proofs about fix_mesh. *)
From Coq Require Import List Arith Bool ZArith QArith Qround Qminmax Qabs Permutation Sorted Lia Lqa SpecFloat.
From Verif Require Import M_Base M_Numpy M_Edges M_FixMesh S_Edges S_FixMesh Util P_Edges.
Import ListNotations.
Open Scope nat_scope.

Lemma tri_eqb_eq t s : tri_eqb t s = true <-> t = s.
Proof.
  destruct t as [[a b] c], s as [[x y] z]. unfold tri_eqb.
  rewrite !andb_true_iff, !Nat.eqb_eq. split; [intros [[-> ->] ->]; auto|intros [= -> -> ->]; auto].
Qed.
Lemma tri_leb_total t s : tri_leb t s = true \/ tri_leb s t = true.
Proof. destruct t as [[a b] c], s as [[x y] z]. apply row_leb_total. Qed.
Lemma tri_leb_trans t s r : tri_leb t s = true -> tri_leb s r = true -> tri_leb t r = true.
Proof. destruct t as [[a b] c], s as [[x y] z], r as [[u v] w]. apply row_leb_trans. Qed.
Lemma tri_leb_antisym t s : tri_leb t s = true -> tri_leb s t = true -> t = s.
Proof.
  destruct t as [[a b] c], s as [[x y] z]. intros H1 H2. pose proof (row_leb_antisym _ _ H1 H2). congruence.
Qed.
Lemma nat_leb_total x y : (x <=? y) = true \/ (y <=? x) = true.
Proof. rewrite !Nat.leb_le. lia. Qed.
Lemma nat_leb_trans x y z : (x <=? y) = true -> (y <=? z) = true -> (x <=? z) = true.
Proof. rewrite !Nat.leb_le. lia. Qed.
Lemma nat_leb_antisym x y : (x <=? y) = true -> (y <=? x) = true -> x = y.
Proof. rewrite !Nat.leb_le. lia. Qed.

Lemma tri_vertices_corners t : tri_vertices t = corners t.
Proof. reflexivity. Qed.
Lemma corners_map_tri f t : corners (map_tri f t) = map f (corners t).
Proof. destruct t as [[a b] c]. reflexivity. Qed.

Lemma sort_tri_corners t : corners (sort_tri t) = isort Nat.leb (corners t).
Proof.
  destruct t as [[a b] c]. unfold sort_tri.
  pose proof (isort_length Nat.leb [a; b; c]) as H.
  change (corners (a, b, c)) with [a; b; c].
  destruct (isort Nat.leb [a; b; c]) as [|x [|y [|z [|]]]]; simpl in H; try lia. reflexivity.
Qed.
Lemma sort_tri_perm t : Permutation (corners (sort_tri t)) (corners t).
Proof. rewrite sort_tri_corners. apply isort_perm. Qed.

Lemma sorted_perm_eq l l' : StronglySorted (fun a b => (a <=? b) = true) l ->
  StronglySorted (fun a b => (a <=? b) = true) l' -> Permutation l l' -> l = l'.
Proof.
  intros H. revert l'. induction H as [|a l Hs IH Hf]; intros l' H' Hp.
  - apply Permutation_nil in Hp. now subst.
  - destruct l' as [|b l']; [symmetry in Hp; apply Permutation_nil in Hp; discriminate|].
    inversion H' as [|? ? Hs' Hf']; subst. rewrite Forall_forall in Hf, Hf'.
    assert (a = b).
    { assert (Ha : In a (b :: l')) by (eapply Permutation_in; [exact Hp|now left]).
      assert (Hb : In b (a :: l)) by (eapply Permutation_in; [symmetry; exact Hp|now left]).
      destruct Ha as [->|Ha]; auto. destruct Hb as [->|Hb]; auto.
      apply nat_leb_antisym; auto. }
    subst. f_equal. apply IH; auto. eapply Permutation_cons_inv; eauto.
Qed.
Lemma corners_inj t s : corners t = corners s -> t = s.
Proof. destruct t as [[a b] c], s as [[x y] z]. simpl. congruence. Qed.

Lemma map_tri_inj_perm (f : nat -> nat) t s : (forall x y, In x (corners t) -> In y (corners s) -> f x = f y -> x = y) ->
  Permutation (map f (corners t)) (map f (corners s)) -> Permutation (corners t) (corners s).
Proof.
  intros Hf Hp. apply Permutation_map_inv in Hp. destruct Hp as (l & E & Hp).
  assert (corners t = l) as ->; [|now symmetry]. clear -Hf E Hp. 
  assert (Hf' : forall x y, In x (corners t) -> In y l -> f x = f y -> x = y).
  { intros x y Hx Hy. apply Hf; auto. eapply Permutation_in; [symmetry; eassumption|auto]. }
  clear Hf Hp. revert l E Hf'. generalize (corners t) as k. clear.
  induction k as [|a k IH]; destruct l as [|b l]; simpl; intros E H; try congruence.
  injection E. intros E1 E2. f_equal; [apply H; auto|]. apply IH; auto.
Qed.

Lemma flip_perm b t : Permutation (corners (flip_tri b t)) (corners t).
Proof. destruct t as [[x y] z], b; simpl; auto. constructor. Qed.

Lemma map_nth_seq {A} (l : list A) d : map (fun i => nth i l d) (seq 0 (length l)) = l.
Proof.
  induction l; simpl; auto. f_equal. rewrite <- seq_shift, map_map. exact IHl.
Qed.

Lemma NoDup_map_inv' {A B} (f : A -> B) l : NoDup l -> (forall x y, In x l -> In y l -> f x = f y -> x = y) -> NoDup (map f l).
Proof.
  induction 1; simpl; intros H'; constructor.
  - intros Hin. apply in_map_iff in Hin. destruct Hin as (y & E & Hy).
    apply H. rewrite <- (H' y x); auto.
  - apply IHNoDup. auto.
Qed.

Lemma no_two_map {A B} (R : B -> B -> Prop) (f : A -> B) l :
  NoDup l -> (forall x y, In x l -> In y l -> R (f x) (f y) -> x = y) -> no_two R (map f l).
Proof.
  unfold no_two. induction 1; simpl; intros H'; constructor.
  - rewrite Forall_forall. intros z Hz HR. apply in_map_iff in Hz. destruct Hz as (y & <- & Hy).
    apply H. rewrite (H' x y); auto.
  - apply IHNoDup. auto.
Qed.

Section Gen.
  Context {P K : Type} (dp : P) (snap_row : list P -> P -> K) (kleb keqb : K -> K -> bool)
          (neg : list P -> tri -> bool).
  Hypothesis keqb_eq : forall x y, keqb x y = true <-> x = y.
  Hypothesis kord : total_order kleb.

  Definition fixed (p : list P) (ts : list tri) (du : bool) p' t' (jx : list nat) (m : nat -> nat) : Prop :=
    (forall i, i < length p -> du = false \/ (exists t, In t ts /\ In i (corners t)) ->
       m i < length p' /\ snap_row p (nth i p dp) = snap_row p (nth (m i) p' dp)) /\
    NoDup (map (snap_row p) p') /\
    incl p' p /\
    (forall t, In t ts -> exists s, In s t' /\ Permutation (map m (corners t)) (corners s)) /\
    (forall s, In s t' -> exists t, In t ts /\ Permutation (map m (corners t)) (corners s)) /\
    (forall s, In s t' -> exists r, s = flip_tri (neg p' r) r) /\
    no_two same_vertices t' /\
    (forall s, In s t' -> in_range (length p') s) /\
    (du = true -> forall i, i < length p' -> exists s, In s t' /\ In i (corners s)) /\
    (du = false -> jx = map m (seq 0 (length p))).

  Lemma fix_mesh_gen_spec p ts du :
    p <> [] -> Forall (in_range (length p)) ts ->
    exists p' t' jx m,
      fix_mesh_gen dp snap_row kleb keqb neg p ts du = Ok (p', t', jx) /\ fixed p ts du p' t' jx m.
  Proof.
    intros Hp Hr. destruct kord as (Ht & Htr & Has).
    set (keys := map (snap_row p) p).
    set (u := unique kleb keqb keys).
    set (ix := map (fun x => index_of keqb x keys) u).
    set (jx := map (fun x => index_of keqb x u) keys).
    set (p1 := take dp p ix).
    assert (Lj : length jx = length p) by (unfold jx, keys; now rewrite !map_length).
    assert (Lp1 : length p1 = length u) by (unfold p1, take, ix; now rewrite !map_length).
    set (m := fun i => nth i jx 0).
    assert (HuIn : forall x, In x u <-> In x keys) by (intros; apply unique_In; auto).
    assert (Hm : forall i, i < length p -> m i = index_of keqb (snap_row p (nth i p dp)) u).
    { intros i Hi. unfold m, jx. rewrite (nth_indep _ 0 (index_of keqb (snap_row p dp) u)).
      2:{ rewrite map_length. unfold keys. now rewrite map_length. }
      rewrite (map_nth (fun x => index_of keqb x u)). f_equal.
      unfold keys. rewrite (map_nth (snap_row p)). reflexivity. }
    assert (Hkin : forall i, i < length p -> In (snap_row p (nth i p dp)) keys).
    { intros. unfold keys. apply in_map. now apply nth_In. }
    assert (Hmlt : forall i, i < length p -> m i < length p1).
    { intros i Hi. rewrite Hm, Lp1 by auto. apply index_of_lt; auto. apply HuIn. auto. }
    assert (Hkey1 : forall j, j < length u -> snap_row p (nth j p1 dp) = nth j u (snap_row p dp) /\ In (nth j p1 dp) p).
    { intros j Hj. unfold p1, take. 
      assert (E : nth j ix 0 = index_of keqb (nth j u (snap_row p dp)) keys).
      { unfold ix. rewrite (nth_indep _ 0 (index_of keqb (snap_row p dp) keys)) by (rewrite map_length; auto).
        now rewrite (map_nth (fun x => index_of keqb x keys)). }
      rewrite (nth_indep _ dp (nth 0 p dp)) by (unfold ix; rewrite !map_length; auto).
      rewrite (map_nth (fun i => nth i p dp)). rewrite E.
      assert (Hin : In (nth j u (snap_row p dp)) keys) by (apply HuIn; now apply nth_In).
      pose proof (index_of_lt keqb keqb_eq _ _ Hin) as Hlt.
      pose proof (index_of_nth keqb keqb_eq _ _ (snap_row p dp) Hin) as Hn.
      split.
      - rewrite <- (map_nth (snap_row p)). exact Hn.
      - apply nth_In. unfold keys in Hlt. now rewrite map_length in Hlt. }
    assert (Hmkey : forall i, i < length p -> snap_row p (nth i p dp) = snap_row p (nth (m i) p1 dp)).
    { intros i Hi. pose proof (Hmlt i Hi) as Hl. rewrite Lp1 in Hl. destruct (Hkey1 _ Hl) as [-> _].
      rewrite Hm by auto. symmetry. apply index_of_nth; auto. apply HuIn. auto. }
    assert (Hp1u : map (snap_row p) p1 = u).
    { apply nth_ext with (d := snap_row p dp) (d' := snap_row p dp); [now rewrite map_length|].
      rewrite map_length, Lp1. intros j Hj. rewrite (map_nth (snap_row p)). apply Hkey1; auto. }
    assert (Hu : NoDup u) by (apply unique_NoDup; auto).
    assert (Hp1in : incl p1 p).
    { intros x Hx. destruct (In_nth _ _ dp Hx) as (j & Hj & <-). apply Hkey1. now rewrite <- Lp1. }
    set (t1 := map (map_tri m) ts).
    set (t2 := unique tri_leb tri_eqb (map sort_tri t1)).
    assert (Ht2 : forall s, In s t2 <-> exists t, In t ts /\ s = sort_tri (map_tri m t)).
    { intros s. unfold t2. rewrite unique_In by apply tri_eqb_eq. unfold t1. rewrite map_map, in_map_iff.
      split; intros (t & A & B); exists t; auto. }
    assert (Ht2nd : NoDup t2).
    { apply unique_NoDup; [apply tri_eqb_eq|apply tri_leb_total|apply tri_leb_trans|apply tri_leb_antisym]. }
    rewrite Forall_forall in Hr.
    assert (Ht2r : forall s v, In s t2 -> In v (corners s) -> v < length p1).
    { intros s v Hs Hv. apply Ht2 in Hs. destruct Hs as (t & Hti & ->).
      eapply Permutation_in in Hv; [|apply sort_tri_perm]. rewrite corners_map_tri, in_map_iff in Hv.
      destruct Hv as (w & <- & Hw). apply Hmlt. specialize (Hr _ Hti). unfold in_range in Hr.
      rewrite Forall_forall in Hr. auto. }
    assert (Ht2p : forall s s', In s t2 -> In s' t2 -> Permutation (corners s) (corners s') -> s = s').
    { intros s s' Hs Hs' Hpm. apply Ht2 in Hs. apply Ht2 in Hs'.
      destruct Hs as (t & _ & ->). destruct Hs' as (t' & _ & ->). apply corners_inj.
      apply sorted_perm_eq; auto; rewrite sort_tri_corners; apply isort_sorted;
        [apply nat_leb_total|apply nat_leb_trans|apply nat_leb_total|apply nat_leb_trans]. }
    assert (Hfb : forallb (fun t => forallb (fun v => v <? length jx) (tri_vertices t)) ts = true).
    { apply forallb_forall. intros t Hti. apply forallb_forall. intros v Hv. apply Nat.ltb_lt. rewrite Lj.
      specialize (Hr _ Hti). unfold in_range in Hr. rewrite Forall_forall in Hr. auto. }
    assert (Erun : fix_mesh_gen dp snap_row kleb keqb neg p ts du =
      let '(p2, t3, jx2) :=
          if du then
            let flat := flat_map tri_vertices t2 in
            let '(pix, _, inv) := unique_full Nat.leb Nat.eqb flat in
            (take dp p1 pix, map (map_tri (fun v => index_of Nat.eqb v pix)) t2, inv)
          else (p1, t2, jx) in
        Ok (p2, map (fun t => flip_tri (neg p2 t) t) t3, jx2)).
    { unfold fix_mesh_gen. destruct p as [|p0 pr] eqn:Ep; [congruence|].
      unfold unique_full. fold keys. fold u. fold ix. fold jx. rewrite Hfb. reflexivity. }
    rewrite Erun. clear Erun.
    destruct du.
    - (* delete_unused *)
      set (flat := flat_map tri_vertices t2). unfold unique_full. cbv zeta.
      set (pix := unique Nat.leb Nat.eqb flat).
      assert (HpixIn : forall v, In v pix <-> exists s, In s t2 /\ In v (corners s)).
      { intros v. unfold pix. rewrite unique_In by apply Nat.eqb_eq. unfold flat. apply in_flat_map. }
      assert (Hpixnd : NoDup pix).
      { apply unique_NoDup; [apply Nat.eqb_eq|apply nat_leb_total|apply nat_leb_trans|apply nat_leb_antisym]. }
      set (f := fun v => index_of Nat.eqb v pix).
      assert (Hflt : forall v, In v pix -> f v < length pix) by (intros; apply index_of_lt; auto; apply Nat.eqb_eq).
      assert (Hfnth : forall v, In v pix -> nth (f v) pix 0 = v) by (intros; apply index_of_nth; auto; apply Nat.eqb_eq).
      assert (Hfinj : forall v w, In v pix -> In w pix -> f v = f w -> v = w).
      { intros v w Hv Hw E. rewrite <- (Hfnth v), <- (Hfnth w), E; auto. }
      assert (Hpixlt : forall v, In v pix -> v < length p1).
      { intros v Hv. apply HpixIn in Hv. destruct Hv as (s & A & B). eauto. }
      set (p2 := take dp p1 pix).
      assert (Lp2 : length p2 = length pix) by (unfold p2, take; now rewrite map_length).
      assert (Hp2n : forall v, In v pix -> nth (f v) p2 dp = nth v p1 dp).
      { intros v Hv. unfold p2, take. rewrite (nth_indep _ dp (nth 0 p1 dp)) by (rewrite map_length; auto).
        rewrite (map_nth (fun i => nth i p1 dp)). now rewrite Hfnth. }
      eexists p2, _, _, (fun i => f (m i)). split; [reflexivity|].
      assert (Hmpix : forall i, i < length p -> (exists t, In t ts /\ In i (corners t)) -> In (m i) pix).
      { intros i Hi (t & Hti & Hic). apply HpixIn. exists (sort_tri (map_tri m t)). split; [apply Ht2; eauto|].
        eapply Permutation_in; [symmetry; apply sort_tri_perm|]. rewrite corners_map_tri. now apply in_map. }
      assert (Hres : forall s, In s t2 -> Permutation (corners (flip_tri (neg p2 (map_tri f s)) (map_tri f s))) (map f (corners s))).
      { intros s Hs. rewrite flip_perm, corners_map_tri. reflexivity. }
      unfold fixed. split; [|split; [|split; [|split; [|split; [|split; [|split; [|split; [|split]]]]]]]].
      + intros i Hi [D|Hus]; [discriminate|]. specialize (Hmpix i Hi Hus). split.
        * rewrite Lp2. auto.
        * rewrite Hp2n by auto. auto.
      + unfold p2, take. rewrite map_map. apply NoDup_map_inv'; auto. intros v w Hv Hw E.
        assert (Hv' := Hpixlt _ Hv). assert (Hw' := Hpixlt _ Hw).
        rewrite <- (map_nth (snap_row p)), <- (map_nth (snap_row p) p1 dp w), Hp1u in E.
        rewrite Lp1 in *. eapply (proj1 (NoDup_nth u _)); eauto.
      + intros x Hx. unfold p2, take in Hx. apply in_map_iff in Hx. destruct Hx as (v & <- & Hv).
        apply Hp1in. apply nth_In. auto.
      + intros t Hti. set (s := sort_tri (map_tri m t)). assert (Hs : In s t2) by (apply Ht2; eauto).
        eexists. split; [rewrite map_map; apply in_map_iff; exists s; split; [reflexivity|auto]|].
        rewrite Hres by auto. unfold s. rewrite (sort_tri_perm (map_tri m t)), corners_map_tri, map_map. reflexivity.
      + intros s0 Hs0. rewrite map_map in Hs0. apply in_map_iff in Hs0. destruct Hs0 as (s & <- & Hs).
        assert (Hs' := Hs). apply Ht2 in Hs'. destruct Hs' as (t & Hti & E). exists t. split; auto.
        fold f. rewrite Hres by auto. subst s. rewrite (sort_tri_perm (map_tri m t)), corners_map_tri, map_map. reflexivity.
      + intros s0 Hs0. apply in_map_iff in Hs0. destruct Hs0 as (s & <- & Hs). eauto.
      + rewrite map_map. apply no_two_map; auto. intros s s' Hs Hs' Hsv. unfold same_vertices in Hsv.
        apply Ht2p; auto. eapply (map_tri_inj_perm f).
        { intros x y Hx Hy. apply Hfinj; apply HpixIn; eauto. }
        rewrite <- (Hres s), <- (Hres s') by auto. exact Hsv.
      + intros s0 Hs0. rewrite map_map in Hs0. apply in_map_iff in Hs0. destruct Hs0 as (s & <- & Hs).
        unfold in_range. rewrite Lp2. apply Forall_forall. intros v Hv.
        eapply Permutation_in in Hv; [|apply Hres; auto]. apply in_map_iff in Hv.
        destruct Hv as (w & <- & Hw). apply Hflt. apply HpixIn. eauto.
      + intros _ i Hi. rewrite Lp2 in Hi. pose proof (nth_In pix 0 Hi) as Hin.
        pose proof Hin as Hin'. apply HpixIn in Hin. destruct Hin as (s & Hs & Hc).
        eexists. split; [rewrite map_map; apply in_map_iff; exists s; split; [reflexivity|auto]|].
        eapply Permutation_in; [symmetry; apply Hres; auto|].
        assert (Ei : f (nth i pix 0) = i).
        { apply (proj1 (NoDup_nth pix 0)); auto. }
        rewrite <- Ei. apply in_map. exact Hc.
      + discriminate.
    - (* keep all points *)
      eexists p1, _, jx, m. split; [reflexivity|].
      assert (Hres : forall s, Permutation (corners (flip_tri (neg p1 s) s)) (corners s)) by (intros; apply flip_perm).
      unfold fixed. split; [|split; [|split; [|split; [|split; [|split; [|split; [|split; [|split]]]]]]]].
      + intros i Hi _. auto.
      + rewrite Hp1u. auto.
      + auto.
      + intros t Hti. set (s := sort_tri (map_tri m t)). assert (Hs : In s t2) by (apply Ht2; eauto).
        eexists. split; [apply in_map_iff; exists s; split; [reflexivity|auto]|].
        rewrite Hres. unfold s. rewrite (sort_tri_perm (map_tri m t)), corners_map_tri. reflexivity.
      + intros s0 Hs0. apply in_map_iff in Hs0. destruct Hs0 as (s & <- & Hs).
        assert (Hs' := Hs). apply Ht2 in Hs'. destruct Hs' as (t & Hti & E). exists t. split; auto.
        rewrite Hres. subst s. rewrite (sort_tri_perm (map_tri m t)), corners_map_tri. reflexivity.
      + intros s0 Hs0. apply in_map_iff in Hs0. destruct Hs0 as (s & <- & Hs). eauto.
      + apply no_two_map; auto. intros s s' Hs Hs' Hsv. unfold same_vertices in Hsv.
        apply Ht2p; auto. rewrite <- (Hres s), <- (Hres s'). exact Hsv.
      + intros s0 Hs0. apply in_map_iff in Hs0. destruct Hs0 as (s & <- & Hs).
        unfold in_range. apply Forall_forall. intros v Hv.
        eapply Permutation_in in Hv; [|apply Hres; auto]. eauto.
      + discriminate.
      + intros _. rewrite <- Lj. symmetry. apply map_nth_seq.
  Qed.

  Lemma fix_mesh_gen_raises p ts du :
    p <> [] -> ~ Forall (in_range (length p)) ts ->
    fix_mesh_gen dp snap_row kleb keqb neg p ts du = Raise IndexError.
  Proof.
    intros Hp Hr. unfold fix_mesh_gen. destruct p as [|p0 pr] eqn:Ep; [congruence|].
    unfold unique_full. rewrite !map_length.
    destruct (forallb _ ts) eqn:E; auto. exfalso. apply Hr. apply Forall_forall. intros t Ht.
    rewrite forallb_forall in E. specialize (E _ Ht). rewrite forallb_forall in E.
    apply Forall_forall. intros v Hv. apply Nat.ltb_lt. apply E. exact Hv.
  Qed.
End Gen.

(** * Exact arithmetic *)
Open Scope Q_scope.

Lemma key_eqb_eq k l : key_eqb k l = true <-> k = l.
Proof.
  destruct k, l. unfold key_eqb; simpl. rewrite andb_true_iff, !Z.eqb_eq.
  split; [intros [-> ->]; auto|intros [= -> ->]; auto].
Qed.

Lemma round_near q : Qabs (q - inject_Z (round_half_even q)) <= 1 # 2.
Proof.
  unfold round_half_even. pose proof (Qfloor_le q) as H1. pose proof (Qlt_floor q) as H2.
  rewrite inject_Z_plus in H2. change (inject_Z 1) with 1 in H2.
  apply Qabs_Qle_condition.
  destruct (Qcompare_spec (q - inject_Z (Qfloor q)) (1 # 2)) as [E|E|E].
  - destruct (Z.even (Qfloor q)); [|rewrite inject_Z_plus; change (inject_Z 1) with 1]; lra.
  - lra.
  - rewrite inject_Z_plus; change (inject_Z 1) with 1; lra.
Qed.

Lemma round_comp q r : q == r -> round_half_even q = round_half_even r.
Proof.
  intros E. unfold round_half_even. rewrite (Qfloor_comp _ _ E).
  assert (E' : Qcompare (q - inject_Z (Qfloor r)) (1 # 2) = Qcompare (r - inject_Z (Qfloor r)) (1 # 2)).
  { apply Qcompare_comp; [rewrite E|]; reflexivity. }
  now rewrite E'.
Qed.

Lemma snap_key_comp s a b : same_point a b -> snap_key s a = snap_key s b.
Proof.
  intros [H1 H2]. unfold snap_key. destruct (Qeq_bool s 0); auto.
  f_equal; apply round_comp; [rewrite H1|rewrite H2]; reflexivity.
Qed.

Lemma near1 s x y : 0 < s -> round_half_even (x / s) = round_half_even (y / s) -> Qabs (x - y) <= s.
Proof.
  intros Hs E. pose proof (round_near (x / s)) as H1. pose proof (round_near (y / s)) as H2.
  rewrite E in H1. apply Qabs_Qle_condition in H1. apply Qabs_Qle_condition in H2.
  set (k := inject_Z (round_half_even (y / s))) in *.
  assert (Ex : x == (x / s) * s) by (field; lra).
  assert (Ey : y == (y / s) * s) by (field; lra).
  set (u := x / s) in *. set (v := y / s) in *.
  assert (A1 : - (1) <= u - v) by lra. assert (A2 : u - v <= 1) by lra.
  apply Qabs_Qle_condition. split.
  - assert (H : - (1) * s <= (u - v) * s) by (apply Qmult_le_compat_r; lra).
    assert (E' : (u - v) * s == x - y) by (rewrite Ex, Ey at 1; ring). lra.
  - assert (H : (u - v) * s <= 1 * s) by (apply Qmult_le_compat_r; lra).
    assert (E' : (u - v) * s == x - y) by (rewrite Ex, Ey at 1; ring). lra.
Qed.

Lemma fold_max_ge l : forall a, a <= fold_left Qmax l a /\ (forall x, In x l -> x <= fold_left Qmax l a).
Proof.
  induction l as [|y l IH]; simpl; intros a.
  - split; [apply Qle_refl|contradiction].
  - destruct (IH (Qmax a y)) as [H1 H2]. split.
    + eapply Qle_trans; [|apply H1]. apply Q.le_max_l.
    + intros x [->|H]; auto. eapply Qle_trans; [|apply H1]. apply Q.le_max_r.
Qed.
Lemma fold_max_att l : forall a, exists x, In x (a :: l) /\ fold_left Qmax l a == x.
Proof.
  induction l as [|y l IH]; simpl; intros a.
  - exists a. split; auto. reflexivity.
  - destruct (IH (Qmax a y)) as (x & [Hx|Hx] & E).
    + destruct (Q.max_dec a y) as [M|M]; [exists a|exists y]; (split; [auto|]); rewrite E, <- Hx, M; reflexivity.
    + exists x. split; auto.
Qed.
Lemma fold_min_le l : forall a, fold_left Qmin l a <= a /\ (forall x, In x l -> fold_left Qmin l a <= x).
Proof.
  induction l as [|y l IH]; simpl; intros a.
  - split; [apply Qle_refl|contradiction].
  - destruct (IH (Qmin a y)) as [H1 H2]. split.
    + eapply Qle_trans; [apply H1|]. apply Q.le_min_l.
    + intros x [->|H]; auto. eapply Qle_trans; [apply H1|]. apply Q.le_min_r.
Qed.
Lemma fold_min_att l : forall a, exists x, In x (a :: l) /\ fold_left Qmin l a == x.
Proof.
  induction l as [|y l IH]; simpl; intros a.
  - exists a. split; auto. reflexivity.
  - destruct (IH (Qmin a y)) as (x & [Hx|Hx] & E).
    + destruct (Q.min_dec a y) as [M|M]; [exists a|exists y]; (split; [auto|]); rewrite E, <- Hx, M; reflexivity.
    + exists x. split; auto.
Qed.
Lemma col_max_ge l x : In x l -> x <= col_max l.
Proof. destruct l as [|y l]; simpl; [contradiction|]. destruct (fold_max_ge l y). intros [<-|H']; auto. Qed.
Lemma col_min_le l x : In x l -> col_min l <= x.
Proof. destruct l as [|y l]; simpl; [contradiction|]. destruct (fold_min_le l y). intros [<-|H']; auto. Qed.
Lemma col_max_att l : l <> [] -> exists x, In x l /\ col_max l == x.
Proof. destruct l; [congruence|]. intros _. apply fold_max_att. Qed.
Lemma col_min_att l : l <> [] -> exists x, In x l /\ col_min l == x.
Proof. destruct l; [congruence|]. intros _. apply fold_min_att. Qed.

Definition extent (p : list point) : Q :=
  Qmax (col_max (map fst p) - col_min (map fst p)) (col_max (map snd p) - col_min (map snd p)).

Lemma extent_le p e : p <> [] -> extent_at_most p e -> extent p <= e.
Proof.
  intros Hp He. unfold extent.
  assert (N1 : map fst p <> []) by (destruct p; simpl; congruence).
  assert (N2 : map snd p <> []) by (destruct p; simpl; congruence).
  destruct (col_max_att _ N1) as (a & Ha & Ea). destruct (col_min_att _ N1) as (b & Hb & Eb).
  destruct (col_max_att _ N2) as (c & Hc & Ec). destruct (col_min_att _ N2) as (d & Hd & Ed).
  apply in_map_iff in Ha, Hb, Hc, Hd. destruct Ha as (pa & <- & Ha), Hb as (pb & <- & Hb), Hc as (pc & <- & Hc), Hd as (pd & <- & Hd).
  apply Q.max_lub; [rewrite Ea, Eb|rewrite Ec, Ed]; apply He; auto.
Qed.
Lemma extent_ge p a b : In a p -> In b p -> fst a - fst b <= extent p /\ snd a - snd b <= extent p.
Proof.
  intros Ha Hb. unfold extent. split.
  - eapply Qle_trans; [|apply Q.le_max_l].
    pose proof (col_max_ge _ _ (in_map fst _ _ Ha)). pose proof (col_min_le _ _ (in_map fst _ _ Hb)). lra.
  - eapply Qle_trans; [|apply Q.le_max_r].
    pose proof (col_max_ge _ _ (in_map snd _ _ Ha)). pose proof (col_min_le _ _ (in_map snd _ _ Hb)). lra.
Qed.

Lemma same_cell_near p ptol e a b : 0 < ptol -> extent_at_most p e -> In a p -> In b p ->
  snap_key (snap_size p ptol) a = snap_key (snap_size p ptol) b -> near (e * ptol) a b.
Proof.
  intros Ht He Ha Hb E.
  assert (Hp : p <> []) by (destruct p; [contradiction|congruence]).
  assert (X0 : 0 <= extent p) by (destruct (extent_ge p a a Ha Ha); lra).
  pose proof (extent_le _ _ Hp He) as X1.
  unfold snap_key in E. change (snap_size p ptol) with (extent p * ptol) in E.
  assert (Hle : extent p * ptol <= e * ptol) by (apply Qmult_le_compat_r; lra).
  destruct (Qeq_bool (extent p * ptol) 0) eqn:Z0.
  - apply Qeq_bool_iff in Z0. apply Qmult_integral in Z0. destruct Z0 as [Z0|Z0]; [|lra].
    destruct (extent_ge p a b Ha Hb) as [A1 A2]. destruct (extent_ge p b a Hb Ha) as [B1 B2].
    assert (0 <= e * ptol) by (apply Qmult_le_0_compat; lra).
    split; apply Qabs_Qle_condition; split; lra.
  - apply Qeq_bool_neq in Z0. assert (Pos : 0 < extent p * ptol).
    { apply Qle_lteq in X0. destruct X0 as [X0|X0]; [apply Qmult_lt_0_compat; auto|].
      exfalso. apply Z0. rewrite <- X0. ring. }
    injection E. intros E2 E1. split; eapply Qle_trans; [|exact Hle| |exact Hle]; apply near1; auto.
Qed.

Lemma area_flip p t : 0 <= area2 p (flip_tri (negb (Qle_bool 0 (simp_vol1 p t))) t).
Proof.
  destruct t as [[a b] c]. unfold simp_vol1, flip_tri, area2.
  destruct (nth a p (0, 0)) as [xa ya] eqn:Ea, (nth b p (0, 0)) as [xb yb] eqn:Eb, (nth c p (0, 0)) as [xc yc] eqn:Ec.
  set (v := _ / 2). destruct (Qle_bool 0 v) eqn:E; simpl negb; cbv iota beta.
  - rewrite Ea, Eb, Ec. simpl. apply Qle_bool_iff in E. unfold v in E.
    assert (H : 0 <= ((xb - xa) * (yc - ya) - (yb - ya) * (xc - xa)) / 2 * 2) by (apply Qmult_le_0_compat; [exact E|lra]).
    setoid_replace (((xb - xa) * (yc - ya) - (yb - ya) * (xc - xa)) / 2 * 2) with ((xb - xa) * (yc - ya) - (yb - ya) * (xc - xa)) in H by field.
    setoid_replace (xa * (yb - yc) + xb * (yc - ya) + xc * (ya - yb)) with ((xb - xa) * (yc - ya) - (yb - ya) * (xc - xa)) by ring. exact H.
  - rewrite Ea, Eb, Ec. simpl.
    assert (E' : v < 0). { apply Qnot_le_lt. intros C. apply Qle_bool_iff in C. congruence. }
    unfold v in E'.
    assert (H : ((xb - xa) * (yc - ya) - (yb - ya) * (xc - xa)) / 2 * 2 <= 0 * 2) by (apply Qmult_le_compat_r; lra).
    setoid_replace (((xb - xa) * (yc - ya) - (yb - ya) * (xc - xa)) / 2 * 2) with ((xb - xa) * (yc - ya) - (yb - ya) * (xc - xa)) in H by field.
    setoid_replace (xb * (ya - yc) + xa * (yc - yb) + xc * (yb - ya)) with (- ((xb - xa) * (yc - ya) - (yb - ya) * (xc - xa))) by ring. lra.
Qed.

Section Exact.
  Variables (kleb : Z * Z -> Z * Z -> bool) (ptol : Q).
  Hypothesis Hk : total_order kleb.

  Lemma fix_mesh_ok p ts du : p <> [] -> Forall (in_range (length p)) ts ->
    exists p' t' jx m, fix_mesh kleb ptol p ts du = Ok (p', t', jx) /\
      fixed (0, 0) (fun p => snap_key (snap_size p ptol)) (fun p t => negb (Qle_bool 0 (simp_vol1 p t))) p ts du p' t' jx m.
  Proof. intros. apply fix_mesh_gen_spec; auto. apply key_eqb_eq. Qed.

  Lemma fix_mesh_total p ts du :
    (exists r, fix_mesh kleb ptol p ts du = Ok r) <-> p <> [] /\ Forall (in_range (length p)) ts.
  Proof.
    split.
    - intros (r & E). assert (Hp : p <> []) by (intros ->; discriminate). split; auto.
      destruct (Forall_dec (in_range (length p)) (fun t => Forall_dec _ (fun v => lt_dec v (length p)) (corners t)) ts) as [F|F]; auto.
      unfold fix_mesh in E. rewrite fix_mesh_gen_raises in E; [discriminate|auto|auto].
    - intros [Hp Hr]. destruct (fix_mesh_ok p ts du Hp Hr) as (p' & t' & jx & m & E & _). eauto.
  Qed.

  Lemma fix_mesh_inv p ts du p' t' jx : fix_mesh kleb ptol p ts du = Ok (p', t', jx) ->
    exists m, fixed (0, 0) (fun p => snap_key (snap_size p ptol)) (fun p t => negb (Qle_bool 0 (simp_vol1 p t))) p ts du p' t' jx m.
  Proof.
    intros E. destruct (proj1 (fix_mesh_total p ts du)) as [Hp Hr]; [eauto|].
    destruct (fix_mesh_ok p ts du Hp Hr) as (p2 & t2 & jx2 & m & E' & F).
    rewrite E in E'. injection E'. intros; subst. eauto.
  Qed.

  Lemma fix_mesh_wf p ts du p' t' jx : fix_mesh kleb ptol p ts du = Ok (p', t', jx) ->
    Forall (in_range (length p')) t' /\ no_two same_vertices t' /\
    Forall (fun t => 0 <= area2 p' t) t' /\
    (du = true -> forall i, (i < length p')%nat -> exists t, In t t' /\ In i (corners t)).
  Proof.
    intros E. destruct (fix_mesh_inv _ _ _ _ _ _ E) as (m & A & B & C & D & F & G & H & I & J & K).
    split; [apply Forall_forall; auto|]. split; [auto|]. split; [|auto].
    apply Forall_forall. intros s Hs. destruct (G s Hs) as (r & ->). apply area_flip.
  Qed.

  Lemma fix_mesh_geometry p ts du p' t' jx e : 0 < ptol -> extent_at_most p e ->
    fix_mesh kleb ptol p ts du = Ok (p', t', jx) ->
    exists m : nat -> nat,
      (forall i, (i < length p)%nat -> du = false \/ (exists t, In t ts /\ In i (corners t)) ->
         (m i < length p')%nat /\ near (e * ptol) (nth i p (0, 0)) (nth (m i) p' (0, 0))) /\
      incl p' p /\
      (forall t, In t ts -> exists s, In s t' /\ Permutation (map m (corners t)) (corners s)) /\
      (forall s, In s t' -> exists t, In t ts /\ Permutation (map m (corners t)) (corners s)) /\
      (du = false -> jx = map m (seq 0 (length p))).
  Proof.
    intros Ht He E. destruct (fix_mesh_inv _ _ _ _ _ _ E) as (m & A & B & C & D & F & G & H & I & J & K).
    exists m. split; [|split; [|split; [|split]]]; auto.
    intros i Hi Hu. destruct (A i Hi Hu) as [A1 A2]. split; auto.
    eapply same_cell_near; eauto; [now apply nth_In|apply C; now apply nth_In].
  Qed.

  Lemma NoDup_map_no_two {A B} (f : A -> B) (R : A -> A -> Prop) l :
    NoDup (map f l) -> (forall x y, R x y -> f x = f y) -> no_two R l.
  Proof.
    unfold no_two. induction l as [|x l IH]; simpl; intros N H; constructor; inversion N; subst; auto.
    apply Forall_forall. intros y Hy HR. apply H2. rewrite (H _ _ HR). now apply in_map.
  Qed.

  Lemma fix_mesh_merges p ts du p' t' jx : fix_mesh kleb ptol p ts du = Ok (p', t', jx) ->
    no_two same_point p'.
  Proof.
    intros E. destruct (fix_mesh_inv _ _ _ _ _ _ E) as (m & A & B & _).
    eapply NoDup_map_no_two; [exact B|]. intros x y. apply snap_key_comp.
  Qed.

  Lemma fix_mesh_nondegenerate p ts du p' t' jx e : 0 < ptol -> extent_at_most p e ->
    fix_mesh kleb ptol p ts du = Ok (p', t', jx) ->
    (forall a b c, In (a, b, c) ts ->
       ~ near (e * ptol) (nth a p (0, 0)) (nth b p (0, 0)) /\
       ~ near (e * ptol) (nth b p (0, 0)) (nth c p (0, 0)) /\
       ~ near (e * ptol) (nth a p (0, 0)) (nth c p (0, 0))) ->
    Forall (fun t => NoDup (corners t)) t'.
  Proof.
    intros Ht He E Hsep.
    destruct (proj1 (fix_mesh_total p ts du)) as [Hp Hr]; [eauto|].
    destruct (fix_mesh_inv _ _ _ _ _ _ E) as (m & A & B & C & D & F & G & H & I & J & K).
    apply Forall_forall. intros s Hs. destruct (F s Hs) as ([[a b] c] & Hti & Hpm).
    eapply Permutation_NoDup; [exact Hpm|].
    rewrite Forall_forall in Hr. pose proof (Hr _ Hti) as Hab. unfold in_range in Hab. simpl in Hab.
    inversion_clear Hab as [|? ? Ra Hab']. inversion_clear Hab' as [|? ? Rb Hab'']. inversion_clear Hab'' as [|? ? Rc _].
    assert (KK : forall i, (i < length p)%nat -> In i [a; b; c] ->
                snap_key (snap_size p ptol) (nth i p (0, 0)) = snap_key (snap_size p ptol) (nth (m i) p' (0, 0))).
    { intros i Hi Hin. apply A; auto. right. exists (a, b, c). auto. }
    assert (NE : forall i j, (i < length p)%nat -> (j < length p)%nat -> In i [a; b; c] -> In j [a; b; c] ->
                ~ near (e * ptol) (nth i p (0, 0)) (nth j p (0, 0)) -> m i <> m j).
    { intros i j Hi Hj Ii Ij Hn Em. apply Hn. eapply same_cell_near; eauto using nth_In.
      rewrite (KK i), (KK j), Em by auto. reflexivity. }
    destruct (Hsep _ _ _ Hti) as (S1 & S2 & S3).
    assert (m a <> m b) by (apply NE; simpl; auto).
    assert (m b <> m c) by (apply NE; simpl; auto).
    assert (m a <> m c) by (apply NE; simpl; auto).
    simpl. constructor; [simpl; intuition congruence|]. constructor; [simpl; intuition congruence|].
    constructor; [simpl; tauto|constructor].
  Qed.
End Exact.

(** * Witnesses *)
Lemma NoDup_key_index {A B} (f : A -> B) l d i j : NoDup (map f l) -> (i < length l)%nat -> (j < length l)%nat ->
  f (nth i l d) = f (nth j l d) -> i = j.
Proof.
  intros N Hi Hj E. eapply (proj1 (NoDup_nth (map f l) (f d))); eauto; rewrite ?map_length; auto.
  now rewrite !map_nth.
Qed.

(** Points 0 and 3 are equal: the triangle (0,3,1) collapses and stays. *)
Definition pts_dup : list point := [(0, 0); (1, 0); (0, 1); (0, 0)].
Definition tri_dup : list tri := [(0, 1, 2)%nat; (0, 3, 1)%nat].

Lemma fix_mesh_keeps_degenerate kleb ptol du : total_order kleb -> 0 < ptol ->
  exists p' t' jx, fix_mesh kleb ptol pts_dup tri_dup du = Ok (p', t', jx) /\
    exists t, In t t' /\ ~ NoDup (corners t).
Proof.
  intros Hk Ht.
  assert (Hr : Forall (in_range (length pts_dup)) tri_dup) by (repeat constructor; simpl; lia).
  destruct (fix_mesh_ok kleb ptol Hk pts_dup tri_dup du) as (p' & t' & jx & m & E & A & B & C & D & _); [discriminate|auto|].
  exists p', t', jx. split; auto.
  assert (In3 : In (0, 3, 1)%nat tri_dup) by (simpl; auto).
  destruct (D (0, 3, 1)%nat) as (s & Hs & Hp); [exact In3|]. exists s. split; auto.
  destruct (A 0%nat) as [L0 K0]; [simpl; lia|right; exists (0, 3, 1)%nat; simpl; auto|].
  destruct (A 3%nat) as [L3 K3]; [simpl; lia|right; exists (0, 3, 1)%nat; simpl; auto|].
  assert (Em : m 0%nat = m 3%nat).
  { eapply NoDup_key_index; eauto. rewrite <- K0, <- K3. reflexivity. }
  intros N. eapply Permutation_NoDup in N; [|symmetry; exact Hp].
  simpl in N. inversion N; subst. simpl in *. intuition.
Qed.

(** ptol = 0 merges every point into one. *)
Lemma fix_mesh_zero_tol kleb p ts du p' t' jx : total_order kleb ->
  fix_mesh kleb 0 p ts du = Ok (p', t', jx) -> (length p' <= 1)%nat.
Proof.
  intros Hk E. destruct (fix_mesh_inv kleb 0 Hk _ _ _ _ _ _ E) as (m & A & B & _).
  destruct p' as [|a [|b p'']]; simpl; try lia. exfalso.
  assert (Z0 : Qeq_bool (snap_size p 0) 0 = true) by (apply Qeq_bool_iff; unfold snap_size; ring).
  unfold snap_key in B. rewrite Z0 in B. simpl in B. inversion B; subst. simpl in *. tauto.
Qed.

(** With delete_unused=True the third value is the flattened connectivity of the result. *)
Lemma flat_map_length3 {A} (f : A -> list nat) l : (forall x, length (f x) = 3%nat) -> length (flat_map f l) = (3 * length l)%nat.
Proof. intros H. induction l; simpl; auto. rewrite app_length, H, IHl. lia. Qed.

Lemma fix_mesh_jx_unused kleb ptol p ts p' t' jx :
  fix_mesh kleb ptol p ts true = Ok (p', t', jx) -> length jx = (3 * length t')%nat.
Proof.
  unfold fix_mesh, fix_mesh_gen. destruct p; [discriminate|].
  unfold unique_full. destruct (forallb _ ts); [|discriminate].
  intros [= <- <- <-]. rewrite !map_length. rewrite flat_map_length3; [|intros [[? ?] ?]; reflexivity]. reflexivity.
Qed.

(** Doubles: a seam written as 0.0 on one side and -0.0 on the other. *)
Definition f0 : spec_float := S754_zero false.
Definition fm0 : spec_float := S754_zero true.
Definition f1 : spec_float := S754_finite false 4503599627370496 (-52).
Definition fm1 : spec_float := S754_finite true 4503599627370496 (-52).
(** 2e-13, the default ptol (nearest double 7922816251426434 * 2^-95). *)
Definition f2em13 : spec_float := S754_finite false 7922816251426434 (-95).
Definition fpts : list fpoint := [(f0, f0); (f1, f0); (f0, f1); (fm1, f0); (fm0, f0); (fm0, f1)].
Definition ftris : list tri := [(0, 1, 2)%nat; (3, 4, 5)%nat].

Lemma fkeys_NoDup : NoDup (map (fsnap_row f2em13 fpts) fpts).
Proof.
  assert (H : exists l, map (fsnap_row f2em13 fpts) fpts = l /\ NoDup l); [|destruct H as (l & -> & H); exact H].
  eexists. split; [vm_compute; reflexivity|].
  repeat (constructor; [simpl; intuition congruence|]). constructor.
Qed.

Lemma fix_mesh_f_keeps_both kleb du i : total_order kleb -> (i < 6)%nat ->
  exists p' t' jx, fix_mesh_f kleb f2em13 fpts ftris du = Ok (p', t', jx) /\ In (nth i fpts (S754_nan, S754_nan)) p'.
Proof.
  intros Hk Hi.
  destruct (fix_mesh_gen_spec (S754_nan, S754_nan) (fsnap_row f2em13) kleb key_eqb fneg_vol key_eqb_eq Hk fpts ftris du)
    as (p' & t' & jx & m & E & A & B & C & _); [discriminate|repeat constructor; simpl; lia|].
  exists p', t', jx. split; [exact E|].
  destruct (A i Hi) as [L Kx].
  { right. do 3 (destruct i as [|i]; [exists (0, 1, 2)%nat; split; simpl; auto|]).
    do 3 (destruct i as [|i]; [exists (3, 4, 5)%nat; split; simpl; auto|]). lia. }
  assert (Hin : In (nth (m i) p' (S754_nan, S754_nan)) p') by (apply nth_In; auto).
  pose proof (C _ Hin) as Hin2.
  assert (Hx : forall x, In x fpts -> fsnap_row f2em13 fpts (nth i fpts (S754_nan, S754_nan)) = fsnap_row f2em13 fpts x ->
               x = nth i fpts (S754_nan, S754_nan)).
  { intros x Hx Ek. destruct (In_nth _ _ (S754_nan, S754_nan) Hx) as (j & Hj & <-).
    rewrite (NoDup_key_index (fsnap_row f2em13 fpts) fpts (S754_nan, S754_nan) i j fkeys_NoDup Hi Hj Ek). reflexivity. }
  rewrite <- (Hx _ Hin2 Kx). exact Hin.
Qed.

Lemma fix_mesh_f_seam : exists (p : list fpoint) ts i j,
  (i < j < length p)%nat /\
  SFeqb (fst (nth i p (S754_nan, S754_nan))) (fst (nth j p (S754_nan, S754_nan))) = true /\
  SFeqb (snd (nth i p (S754_nan, S754_nan))) (snd (nth j p (S754_nan, S754_nan))) = true /\
  nth i p (S754_nan, S754_nan) <> nth j p (S754_nan, S754_nan) /\
  forall kleb du, total_order kleb -> exists p' t' jx, fix_mesh_f kleb f2em13 p ts du = Ok (p', t', jx) /\
    In (nth i p (S754_nan, S754_nan)) p' /\ In (nth j p (S754_nan, S754_nan)) p'.
Proof.
  exists fpts, ftris, 0%nat, 4%nat. split; [simpl; lia|]. split; [reflexivity|]. split; [reflexivity|].
  split; [discriminate|]. intros kleb du Hk.
  destruct (fix_mesh_f_keeps_both kleb du 0 Hk) as (p' & t' & jx & E & I); [lia|].
  destruct (fix_mesh_f_keeps_both kleb du 4 Hk) as (p2 & t2 & jx2 & E2 & I2); [lia|].
  rewrite E in E2. injection E2. intros; subst. eauto 6.
Qed.

Lemma fix_mesh_degenerate_witness : exists p ts,
  forall kleb ptol du, total_order kleb -> 0 < ptol ->
  exists p' t' jx, fix_mesh kleb ptol p ts du = Ok (p', t', jx) /\ exists t, In t t' /\ ~ NoDup (corners t).
Proof. exists pts_dup, tri_dup. intros. now apply fix_mesh_keeps_degenerate. Qed.

Lemma zedge_total_order : total_order zedge_leb.
Proof. split; [apply zedge_leb_total|split; [apply zedge_leb_trans|apply zedge_leb_antisym]]. Qed.
