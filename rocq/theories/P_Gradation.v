From Coq Require Import List Arith Bool NArith ZArith QArith Qabs Qround Lia Lqa.
From Verif Require Import M_Base M_GradLimit M_Sdf M_Grid M_Gradation P_Sdf P_GradLimit S_GradLimit S_Grid P_Grid S_Gradation.
Import ListNotations.
Open Scope Q_scope.
Notation mcell := M_Grid.cell.
Notation pos := S_GradLimit.cell.

Lemma value_cell g i j : value_at g i j = mcell (g_values g) i j.
Proof. reflexivity. Qed.
Lemma pos_eq n m i j : pos n m i j 0 = (j * n + i)%nat.
Proof. reflexivity. Qed.
Lemma pos_lt n m i j : (i < n)%nat -> (j < m)%nat -> (pos n m i j 0 < n * m)%nat.
Proof. intros. rewrite pos_eq. nia. Qed.
Lemma pos_split n m p : (0 < n)%nat -> (p < n * m)%nat -> (p mod n < n)%nat /\ (p / n < m)%nat /\ p = pos n m (p mod n) (p / n) 0.
Proof.
  intros Hn Hp. split; [apply Nat.mod_upper_bound; lia|]. split.
  - apply Nat.div_lt_upper_bound; lia.
  - rewrite pos_eq. pose proof (Nat.div_mod p n ltac:(lia)). lia.
Qed.
Lemma pos_mod n m i j : (i < n)%nat -> (pos n m i j 0 mod n = i)%nat.
Proof. intros. rewrite pos_eq. rewrite Nat.add_comm, Nat.mod_add by lia. apply Nat.mod_small. auto. Qed.
Lemma pos_div n m i j : (i < n)%nat -> (pos n m i j 0 / n = j)%nat.
Proof. intros. rewrite pos_eq. rewrite Nat.add_comm, Nat.div_add by lia. rewrite Nat.div_small; auto. Qed.

(** Arrays of finite values: the flattened list. *)
Definition finite_array (v : list (list num)) (n m : nat) : Prop :=
  forall i j, (i < n)%nat -> (j < m)%nat -> exists a, mcell v i j = Fin a.
Lemma flatten_spec n m v : (0 < n)%nat -> finite_array v n m ->
  exists l, flatten_F n m v = Ok l /\ length l = (n * m)%nat /\
    forall i j, (i < n)%nat -> (j < m)%nat -> mcell v i j = Fin (nth (pos n m i j 0) l 0).
Proof.
  intros Hn Hf. unfold flatten_F.
  destruct (mapM_ok (fun p => finite_value (mcell v (p mod n) (p / n))) (seq 0 (n * m))) as [l El].
  { intros p Hp. apply in_seq in Hp. destruct (pos_split n m p Hn) as (A & B & _); [lia|].
    destruct (Hf _ _ A B) as [a Ea]. exists a. rewrite Ea. reflexivity. }
  exists l. split; auto. destruct (mapM_seq _ _ _ 0 El) as [L N]. split; auto.
  intros i j Hi Hj. specialize (N _ (pos_lt n m i j Hi Hj)). rewrite pos_mod, pos_div in N by auto.
  destruct (Hf i j Hi Hj) as [a Ea]. rewrite Ea in N |- *. simpl in N. congruence.
Qed.
Lemma listed_unique g n m l l' : (0 < n)%nat -> listed g n m l -> listed g n m l' -> l = l'.
Proof.
  intros Hn [L N] [L' N']. apply (nth_ext _ _ 0 0); [congruence|]. intros p Hp. rewrite L in Hp.
  destruct (pos_split n m p Hn Hp) as (A & B & C). rewrite C.
  specialize (N _ _ A B). specialize (N' _ _ A B). unfold size_at in *. congruence.
Qed.
Lemma flatten_listed g n m l : (0 < n)%nat -> listed g n m l -> flatten_F n m (g_values g) = Ok l.
Proof.
  intros Hn [L N]. destruct (flatten_spec n m (g_values g) Hn) as (l' & E & L' & N').
  { intros i j Hi Hj. eexists. apply N; auto. }
  rewrite E. f_equal. apply (listed_unique g n m); auto; split; auto.
Qed.
Lemma size_field_listed g n m : size_field g n m -> exists l, listed g n m l /\ size_grid n m 1 l.
Proof.
  intros (((Hs & Hr) & Hn & Hm & Hx & Hy) & He & Hc).
  destruct (flatten_spec n m (g_values g)) as (l & E & L & N); [lia| |].
  { intros i j Hi Hj. destruct (Hc i j Hi Hj) as (a & Ha & _). exists a. exact Ha. }
  exists l. split; [split; auto|]. constructor; [lia| lia |].
  intros x Hx'. destruct (In_nth _ _ 0 Hx') as (p & Hp & Ep). rewrite L in Hp.
  destruct (pos_split n m p) as (A & B & C); [lia|auto|].
  destruct (Hc _ _ A B) as (a & Ha & Hpos). unfold size_at in Ha. rewrite value_cell, (N _ _ A B), <- C, Ep in Ha.
  injection Ha as ->. auto.
Qed.
Lemma listed_smallest g n m l lo : (0 < n)%nat -> listed g n m l -> smallest_size g n m lo -> smallest l lo.
Proof.
  intros Hn [L N] ((i & j & Hi & Hj & Hlo) & Hmin). split.
  - exists (nth (pos n m i j 0) l 0). split; [apply nth_In; rewrite L; apply pos_lt; auto|].
    specialize (N i j Hi Hj). unfold size_at in *. rewrite Hlo in N. injection N as N. rewrite <- N. reflexivity.
  - intros x Hx. destruct (In_nth _ _ 0 Hx) as (p & Hp & Ep). rewrite L in Hp.
    destruct (pos_split n m p Hn Hp) as (A & B & C). rewrite <- Ep, C. apply (Hmin _ _ _ A B). apply N; auto.
Qed.
Lemma smallest_size_exists g n m : size_field g n m -> exists lo, smallest_size g n m lo.
Proof.
  intros H. destruct (size_field_listed g n m H) as (l & [L N] & [(A & B & C) HL Hn]).
  assert (Hne : l <> []) by (intros ->; simpl in L; nia).
  destruct (Qmin_list_spec l Hne) as [(x & Hx & Ex) Hm].
  destruct (In_nth _ _ 0 Hx) as (p & Hp & Ep). rewrite L in Hp. destruct (pos_split n m p A Hp) as (I & J & P).
  exists x. split.
  - exists (p mod n)%nat, (p / n)%nat. split; [auto|]. split; [auto|]. pose proof (N _ _ I J) as G. rewrite <- P, Ep in G. exact G.
  - intros i j a Hi Hj Ha. specialize (N i j Hi Hj). unfold size_at in *. rewrite Ha in N. injection N as ->.
    rewrite Ex. apply Hm. apply nth_In. rewrite L. apply pos_lt; auto.
Qed.

(** * The function without the stereographic pass *)
Section Local.
  Variables s2 se pi_d : Q.
  Variables to_ll to_st : Q * Q -> Q * Q.
  Hypothesis H2 : 1 <= s2.
  Hypothesis He : 0 <= se.

  Lemma reshape_cell n m l i j : (i < n)%nat -> (j < m)%nat -> mcell (reshape_F n m l) i j = Fin (nth (pos n m i j 0) l 0).
  Proof. intros. unfold reshape_F. rewrite tabulate_cell; auto. Qed.
  Lemma limit_array_listed n m elen gr g l : (0 < n)%nat -> listed g n m l ->
    limit_array s2 se n m elen gr (g_values g) = let! f := gradient_limit s2 se n m 1 elen gr (N.to_nat 10000) l in Ok (reshape_F n m f).
  Proof. intros Hn Hl. unfold limit_array. rewrite (flatten_listed g n m l Hn Hl). reflexivity. Qed.

  (** The grid that is returned for an array of values. *)
  Definition finish (g : grid) (v : list (list num)) (crs : nat) : grid :=
    build_interpolant {| g_bbox := g_bbox g; g_dx := g_dx g; g_dy := g_dx g; g_values := v; g_hmin := g_hmin g; g_extra := g_extra g; g_crs := crs; g_fill := None |}.
  Lemma finish_make g n m v crs : proper_grid g n m ->
    (let! r := make_grid (g_bbox g) (g_dx g) (g_dx g) v (g_hmin g) (g_extra g) crs in Ok (build_interpolant r)) = Ok (finish g v crs).
  Proof.
    intros (_ & _ & _ & Hx & _). unfold make_grid.
    assert (E : Qle_bool (g_dx g) 0 = false).
    { apply not_true_iff_false. intros E. apply Qle_bool_iff in E. lra. }
    rewrite E. reflexivity.
  Qed.
  Lemma finish_frame g v crs : g_dx g == g_dy g -> same_frame g (finish g v crs) /\ g_crs (finish g v crs) = crs.
  Proof.
    intros E. unfold finish.
    match goal with |- context [build_interpolant ?x] => destruct (build_fields x) as (A & B & C & D & F); pose proof (build_bbox x) as G end.
    unfold same_frame. rewrite A, B, C, D, F, G. cbn [g_bbox g_dx g_dy g_hmin g_extra g_crs]. repeat split; auto; reflexivity.
  Qed.
  Lemma finish_values g v crs : ~ global_box (g_bbox g) -> g_values (finish g v crs) = v.
  Proof.
    intros H. unfold finish. rewrite build_values.
    destruct (is_global _) eqn:E; auto. apply is_global_iff in E. contradiction.
  Qed.
  Lemma tabulate_proper g n m (v : list (list num)) crs : proper_grid g n m -> shape v n m -> proper_grid (finish g v crs) n m.
  Proof. intros (_ & Hn & Hm & Hx & _) Hs. apply proper_build. split; [exact Hs|]. split; [auto|]. split; [auto|]. split; exact Hx. Qed.

  Lemma enforce_listed g n m gr crs l : size_field g n m -> 0 <= gr -> listed g n m l ->
    enforce_gradation s2 se pi_d to_ll to_st g gr crs false =
      let! f := gradient_limit s2 se n m 1 (g_dx g) gr (N.to_nat 10000) l in Ok (finish g (reshape_F n m f) crs).
  Proof.
    intros Hf Hg Hl. destruct Hf as (Hp & E & Hc). pose proof Hp as (Hs & Hn & Hm & Hx & Hy).
    destruct (shape_ny g n m Hs) as [X Y]; [lia|].
    unfold enforce_gradation. rewrite (proj2 (Qle_bool_iff _ _) Hg), (proj2 (Qeq_bool_iff _ _) E). cbn [negb].
    rewrite X, Y, (limit_array_listed n m _ gr g l) by (auto; lia).
    destruct (gradient_limit _ _ _ _ _ _ _ _ _); cbn [bind]; auto. apply (finish_make g n m); auto.
  Qed.
  Lemma enforce_refuses g gr crs st : (gr < 0 -> enforce_gradation s2 se pi_d to_ll to_st g gr crs st = Raise ValueError) /\
    (0 <= gr -> ~ g_dx g == g_dy g -> enforce_gradation s2 se pi_d to_ll to_st g gr crs st = Raise AssertionError).
  Proof.
    unfold enforce_gradation. split.
    - intros H. assert (E : Qle_bool 0 gr = false). { apply not_true_iff_false. intros E. apply Qle_bool_iff in E. lra. }
      rewrite E. reflexivity.
    - intros H E. rewrite (proj2 (Qle_bool_iff _ _) H).
      assert (E' : Qeq_bool (g_dx g) (g_dy g) = false). { apply not_true_iff_false. intros E'. apply Qeq_bool_iff in E'. auto. }
      rewrite E'. reflexivity.
  Qed.
  Lemma finish_size g n m l crs i j : ~ global_box (g_bbox g) -> (i < n)%nat -> (j < m)%nat ->
    size_at (finish g (reshape_F n m l) crs) i j (nth (pos n m i j 0) l 0).
  Proof. intros Hg Hi Hj. unfold size_at. rewrite value_cell, finish_values, reshape_cell; auto. Qed.

  Lemma enforce_range g n m gr crs : size_field g n m -> ~ global_box (g_bbox g) -> 0 <= gr ->
    exists g', enforce_gradation s2 se pi_d to_ll to_st g gr crs false = Ok g' /\ same_frame g g' /\ proper_grid g' n m /\
      forall i j a, (i < n)%nat -> (j < m)%nat -> size_at g i j a ->
        exists b, size_at g' i j b /\ b <= a /\
          (forall lo, smallest_size g n m lo -> lo <= b /\ (a == lo -> b == lo)).
  Proof.
    intros Hf Hg Hgr. destruct (size_field_listed g n m Hf) as (l & Hl & Hsg).
    pose proof Hf as (Hp & E & Hc). pose proof Hp as (Hs & Hn & Hm & Hx & Hy).
    destruct (T_range s2 se (g_dx g) gr n m 1%nat l (N.to_nat 10000) H2 He ltac:(lra) Hgr Hsg) as (f & Ef & L & R).
    exists (finish g (reshape_F n m f) crs). split.
    { rewrite (enforce_listed g n m gr crs l); auto. rewrite Ef. reflexivity. }
    split; [apply finish_frame; auto|]. split; [apply tabulate_proper; auto; apply tabulate_shape|].
    intros i j a Hi Hj Ha. exists (nth (pos n m i j 0) f 0). split; [apply finish_size; auto|].
    destruct Hl as [L' N]. pose proof (N i j Hi Hj) as Na. unfold size_at in *. rewrite Ha in Na. injection Na as ->.
    assert (Hpos : (pos n m i j 0 < length l)%nat) by (rewrite L'; apply pos_lt; auto).
    split.
    - destruct (smallest_size_exists g n m Hf) as [lo Hlo].
      apply (listed_smallest g n m l) in Hlo; [|lia|split; auto]. apply (R lo Hlo _ Hpos).
    - intros lo Hlo. apply (listed_smallest g n m l) in Hlo; [|lia|split; auto]. destruct (R lo Hlo _ Hpos) as [A B]. split; [apply A|apply B].
  Qed.

  (** The limiter stops within its 10000 passes. *)
  Definition settles (g : grid) (n m : nat) (gr : Q) : Prop :=
    exists l f, listed g n m l /\ gradient_limit_flag s2 se n m 1 (g_dx g) gr (N.to_nat 10000) l = Ok (f, true).

  Lemma limit_of_flag d0 d1 d2 elen gr imax l f b : gradient_limit_flag s2 se d0 d1 d2 elen gr imax l = Ok (f, b) ->
    gradient_limit s2 se d0 d1 d2 elen gr imax l = Ok f.
  Proof. intros E. unfold gradient_limit. rewrite E. reflexivity. Qed.

  Lemma enforce_graded g n m gr crs g' lo : size_field g n m -> ~ global_box (g_bbox g) -> 0 <= gr ->
    settles g n m gr -> enforce_gradation s2 se pi_d to_ll to_st g gr crs false = Ok g' -> smallest_size g n m lo ->
    graded g' n m (g_dx g * gr + lo * se).
  Proof.
    intros Hf Hg Hgr (l & f & Hl & Ef) Eg Hlo i j i' j' a b Hi Hj Hi' Hj' Hn' Ha Hb.
    pose proof Hf as (Hp & E & Hc). pose proof Hp as (Hs & Hn & Hm & Hx & Hy).
    rewrite (enforce_listed g n m gr crs l), (limit_of_flag _ _ _ _ _ _ _ _ _ Ef) in Eg by auto. injection Eg as <-.
    assert (Hsg : size_grid n m 1 l).
    { destruct (size_field_listed g n m Hf) as (l' & Hl' & Hsg). rewrite (listed_unique g n m l l'); auto. lia. }
    pose proof (finish_size g n m f crs i j Hg Hi Hj) as A. pose proof (finish_size g n m f crs i' j' Hg Hi' Hj') as B.
    unfold size_at in *. rewrite A in Ha. rewrite B in Hb. injection Ha as <-. injection Hb as <-.
    apply (T_sides s2 se (g_dx g) gr n m 1%nat l (N.to_nat 10000) f lo); auto; [lra|].
    apply (listed_smallest g n m l); auto; lia.
  Qed.

  Lemma enforce_unchanged g n m gr crs lo : size_field g n m -> ~ global_box (g_bbox g) -> 0 <= gr -> smallest_size g n m lo ->
    graded8 g n m (g_dx g * gr + lo * se) (g_dx g * s2 * gr + lo * se) ->
    exists g', enforce_gradation s2 se pi_d to_ll to_st g gr crs false = Ok g' /\
      forall i j a, (i < n)%nat -> (j < m)%nat -> size_at g i j a -> size_at g' i j a.
  Proof.
    intros Hf Hg Hgr Hlo H8. destruct (size_field_listed g n m Hf) as (l & Hl & Hsg).
    pose proof Hf as (Hp & E & Hc). pose proof Hp as (Hs & Hn & Hm & Hx & Hy).
    exists (finish g (reshape_F n m l) crs). split.
    - rewrite (enforce_listed g n m gr crs l) by auto.
      rewrite (T_unchanged s2 se (g_dx g) gr n m 1%nat l (N.to_nat 10000) lo); auto; [lra| |].
      { apply (listed_smallest g n m l); auto; lia. }
      intros i j k i' j' Hi Hj Hk Hi' Hj'. assert (k = 0)%nat by lia. subst k. destruct Hl as [L N].
      destruct (H8 i j i' j' _ _ Hi Hj Hi' Hj' (N i j Hi Hj) (N i' j' Hi' Hj')) as [A B].
      split; intros X; [specialize (A X); apply Qabs_Qle_condition in A; lra|specialize (B X); apply Qabs_Qle_condition in B; lra].
    - intros i j a Hi Hj Ha. destruct Hl as [L N]. specialize (N i j Hi Hj). pose proof (finish_size g n m l crs i j Hg Hi Hj) as F.
      unfold size_at in *. congruence.
  Qed.
End Local.

(** * The interpolated sizes *)
Lemma Qabs_le a b : - b <= a -> a <= b -> Qabs a <= b.
Proof. intros. apply Qabs_Qle_condition. auto. Qed.
Lemma Qabs_tri3 a b c : Qabs (a - c) <= Qabs (a - b) + Qabs (b - c).
Proof. eapply Qle_trans; [|apply Qabs_triangle]. apply Qle_lteq. right. apply Qabs_wd. ring. Qed.
Lemma Qabs_scale s a : 0 <= s -> Qabs (s * a) == s * Qabs a.
Proof. intros H. rewrite Qabs_Qmult, (Qabs_pos s H). reflexivity. Qed.
Lemma Qmult_le_left s a b : a <= b -> 0 <= s -> s * a <= s * b.
Proof. intros. rewrite !(Qmult_comm s). apply Qmult_le_compat_r; auto. Qed.
Lemma convex_dist t a b c d D : 0 <= t <= 1 -> Qabs (a - b) <= D -> Qabs (c - d) <= D ->
  Qabs ((1 - t) * a + t * c - ((1 - t) * b + t * d)) <= D.
Proof.
  intros [H0 H1] A B.
  assert (E : (1 - t) * a + t * c - ((1 - t) * b + t * d) == (1 - t) * (a - b) + t * (c - d)) by ring.
  rewrite E. eapply Qle_trans; [apply Qabs_triangle|]. rewrite !Qabs_scale by lra.
  assert (C1 : (1 - t) * Qabs (a - b) <= (1 - t) * D) by (apply Qmult_le_left; [auto|lra]).
  assert (C2 : t * Qabs (c - d) <= t * D) by (apply Qmult_le_left; [auto|lra]).
  assert (E2 : (1 - t) * D + t * D == D) by ring. rewrite <- E2. apply Qplus_le_compat; auto.
Qed.

Section Line.
  Variable u : nat -> Q.
  Variable D : Q.
  Variable n : nat.
  Hypothesis Hu : forall i, (S i < n)%nat -> Qabs (u (S i) - u i) <= D.
  Lemma walk_dist k : forall i, (i + k < n)%nat -> Qabs (u (i + k)%nat - u i) <= inject_Z (Z.of_nat k) * D.
  Proof.
    induction k; intros i Hi.
    - rewrite Nat.add_0_r. setoid_replace (u i - u i) with 0 by ring. simpl. change (Qabs 0) with 0. setoid_replace (inject_Z 0 * D) with 0 by (unfold inject_Z; ring). apply Qle_refl.
    - eapply Qle_trans; [apply (Qabs_tri3 _ (u (i + k)%nat))|].
      assert (E : inject_Z (Z.of_nat (S k)) * D == D + inject_Z (Z.of_nat k) * D).
      { rewrite Nat2Z.inj_succ, <- Z.add_1_r, inject_Z_plus. change (inject_Z 1) with 1. ring. }
      rewrite E. apply Qplus_le_compat; [|apply IHk; lia].
      replace (i + S k)%nat with (S (i + k)) by lia. apply Hu. lia.
  Qed.
  Definition blend (i : nat) (s : Q) : Q := (1 - s) * u i + s * u (S i).
  Lemma blend_order i s i' s' : (i <= i')%nat -> (S i' < n)%nat -> 0 <= s <= 1 -> 0 <= s' <= 1 ->
    inject_Z (Z.of_nat i) + s <= inject_Z (Z.of_nat i') + s' ->
    Qabs (blend i' s' - blend i s) <= D * ((inject_Z (Z.of_nat i') + s') - (inject_Z (Z.of_nat i) + s)).
  Proof.
    intros Hi Hn [S0 S1] [T0 T1] Hp.
    destruct (Nat.eq_dec i i') as [<-|Hne].
    - assert (E : blend i s' - blend i s == (s' - s) * (u (S i) - u i)) by (unfold blend; ring).
      rewrite E, Qabs_scale by lra.
      assert (E2 : D * (inject_Z (Z.of_nat i) + s' - (inject_Z (Z.of_nat i) + s)) == (s' - s) * D) by ring.
      rewrite E2. apply Qmult_le_left; [auto|lra].
    - eapply Qle_trans; [apply (Qabs_tri3 _ (u i'))|].
      assert (A : Qabs (blend i' s' - u i') <= s' * D).
      { assert (E : blend i' s' - u i' == s' * (u (S i') - u i')) by (unfold blend; ring). rewrite E, Qabs_scale by lra. apply Qmult_le_left; auto. }
      assert (B : Qabs (u i' - blend i s) <= (inject_Z (Z.of_nat i') - inject_Z (Z.of_nat i) - 1) * D + (1 - s) * D).
      { eapply Qle_trans; [apply (Qabs_tri3 _ (u (S i)))|]. apply Qplus_le_compat.
        - pose proof (walk_dist (i' - S i) (S i)) as W. replace (S i + (i' - S i))%nat with i' in W by lia. specialize (W ltac:(lia)).
          eapply Qle_trans; [exact W|]. apply Qle_lteq. right. rewrite Nat2Z.inj_sub, Nat2Z.inj_succ by lia. rewrite inject_Z_minus, <- Z.add_1_r, inject_Z_plus. change (inject_Z 1) with 1. ring.
        - assert (E : u (S i) - blend i s == (1 - s) * (u (S i) - u i)) by (unfold blend; ring). rewrite E, Qabs_scale by lra. apply Qmult_le_left; [|lra]. apply Hu. lia. }
      assert (E : D * (inject_Z (Z.of_nat i') + s' - (inject_Z (Z.of_nat i) + s)) == s' * D + ((inject_Z (Z.of_nat i') - inject_Z (Z.of_nat i) - 1) * D + (1 - s) * D)) by ring.
      rewrite E. apply Qplus_le_compat; auto.
  Qed.
  Lemma blend_dist i s i' s' : (S i < n)%nat -> (S i' < n)%nat -> 0 <= s <= 1 -> 0 <= s' <= 1 -> 0 <= D ->
    Qabs (blend i s - blend i' s') <= D * Qabs ((inject_Z (Z.of_nat i) + s) - (inject_Z (Z.of_nat i') + s')).
  Proof.
    intros Hi Hi' Hs Hs' HD.
    assert (Main : forall i s i' s', (S i < n)%nat -> (S i' < n)%nat -> 0 <= s <= 1 -> 0 <= s' <= 1 ->
      inject_Z (Z.of_nat i) + s <= inject_Z (Z.of_nat i') + s' -> Qabs (blend i' s' - blend i s) <= D * Qabs ((inject_Z (Z.of_nat i') + s') - (inject_Z (Z.of_nat i) + s))).
    { clear i s i' s' Hi Hi' Hs Hs'. intros i s i' s' Hi Hi' Hs Hs' Hp. rewrite (Qabs_pos (inject_Z (Z.of_nat i') + s' - (inject_Z (Z.of_nat i) + s))) by lra.
      destruct (le_lt_dec i i') as [H|H]; [apply blend_order; auto|].
      (* then i = i' + 1, s = 0 and s' = 1: the same point *)
      assert (Hz : inject_Z (Z.of_nat i) >= inject_Z (Z.of_nat i') + 1).
      { change 1 with (inject_Z 1). rewrite <- inject_Z_plus, <- Zle_Qle. lia. }
      assert (E1 : s == 0) by lra. assert (E2 : s' == 1) by lra.
      assert (E3 : inject_Z (Z.of_nat i) == inject_Z (Z.of_nat i') + 1) by lra.
      assert (E4 : i = S i'). { change 1 with (inject_Z 1) in E3. rewrite <- inject_Z_plus in E3. apply (proj1 (inject_Z_injective _ _)) in E3. lia. }
      subst i. unfold blend. rewrite E1, E2, E3.
      setoid_replace ((1 - 1) * u i' + 1 * u (S i') - ((1 - 0) * u (S i') + 0 * u (S (S i')))) with 0 by ring.
      setoid_replace (inject_Z (Z.of_nat i') + 1 - (inject_Z (Z.of_nat i') + 1 + 0)) with 0 by ring.
      change (Qabs 0) with 0. rewrite Qmult_0_r. apply Qle_refl. }
    destruct (Qlt_le_dec (inject_Z (Z.of_nat i') + s') (inject_Z (Z.of_nat i) + s)) as [H|H].
    - apply Main; auto. lra.
    - rewrite (Qabs_Qminus (blend i s) (blend i' s')), (Qabs_Qminus (inject_Z (Z.of_nat i) + s) (inject_Z (Z.of_nat i') + s')). apply Main; auto.
  Qed.
End Line.

Definition val (g : grid) (i j : nat) : Q := match value_at g i j with Fin q => q | _ => 0 end.
Lemma lin_blend g n m x y : proper_grid g n m -> all_cells finite g n m -> covered g n m (x, y) ->
  exists i s j t r, (S i < n)%nat /\ (S j < m)%nat /\ 0 <= s <= 1 /\ 0 <= t <= 1 /\
    x == b0 (g_bbox g) + (inject_Z (Z.of_nat i) + s) * g_dx g /\ y == b2 (g_bbox g) + (inject_Z (Z.of_nat j) + t) * g_dy g /\
    lin_value g x y = Fin r /\ r == (1 - s) * ((1 - t) * val g i j + t * val g i (S j)) + s * ((1 - t) * val g (S i) j + t * val g (S i) (S j)) /\
    locate (b0 (g_bbox g)) (g_dx g) n x = (i, s) /\ locate (b2 (g_bbox g)) (g_dy g) m y = (j, t).
Proof.
  intros Hp Hf [[X0 X1] [Y0 Y1]]. pose proof Hp as (Hs & Hn & Hm & Hx & Hy). cbn [fst snd] in *. destruct (shape_ny g n m Hs ltac:(lia)) as [Nx Ny].
  destruct (locate_spec (b0 (g_bbox g)) (g_dx g) n x Hx Hn) as (i & s & Ei & Li & Px & S0 & S1 & _).
  destruct (locate_spec (b2 (g_bbox g)) (g_dy g) m y Hy Hm) as (j & t & Ej & Lj & Py & T0 & T1 & _).
  unfold x_of, y_of, node in *.
  assert (F : forall a b, (a < n)%nat -> (b < m)%nat -> value_at g a b = Fin (val g a b)).
  { intros a b Ha Hb. destruct (Hf a b Ha Hb) as [q Eq]. unfold val. rewrite Eq. reflexivity. }
  destruct (lin_eq g x y i s j t (val g i j) (val g i (S j)) (val g (S i) j) (val g (S i) (S j))) as (r & Er & Vr); try (apply F; lia).
  { rewrite Nx. exact Ei. } { rewrite Ny, Qabs_eq by auto. exact Ej. }
  assert (Zn : inject_Z (Z.of_nat (n - 1)) == inject_Z (Z.of_nat n - 1)). { rewrite Nat2Z.inj_sub by lia. reflexivity. }
  assert (Zm : inject_Z (Z.of_nat (m - 1)) == inject_Z (Z.of_nat m - 1)). { rewrite Nat2Z.inj_sub by lia. reflexivity. }
  change (inject_Z (Z.of_nat 0)) with 0 in *.
  exists i, s, j, t, r. rewrite Zn in X1. rewrite Zm in Y1.
  assert (A0 : b0 (g_bbox g) <= x) by lra. assert (B0 : b2 (g_bbox g) <= y) by lra.
  repeat (split; [auto|]). auto.
Qed.

Lemma graded_rate g n m L : proper_grid g n m -> all_cells finite g n m -> g_dx g == g_dy g -> g_fill g <> None -> 0 <= L ->
  graded g n m (L * g_dx g) -> rate_bounded g n m L.
Proof.
  intros Hp Hf Exy Hfill HL Hg [x y] [x' y'] Hc Hc'. pose proof Hp as (Hs & Hn & Hm & Hx & Hy).
  assert (Ev : forall a b r, covered g n m (a, b) -> lin_value g a b = Fin r -> eval g (a, b) = Ok (Fin r)).
  { intros a b r C E. unfold eval. destruct (g_fill g) as [f|]; [|congruence]. cbn [fst snd]. rewrite E. unfold with_fill.
    destruct f; auto. rewrite (proj2 (covered_iff g n m a b Hp) C). reflexivity. }
  assert (Cm : covered g n m (x', y)). { unfold covered in *. cbn [fst snd] in *. tauto. }
  destruct (lin_blend g n m x y Hp Hf Hc) as (i & s & j & t & r & Li & Lj & Si & Tj & Px & Py & Er & Vr & Ei & Ej).
  destruct (lin_blend g n m x' y' Hp Hf Hc') as (i' & s' & j' & t' & r' & Li' & Lj' & Si' & Tj' & Px' & Py' & Er' & Vr' & Ei' & Ej').
  exists r, r'. split; [apply Ev; auto|]. split; [apply Ev; auto|]. cbn [fst snd].
  assert (F : forall a b, (a < n)%nat -> (b < m)%nat -> size_at g a b (val g a b)).
  { intros a b Ha Hb. destruct (Hf a b Ha Hb) as [q Eq]. unfold size_at, val. rewrite Eq. reflexivity. }
  assert (V1 : forall a b, (S a < n)%nat -> (b < m)%nat -> Qabs (val g (S a) b - val g a b) <= L * g_dx g).
  { intros a b Ha Hb. apply (Hg (S a) b a b); try (apply F; lia); try lia; unfold side_neighbours, gap; lia. }
  assert (V2 : forall a b, (a < n)%nat -> (S b < m)%nat -> Qabs (val g a (S b) - val g a b) <= L * g_dx g).
  { intros a b Ha Hb. apply (Hg a (S b) a b); try (apply F; lia); try lia; unfold side_neighbours, gap; lia. }
  assert (HD : 0 <= L * g_dx g) by (apply Qmult_le_0_compat; lra).
  set (u := fun a => (1 - t) * val g a j + t * val g a (S j)).
  set (w := fun b => (1 - s') * val g i' b + s' * val g (S i') b).
  assert (A : Qabs (blend u i s - blend u i' s') <= L * g_dx g * Qabs ((inject_Z (Z.of_nat i) + s) - (inject_Z (Z.of_nat i') + s'))).
  { apply (blend_dist u (L * g_dx g) n); auto. intros a Ha. unfold u. apply convex_dist; auto; apply V1; lia. }
  assert (B : Qabs (blend w j t - blend w j' t') <= L * g_dx g * Qabs ((inject_Z (Z.of_nat j) + t) - (inject_Z (Z.of_nat j') + t'))).
  { apply (blend_dist w (L * g_dx g) m); auto. intros b Hb. unfold w. apply convex_dist; auto; apply V2; lia. }
  assert (E1 : r == blend u i s) by (rewrite Vr; unfold blend, u; reflexivity).
  assert (E2 : r' == blend w j' t') by (rewrite Vr'; unfold blend, w; ring).
  assert (E3 : blend u i' s' == blend w j t) by (unfold blend, u, w; ring).
  rewrite E1, E2. eapply Qle_trans; [apply (Qabs_tri3 _ (blend u i' s'))|].
  assert (D1 : L * g_dx g * Qabs ((inject_Z (Z.of_nat i) + s) - (inject_Z (Z.of_nat i') + s')) == L * Qabs (x - x')).
  { rewrite Px, Px'. setoid_replace (b0 (g_bbox g) + (inject_Z (Z.of_nat i) + s) * g_dx g - (b0 (g_bbox g) + (inject_Z (Z.of_nat i') + s') * g_dx g)) with (g_dx g * (inject_Z (Z.of_nat i) + s - (inject_Z (Z.of_nat i') + s'))) by ring.
    rewrite Qabs_scale by lra. ring. }
  assert (D2 : L * g_dx g * Qabs ((inject_Z (Z.of_nat j) + t) - (inject_Z (Z.of_nat j') + t')) == L * Qabs (y - y')).
  { rewrite Py, Py'. setoid_replace (b2 (g_bbox g) + (inject_Z (Z.of_nat j) + t) * g_dy g - (b2 (g_bbox g) + (inject_Z (Z.of_nat j') + t') * g_dy g)) with (g_dy g * (inject_Z (Z.of_nat j) + t - (inject_Z (Z.of_nat j') + t'))) by ring.
    rewrite Qabs_scale by lra. rewrite Exy. ring. }
  rewrite D1 in A. rewrite D2 in B. rewrite Qmult_plus_distr_r. apply Qplus_le_compat; [exact A|]. rewrite E3. exact B.
Qed.

Lemma finish_finite g n m l crs : ~ global_box (g_bbox g) -> all_cells finite (finish g (reshape_F n m l) crs) n m.
Proof. intros Hg i j Hi Hj. eexists. apply (finish_size g n m l crs i j); auto. Qed.
Lemma enforce_rate s2 se pi_d to_ll to_st g n m gr crs g' lo : 1 <= s2 -> 0 <= se -> size_field g n m -> ~ global_box (g_bbox g) -> 0 <= gr ->
  settles s2 se g n m gr -> enforce_gradation s2 se pi_d to_ll to_st g gr crs false = Ok g' -> smallest_size g n m lo ->
  rate_bounded g' n m (gr + lo * se / g_dx g).
Proof.
  intros H2 He Hf Hg Hgr Hset Eg Hlo. pose proof Hf as (Hp & E & Hc). pose proof Hp as (Hs & Hn & Hm & Hx & Hy).
  pose proof (enforce_graded s2 se pi_d to_ll to_st H2 He g n m gr crs g' lo Hf Hg Hgr Hset Eg Hlo) as G.
  destruct (size_field_listed g n m Hf) as (l & Hl & Hsg).
  rewrite (enforce_listed s2 se pi_d to_ll to_st g n m gr crs l Hf Hgr Hl) in Eg.
  destruct (gradient_limit _ _ _ _ _ _ _ _ _) as [f| |]; try discriminate. cbn [bind] in Eg. injection Eg as <-.
  assert (Hlo0 : 0 <= lo). { destruct Hlo as [(i & j & Hi & Hj & Ha) _]. destruct (Hc i j Hi Hj) as (a & Ha' & H0). unfold size_at in *. congruence. }
  destruct (finish_frame g (reshape_F n m f) crs E) as [(_ & Fx & Fy & _) _].
  assert (HL : 0 <= gr + lo * se / g_dx g).
  { assert (0 <= lo * se / g_dx g). { apply Qle_shift_div_l; [auto|]. rewrite Qmult_0_l. apply Qmult_le_0_compat; auto. } lra. }
  apply graded_rate; auto.
  - apply tabulate_proper; auto. apply tabulate_shape.
  - apply finish_finite; auto.
  - rewrite Fx, Fy. exact E.
  - unfold finish. rewrite build_fill. discriminate.
  - intros i j i' j' a b Hi Hj Hi' Hj' Hn' Ha Hb. eapply Qle_trans; [eapply (G i j i' j'); eauto|].
    apply Qle_lteq. right. rewrite Fx. field. lra.
Qed.

(** * The stereographic pass *)
Definition plain_array (v : list (list num)) (n m : nat) : Prop :=
  forall i j, (i < n)%nat -> (j < m)%nat -> exists a, mcell v i j = Fin a /\ 0 <= a.
Lemma limit_array_range s2 se n m elen gr v : 1 <= s2 -> 0 <= se -> 0 <= elen -> 0 <= gr -> (0 < n)%nat -> (0 < m)%nat -> plain_array v n m ->
  exists w, limit_array s2 se n m elen gr v = Ok w /\ shape w n m /\
    forall i j a, (i < n)%nat -> (j < m)%nat -> mcell v i j = Fin a -> exists b, mcell w i j = Fin b /\ 0 <= b <= a.
Proof.
  intros H2 He Hl Hg Hn Hm Hv. destruct (flatten_spec n m v Hn) as (l & E & L & N).
  { intros i j Hi Hj. destruct (Hv i j Hi Hj) as (a & Ea & _). exists a. auto. }
  assert (Hpos : forall x, In x l -> 0 <= x).
  { intros x Hx. destruct (In_nth _ _ 0 Hx) as (p & Hp & Ep). rewrite L in Hp. destruct (pos_split n m p Hn Hp) as (A & B & C).
    destruct (Hv _ _ A B) as (a & Ea & H0). rewrite (N _ _ A B), <- C, Ep in Ea. injection Ea as ->. auto. }
  assert (Hsg : size_grid n m 1 l) by (constructor; [lia|lia|auto]).
  destruct (T_range s2 se elen gr n m 1%nat l (N.to_nat 10000) H2 He Hl Hg Hsg) as (f & Ef & Lf & R).
  exists (reshape_F n m f). split; [unfold limit_array; rewrite E; cbn [bind]; rewrite Ef; reflexivity|].
  split; [apply tabulate_shape|]. intros i j a Hi Hj Ha. exists (nth (pos n m i j 0) f 0). split; [apply reshape_cell; auto|].
  rewrite (N i j Hi Hj) in Ha. injection Ha as <-.
  assert (Hne : l <> []) by (intros ->; simpl in L; nia).
  pose proof (Qmin_list_spec l Hne) as Hs. pose proof Hs as [(x & Hx & Ex) _]. specialize (Hpos x Hx).
  destruct (R _ Hs (pos n m i j 0)) as [A _]; [rewrite L; apply pos_lt; auto|]. lra.
Qed.
Lemma mapM2_ok (f : nat -> nat -> res num) n m : (forall i j, (i < n)%nat -> (j < m)%nat -> exists a, f i j = Ok (Fin a) /\ 0 <= a) ->
  exists w, mapM (fun i => mapM (fun j => f i j) (seq 0 m)) (seq 0 n) = Ok w /\ shape w n m /\ plain_array w n m /\
    forall i j, (i < n)%nat -> (j < m)%nat -> f i j = Ok (mcell w i j).
Proof.
  intros H. destruct (mapM_ok (fun i => mapM (fun j => f i j) (seq 0 m)) (seq 0 n)) as [w Ew].
  { intros i Hi. apply in_seq in Hi. apply mapM_ok. intros j Hj. apply in_seq in Hj. destruct (H i j) as (a & Ea & _); [lia|lia|]. eauto. }
  exists w. split; auto. destruct (mapM_seq _ _ _ [] Ew) as [L N].
  assert (C : forall i j, (i < n)%nat -> (j < m)%nat -> f i j = Ok (mcell w i j)).
  { intros i j Hi Hj. specialize (N i Hi). destruct (mapM_seq _ _ _ NaN N) as [L' N']. apply N'. auto. }
  split; [|split; auto].
  - split; auto. apply Forall_forall. intros r Hr. destruct (In_nth _ _ [] Hr) as (i & Hi & Ei). rewrite L in Hi. specialize (N i Hi).
    destruct (mapM_seq _ _ _ NaN N) as [L' _]. rewrite Ei in L'. exact L'.
  - intros i j Hi Hj. destruct (H i j Hi Hj) as (a & Ea & H0). rewrite (C i j Hi Hj) in Ea. injection Ea as Ea. exists a. auto.
Qed.
Lemma eval_plain g n m q : proper_grid g n m -> plain_array (g_values g) n m -> plain_sizes g -> exists a, eval g q = Ok (Fin a) /\ 0 <= a.
Proof.
  intros Hp Hv [Hf He]. destruct q as [x y]. unfold eval. rewrite Hf. cbn [fst snd]. unfold with_fill.
  destruct (out_of_grid g x y) eqn:Eo; [exists 999999; split; [reflexivity|discriminate]|].
  assert (Hc : covered g n m (x, y)) by (apply (covered_iff g n m x y Hp); auto).
  assert (Hfin : all_cells finite g n m). { intros i j Hi Hj. destruct (Hv i j Hi Hj) as (a & Ea & _). exists a. exact Ea. }
  assert (Hval : forall i j, (i < n)%nat -> (j < m)%nat -> 0 <= val g i j).
  { intros i j Hi Hj. destruct (Hv i j Hi Hj) as (a & Ea & H0). unfold val. rewrite value_cell, Ea. auto. }
  destruct (lin_blend g n m x y Hp Hfin Hc) as (i & s & j & t & r & Li & Lj & Si & Tj & _ & _ & Er & Vr & _).
  exists r. rewrite Er. split; auto. rewrite Vr.
  assert (0 <= 1 - s) by lra. assert (0 <= 1 - t) by lra.
  pose proof (Hval i j ltac:(lia) ltac:(lia)). pose proof (Hval i (S j) ltac:(lia) ltac:(lia)).
  pose proof (Hval (S i) j ltac:(lia) ltac:(lia)). pose proof (Hval (S i) (S j) ltac:(lia) ltac:(lia)).
  assert (0 <= (1 - t) * val g i j) by (apply Qmult_le_0_compat; auto).
  assert (0 <= t * val g i (S j)) by (apply Qmult_le_0_compat; lra).
  assert (0 <= (1 - t) * val g (S i) j) by (apply Qmult_le_0_compat; auto).
  assert (0 <= t * val g (S i) (S j)) by (apply Qmult_le_0_compat; lra).
  assert (0 <= (1 - s) * ((1 - t) * val g i j + t * val g i (S j))) by (apply Qmult_le_0_compat; lra).
  assert (0 <= s * ((1 - t) * val g (S i) j + t * val g (S i) (S j))) by (apply Qmult_le_0_compat; lra). lra.
Qed.

Section Stereo.
  Variables s2 se pi_d : Q.
  Variables to_ll to_st : Q * Q -> Q * Q.
  Hypothesis H2 : 1 <= s2.
  Hypothesis He : 0 <= se.

  Lemma arange_two d : 0 < d -> d < 2 -> (2 <= arange_len d)%nat.
  Proof.
    intros H0 H. unfold arange_len. assert (A : 1 < 2 / d) by (apply Qlt_shift_div_l; lra).
    pose proof (Qle_ceiling (2 / d)) as C. assert (B : inject_Z 1 < inject_Z (Qceiling (2 / d))) by (eapply Qlt_le_trans; eauto).
    apply -> Zlt_Qlt in B || (rewrite <- Zlt_Qlt in B). lia.
  Qed.

  Lemma stereo_grid_ok g n m crs : size_field g n m -> plain_sizes g -> 0 < stereo_step pi_d g -> stereo_step pi_d g < 2 ->
    let d := stereo_step pi_d g in let k := arange_len d in
    exists s, stereo_grid s2 se pi_d to_ll g crs = Ok s /\ proper_grid s k k /\ plain_sizes s /\ g_bbox s = (-1, 1, -1, 1) /\ g_dx s = d /\
      plain_array (g_values s) k k /\
      forall i j, (i < k)%nat -> (j < k)%nat -> exists a b, eval g (to_ll (x_of s i, y_of s j)) = Ok (Fin a) /\ size_at s i j b /\ 0 <= b <= a.
  Proof.
    intros (Hp & E & Hc) Hpl Hd0 Hd2 d k.
    assert (Hk : (2 <= k)%nat) by (apply arange_two; auto).
    assert (Hv : plain_array (g_values g) n m).
    { intros i j Hi Hj. destruct (Hc i j Hi Hj) as (a & Ea & H0). exists a. auto. }
    destruct (mapM2_ok (fun i j => eval g (to_ll (arange_at d i, arange_at d j))) k k) as (u & Eu & Su & Pu & Cu).
    { intros i j _ _. apply (eval_plain g n m); auto. }
    destruct (limit_array_range s2 se k k d 10 u H2 He) as (w & Ew & Sw & Cw); try lra; try lia; auto.
    { fold d in Hd0. lra. }
    assert (Pw : plain_array w k k).
    { intros i j Hi Hj. destruct (Pu i j Hi Hj) as (a & Ea & H0). destruct (Cw i j a Hi Hj Ea) as (b & Eb & Hb). exists b. split; [auto|lra]. }
    assert (Ed : Qle_bool d 0 = false). { apply not_true_iff_false. intros X. apply Qle_bool_iff in X. fold d in Hd0. lra. }
    set (s0 := {| g_bbox := (-1, 1, -1, 1); g_dx := d; g_dy := d; g_values := w; g_hmin := g_hmin g; g_extra := g_extra g; g_crs := crs; g_fill := None |}).
    exists (build_interpolant s0). split.
    { unfold stereo_grid. fold d. fold k. rewrite Eu. cbn [bind]. rewrite Ew. cbn [bind]. unfold make_grid. rewrite Ed. reflexivity. }
    assert (Eg : is_global s0 = false) by reflexivity.
    assert (Ev : g_values (build_interpolant s0) = w) by (rewrite build_values, Eg; reflexivity).
    split; [apply proper_build; split; [exact Sw|repeat split; auto; apply Hd0]|].
    split. { destruct Hpl as [_ X]. split; [rewrite build_fill; cbn; rewrite X; reflexivity|]. destruct (build_fields s0) as (_ & _ & Y & _). rewrite Y. exact X. }
    split; [rewrite build_bbox; reflexivity|]. split; [destruct (build_fields s0) as (Y & _); exact Y|].
    split; [rewrite Ev; exact Pw|].
    intros i j Hi Hj. destruct (Pu i j Hi Hj) as (a & Ea & H0). destruct (Cw i j a Hi Hj Ea) as (b & Eb & Hb). exists a, b.
    split; [|split; [unfold size_at; rewrite value_cell, Ev; exact Eb|exact Hb]].
    specialize (Cu i j Hi Hj). rewrite Ea in Cu. rewrite <- Cu. unfold x_of, y_of, node. rewrite build_bbox. destruct (build_fields s0) as (Y1 & Y2 & _). rewrite Y1, Y2. reflexivity.
  Qed.

  Lemma enforce_stereo g n m gr crs : size_field g n m -> ~ global_box (g_bbox g) -> plain_sizes g -> 0 <= gr ->
    0 < stereo_step pi_d g -> stereo_step pi_d g < 2 ->
    let d := stereo_step pi_d g in let k := arange_len d in
    exists g0 s h g', enforce_gradation s2 se pi_d to_ll to_st g gr crs false = Ok g0 /\ stereo_grid s2 se pi_d to_ll g crs = Ok s /\
      enforce_gradation s2 se pi_d to_ll to_st g gr crs true = Ok g' /\ same_frame g g' /\ proper_grid g' n m /\
      (forall i j, (i < k)%nat -> (j < k)%nat -> exists a b, eval g (to_ll (x_of s i, y_of s j)) = Ok (Fin a) /\ size_at s i j b /\ 0 <= b <= a) /\
      (forall i j, (i < n)%nat -> (j < m)%nat ->
         (y_of g j <= 0 -> value_at g0 i j = Fin (h i j)) /\ (0 < y_of g j -> eval s (to_st (x_of g i, y_of g j)) = Ok (Fin (h i j))) /\
         exists b, size_at g' i j b /\ 0 <= b <= h i j).
  Proof.
    intros Hf Hg Hpl Hgr Hd0 Hd2 d k. destruct (stereo_grid_ok g n m crs Hf Hpl Hd0 Hd2) as (s & Es & Ps & Pls & Bs & Xs & As & Cs).
    fold d in Cs, Xs, Ps, As. fold k in Cs, Ps, As.
    pose proof Hf as (Hp & E & Hc). pose proof Hp as (Hs & Hn & Hm & Hx & Hy). destruct (shape_ny g n m Hs ltac:(lia)) as [Nx Ny].
    assert (Hv : plain_array (g_values g) n m).
    { intros i j Hi Hj. destruct (Hc i j Hi Hj) as (a & Ea & H0). exists a. auto. }
    destruct (limit_array_range s2 se n m (g_dx g) gr (g_values g) H2 He) as (w & Ew & Sw & Cw); try lra; try lia; auto.
    assert (Pw : plain_array w n m).
    { intros i j Hi Hj. destruct (Hv i j Hi Hj) as (a & Ea & H0). destruct (Cw i j a Hi Hj Ea) as (b & Eb & Hb). exists b. split; [auto|lra]. }
    destruct (mapM2_ok (fun i j => if negb (Qle_bool (node_y g j) 0) then eval s (to_st (node_x g i, node_y g j)) else Ok (mcell w i j)) n m) as (t & Et & St & Pt & Ct).
    { intros i j Hi Hj. destruct (negb _); [apply (eval_plain s k k); auto|]. destruct (Pw i j Hi Hj) as (a & Ea & H0). exists a. rewrite Ea. auto. }
    destruct (limit_array_range s2 se n m (g_dx g) gr t H2 He) as (f & Ef & Sf & Cf); try lra; try lia; auto.
    exists (finish g w crs), s, (fun i j => match mcell t i j with Fin a => a | _ => 0 end), (finish g f crs).
    assert (Q0 : Qle_bool 0 gr = true) by (apply Qle_bool_iff; auto). assert (Q1 : Qeq_bool (g_dx g) (g_dy g) = true) by (apply Qeq_bool_iff; auto).
    split. { unfold enforce_gradation. rewrite Q0, Q1. cbn [negb]. rewrite Nx, Ny, Ew. cbn [bind]. apply (finish_make g n m); auto. }
    split; [exact Es|].
    split. { unfold enforce_gradation. rewrite Q0, Q1. cbn [negb]. rewrite Nx, Ny, Ew. cbn [bind]. rewrite Es. cbn [bind]. unfold reinject. rewrite Nx, Ny, Et. cbn [bind]. rewrite Ef. cbn [bind]. apply (finish_make g n m); auto. }
    split; [apply finish_frame; auto|]. split; [apply tabulate_proper; auto|]. split; [exact Cs|].
    intros i j Hi Hj. destruct (Pt i j Hi Hj) as (a & Ea & H0). specialize (Ct i j Hi Hj). rewrite Ea in *.
    assert (Yj : node_y g j = y_of g j). { unfold node_y, y_of, node. rewrite (Qabs_eq (g_dy g)); auto. }
    rewrite Yj in Ct. change (node_x g i) with (x_of g i) in Ct.
    split; [|split].
    - intros Hj0. rewrite (proj2 (Qle_bool_iff _ _) Hj0) in Ct. cbn [negb] in Ct. rewrite value_cell, finish_values by auto. congruence.
    - intros Hj0. assert (X : Qle_bool (y_of g j) 0 = false). { apply not_true_iff_false. intros X. apply Qle_bool_iff in X. lra. }
      rewrite X in Ct. exact Ct.
    - destruct (Cf i j a Hi Hj Ea) as (b & Eb & Hb). exists b. split; auto. unfold size_at. rewrite value_cell, finish_values; auto.
  Qed.
End Stereo.

(** * Statements and cases *)
Lemma G_graded s2 se pi_d to_ll to_st g n m gr crs g' lo l f : 1 <= s2 -> 0 <= se -> size_field g n m -> ~ global_box (g_bbox g) -> 0 <= gr ->
  listed g n m l -> gradient_limit_flag s2 se n m 1 (g_dx g) gr (N.to_nat 10000) l = Ok (f, true) ->
  enforce_gradation s2 se pi_d to_ll to_st g gr crs false = Ok g' -> smallest_size g n m lo ->
  graded g' n m (g_dx g * gr + lo * se) /\ rate_bounded g' n m (gr + lo * se / g_dx g).
Proof.
  intros H2 He Hf Hg Hgr Hl Ef Eg Hlo. assert (Hs : settles s2 se g n m gr) by (exists l, f; auto). split.
  - eapply enforce_graded; eauto.
  - eapply enforce_rate; eauto.
Qed.
Lemma eval_outside g n m q : proper_grid g n m -> plain_sizes g -> ~ covered g n m q -> eval g q = Ok (Fin 999999).
Proof.
  intros Hp [Hf _] Hc. destruct q as [x y]. unfold eval. rewrite Hf. cbn [fst snd]. unfold with_fill.
  destruct (out_of_grid g x y) eqn:E; auto. exfalso. apply Hc. apply (covered_iff g n m x y Hp). auto.
Qed.
Lemma G_stereo s2 se pi_d to_ll to_st g n m gr crs : 1 <= s2 -> 0 <= se -> size_field g n m -> ~ global_box (g_bbox g) -> plain_sizes g -> 0 <= gr ->
  let d := (g_dx g / 180 * pi_d / 2)%Q in 0 < d -> d < 2 ->
  exists g0 s k h g', enforce_gradation s2 se pi_d to_ll to_st g gr crs false = Ok g0 /\
    enforce_gradation s2 se pi_d to_ll to_st g gr crs true = Ok g' /\ same_frame g g' /\ proper_grid g' n m /\
    proper_grid s k k /\ g_bbox s = (-1, 1, -1, 1) /\ g_dx s = d /\
    (forall i j, (i < k)%nat -> (j < k)%nat -> exists a b, eval g (to_ll (x_of s i, y_of s j)) = Ok (Fin a) /\ size_at s i j b /\ 0 <= b <= a) /\
    (forall i j, (i < n)%nat -> (j < m)%nat ->
       (y_of g j <= 0 -> size_at g0 i j (h i j)) /\
       (0 < y_of g j -> eval s (to_st (x_of g i, y_of g j)) = Ok (Fin (h i j))) /\
       (0 < y_of g j -> ~ covered s k k (to_st (x_of g i, y_of g j)) -> h i j = 999999) /\
       exists b, size_at g' i j b /\ 0 <= b <= h i j).
Proof.
  intros H2 He Hf Hg Hpl Hgr d Hd0 Hd2.
  destruct (stereo_grid_ok s2 se pi_d to_ll H2 He g n m crs Hf Hpl Hd0 Hd2) as (s' & Es' & Ps & Pls & Bs & Xs & _).
  destruct (enforce_stereo s2 se pi_d to_ll to_st H2 He g n m gr crs Hf Hg Hpl Hgr Hd0 Hd2) as (g0 & s & h & g' & E0 & Es & E1 & F & P & C & R).
  rewrite Es in Es'. injection Es' as <-. exists g0, s, (arange_len (stereo_step pi_d g)), h, g'.
  split; [auto|]. split; [auto|]. split; [auto|]. split; [auto|]. split; [auto|]. split; [auto|]. split; [auto|]. split; [auto|].
  intros i j Hi Hj. destruct (R i j Hi Hj) as (A & B & D). split; [exact A|]. split; [exact B|]. split; [|exact D].
  intros Hy Hc. specialize (B Hy). rewrite (eval_outside s _ _ _ Ps Pls Hc) in B. congruence.
Qed.

(** A bumpy regional field: 3 x 2 nodes, spacing 100. *)
Definition bump_grid : grid := {| g_bbox := (0, 200, 0, 100); g_dx := 100; g_dy := 100;
  g_values := [[Fin 10; Fin 40]; [Fin 90; Fin 12]; [Fin 30; Fin 500]]; g_hmin := Some (Fin 10); g_extra := false; g_crs := 18; g_fill := Some (Some (Fin 999999)) |}.
Lemma bump_field : size_field bump_grid 3 2 /\ ~ global_box (g_bbox bump_grid) /\ plain_sizes bump_grid /\ smallest_size bump_grid 3 2 10.
Proof.
  split; [|split; [|split]].
  - split; [split; [split; [reflexivity|repeat constructor]|repeat split; cbn; lia || reflexivity]|]. split; [reflexivity|].
    intros i j Hi Hj. destruct i as [|[|[|]]]; try lia; destruct j as [|[|]]; try lia; eexists; (split; [reflexivity|discriminate]).
  - intros [A _]. discriminate.
  - split; reflexivity.
  - split; [exists 0%nat, 0%nat; repeat split; lia|]. intros i j a Hi Hj Ha.
    destruct i as [|[|[|]]]; try lia; destruct j as [|[|]]; try lia; injection Ha as <-; discriminate.
Qed.
Definition bump_list : list Q := [10; 90; 30; 40; 12; 500].
Definition bump_out : list Q := match gradient_limit sqrt2_d sqrt_eps_d 3 2 1 100 (1 # 10) (N.to_nat 10000) bump_list with Ok f => f | _ => [] end.
Lemma bump_listed : listed bump_grid 3 2 bump_list /\
  gradient_limit_flag sqrt2_d sqrt_eps_d 3 2 1 100 (1 # 10) (N.to_nat 10000) bump_list = Ok (bump_out, true).
Proof.
  split.
  - split; [reflexivity|]. intros i j Hi Hj. destruct i as [|[|[|]]]; try lia; destruct j as [|[|]]; try lia; reflexivity.
  - vm_compute. reflexivity.
Qed.
Lemma bump_sizes pi_d to_ll to_st : exists g', enforce_gradation sqrt2_d sqrt_eps_d pi_d to_ll to_st bump_grid (1 # 10) default_crs false = Ok g' /\
  exists a, size_at g' 2 1 a /\ a == 22 /\ g_crs g' <> g_crs bump_grid.
Proof.
  eexists. split; [vm_compute; reflexivity|]. eexists. split; [vm_compute; reflexivity|]. split; [reflexivity|discriminate].
Qed.

(** The same on a box around the globe. *)
Definition globe_grid : grid := {| g_bbox := (-180, 180, -60, 60); g_dx := 120; g_dy := 120;
  g_values := [[Fin 10; Fin 10]; [Fin 400; Fin 400]; [Fin 700; Fin 700]; [Fin 999; Fin 999]]; g_hmin := Some (Fin 10); g_extra := false; g_crs := 1; g_fill := Some (Some (Fin 999999)) |}.
Lemma globe_field : size_field globe_grid 4 2 /\ smallest_size globe_grid 4 2 10.
Proof.
  split.
  - split; [split; [split; [reflexivity|repeat constructor]|repeat split; cbn; lia || reflexivity]|]. split; [reflexivity|].
    intros i j Hi Hj. destruct i as [|[|[|[|]]]]; try lia; destruct j as [|[|]]; try lia; eexists; (split; [reflexivity|discriminate]).
  - split; [exists 0%nat, 0%nat; repeat split; lia|]. intros i j a Hi Hj Ha.
    destruct i as [|[|[|[|]]]]; try lia; destruct j as [|[|]]; try lia; injection Ha as <-; discriminate.
Qed.
Definition globe_list : list Q := [10; 400; 700; 999; 10; 400; 700; 999].
Lemma globe_refuted pi_d to_ll to_st : exists g n m gr g' lo l f, size_field g n m /\ 0 < gr /\ listed g n m l /\
  gradient_limit_flag sqrt2_d sqrt_eps_d n m 1 (g_dx g) gr (N.to_nat 10000) l = Ok (f, true) /\
  enforce_gradation sqrt2_d sqrt_eps_d pi_d to_ll to_st g gr default_crs false = Ok g' /\ smallest_size g n m lo /\
  ~ graded g' n m (g_dx g * gr + lo * sqrt_eps_d) /\
  exists i j a b, (i < n)%nat /\ (j < m)%nat /\ size_at g i j a /\ size_at g' i j b /\ a < b.
Proof.
  destruct globe_field as [A B].
  eexists globe_grid, 4%nat, 2%nat, (1 # 4), _, 10, globe_list, _. split; [exact A|]. split; [reflexivity|].
  split. { split; [reflexivity|]. intros i j Hi Hj. destruct i as [|[|[|[|]]]]; try lia; destruct j as [|[|]]; try lia; reflexivity. }
  split; [vm_compute; reflexivity|]. split; [vm_compute; reflexivity|]. split; [exact B|]. split.
  - intros G. specialize (G 0 0 1 0 _ _ ltac:(lia) ltac:(lia) ltac:(lia) ltac:(lia) eq_refl eq_refl eq_refl)%nat. vm_compute in G. apply G. reflexivity.
  - exists 0%nat, 0%nat. do 2 eexists. split; [lia|]. split; [lia|]. split; [reflexivity|]. split; [reflexivity|reflexivity].
Qed.
Lemma opposite_lt n i : (i < n)%nat -> (opposite n i < n)%nat.
Proof. unfold opposite. intros. destruct (Nat.eqb_spec i 0), (Nat.eqb_spec i (n - 1)); lia. Qed.
Lemma enforce_global s2 se pi_d to_ll to_st : 1 <= s2 -> 0 <= se -> forall g n m gr crs, size_field g n m -> global_box (g_bbox g) -> 0 <= gr ->
  exists g', enforce_gradation s2 se pi_d to_ll to_st g gr crs false = Ok g' /\ same_frame g g' /\ proper_grid g' n m /\
    forall i j a, (i < n)%nat -> (j < m)%nat -> size_at g (opposite n i) j a ->
      exists b, size_at g' i j b /\ b <= a /\ (forall lo, smallest_size g n m lo -> lo <= b).
Proof.
  intros H2 He g n m gr crs Hf Hg Hgr. destruct (size_field_listed g n m Hf) as (l & Hl & Hsg).
  pose proof Hf as (Hp & E & Hc). pose proof Hp as (Hs & Hn & Hm & Hx & Hy).
  destruct (T_range s2 se (g_dx g) gr n m 1%nat l (N.to_nat 10000) H2 He ltac:(lra) Hgr Hsg) as (f & Ef & L & R).
  exists (finish g (reshape_F n m f) crs). split.
  { rewrite (enforce_listed s2 se pi_d to_ll to_st g n m gr crs l); auto. rewrite Ef. reflexivity. }
  split; [apply finish_frame; auto|]. split; [apply tabulate_proper; auto; apply tabulate_shape|].
  intros i j a Hi Hj Ha. pose proof (opposite_lt n i Hi) as Ho. exists (nth (pos n m (opposite n i) j 0) f 0). split.
  { unfold size_at. rewrite value_cell. unfold finish. rewrite build_values.
    match goal with |- context [is_global ?x] => assert (Eg : is_global x = true) by (apply is_global_iff; exact Hg) end.
    rewrite Eg. cbn [g_values]. unfold M_Grid.cell.
    assert (Ln : length (reshape_F n m f) = n) by apply tabulate_shape.
    rewrite swap_ends_nth by lia. rewrite Ln. fold (opposite n i). apply reshape_cell; auto. }
  destruct Hl as [L' N]. pose proof (N _ j Ho Hj) as Na. unfold size_at in *. rewrite Ha in Na. injection Na as ->.
  assert (Hpos : (pos n m (opposite n i) j 0 < length l)%nat) by (rewrite L'; apply pos_lt; auto).
  split.
  - destruct (smallest_size_exists g n m Hf) as [lo Hlo].
    apply (listed_smallest g n m l) in Hlo; [|lia|split; auto]. apply (R lo Hlo _ Hpos).
  - intros lo Hlo. apply (listed_smallest g n m l) in Hlo; [|lia|split; auto]. apply (R lo Hlo _ Hpos).
Qed.
Lemma crs_refuted pi_d to_ll to_st : exists g g',
  enforce_gradation sqrt2_d sqrt_eps_d pi_d to_ll to_st g (1 # 10) default_crs false = Ok g' /\ g_crs g' <> g_crs g.
Proof. destruct (bump_sizes pi_d to_ll to_st) as (g' & E & a & _ & _ & N). exists bump_grid, g'. auto. Qed.
Lemma crs_given s2 se pi_d to_ll to_st g gr crs st g' : enforce_gradation s2 se pi_d to_ll to_st g gr crs st = Ok g' -> g_crs g' = crs.
Proof.
  unfold enforce_gradation. destruct (negb _); [discriminate|]. destruct (negb _); [discriminate|].
  destruct (limit_array _ _ _ _ _ _ _); try discriminate. cbn [bind].
  destruct (if st then _ else _) as [t| |]; try discriminate. cbn [bind]. unfold make_grid. destruct (_ || _); try discriminate. cbn [bind].
  intros E. injection E as <-. match goal with |- g_crs (build_interpolant ?x) = _ => destruct (build_fields x) as (_ & _ & _ & _ & F) end. exact F.
Qed.
