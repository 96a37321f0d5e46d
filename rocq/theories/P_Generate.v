(** Proofs about the mesh generation loop. *)
From Coq Require Import List Arith Bool ZArith QArith Qabs Permutation Lia Lqa.
From Verif Require Import M_Base M_Numpy M_Edges M_FixMesh M_Clean M_Generate S_FixMesh S_Clean S_Generate.
From Verif Require Import Util P_FixMesh P_Exterior P_Laplacian.
Import ListNotations.
Open Scope Q_scope.

Lemma Qlt_bool_iff a b : Qlt_bool a b = true <-> a < b.
Proof.
  unfold Qlt_bool. rewrite negb_true_iff. split; intros H.
  - apply Qnot_le_lt. intros Hc. apply Qle_bool_iff in Hc. congruence.
  - destruct (Qle_bool b a) eqn:E; auto. apply Qle_bool_iff in E. lra.
Qed.
Lemma Qlt_bool_false a b : Qlt_bool a b = false <-> b <= a.
Proof.
  unfold Qlt_bool. rewrite negb_false_iff. apply Qle_bool_iff.
Qed.

Lemma get_ok {A} (l : list A) i x d : get l i = Ok x -> (i < length l)%nat /\ nth i l d = x.
Proof.
  unfold get. destruct (nth_error l i) eqn:E; [|discriminate]. intros H. assert (a = x) by congruence. subst.
  split; [apply nth_error_Some; congruence|]. now apply nth_error_nth.
Qed.

Lemma mapM_map {A B} (f : A -> res B) (g : A -> B) l l' : (forall x y, f x = Ok y -> y = g x) ->
  mapM f l = Ok l' -> l' = map g l.
Proof.
  intros Hf. revert l'. induction l as [|x l IH]; simpl; intros l' H; [congruence|].
  destruct (f x) eqn:E; simpl in H; try discriminate. destruct (mapM f l) eqn:E2; simpl in H; try discriminate.
  rewrite <- (IH _ eq_refl), <- (Hf _ _ E). congruence.
Qed.

Lemma centroid_centre p t x : centroid p t = Ok x -> x = centre p t /\ in_range (length p) t.
Proof.
  destruct t as [[a b] c]. unfold centroid, centre, in_range, corners. intros H.
  destruct (get p a) eqn:Ea; simpl in H; try discriminate. destruct (get p b) eqn:Eb; simpl in H; try discriminate.
  destruct (get p c) eqn:Ec; simpl in H; try discriminate.
  apply (get_ok _ _ _ (0, 0)) in Ea. apply (get_ok _ _ _ (0, 0)) in Eb. apply (get_ok _ _ _ (0, 0)) in Ec.
  destruct Ea as [? ->], Eb as [? ->], Ec as [? ->]. split; [congruence|]. repeat constructor; assumption.
Qed.

Lemma mapM_all {A B} (f : A -> res B) l l' x : mapM f l = Ok l' -> In x l -> exists y, f x = Ok y.
Proof.
  revert l'. induction l as [|a l IH]; simpl; intros l' H; [contradiction|].
  destruct (f a) eqn:E; simpl in H; try discriminate. destruct (mapM f l) eqn:E2; simpl in H; try discriminate.
  intros [<-|Hin]; eauto.
Qed.

Lemma remove_outside_spec fd f p t geps t' : pointwise fd f ->
  remove_triangles_outside p t fd geps = Ok t' ->
  Forall (in_range (length p)) t /\ t' = filter (fun s => Qlt_bool (f (centre p s)) (- geps)) t.
Proof.
  intros Hp H. unfold remove_triangles_outside in H.
  destruct (mapM (centroid p) t) as [pm| |] eqn:E; simpl in H; try discriminate.
  destruct (fd pm) as [d| |] eqn:Ed; simpl in H; try discriminate.
  assert (Hr : Forall (in_range (length p)) t).
  { apply Forall_forall. intros s Hs. destruct (mapM_all _ _ _ _ E Hs) as [y Hy]. now apply centroid_centre in Hy. }
  split; [exact Hr|].
  apply (mapM_map _ (centre p)) in E; [|intros x y Hxy; now apply centroid_centre in Hxy].
  apply Hp in Ed. subst pm d. unfold bool_index in H. rewrite !map_length, Nat.eqb_refl in H.
  assert (t' = take_mask t (map (fun v => Qlt_bool v (- geps)) (map f (map (centre p) t)))) by congruence. subst t'.
  rewrite !map_map. clear. unfold take_mask. induction t as [|s t IH]; simpl; auto.
  destruct (Qlt_bool (f (centre p s)) (- geps)); simpl; now rewrite IH.
Qed.

(** * place_fixed *)
Lemma upd_length {A} (l : list A) i v : length (upd l i v) = length l.
Proof. revert i. induction l as [|x l IH]; intros [|i]; simpl; auto. Qed.
Lemma nth_upd {A} (l : list A) i j v d : (i < length l)%nat -> nth j (upd l i v) d = if (j =? i)%nat then v else nth j l d.
Proof.
  revert i j. induction l as [|x l IH]; intros [|i] [|j] H; simpl in *; try lia; auto. apply IH. lia.
Qed.
Lemma argmin_lt l i : argmin l = Ok i -> l <> [].
Proof. destruct l; [discriminate|congruence]. Qed.
Lemma closest_node_spec x p i : closest_node x p = Ok i -> p <> [] /\ closest x p i.
Proof.
  intros H. assert (Hne : p <> []). { intros ->. discriminate. }
  destruct (closest_node_ok x p Hne) as (j & Hj & Hc). split; auto. congruence.
Qed.

(** What is at position [j] after the fixed points were placed: the last one placed there. *)
Lemma place_fixed_spec pfix : forall p p' inds, place_fixed pfix p = Ok (p', inds) ->
  length p' = length p /\ length inds = length pfix /\ Forall (fun i => (i < length p)%nat) inds /\
  (forall j, ~ In j inds -> nth j p' (0, 0) = nth j p (0, 0)) /\
  (forall k, (k < length pfix)%nat -> (forall l, (k < l < length pfix)%nat -> nth l inds 0%nat <> nth k inds 0%nat) ->
     nth (nth k inds 0%nat) p' (0, 0) = nth k pfix (0, 0)) /\
  (forall y, In y p' -> In y p \/ In y pfix).
Proof.
  induction pfix as [|x r IH]; intros p p' inds H.
  - cbn in H. assert (p' = p /\ inds = []) as [-> ->] by (split; congruence). repeat split; auto. intros k Hk; simpl in Hk; lia.
  - cbn [place_fixed] in H. destruct (closest_node x p) as [i| |] eqn:Ei; cbn [bind] in H; try discriminate.
    destruct (place_fixed r (upd p i x)) as [[q is]| |] eqn:E; cbn [bind] in H; try discriminate.
    assert (p' = q /\ inds = i :: is) as [-> ->] by (split; simpl in H; congruence).
    destruct (IH _ _ _ E) as (H1 & H2 & H3 & H4 & H5 & H6). rewrite upd_length in H1.
    apply closest_node_spec in Ei. destruct Ei as [_ [Hi _]].
    split; [exact H1|]. split; [simpl; lia|]. split.
    { constructor; auto. eapply Forall_impl; [|exact H3]. intros a Ha. now rewrite upd_length in Ha. }
    split.
    { intros j Hj. rewrite H4 by (intros Hc; apply Hj; now right). rewrite nth_upd by exact Hi.
      destruct (Nat.eqb_spec j i) as [->|]; auto. exfalso. apply Hj. now left. }
    split.
    { intros [|k] Hk Hl; simpl nth.
      - assert (Hn : ~ In i is).
        { intros Hin. apply (In_nth _ _ 0%nat) in Hin. destruct Hin as (l & Hl1 & Hl2).
          apply (Hl (S l)); [simpl; lia|]. simpl. exact Hl2. }
        rewrite H4 by exact Hn. rewrite nth_upd by exact Hi. now rewrite Nat.eqb_refl.
      - apply H5; [simpl in Hk; lia|]. intros l Hlr. apply (Hl (S l)). simpl. lia. }
    { intros y Hy. apply H6 in Hy. destruct Hy as [Hy|Hy]; [|right; now right].
      apply (In_nth _ _ (0, 0)) in Hy. destruct Hy as (j & Hj & <-). rewrite upd_length in Hj.
      rewrite nth_upd by exact Hi. destruct (j =? i)%nat; [right; now left|left; now apply nth_In]. }
Qed.

Lemma place_fixed_at pfix p p' inds j : place_fixed pfix p = Ok (p', inds) -> In j inds -> In (nth j p' (0, 0)) pfix.
Proof.
  revert p p' inds. induction pfix as [|x r IH]; intros p p' inds H Hj.
  - cbn in H. assert (inds = []) by congruence. subst. contradiction.
  - cbn [place_fixed] in H. destruct (closest_node x p) as [i| |] eqn:Ei; cbn [bind] in H; try discriminate.
    destruct (place_fixed r (upd p i x)) as [[q is]| |] eqn:E; cbn [bind] in H; try discriminate.
    assert (p' = q /\ inds = i :: is) as [-> ->] by (split; simpl in H; congruence).
    destruct (in_dec Nat.eq_dec j is) as [Hin|Hout]; [right; eapply IH; eauto|].
    destruct Hj as [->|Hj]; [|contradiction]. left.
    destruct (place_fixed_spec _ _ _ _ E) as (_ & _ & _ & H4 & _). rewrite H4 by exact Hout.
    apply closest_node_spec in Ei. destruct Ei as [_ [Hi _]]. rewrite nth_upd by exact Hi. now rewrite Nat.eqb_refl.
Qed.

(** Distinct places: every fixed point is there. *)
Lemma place_fixed_distinct pfix p p' inds : place_fixed pfix p = Ok (p', inds) -> NoDup inds -> incl pfix p'.
Proof.
  intros H Hn x Hx. destruct (place_fixed_spec _ _ _ _ H) as (H1 & H2 & H3 & _ & H5 & _).
  apply (In_nth _ _ (0, 0)) in Hx. destruct Hx as (k & Hk & <-).
  rewrite <- (H5 k Hk).
  - apply nth_In. rewrite H1. rewrite Forall_forall in H3. apply H3. apply nth_In. lia.
  - intros l Hl Hc. rewrite NoDup_nth with (d := 0%nat) in Hn. assert (l = k) by (apply Hn; try lia; exact Hc). lia.
Qed.

(** [same_point] on arrays. *)
Definition same_points := Forall2 same_point.
Lemma same_point_refl a : same_point a a.
Proof. split; reflexivity. Qed.
Lemma same_point_sym a b : same_point a b -> same_point b a.
Proof. intros [H1 H2]. split; symmetry; assumption. Qed.
Lemma same_point_trans a b c : same_point a b -> same_point b c -> same_point a c.
Proof. intros [H1 H2] [H3 H4]. split; etransitivity; eauto. Qed.

Lemma dist2_zero x y : dist2 x y <= 0 -> same_point y x.
Proof.
  destruct x as [a b], y as [c d]. unfold dist2, same_point; simpl. intros H.
  assert (Hsq : forall u, 0 <= u * u).
  { intros u. destruct (Qlt_le_dec u 0); [setoid_replace (u * u) with ((- u) * (- u)) by ring|]; apply Qmult_le_0_compat; lra. }
  pose proof (Hsq (a - c)) as Ha. pose proof (Hsq (b - d)) as Hb.
  assert ((a - c) * (a - c) == 0) as H1 by lra. assert ((b - d) * (b - d) == 0) as H2 by lra.
  apply Qmult_integral in H1. apply Qmult_integral in H2. split; destruct H1, H2; lra.
Qed.
Lemma dist2_same x y : same_point y x -> dist2 x y == 0.
Proof. destruct x, y. unfold dist2, same_point; simpl. intros [-> ->]. ring. Qed.

(** When every fixed point is already a point, placing them changes no coordinates, and each fixed
    point sits at one of the returned positions. *)
Lemma place_fixed_present pfix : forall p p' inds, (forall x, In x pfix -> has p x) ->
  place_fixed pfix p = Ok (p', inds) ->
  (forall j, same_point (nth j p' (0, 0)) (nth j p (0, 0))) /\
  (forall x, In x pfix -> exists i, In i inds /\ same_point (nth i p' (0, 0)) x).
Proof.
  induction pfix as [|x r IH]; intros p p' inds Hall H.
  - cbn in H. assert (p' = p) by congruence. subst. split; [intros; apply same_point_refl|contradiction].
  - cbn [place_fixed] in H. destruct (closest_node x p) as [i| |] eqn:Ei; cbn [bind] in H; try discriminate.
    destruct (place_fixed r (upd p i x)) as [[q is]| |] eqn:E; cbn [bind] in H; try discriminate.
    assert (p' = q /\ inds = i :: is) as [-> ->] by (split; simpl in H; congruence).
    apply closest_node_spec in Ei. destruct Ei as [_ [Hi Hc]].
    assert (Hx : same_point (nth i p (0, 0)) x).
    { destruct (Hall x) as (y & Hy & Hs); [now left|]. apply (In_nth _ _ (0, 0)) in Hy. destruct Hy as (j & Hj & <-).
      apply dist2_zero. eapply Qle_trans; [apply (Hc j Hj)|]. rewrite (dist2_same _ _ Hs). apply Qle_refl. }
    assert (Hu : forall j, same_point (nth j (upd p i x) (0, 0)) (nth j p (0, 0))).
    { intros j. rewrite nth_upd by exact Hi. destruct (Nat.eqb_spec j i) as [->|]; [now apply same_point_sym|apply same_point_refl]. }
    destruct (IH (upd p i x) q is) as [I1 I2]; auto.
    { intros y Hy. destruct (Hall y) as (z & Hz & Hs); [now right|]. apply (In_nth _ _ (0, 0)) in Hz. destruct Hz as (j & Hj & <-).
      exists (nth j (upd p i x) (0, 0)). split; [apply nth_In; now rewrite upd_length|]. eapply same_point_trans; eauto. }
    split.
    + intros j. eapply same_point_trans; eauto.
    + intros y [<-|Hy].
      * exists i. split; [now left|]. eapply same_point_trans; [apply I1|]. rewrite nth_upd by exact Hi. rewrite Nat.eqb_refl. apply same_point_refl.
      * destruct (I2 y Hy) as (k & Hk & Hs). exists k. split; [now right|exact Hs].
Qed.

(** * move *)
Lemma nth_map_seq {A} (g : nat -> A) n i d : (i < n)%nat -> nth i (map g (seq 0 n)) d = g i.
Proof.
  intros H. rewrite nth_indep with (d' := g 0%nat) by (now rewrite map_length, seq_length).
  rewrite map_nth. rewrite seq_nth by exact H. reflexivity.
Qed.
Lemma move_spec dt p F fixed p' : move dt p F fixed = Ok p' ->
  length p' = length p /\
  (forall i, (i < length p)%nat -> In i fixed -> same_point (nth i p' (0, 0)) (nth i p (0, 0))) /\
  (forall i, (i < length p)%nat -> ~ In i fixed -> nth i p' (0, 0) =
     (fst (nth i p (0, 0)) + dt * fst (nth i F (0, 0)), snd (nth i p (0, 0)) + dt * snd (nth i F (0, 0)))).
Proof.
  unfold move. destruct (length F =? length p); [|discriminate]. intros H.
  injection H as <-. rewrite map_length, seq_length. split; [reflexivity|].
  split; intros i Hi Hf; rewrite nth_map_seq by exact Hi.
  - assert (existsb (Nat.eqb i) fixed = true) as ->. { apply existsb_exists. exists i. split; auto. apply Nat.eqb_refl. }
    unfold padd, same_point; simpl. split; ring.
  - assert (existsb (Nat.eqb i) fixed = false) as ->.
    { destruct (existsb (Nat.eqb i) fixed) eqn:E; auto. apply existsb_exists in E. destruct E as (k & Hk & Ek).
      apply Nat.eqb_eq in Ek. subst. contradiction. }
    reflexivity.
Qed.

(** * projection *)
(** Position by position: a point with f <= 0 stays, the others move by their own difference quotient. *)
Definition grad (f : Q * Q -> Q) (deps : Q) (x : Q * Q) : Q * Q :=
  ((f (padd x (deps, 0)) - f x) / deps, (f (padd x (0, deps)) - f x) / deps).

Lemma put_mask_map {A} (l : list A) (b : A -> bool) (g : A -> A) :
  put_mask l (map b l) (map g (filter b l)) = map (fun x => if b x then g x else x) l.
Proof. induction l as [|x l IH]; simpl; auto. destruct (b x) eqn:E; simpl; now rewrite IH. Qed.

Lemma take_mask_filter {A B} (l : list A) (g : A -> B) (b : A -> bool) : take_mask (map g l) (map b l) = map g (filter b l).
Proof. unfold take_mask. induction l as [|x l IH]; simpl; auto. destruct (b x); simpl; now rewrite IH. Qed.
Lemma take_mask_filter0 {A} (l : list A) (b : A -> bool) : take_mask l (map b l) = filter b l.
Proof. rewrite <- (map_id (filter b l)), <- (map_id l) at 1. apply take_mask_filter. Qed.

Lemma combine_map2 {A B C} (g : A -> B) (h : A -> C) l : combine (map g l) (map h l) = map (fun x => (g x, h x)) l.
Proof. induction l; simpl; congruence. Qed.

Lemma dgrads_spec fd f deps p g : pointwise fd f ->
  let ix := map (fun x => Qlt_bool 0 (f x)) p in
  dgrads fd deps p (map f p) ix = Ok g ->
  g = (map (fun x => fst (grad f deps x)) (filter (fun x => Qlt_bool 0 (f x)) p),
       map (fun x => snd (grad f deps x)) (filter (fun x => Qlt_bool 0 (f x)) p)).
Proof.
  intros Hp ix H. unfold dgrads in H.
  assert (Hone : forall q i v, (let! w := fd (map (fun x => padd x (deps_vec deps i)) q) in diff_quot deps w (map f q)) = Ok v ->
            v = map (fun x => (f (padd x (deps_vec deps i)) - f x) / deps) q).
  { intros q i v Hv. destruct (fd (map (fun x => padd x (deps_vec deps i)) q)) as [w| |] eqn:E; simpl in Hv; try discriminate.
    apply Hp in E. subst w. unfold diff_quot in Hv. rewrite !map_length, Nat.eqb_refl in Hv.
    rewrite map_map, combine_map2, map_map in Hv. simpl in Hv. congruence. }
  assert (Hix : bool_index p ix = Ok (filter (fun x => Qlt_bool 0 (f x)) p)).
  { unfold bool_index, ix. rewrite map_length, Nat.eqb_refl. now rewrite take_mask_filter0. }
  rewrite Hix in H. cbn [bind] in H.
  assert (Htd : take_mask (map f p) ix = map f (filter (fun x => Qlt_bool 0 (f x)) p)) by (apply take_mask_filter).
  rewrite Htd in H.
  set (q := filter (fun x => Qlt_bool 0 (f x)) p) in *.
  destruct (let! g0 := (let! v := fd (map (fun x => padd x (deps_vec deps 0)) q) in diff_quot deps v (map f q)) in
            let! g1 := (let! v := fd (map (fun x => padd x (deps_vec deps 1)) q) in diff_quot deps v (map f q)) in Ok (g0, g1)) as [r|e|] eqn:E; cbn [try_value] in H.
  - assert (r = g) by congruence. subst r. clear H.
    destruct (let! v := fd (map (fun x => padd x (deps_vec deps 0)) q) in diff_quot deps v (map f q)) as [g0| |] eqn:E0; cbn [bind] in E; try discriminate.
    destruct (let! v := fd (map (fun x => padd x (deps_vec deps 1)) q) in diff_quot deps v (map f q)) as [g1| |] eqn:E1; cbn [bind] in E; try discriminate.
    apply Hone in E0. apply Hone in E1. subst g0 g1. injection E as <-. reflexivity.
  - destruct e; try discriminate.
    destruct (let! v := fd (map (fun x => padd x (deps_vec deps 0)) p) in diff_quot deps v (map f p)) as [g0| |] eqn:E0; cbn [bind] in H; try discriminate.
    destruct (let! v := fd (map (fun x => padd x (deps_vec deps 1)) p) in diff_quot deps v (map f p)) as [g1| |] eqn:E1; cbn [bind] in H; try discriminate.
    apply Hone in E0. apply Hone in E1. subst g0 g1. injection H as <-. unfold ix. rewrite !take_mask_filter. reflexivity.
  - discriminate.
Qed.

Lemma project_spec fd f deps p p' : pointwise fd f -> project_points_back p fd deps = Ok p' ->
  p' = map (fun x => if Qlt_bool 0 (f x) then move_back deps x (f x) (grad f deps x) else x) p.
Proof.
  intros Hp H. unfold project_points_back in H.
  destruct (fd p) as [d| |] eqn:Ed; cbn [bind] in H; try discriminate. apply Hp in Ed. subst d.
  rewrite map_map in H.
  destruct (existsb (fun b => b) (map (fun x => Qlt_bool 0 (f x)) p)) eqn:Ex.
  - destruct (dgrads fd deps p (map f p) (map (fun x => Qlt_bool 0 (f x)) p)) as [g| |] eqn:Eg; cbn [bind] in H; try discriminate.
    apply dgrads_spec in Eg; auto. subst g. unfold bool_index in H. rewrite map_length, Nat.eqb_refl in H. cbn [bind fst snd] in H.
    rewrite take_mask_filter0, take_mask_filter in H.
    set (q := filter (fun x => Qlt_bool 0 (f x)) p) in *.
    assert (E1 : combine q (map f q) = map (fun x => (x, f x)) q) by (rewrite <- (map_id q) at 1; apply combine_map2).
    rewrite E1, combine_map2, combine_map2, map_map in H. cbn [fst snd] in H.
    assert (E2 : put_mask p (map (fun x => Qlt_bool 0 (f x)) p) (map (fun x => move_back deps x (f x) (fst (grad f deps x), snd (grad f deps x))) q) = p') by congruence.
    rewrite <- E2. apply put_mask_map.
  - assert (p = p') by congruence. subst p'. clear H. induction p as [|x p IH]; simpl in *; auto.
    apply orb_false_iff in Ex. destruct Ex as [-> Ex]. f_equal. auto.
Qed.

Lemma nth_map_in {A B} (g : A -> B) l i d d' : (i < length l)%nat -> nth i (map g l) d = g (nth i l d').
Proof. revert i. induction l as [|x l IH]; intros [|i] H; simpl in *; try lia; auto. apply IH. lia. Qed.

(** Affine distance: the point lands on the zero line. *)
Lemma grad_affine a b c deps x : 0 < deps ->
  fst (grad (fun q => a * fst q + b * snd q + c) deps x) == a /\ snd (grad (fun q => a * fst q + b * snd q + c) deps x) == b.
Proof. intros H. destruct x as [u v]. unfold grad, padd; simpl. split; field; intros Hc; lra. Qed.

Lemma move_back_affine a b c deps x : 0 < deps -> deps <= a * a + b * b ->
  let f := fun q : Q * Q => a * fst q + b * snd q + c in
  f (move_back deps x (f x) (grad f deps x)) == 0.
Proof.
  intros Hd Hg f. unfold move_back.
  destruct (grad_affine a b c deps x Hd) as [G1 G2]. fold f in G1, G2.
  set (g1 := fst (grad f deps x)) in *. set (g2 := snd (grad f deps x)) in *.
  assert (E : Qlt_bool (g1 * g1 + g2 * g2) deps = false).
  { apply Qlt_bool_false. rewrite G1, G2. exact Hg. }
  cbv zeta. rewrite E. unfold f at 1. cbn [fst snd]. rewrite G1, G2. unfold f. field. intros Hc. lra.
Qed.

Lemma project_stays fd f deps p p' i : pointwise fd f -> project_points_back p fd deps = Ok p' ->
  length p' = length p /\ ((i < length p)%nat -> f (nth i p (0, 0)) <= 0 -> nth i p' (0, 0) = nth i p (0, 0)).
Proof.
  intros Hp H. apply (project_spec _ f) in H; auto. subst p'. split; [apply map_length|]. intros Hi Hf.
  rewrite (nth_map_in _ _ _ _ (0, 0)) by exact Hi. apply Qlt_bool_false in Hf. now rewrite Hf.
Qed.

Lemma project_affine fd a b c deps p p' : 0 < deps -> deps <= a * a + b * b ->
  let f := fun q : Q * Q => a * fst q + b * snd q + c in
  pointwise fd f -> project_points_back p fd deps = Ok p' ->
  length p' = length p /\
  (forall i, (i < length p)%nat -> f (nth i p (0, 0)) <= 0 -> nth i p' (0, 0) = nth i p (0, 0)) /\
  (forall i, (i < length p)%nat -> 0 < f (nth i p (0, 0)) -> f (nth i p' (0, 0)) == 0).
Proof.
  intros Hd Hg f Hp H. destruct (project_stays fd f deps p p' 0 Hp H) as [Hl _]. split; [exact Hl|].
  split; [intros i; now apply (project_stays fd f deps p p' i Hp H)|].
  intros i Hi Hf. apply (project_spec _ f) in H; auto. subst p'.
  rewrite (nth_map_in _ _ _ _ (0, 0)) by exact Hi. apply Qlt_bool_iff in Hf. rewrite Hf. apply move_back_affine; assumption.
Qed.

Lemma exists_extent (p : list (Q * Q)) : exists e, extent_at_most p e.
Proof.
  assert (Hb : exists B, forall a, In a p -> Qabs (fst a) <= B /\ Qabs (snd a) <= B).
  { induction p as [|x p [B HB]]; [exists 0; contradiction|].
    exists (Qabs B + Qabs (fst x) + Qabs (snd x)).
    pose proof (Qabs_nonneg B). pose proof (Qabs_nonneg (fst x)). pose proof (Qabs_nonneg (snd x)). pose proof (Qle_Qabs B).
    intros a [<-|Ha]; [split; lra|]. apply HB in Ha. destruct Ha. split; lra. }
  destruct Hb as [B HB]. exists (2 * B). intros a b Ha Hb. apply HB in Ha. apply HB in Hb. destruct Ha as [A1 A2], Hb as [B1 B2].
  apply Qabs_Qle_condition in A1. apply Qabs_Qle_condition in A2. apply Qabs_Qle_condition in B1. apply Qabs_Qle_condition in B2. split; lra.
Qed.

Lemma near_add d a b c a' b' c' : Qabs (a - a') <= d -> Qabs (b - b') <= d -> Qabs (c - c') <= d ->
  Qabs ((a' + b' + c') / 3 - (a + b + c) / 3) <= d.
Proof.
  intros H1 H2 H3. apply Qabs_Qle_condition in H1. apply Qabs_Qle_condition in H2. apply Qabs_Qle_condition in H3.
  apply Qabs_Qle_condition.
  setoid_replace ((a' + b' + c') / 3 - (a + b + c) / 3) with (((a' - a) + (b' - b) + (c' - c)) * (1 # 3)) by field. split; lra.
Qed.

Lemma perm3 {A} (a b c x y z : A) : Permutation [a; b; c] [x; y; z] ->
  In (a, b, c) [(x, y, z); (x, z, y); (y, x, z); (y, z, x); (z, x, y); (z, y, x)].
Proof.
  intros H. assert (Ha : In a [x; y; z]) by (eapply Permutation_in; [exact H|now left]).
  simpl in Ha. destruct Ha as [<-|[<-|[<-|[]]]].
  - apply Permutation_cons_inv in H. assert (Hb : In b [y; z]) by (eapply Permutation_in; [exact H|now left]).
    simpl in Hb. destruct Hb as [<-|[<-|[]]].
    + apply Permutation_cons_inv in H. apply Permutation_length_1 in H. subst. simpl. auto.
    + assert (H' : Permutation [z; c] [z; y]) by (eapply Permutation_trans; [exact H|apply perm_swap]).
      apply Permutation_cons_inv in H'. apply Permutation_length_1 in H'. subst. simpl. auto.
  - assert (H0 : Permutation [y; b; c] [y; x; z]) by (eapply Permutation_trans; [exact H|apply perm_swap]). clear H.
    apply Permutation_cons_inv in H0. assert (Hb : In b [x; z]) by (eapply Permutation_in; [exact H0|now left]).
    simpl in Hb. destruct Hb as [<-|[<-|[]]].
    + apply Permutation_cons_inv in H0. apply Permutation_length_1 in H0. subst. simpl. auto.
    + assert (H' : Permutation [z; c] [z; x]) by (eapply Permutation_trans; [exact H0|apply perm_swap]).
      apply Permutation_cons_inv in H'. apply Permutation_length_1 in H'. subst. simpl. auto.
  - assert (H0 : Permutation [z; b; c] [z; x; y]).
    { eapply Permutation_trans; [exact H|]. apply Permutation_sym. apply (Permutation_cons_append [x; y] z). }
    clear H. apply Permutation_cons_inv in H0. assert (Hb : In b [x; y]) by (eapply Permutation_in; [exact H0|now left]).
    simpl in Hb. destruct Hb as [<-|[<-|[]]].
    + apply Permutation_cons_inv in H0. apply Permutation_length_1 in H0. subst. simpl. tauto.
    + assert (H' : Permutation [y; c] [y; x]) by (eapply Permutation_trans; [exact H0|apply perm_swap]).
      apply Permutation_cons_inv in H'. apply Permutation_length_1 in H'. subst. simpl. tauto.
Qed.

(** A renumbering that moves no corner by more than [d] moves no centroid by more. *)
Lemma centre_near p1 p' m t s d :
  (forall i, In i (corners t) -> near d (nth i p1 (0, 0)) (nth (m i) p' (0, 0))) ->
  Permutation (map m (corners t)) (corners s) -> near d (centre p' s) (centre p1 t).
Proof.
  destruct t as [[a b] c], s as [[x y] z]. cbn [corners map]. intros Hn Hperm.
  assert (Ha : near d (nth a p1 (0, 0)) (nth (m a) p' (0, 0))) by (apply Hn; simpl; auto).
  assert (Hb : near d (nth b p1 (0, 0)) (nth (m b) p' (0, 0))) by (apply Hn; simpl; auto).
  assert (Hc : near d (nth c p1 (0, 0)) (nth (m c) p' (0, 0))) by (apply Hn; simpl; auto).
  assert (Hm : near d (centre p' (m a, m b, m c)) (centre p1 (a, b, c))).
  { destruct Ha as [a1 a2], Hb as [b1 b2], Hc as [c1 c2]. unfold centre, near; cbn [fst snd]. split; apply near_add; assumption. }
  assert (Hs : same_point (centre p' (x, y, z)) (centre p' (m a, m b, m c))).
  { apply perm3 in Hperm. unfold centre, same_point. cbn [fst snd].
    simpl in Hperm. decompose [or] Hperm; try contradiction;
      match goal with H : (_, _, _) = (m a, m b, m c) |- _ => injection H as <- <- <- end; split; field. }
  destruct Hs as [S1 S2], Hm as [M1 M2]. unfold near. rewrite S1, S2. split; assumption.
Qed.

(** * The loop *)
Section Loop.
  Variable triangulate : nat -> list point -> res (list point * list tri).
  Variable fd : dfun.
  Variable forces : list point -> list tri -> res (list point).
  Variable kleb : Z * Z -> Z * Z -> bool.
  Variables (geps deps dt : Q) (pfix : list point) (lock : bool).
  Notation tstep := (topology_step triangulate fd geps pfix lock).
  Notation mstep := (move_step fd forces deps dt).
  Notation loop := (mesh_loop triangulate fd forces kleb geps deps dt pfix lock).
  Notation gen := (generate_mesh triangulate fd forces kleb geps deps dt pfix lock).

  Lemma loop_last (Inv : nat -> list point -> Prop) :
    (forall k q p1 t fixed q', Inv k q -> tstep k q = Ok (p1, t, fixed) -> mstep p1 t fixed = Ok q' -> Inv (S k) q') ->
    forall n count p p' t', Inv count p -> loop n count p = Ok (p', t') ->
    exists q p1 t fixed jx, Inv (count + n)%nat q /\ tstep (count + n) q = Ok (p1, t, fixed) /\
      fix_mesh kleb ptol_default p1 t true = Ok (p', t', jx).
  Proof.
    intros Hstep. induction n as [|n IH]; intros count p p' t' Hi H; cbn [mesh_loop] in H;
      destruct (tstep count p) as [[[p1 t] fixed]| |] eqn:Es; cbn [bind] in H; try discriminate.
    - destruct (fix_mesh kleb ptol_default p1 t true) as [[[a b] c]| |] eqn:Ef; cbn [bind fst snd] in H; try discriminate.
      assert (a = p' /\ b = t') as [-> ->] by (split; congruence).
      exists p, p1, t, fixed, c. rewrite Nat.add_0_r. auto.
    - destruct (mstep p1 t fixed) as [p2| |] eqn:Em; cbn [bind] in H; try discriminate.
      destruct (IH (S count) p2 p' t') as (q & u); eauto. exists q.
      replace (count + S n)%nat with (S count + n)%nat by lia. exact u.
  Qed.

  Lemma gen_last (Inv : nat -> list point -> Prop) :
    (forall k q p1 t fixed q', Inv k q -> tstep k q = Ok (p1, t, fixed) -> mstep p1 t fixed = Ok q' -> Inv (S k) q') ->
    forall n p p' t', Inv 0%nat p -> gen n p = Ok (p', t') ->
    (0 < n)%nat /\
    exists q p1 t fixed jx, Inv (n - 1)%nat q /\ tstep (n - 1) q = Ok (p1, t, fixed) /\
      fix_mesh kleb ptol_default p1 t true = Ok (p', t', jx).
  Proof.
    intros Hs n p p' t' Hi H. destruct n as [|n]; [discriminate|]. unfold generate_mesh in H.
    destruct (length p =? 0)%nat; [discriminate|]. split; [lia|].
    replace (S n - 1)%nat with (0 + n)%nat by lia. eapply loop_last; eauto.
  Qed.

  Lemma tstep_parts k q p1 t fixed : tstep k q = Ok (p1, t, fixed) ->
    exists pd td l inds, triangulate k q = Ok (pd, td) /\ locked lock pd td = Ok l /\
      place_fixed pfix pd = Ok (p1, inds) /\ remove_triangles_outside p1 td fd geps = Ok t /\ fixed = l ++ inds.
  Proof.
    unfold topology_step. intros H. destruct (triangulate k q) as [[pd td]| |] eqn:E; cbn [bind fst snd] in H; try discriminate.
    destruct (locked lock pd td) as [l| |] eqn:El; cbn [bind] in H; try discriminate.
    destruct (place_fixed pfix pd) as [[pf inds]| |] eqn:Ep; cbn [bind fst snd] in H; try discriminate.
    destruct (remove_triangles_outside pf td fd geps) as [t0| |] eqn:Er; cbn [bind] in H; try discriminate.
    exists pd, td, l, inds. assert (pf = p1 /\ t0 = t /\ l ++ inds = fixed) as (-> & -> & <-) by (repeat split; congruence). auto.
  Qed.

  Lemma mstep_parts p1 t fixed q : mstep p1 t fixed = Ok q ->
    exists F p2, forces p1 t = Ok F /\ move dt p1 F fixed = Ok p2 /\ project_points_back p2 fd deps = Ok q.
  Proof.
    unfold move_step. intros H. destruct (forces p1 t) as [F| |]; cbn [bind] in H; try discriminate.
    destruct (move dt p1 F fixed) as [p2| |] eqn:E; cbn [bind] in H; try discriminate. eauto.
  Qed.

  (** One step keeps fixed vertices with f <= 0. *)
  Lemma mstep_fixed f p1 t fixed q i : pointwise fd f -> respects f -> mstep p1 t fixed = Ok q ->
    (i < length p1)%nat -> In i fixed -> f (nth i p1 (0, 0)) <= 0 -> same_point (nth i q (0, 0)) (nth i p1 (0, 0)).
  Proof.
    intros Hp Hr H Hi Hin Hf. apply mstep_parts in H. destruct H as (F & p2 & _ & Hm & Hpr).
    destruct (move_spec _ _ _ _ _ Hm) as (L & Hs & _). specialize (Hs i Hi Hin).
    destruct (project_stays fd f deps p2 q i Hp Hpr) as [_ Hst].
    rewrite Hst; auto; [lia|]. rewrite (Hr _ _ Hs). exact Hf.
  Qed.

  Lemma mstep_length f p1 t fixed q : pointwise fd f -> mstep p1 t fixed = Ok q -> length q = length p1.
  Proof.
    intros Hp H. apply mstep_parts in H. destruct H as (F & p2 & _ & Hm & Hpr).
    destruct (move_spec _ _ _ _ _ Hm) as (L & _). destruct (project_stays fd f deps p2 q 0 Hp Hpr) as [L2 _]. congruence.
  Qed.

  (** C66: fixed points present at the start stay present. *)
  Lemma fixed_kept f : pointwise fd f -> respects f -> keeps_points triangulate ->
    (forall x, In x pfix -> f x <= 0) ->
    forall n p p' t', (forall x, In x pfix -> has p x) -> gen n p = Ok (p', t') ->
    exists q pd td p1 t jx, triangulate (n - 1) q = Ok (pd, td) /\ (forall x, In x pfix -> has p1 x) /\
      remove_triangles_outside p1 td fd geps = Ok t /\ (forall j, same_point (nth j p1 (0, 0)) (nth j pd (0, 0))) /\
      length p1 = length pd /\
      fix_mesh kleb ptol_default p1 t true = Ok (p', t', jx).
  Proof.
    intros Hp Hr Hk Hneg n p p' t' H0 H.
    destruct (gen_last (fun _ q => forall x, In x pfix -> has q x)) with (n := n) (p := p) (p' := p') (t' := t')
      as (_ & q & p1 & t & fixed & jx & Hq & Hs & Hf); auto.
    - clear -Hp Hr Hk Hneg. intros k q p1 t fixed q' Hi Hs Hm x Hx.
      apply tstep_parts in Hs. destruct Hs as (pd & td & l & inds & Ht & _ & Hpf & _ & ->).
      destruct (place_fixed_present pfix pd p1 inds) as [_ Hb]; auto.
      { intros y Hy. eapply Hk; eauto. }
      destruct (Hb x Hx) as (i & Hin & Hsame).
      destruct (place_fixed_spec _ _ _ _ Hpf) as (L & _ & Hrng & _).
      rewrite Forall_forall in Hrng. specialize (Hrng i Hin).
      assert (Hi1 : (i < length p1)%nat) by lia.
      exists (nth i q' (0, 0)). split.
      + apply nth_In. erewrite mstep_length; eauto.
      + eapply same_point_trans; [|exact Hsame]. eapply mstep_fixed; eauto.
        * apply in_or_app. now right.
        * rewrite (Hr _ _ Hsame). auto.
    - apply tstep_parts in Hs. destruct Hs as (pd & td & l & inds & Ht & _ & Hpf & Hrem & ->).
      destruct (place_fixed_present pfix pd p1 inds) as [Ha Hb]; auto.
      { intros y Hy. eapply Hk; eauto. }
      destruct (place_fixed_spec _ _ _ _ Hpf) as (L & _ & Hrng & _).
      exists q, pd, td, p1, t, jx. repeat split; auto; try apply Ha.
      intros x Hx. destruct (Hb x Hx) as (i & Hin & Hsame). exists (nth i p1 (0, 0)). split; auto.
      apply nth_In. rewrite Forall_forall in Hrng. specialize (Hrng i Hin). lia.
  Qed.

  (** C36: what is returned. *)
  Lemma gen_result f : total_order kleb -> pointwise fd f ->
    forall n p p' t', gen n p = Ok (p', t') ->
    (0 < n)%nat /\
    exists q pd td p1, triangulate (n - 1) q = Ok (pd, td) /\
      length p1 = length pd /\ Forall (in_range (length p1)) td /\
      (forall j, nth j p1 (0, 0) = nth j pd (0, 0) \/ In (nth j p1 (0, 0)) pfix) /\
      (forall e, extent_at_most p1 e -> exists m : nat -> nat,
        (forall t, In t td -> f (centre p1 t) < - geps -> exists s, In s t' /\ Permutation (map m (corners t)) (corners s)) /\
        (forall s, In s t' -> exists t, In t td /\ f (centre p1 t) < - geps /\ Permutation (map m (corners t)) (corners s)) /\
        (forall t i, In t td -> f (centre p1 t) < - geps -> In i (corners t) ->
           (m i < length p')%nat /\ near (e * ptol_default) (nth i p1 (0, 0)) (nth (m i) p' (0, 0)))) /\
      incl p' p1 /\
      Forall (in_range (length p')) t' /\ no_two same_vertices t' /\ Forall (fun t => 0 <= area2 p' t) t' /\
      (forall i, (i < length p')%nat -> exists t, In t t' /\ In i (corners t)).
  Proof.
    intros Hk Hp n p p' t' H.
    destruct (gen_last (fun _ _ => True)) with (n := n) (p := p) (p' := p') (t' := t')
      as (Hn & q & p1 & t & fixed & jx & _ & Hs & Hf); auto.
    split; [exact Hn|].
    apply tstep_parts in Hs. destruct Hs as (pd & td & l & inds & Ht & _ & Hpf & Hrem & ->).
    destruct (place_fixed_spec _ _ _ _ Hpf) as (L & Li & Hrng & Hother & _ & _).
    destruct (remove_outside_spec fd f p1 td geps t Hp Hrem) as [Hr ->].
    destruct (fix_mesh_wf _ _ Hk _ _ _ _ _ _ Hf) as (W1 & W2 & W3 & W4).
    assert (Hpos : 0 < ptol_default) by reflexivity.
    assert (Hfilt : forall s, In s (filter (fun s => Qlt_bool (f (centre p1 s)) (- geps)) td) <-> In s td /\ f (centre p1 s) < - geps).
    { intros s. rewrite filter_In, Qlt_bool_iff. reflexivity. }
    destruct (exists_extent p1) as (e0 & He0).
    destruct (fix_mesh_geometry _ _ Hk _ _ _ _ _ _ _ Hpos He0 Hf) as (_ & _ & Hincl & _).
    exists q, pd, td, p1. repeat (split; [solve [auto]|]). split; [|split; [|split]]; auto.
    { intros j. destruct (in_dec Nat.eq_dec j inds) as [Hin|Hout]; [|left; auto].
      right. apply (place_fixed_at _ _ _ _ j Hpf Hin). }
    intros e He. destruct (fix_mesh_geometry _ _ Hk _ _ _ _ _ _ _ Hpos He Hf) as (m & M1 & _ & M3 & M4 & _).
    exists m. split; [|split].
    - intros s Hs1 Hs2. apply M3. apply Hfilt. auto.
    - intros s Hs. apply M4 in Hs. destruct Hs as (s0 & Hs0 & Hperm). apply Hfilt in Hs0. exists s0. tauto.
    - intros s i Hs1 Hs2 Hi. apply M1.
      + rewrite Forall_forall in Hr. specialize (Hr s Hs1). unfold in_range in Hr. rewrite Forall_forall in Hr. auto.
      + right. exists s. split; auto. apply Hfilt. auto.
  Qed.

  (** Centroids of the returned triangles themselves. *)
  Lemma gen_inside f K : total_order kleb -> pointwise fd f -> lipschitz K f ->
    forall n p p' t', gen n p = Ok (p', t') ->
    exists q pd td p1, triangulate (n - 1) q = Ok (pd, td) /\ length p1 = length pd /\
      (forall j, nth j p1 (0, 0) = nth j pd (0, 0) \/ In (nth j p1 (0, 0)) pfix) /\
      forall e, extent_at_most p1 e -> forall s, In s t' -> f (centre p' s) < - geps + K * (e * ptol_default).
  Proof.
    intros Hk Hp HK n p p' t' H.
    destruct (gen_result f Hk Hp n p p' t' H) as (_ & q & pd & td & p1 & A1 & A2 & _ & A4 & A5 & _).
    exists q, pd, td, p1. repeat (split; [assumption|]). intros e He s Hs.
    destruct (A5 e He) as (m & _ & M2 & M3). destruct (M2 s Hs) as (t & Ht & Hc & Hperm).
    assert (Hn : near (e * ptol_default) (centre p' s) (centre p1 t)).
    { apply (centre_near p1 p' m); auto. intros i Hi. apply (M3 t i); auto. }
    apply HK in Hn. lra.
  Qed.

  (** Every fixed point that is a corner of a kept triangle is in the mesh, up to the snapping. *)
  Lemma fixed_in_mesh f : total_order kleb -> pointwise fd f -> respects f -> keeps_points triangulate ->
    (forall x, In x pfix -> f x <= 0) ->
    forall n p p' t', (forall x, In x pfix -> has p x) -> gen n p = Ok (p', t') ->
    exists q pd td, triangulate (n - 1) q = Ok (pd, td) /\
      forall x, In x pfix -> exists i, (i < length pd)%nat /\ same_point (nth i pd (0, 0)) x /\
        forall e t, extent_at_most pd e -> In t td -> In i (corners t) -> f (centre pd t) < - geps ->
          exists y, In y p' /\ near (e * ptol_default) x y.
  Proof.
    intros Hk Hp Hr Hkeep Hneg n p p' t' H0 H.
    destruct (fixed_kept f Hp Hr Hkeep Hneg n p p' t' H0 H) as (q & pd & td & p1 & t & jx & B1 & B2 & B3 & B4 & B5 & B6).
    exists q, pd, td. split; auto. intros x Hx. destruct (B2 x Hx) as (y & Hy & Hs).
    apply (In_nth _ _ (0, 0)) in Hy. destruct Hy as (i & Hi & <-). exists i. split; [lia|].
    split. { eapply same_point_trans; [apply same_point_sym, B4|exact Hs]. }
    intros e s He Hs1 Hs2 Hs3.
    assert (He1 : extent_at_most p1 e).
    { intros a b Ha Hb. apply (In_nth _ _ (0, 0)) in Ha. apply (In_nth _ _ (0, 0)) in Hb.
      destruct Ha as (ja & Hja & <-), Hb as (jb & Hjb & <-).
      destruct (B4 ja) as [a1 a2], (B4 jb) as [b1 b2].
      destruct (He (nth ja pd (0, 0)) (nth jb pd (0, 0))) as [E1 E2]; try (apply nth_In; lia).
      split; lra. }
    assert (Hpos : 0 < ptol_default) by reflexivity.
    destruct (fix_mesh_geometry _ _ Hk _ _ _ _ _ _ _ Hpos He1 B6) as (m & M1 & _).
    destruct (remove_outside_spec fd f p1 td geps t Hp B3) as [_ ->].
    destruct (M1 i Hi) as [M1a M1b].
    { right. exists s. split; auto. apply filter_In. split; auto. apply Qlt_bool_iff.
      assert (Hc : same_point (centre p1 s) (centre pd s)).
      { destruct s as [[a b] c]. unfold centre, same_point. cbn [fst snd].
        destruct (B4 a) as [a1 a2], (B4 b) as [b1 b2], (B4 c) as [c1 c2]. rewrite a1, a2, b1, b2, c1, c2. split; reflexivity. }
      rewrite (Hr _ _ Hc). exact Hs3. }
    exists (nth (m i) p' (0, 0)). split; [now apply nth_In|].
    destruct Hs as [S1 S2], M1b as [N1 N2]. unfold near. rewrite <- S1, <- S2. split; assumption.
  Qed.

  (** C67: vertices on the boundary of the triangulation stay, when the boundary is locked. *)
  Lemma locked_spec p t l : locked true p t = Ok l ->
    forall i, In i (boundary_ends t) -> (i < length p)%nat /\
      exists j, In j l /\ (j < length p)%nat /\ same_point (nth j p (0, 0)) (nth i p (0, 0)).
  Proof.
    unfold locked. intros H i Hi.
    destruct (external_topology p t) as [[be bv]| |] eqn:E; cbn [bind snd] in H; try discriminate.
    assert (Hbv : In i bv).
    { unfold external_topology in E. destruct (get_boundary_edges t); [discriminate|]. destruct (forallb (fun v => v <? length p)%nat (unique Nat.leb Nat.eqb (boundary_ends t))); [|discriminate].
      assert (bv = unique Nat.leb Nat.eqb (boundary_ends t)) by congruence. subst bv. rewrite unique_In by apply Nat.eqb_eq. exact Hi. }
    clear E. revert l H. induction bv as [|v bv IH]; [contradiction|]. intros l H. simpl in H.
    destruct (get p v) as [x| |] eqn:Eg; cbn [bind] in H; try discriminate.
    destruct (closest_node x p) as [j| |] eqn:Ec; cbn [bind] in H; try discriminate.
    destruct (mapM (fun i => let! x := get p i in closest_node x p) bv) as [l'| |] eqn:El; cbn [bind] in H; try discriminate.
    assert (l = j :: l') by congruence. subst l. destruct Hbv as [->|Hin].
    - apply (get_ok _ _ _ (0, 0)) in Eg. destruct Eg as [Hlt Hx]. split; [exact Hlt|].
      exists j. split; [now left|]. apply closest_node_spec in Ec. destruct Ec as [_ [Hj Hc]]. split; [exact Hj|].
      rewrite Hx. apply dist2_zero. eapply Qle_trans; [apply (Hc i Hlt)|]. rewrite Hx.
      rewrite (dist2_same _ _ (same_point_refl x)). apply Qle_refl.
    - destruct (IH Hin l' eq_refl) as (H1 & k & H2 & H3). split; auto. exists k. split; [now right|exact H3].
  Qed.

  Lemma lock_step f k q p1 t fixed q' : lock = true -> pfix = [] -> pointwise fd f -> respects f ->
    tstep k q = Ok (p1, t, fixed) -> mstep p1 t fixed = Ok q' ->
    exists td, triangulate k q = Ok (p1, td) /\ length q' = length p1 /\
      (forall i, In i (boundary_ends td) -> f (nth i p1 (0, 0)) <= 0 -> has q' (nth i p1 (0, 0))).
  Proof.
    intros Hl Hpf0 Hp Hr Hs Hm. apply tstep_parts in Hs. destruct Hs as (pd & td & l & inds & Ht & Hlk & Hpf & _ & ->).
    rewrite Hpf0 in Hpf. cbn in Hpf. assert (pd = p1 /\ inds = []) as [-> ->] by (split; congruence).
    exists td. split; auto. split; [eapply mstep_length; eauto|]. intros i Hi Hf.
    rewrite Hl in Hlk. destruct (locked_spec _ _ _ Hlk i Hi) as (Hlt & j & Hj & Hjl & Hsame).
    exists (nth j q' (0, 0)). split; [apply nth_In; erewrite mstep_length; eauto|].
    eapply same_point_trans; [|exact Hsame]. eapply mstep_fixed; eauto.
    - apply in_or_app. now left.
    - rewrite (Hr _ _ Hsame). exact Hf.
  Qed.
  (** Without fixed points and lock every vertex follows its force. *)
  Lemma free_step f k q p1 t fixed q' : lock = false -> pfix = [] -> pointwise fd f ->
    tstep k q = Ok (p1, t, fixed) -> mstep p1 t fixed = Ok q' ->
    exists td F, triangulate k q = Ok (p1, td) /\ forces p1 t = Ok F /\ length q' = length p1 /\
      (forall i, (i < length p1)%nat -> let x := (fst (nth i p1 (0, 0)) + dt * fst (nth i F (0, 0)), snd (nth i p1 (0, 0)) + dt * snd (nth i F (0, 0))) in
         f x <= 0 -> nth i q' (0, 0) = x).
  Proof.
    intros Hl Hpf0 Hp Hs Hm. apply tstep_parts in Hs. destruct Hs as (pd & td & l & inds & Ht & Hlk & Hpf & _ & ->).
    rewrite Hpf0 in Hpf. cbn in Hpf. assert (pd = p1 /\ inds = []) as [-> ->] by (split; congruence).
    rewrite Hl in Hlk. cbn in Hlk. assert (l = []) as -> by congruence.
    pose proof (mstep_length f _ _ _ _ Hp Hm) as Hlen. apply mstep_parts in Hm. destruct Hm as (F & p2 & HF & Hmv & Hpr).
    exists td, F. split; [exact Ht|]. split; [exact HF|]. split; [exact Hlen|]. intros i Hi x Hf.
    destruct (move_spec _ _ _ _ _ Hmv) as (L & _ & Hmo). specialize (Hmo i Hi (fun H => H)). fold x in Hmo.
    destruct (project_stays fd f deps p2 q' i Hp Hpr) as [_ Hst]. rewrite Hst; [exact Hmo|lia|]. rewrite Hmo. exact Hf.
  Qed.
End Loop.

(** The triangulator is consulted for the calls 0, ..., n - 1, each once, and for no other. *)
Lemma gen_calls fd forces kleb geps deps dt pfix lock tr tr' n p :
  (forall k q, (k < n)%nat -> tr k q = tr' k q) ->
  generate_mesh tr fd forces kleb geps deps dt pfix lock n p = generate_mesh tr' fd forces kleb geps deps dt pfix lock n p.
Proof.
  destruct n as [|n]; [reflexivity|]. intros H. unfold generate_mesh. destruct (length p =? 0)%nat; auto.
  assert (Hg : forall m c q, (c + m <= n)%nat -> mesh_loop tr fd forces kleb geps deps dt pfix lock m c q = mesh_loop tr' fd forces kleb geps deps dt pfix lock m c q).
  { induction m as [|m IH]; intros c q Hc; cbn [mesh_loop]; unfold topology_step; rewrite H by lia; auto.
    destruct (tr' c q) as [[pd td]| |]; cbn [bind fst snd]; auto.
    destruct (locked lock pd td); cbn [bind]; auto. destruct (place_fixed pfix pd) as [[pf i]| |]; cbn [bind fst snd]; auto.
    destruct (remove_triangles_outside pf td fd geps); cbn [bind]; auto.
    destruct (move_step fd forces deps dt pf a0 (a ++ i)); cbn [bind]; auto. apply IH. lia. }
  apply Hg. lia.
Qed.

Lemma gen_called fd forces kleb geps deps dt pfix lock tr n p r :
  generate_mesh tr fd forces kleb geps deps dt pfix lock n p = Ok r ->
  forall k, (k < n)%nat -> exists q s, tr k q = Ok s.
Proof.
  destruct n as [|n]; [discriminate|]. unfold generate_mesh. destruct (length p =? 0)%nat; [discriminate|].
  assert (Hg : forall m c q, mesh_loop tr fd forces kleb geps deps dt pfix lock m c q = Ok r -> forall k, (c <= k <= c + m)%nat -> exists q s, tr k q = Ok s).
  { induction m as [|m IH]; intros c q H k Hk; cbn [mesh_loop] in H; unfold topology_step in H;
      destruct (tr c q) as [s| |] eqn:E; cbn [bind] in H; try discriminate.
    - replace k with c by lia. eauto.
    - destruct (Nat.eq_dec k c) as [->|]; [eauto|].
      destruct (locked lock (fst s) (snd s)); cbn [bind] in H; try discriminate.
      destruct (place_fixed pfix (fst s)) as [[pf i]| |]; cbn [bind fst snd] in H; try discriminate.
      destruct (remove_triangles_outside pf (snd s) fd geps); cbn [bind] in H; try discriminate.
      destruct (move_step fd forces deps dt pf a0 (a ++ i)); cbn [bind] in H; try discriminate.
      apply (IH (S c) _ H). lia. }
  intros H k Hk. apply (Hg n 0%nat p H). lia.
Qed.

(** * Initial points *)
Lemma mgrid1_In lo hi h v : 0 < h ->
  (In v (mgrid1 lo hi h) <-> exists k, v = lo + inject_Z (Z.of_nat k) * h /\ v < hi + h).
Proof.
  intros Hh. unfold mgrid1. rewrite in_map_iff. set (w := (hi + h - lo) / h).
  assert (Hw : w * h == hi + h - lo) by (unfold w; field; lra).
  assert (Hk : forall k, (k < Z.to_nat (Qround.Qceiling w))%nat <-> inject_Z (Z.of_nat k) * h < w * h).
  { intros k. rewrite Qmult_lt_r by exact Hh. split; intros H.
    - apply Qnot_le_lt. intros Hc. apply Qround.Qceiling_resp_le in Hc. rewrite Qround.Qceiling_Z in Hc. lia.
    - assert (Hc := Qround.Qle_ceiling w). assert (Hd : inject_Z (Z.of_nat k) < inject_Z (Qround.Qceiling w)) by lra.
      rewrite <- Zlt_Qlt in Hd. lia. }
  split.
  - intros (k & <- & Hin). apply in_seq in Hin. exists k. split; auto. destruct Hin as [_ Hin]. apply Hk in Hin. lra.
  - intros (k & -> & Hlt). exists k. split; auto. apply in_seq. split; [lia|]. apply Hk. lra.
Qed.

Lemma lattice_In x0 x1 y0 y1 h x : 0 < h ->
  (In x (lattice (x0, x1, y0, y1) h) <->
   exists i j, x = (x0 + inject_Z (Z.of_nat i) * h, y0 + inject_Z (Z.of_nat j) * h) /\ fst x < x1 + h /\ snd x < y1 + h).
Proof.
  intros Hh. unfold lattice. rewrite in_flat_map. split.
  - intros (u & Hu & Hx). apply in_map_iff in Hx. destruct Hx as (v & <- & Hv).
    apply mgrid1_In in Hu; auto. apply mgrid1_In in Hv; auto. destruct Hu as (i & -> & Hi), Hv as (j & -> & Hj).
    exists i, j. auto.
  - intros (i & j & -> & Hi & Hj). simpl in *. eexists. split; [apply mgrid1_In; eauto|]. apply in_map_iff. eexists. split; [reflexivity|].
    apply mgrid1_In; eauto.
Qed.

Lemma fold_min_spec l : forall a, let m := fold_left (fun m y => if Qle_bool m y then m else y) l a in
  In m (a :: l) /\ m <= a /\ forall y, In y l -> m <= y.
Proof.
  induction l as [|x l IH]; intros a m.
  - split; [now left|]. split; [apply Qle_refl|contradiction].
  - unfold m. cbn [fold_left]. destruct (IH (if Qle_bool a x then a else x)) as (I1 & I2 & I3).
    set (m' := fold_left _ l _) in *. split.
    + destruct I1 as [I1|I1]; [|right; now right]. rewrite <- I1. destruct (Qle_bool a x); [now left|right; now left].
    + destruct (Qle_bool a x) eqn:E.
      * apply Qle_bool_iff in E. split; auto. intros y [<-|Hy]; auto. lra.
      * assert (x < a). { apply Qnot_le_lt. intros Hc. apply Qle_bool_iff in Hc. congruence. }
        split; [lra|]. intros y [<-|Hy]; auto.
Qed.
Lemma min_list_spec l m : min_list l = Ok m -> In m l /\ forall y, In y l -> m <= y.
Proof.
  destruct l as [|x l]; [discriminate|]. cbn [min_list]. intros H. destruct (fold_min_spec l x) as (H1 & H2 & H3).
  assert (fold_left (fun m y => if Qle_bool m y then m else y) l x = m) as E by congruence. rewrite E in *.
  split; auto. intros y [<-|Hy]; auto.
Qed.

Lemma combine_In_nth {A B} (l : list A) (m : list B) a b : In (a, b) (combine l m) ->
  exists i, nth_error l i = Some a /\ nth_error m i = Some b.
Proof.
  revert m. induction l as [|x l IH]; intros [|y m] H; simpl in H; try contradiction.
  destruct H as [H|H]; [exists 0%nat; simpl; split; congruence|]. destruct (IH m H) as (i & Hi). exists (S i). exact Hi.
Qed.

Lemma take_mask_pred {A} (l : list A) (m : list bool) x : length m = length l ->
  In x (take_mask l m) <-> In (x, true) (combine l m).
Proof.
  intros H. unfold take_mask. rewrite in_map_iff. split.
  - intros ((y & b) & <- & Hin). apply filter_In in Hin. simpl in Hin. destruct Hin as [Hin ->]. exact Hin.
  - intros Hin. exists (x, true). split; auto. apply filter_In. auto.
Qed.

Lemma in_combine_map_map {A B C} (g : A -> C) (rand : list B) (k : B -> C -> bool) l x b : length rand = length l ->
  In (x, b) (combine l (map (fun q => k (fst q) (snd q)) (combine rand (map g l)))) ->
  exists r, In r rand /\ b = k r (g x).
Proof.
  revert rand. induction l as [|y l IH]; intros [|r rand] H Hin; simpl in *; try contradiction; try lia.
  destruct Hin as [E|Hin]; [exists r; split; [now left|congruence]|].
  destruct (IH rand) as (r' & Hr & Hb); auto. exists r'. auto.
Qed.
Lemma in_combine_map_map2 {A B C} (g : A -> C) (rand : list B) (k : B -> C -> bool) l x : length rand = length l ->
  In x l -> (forall r, In r rand -> k r (g x) = true) ->
  In (x, true) (combine l (map (fun q => k (fst q) (snd q)) (combine rand (map g l)))).
Proof.
  revert rand. induction l as [|y l IH]; intros [|r rand] H Hin Hk; simpl in *; try contradiction; try lia.
  destruct Hin as [->|Hin]; [left; now rewrite Hk by auto|]. right. apply IH; auto.
Qed.

Lemma accepted_small m r s : 0 < m -> 0 <= s <= m -> r < 1 -> accepted m r s = true.
Proof.
  intros Hm Hs Hr. unfold accepted. destruct (Qeq_bool s 0) eqn:E; auto. simpl. apply Qlt_bool_iff.
  assert (Hs0 : 0 < s). { apply Qnot_le_lt. intros Hc. assert (s == 0) by lra. apply Qeq_bool_iff in H. congruence. }
  apply Qlt_le_trans with 1; auto. apply Qle_shift_div_l.
  - apply Qmult_lt_0_compat; auto.
  - rewrite Qmult_1_l. apply Qle_trans with (s * m).
    + apply Qmult_le_l; lra.
    + apply Qmult_le_compat_r; lra.
Qed.

Lemma initial_points x0 x1 y0 y1 h geps fh fd g f pfix rand r : 0 < h -> pointwise fh g -> pointwise fd f ->
  generate_initial_points h geps (x0, x1, y0, y1) fh fd pfix rand = Ok r ->
  exists p2, r = pfix ++ p2 /\
    (forall x, In x p2 -> f x < geps /\ exists i j : nat,
       x = (x0 + inject_Z (Z.of_nat i) * h, y0 + inject_Z (Z.of_nat j) * h) /\ fst x < x1 + h /\ snd x < y1 + h) /\
    ((forall u, In u rand -> 0 <= u < 1) ->
     forall i j : nat, let x := (x0 + inject_Z (Z.of_nat i) * h, y0 + inject_Z (Z.of_nat j) * h) in
       fst x < x1 + h -> snd x < y1 + h -> f x < geps -> 0 <= g x ->
       (forall y, In y (lattice (x0, x1, y0, y1) h) -> h <= g y -> g x <= g y) -> In x p2).
Proof.
  intros Hh Hg Hf H. unfold generate_initial_points in H. cbv zeta in H.
  set (L := lattice (x0, x1, y0, y1) h) in *.
  destruct (fh L) as [r0| |] eqn:E0; cbn [bind] in H; try discriminate. apply Hg in E0. subst r0.
  destruct (min_list (filter (fun r => Qle_bool h r) (map g L))) as [m| |] eqn:Em; cbn [bind] in H; try discriminate.
  destruct (negb (length rand =? length (map g L))%nat) eqn:En; [discriminate|].
  apply negb_false_iff, Nat.eqb_eq in En. rewrite map_length in En.
  set (mask := map (fun q => accepted m (fst q) (snd q)) (combine rand (map g L))) in *.
  assert (Lm : length mask = length L). { unfold mask. rewrite map_length, combine_length, map_length. lia. }
  unfold bool_index at 1 in H. rewrite Lm, Nat.eqb_refl in H. cbn [bind] in H.
  set (p1 := take_mask L mask) in *.
  destruct (fd p1) as [d| |] eqn:Ed; cbn [bind] in H; try discriminate. apply Hf in Ed. subst d.
  unfold bool_index in H. rewrite !map_length, Nat.eqb_refl in H. cbn [bind] in H. rewrite map_map, take_mask_filter0 in H.
  exists (filter (fun x => Qlt_bool (f x) geps) p1). split; [congruence|]. clear H. split.
  - intros x Hx. apply filter_In in Hx. destruct Hx as [Hx1 Hx2]. apply Qlt_bool_iff in Hx2. split; auto.
    unfold p1 in Hx1. apply take_mask_pred in Hx1; auto. apply in_combine_l in Hx1. now apply lattice_In in Hx1.
  - intros Hr i j x Hx Hy Hfx Hgx Hmin. apply filter_In. split; [|now apply Qlt_bool_iff].
    unfold p1. apply take_mask_pred; auto. unfold mask. 
    apply (in_combine_map_map2 g rand (accepted m) L x); [exact En| |].
    + unfold L. apply lattice_In; auto. exists i, j. auto.
    + intros u Hu. apply min_list_spec in Em. destruct Em as [Em1 Em2]. apply filter_In in Em1. destruct Em1 as [Em1 Em3].
      apply Qle_bool_iff in Em3. apply in_map_iff in Em1. destruct Em1 as (y & <- & Hy2).
      apply accepted_small; [lra| |apply Hr, Hu]. split; auto.
Qed.

Lemma fixed_default tr fd forces kleb h geps deps dt pfix lock f fh g rand x0 x1 y0 y1 : 0 < h ->
  total_order kleb -> pointwise fd f -> pointwise fh g -> respects f -> keeps_points tr -> (forall x, In x pfix -> f x <= 0) ->
  forall n p p' t', generate_initial_points h geps (x0, x1, y0, y1) fh fd pfix rand = Ok p ->
  generate_mesh tr fd forces kleb geps deps dt pfix lock n p = Ok (p', t') ->
  exists q pd td, tr (n - 1)%nat q = Ok (pd, td) /\
    forall x, In x pfix -> exists i, (i < length pd)%nat /\ same_point (nth i pd (0, 0)) x /\
      forall e t, extent_at_most pd e -> In t td -> In i (corners t) -> f (centre pd t) < - geps ->
        exists y, In y p' /\ near (e * ptol_default) x y.
Proof.
  intros Hh Hk Hp Hg Hr Hkeep Hneg n p p' t' Hi H. eapply fixed_in_mesh; eauto.
  intros x Hx. destruct (initial_points _ _ _ _ _ _ _ _ _ _ _ _ _ Hh Hg Hp Hi) as (p2 & -> & _).
  exists x. split; [apply in_or_app; now left|apply same_point_refl].
Qed.

(** * Concrete runs *)
Definition same_tri (_ : nat) (p : list point) : res (list point * list tri) := Ok (p, [(0, 1, 2); (1, 3, 2)]%nat).
Definition no_force (p : list point) (_ : list tri) : res (list point) := Ok (map (fun _ => (0, 0)) p).
Definition dist_of (f : Q * Q -> Q) : dfun := fun l => Ok (map f l).
Lemma dist_of_pointwise f : pointwise (dist_of f) f.
Proof. intros l d H. unfold dist_of in H. congruence. Qed.
Lemma same_tri_keeps : keeps_points same_tri.
Proof. intros k p p' t H x Hx. unfold same_tri in H. assert (p = p') by congruence. now subst. Qed.
(** Inside when x < 3. *)
Definition left_of_3 (x : Q * Q) : Q := 1 * fst x + 0 * snd x + (-3 # 1).
Lemma left_of_3_respects : respects left_of_3.
Proof. intros a b [H1 H2]. unfold left_of_3. rewrite H1, H2. reflexivity. Qed.
Lemma left_of_3_lipschitz : lipschitz 1 left_of_3.
Proof. intros d a b [H _]. unfold left_of_3. apply Qabs_Qle_condition in H. lra. Qed.

Lemma zedge_total_order : total_order zedge_leb.
Proof.
  unfold zedge_leb. split; [|split].
  - intros [a b] [c d]; simpl. destruct (Z.ltb_spec a c), (Z.ltb_spec c a), (Z.eqb_spec a c), (Z.eqb_spec c a), (Z.leb_spec b d), (Z.leb_spec d b); simpl; auto; lia.
  - intros [a b] [c d] [e f]; simpl. destruct (Z.ltb_spec a c), (Z.ltb_spec c e), (Z.ltb_spec a e), (Z.eqb_spec a c), (Z.eqb_spec c e), (Z.eqb_spec a e), (Z.leb_spec b d), (Z.leb_spec d f), (Z.leb_spec b f); simpl; auto; try discriminate; lia.
  - intros [a b] [c d]; simpl. destruct (Z.ltb_spec a c), (Z.ltb_spec c a), (Z.eqb_spec a c), (Z.eqb_spec c a), (Z.leb_spec b d), (Z.leb_spec d b); simpl; try discriminate; intros; try lia; f_equal; lia.
Qed.


Lemma near_far d x y : d < Qabs (fst x - fst y) \/ d < Qabs (snd x - snd y) -> ~ near d x y.
Proof. intros [H|H] [H1 H2]; lra. Qed.

(** Two fixed points with the same nearest vertex: the first is overwritten by the second. *)
Lemma fixed_lost : exists tr f forces pfix p p' t' x,
  keeps_points tr /\ respects f /\ (forall y, In y pfix -> f y <= 0) /\ NoDup pfix /\
  generate_mesh tr (dist_of f) forces zedge_leb (1 # 1000) (1 # 10000000) (1 # 5) pfix false 3 p = Ok (p', t') /\
  t' <> [] /\ In x pfix /\ forall y, In y p' -> ~ near (9 # 10) x y.
Proof.
  exists same_tri, (fun _ => - (1)), no_force, [(1, 0); (2, 0)], [(0, 0); (10, 0); (0, 10); (10, 10)].
  eexists. eexists. exists (1, 0).
  split; [apply same_tri_keeps|]. split; [intros a b _; reflexivity|]. split; [intros; discriminate|].
  split. { repeat constructor; simpl; intuition congruence. }
  split; [vm_compute; reflexivity|]. split; [discriminate|]. split; [now left|].
  intros y Hy. apply near_far. simpl in Hy. decompose [or] Hy; subst; try contradiction; vm_compute; auto.
Qed.

(** A locked boundary vertex outside the domain is still projected. *)
Lemma locked_moved : exists tr f forces p p' t' i x,
  keeps_points tr /\ respects f /\
  (exists td, tr 0%nat p = Ok (p, td) /\ In i (boundary_ends td) /\ nth i p (0, 0) = x) /\
  generate_mesh tr (dist_of f) forces zedge_leb (1 # 1000) (1 # 16) 1 [] true 2 p = Ok (p', t') /\
  t' <> [] /\ forall y, In y p' -> ~ near (1 # 2) x y.
Proof.
  exists same_tri, left_of_3, no_force, [(0, 0); (4, 0); (0, 1); (2, 2)].
  eexists. eexists. exists 1%nat, (4, 0).
  split; [apply same_tri_keeps|]. split; [apply left_of_3_respects|].
  split. { eexists. split; [reflexivity|]. split; [vm_compute; tauto|reflexivity]. }
  split; [vm_compute; reflexivity|]. split; [discriminate|].
  intros y Hy. apply near_far. simpl in Hy. decompose [or] Hy; subst; try contradiction; vm_compute; auto.
Qed.

(** A nearly flat distance: the step is divided by deps instead of the squared gradient and the point stays outside. *)
Lemma project_flat : exists a b c deps p p', 0 < deps /\ ~ (a == 0 /\ b == 0) /\
  let f := fun q : Q * Q => a * fst q + b * snd q + c in
  project_points_back p (dist_of f) deps = Ok p' /\ exists i, (i < length p)%nat /\ 0 < f (nth i p (0, 0)) /\ 0 < f (nth i p' (0, 0)).
Proof.
  exists (1 # 100), 0, 0, (1 # 10), [(1, 0)]. eexists. split; [reflexivity|]. split; [intros [H _]; discriminate|].
  cbv zeta. split; [vm_compute; reflexivity|]. exists 0%nat. split; [simpl; lia|]. split; reflexivity.
Qed.
