(** make_mesh_boundaries_traversable returns when the threshold is below one part in the number of faces. *)
From Coq Require Import List Arith Bool ZArith QArith Lia Lqa Permutation Sorted.
From Verif Require Import M_Base M_Numpy M_Edges M_FixMesh M_Adjacency M_Clean.
From Verif Require Import S_Edges S_FixMesh S_Adjacency S_Clean S_Survive.
From Verif Require Import Util P_Edges P_FixMesh P_Adjacency P_Search P_Exterior P_Interior P_Traversable P_CleanMore.
Import ListNotations.
Open Scope nat_scope.

(** * Faces of a mesh drawn in the plane have a boundary *)
Lemma area2_rot p a b c : (area2 p (b, c, a) == area2 p (a, b, c))%Q.
Proof. unfold area2. ring. Qed.
Lemma area2_swap p a b c : (area2 p (b, a, c) == - area2 p (a, b, c))%Q.
Proof. unfold area2. ring. Qed.
Lemma area_nondegenerate p t : (0 < area2 p t)%Q -> nondegenerate t.
Proof.
  destruct t as [[a b] c]. unfold area2. intros H.
  repeat split; intros ->; ring_simplify in H; now apply Qlt_irrefl in H.
Qed.
Lemma folded_sym p t s : folded p t s -> folded p s t.
Proof. intros (u & v & a & b & H1 & H2 & H3). exists u, v, b, a. split; auto. split; auto. now rewrite Qmult_comm. Qed.

Definition directed (t : face) : list (nat * nat) := let '(a, b, c) := t in [(a, b); (b, c); (c, a)].
Definition dsides (ts : list face) : list (nat * nat) := flat_map directed ts.
Definition cross (p : list (Q * Q)) (e : nat * nat) : Q :=
  (fst (nth (fst e) p (0, 0)) * snd (nth (snd e) p (0, 0)) - fst (nth (snd e) p (0, 0)) * snd (nth (fst e) p (0, 0)))%Q.
Definition crosses (p : list (Q * Q)) (l : list (nat * nat)) : Q := fold_right Qplus 0%Q (map (cross p) l).

Lemma crosses_app p l l' : (crosses p (l ++ l') == crosses p l + crosses p l')%Q.
Proof. unfold crosses. induction l; cbn [app map fold_right]; [ring|rewrite IHl; ring]. Qed.
Lemma crosses_directed p t : (crosses p (directed t) == area2 p t)%Q.
Proof. destruct t as [[a b] c]. unfold crosses, directed, area2, cross. cbn [map fold_right fst snd]. ring. Qed.
Lemma crosses_dsides_pos p ts : Forall (fun t => (0 < area2 p t)%Q) ts -> ts <> [] -> (0 < crosses p (dsides ts))%Q.
Proof.
  induction ts as [|t ts IH]; intros Hp Hne; [congruence|]. inversion Hp; subst. unfold dsides. cbn [flat_map].
  rewrite crosses_app, crosses_directed. destruct ts as [|s ts].
  - unfold crosses. cbn. lra.
  - specialize (IH H2 ltac:(discriminate)). unfold dsides in IH. lra.
Qed.
Lemma crosses_perm p l l' : Permutation l l' -> (crosses p l == crosses p l')%Q.
Proof.
  unfold crosses. induction 1; cbn [map fold_right]; try ring; [rewrite IHPermutation; ring|].
  rewrite IHPermutation1. exact IHPermutation2.
Qed.
Definition flip (e : nat * nat) : nat * nat := (snd e, fst e).
Lemma crosses_flip p l : (crosses p (map flip l) == - crosses p l)%Q.
Proof. unfold crosses. induction l as [|[a b] l IH]; cbn [map fold_right]; [ring|rewrite IH; unfold cross, flip; cbn [fst snd]; ring]. Qed.

(** A directed side of a face, and the third corner. *)
Lemma directed_third u v t : In (u, v) (directed t) -> exists a, Permutation (corners t) [u; v; a] /\
  forall p, (area2 p (u, v, a) == area2 p t)%Q.
Proof.
  destruct t as [[a b] c]. simpl. intros [H|[H|[H|[]]]]; injection H as <- <-.
  - exists c. split; [auto|intros; reflexivity].
  - exists a. split; [|intros; apply area2_rot].
    apply (Permutation_cons_append [b; c] a).
  - exists b. split; [|intros; symmetry; apply area2_rot].
    apply Permutation_sym, (Permutation_cons_append [a; b] c).
Qed.
Lemma side_directed u v t : nondegenerate t -> (side_uses u v t >= 1 <-> In (u, v) (directed t) \/ In (v, u) (directed t)).
Proof.
  destruct t as [[a b] c]. intros (N1 & N2 & N3). simpl. unfold same_pair. split.
  - intros H.
    destruct (Nat.eqb_spec u a), (Nat.eqb_spec v b), (Nat.eqb_spec u b), (Nat.eqb_spec v a),
      (Nat.eqb_spec v c), (Nat.eqb_spec u c); subst; simpl in H; try lia; auto; try congruence.
  - intros [H|H]; destruct H as [H|[H|[H|[]]]]; injection H as -> ->; rewrite !Nat.eqb_refl; simpl; rewrite ?orb_true_r; lia.
Qed.
Lemma same_direction_folded p t s e : (0 < area2 p t)%Q -> (0 < area2 p s)%Q -> In e (directed t) -> In e (directed s) -> folded p t s.
Proof.
  destruct e as [u v]. intros Ht Hs H1 H2. destruct (directed_third _ _ _ H1) as (a & P1 & A1), (directed_third _ _ _ H2) as (b & P2 & A2).
  exists u, v, a, b. split; auto. split; auto. rewrite A1, A2. apply Qlt_le_weak. now apply Qmult_lt_0_compat.
Qed.
Lemma dsides_NoDup p ts : Forall (fun t => (0 < area2 p t)%Q) ts -> unfolded p ts -> NoDup (dsides ts).
Proof.
  intros Hp Hu. unfold unfolded, no_two in Hu. induction Hu as [|t ts Hf Hu IH]; [constructor|].
  inversion Hp; subst. unfold dsides. cbn [flat_map]. apply NoDup_app_intro.
  - pose proof (area_nondegenerate _ _ H1) as N. destruct t as [[a b] c]. destruct N as (N1 & N2 & N3).
    simpl. repeat constructor; simpl; intuition congruence.
  - apply IH; auto.
  - intros e He Hin. apply in_flat_map in Hin. destruct Hin as (s & Hs & Hes).
    rewrite Forall_forall in Hf, H2. apply (Hf s Hs). eapply same_direction_folded; eauto.
Qed.
Lemma ForallOrdPairs_perm {A} (R : A -> A -> Prop) l l' : (forall x y, R x y -> R y x) -> Permutation l l' ->
  ForallOrdPairs R l -> ForallOrdPairs R l'.
Proof.
  intros Hsym. induction 1 as [|x l l' HP IH|x y l|l l' l'' HP1 IH1 HP2 IH2]; intros H; auto.
  - inversion H; subst. constructor; auto. eapply Permutation_Forall; eauto.
  - inversion H as [|? ? H1 H2]; subst. inversion H2 as [|? ? H3 H4]; subst. inversion H1 as [|? ? H5 H6]; subst.
    constructor; [constructor; auto|constructor; auto].
Qed.
Lemma no_two_perm {A} (R : A -> A -> Prop) l l' : (forall x y, R x y -> R y x) -> Permutation l l' -> no_two R l -> no_two R l'.
Proof. intros Hs. apply ForallOrdPairs_perm. intros x y H G. apply H. auto. Qed.
Lemma no_two_app_l {A} (R : A -> A -> Prop) l l' : no_two R (l ++ l') -> no_two R l.
Proof.
  unfold no_two. induction l as [|x l IH]; intros H; [constructor|]. inversion H; subst. constructor; auto.
  rewrite Forall_app in H2. apply H2.
Qed.

Lemma plane_boundary p ts : ts <> [] -> Forall (fun t => (0 < area2 p t)%Q) ts -> unfolded p ts -> has_boundary ts.
Proof.
  intros Hne Hp Hu. destruct (has_boundary_dec ts) as [|Hb]; auto. exfalso.
  assert (Hsw : forall u v, In (u, v) (dsides ts) -> In (v, u) (dsides ts)).
  { intros u v Hin. apply in_flat_map in Hin. destruct Hin as (t & Ht & He).
    destruct (in_split _ _ Ht) as (l1 & l2 & ->).
    assert (HP : Permutation (l1 ++ t :: l2) (t :: l1 ++ l2)) by (symmetry; apply Permutation_middle).
    assert (Hpt : (0 < area2 p t)%Q) by (rewrite Forall_forall in Hp; auto).
    pose proof (area_nondegenerate _ _ Hpt) as Nt.
    assert (Hge : side_uses u v t >= 1) by (apply side_directed; auto).
    assert (H1 : side_uses u v t <= 1).
    { clear - Nt. destruct t as [[a b] c]. destruct Nt as (N1 & N2 & N3). simpl. unfold same_pair.
      destruct (Nat.eqb_spec u a), (Nat.eqb_spec v b), (Nat.eqb_spec u b), (Nat.eqb_spec v a),
        (Nat.eqb_spec v c), (Nat.eqb_spec u c); subst; simpl; try lia; try congruence. }
    assert (Hoth : edge_uses u v (l1 ++ l2) >= 1).
    { destruct (le_lt_dec 1 (edge_uses u v (l1 ++ l2))) as [|Hlt]; auto. exfalso. apply Hb. exists u, v.
      unfold on_boundary. rewrite (edge_uses_perm _ _ _ _ HP), edge_uses_cons. lia. }
    apply edge_uses_ge in Hoth. destruct Hoth as (s & Hs & Hse).
    assert (Hps : (0 < area2 p s)%Q).
    { rewrite Forall_forall in Hp. apply Hp. apply in_app_iff in Hs. apply in_app_iff. simpl. tauto. }
    apply side_directed in Hse; [|eapply area_nondegenerate; eauto]. destruct Hse as [Hse|Hse].
    - exfalso. apply (no_two_perm _ _ _ (folded_sym p) HP) in Hu. inversion Hu as [|? ? Hf _]; subst.
      rewrite Forall_forall in Hf. apply (Hf s Hs). eapply same_direction_folded; eauto.
    - apply in_flat_map. exists s. split; auto. apply in_app_iff in Hs. apply in_app_iff. simpl. tauto. }
  pose proof (dsides_NoDup p ts Hp Hu) as Hnd.
  assert (HP : Permutation (dsides ts) (map flip (dsides ts))).
  { apply NoDup_Permutation; auto.
    - apply FinFun.Injective_map_NoDup; auto. intros [a b] [c d]. unfold flip. simpl. congruence.
    - intros [u v]. rewrite in_map_iff. split.
      + intros H. exists (v, u). split; auto.
      + intros ([a b] & E & H). unfold flip in E. simpl in E. injection E as <- <-. auto. }
  pose proof (crosses_perm p _ _ HP) as E. rewrite crosses_flip in E.
  pose proof (crosses_dsides_pos p ts Hp Hne). lra.
Qed.

(** * One component is large enough *)
Lemma Qle_mult_nat x n : (inject_Z (Z.of_nat (S n)) * x == x + inject_Z (Z.of_nat n) * x)%Q.
Proof. rewrite Nat2Z.inj_succ. unfold Z.succ. rewrite inject_Z_plus. ring. Qed.
Lemma faces_area_le p ts (M : Q) l : (forall i, In i l -> (area2 p (nth i ts no_face) <= M)%Q) ->
  (faces_area p ts l <= inject_Z (Z.of_nat (length l)) * M)%Q.
Proof.
  unfold faces_area. induction l as [|i l IH]; intros H; cbn [map fold_right length].
  - change (inject_Z (Z.of_nat 0)) with 0%Q. lra.
  - rewrite Qle_mult_nat. apply Qplus_le_compat; [apply H; now left|apply IH; intros; apply H; now right].
Qed.
Lemma largest p ts : ts <> [] -> exists i, i < length ts /\
  forall j, j < length ts -> (area2 p (nth j ts no_face) <= area2 p (nth i ts no_face))%Q.
Proof.
  induction ts as [|t ts IH]; intros H; [congruence|]. destruct ts as [|s ts].
  - exists 0. split; [simpl; lia|]. intros [|j] Hj; [apply Qle_refl|simpl in Hj; lia].
  - destruct IH as (i & Hi & Hm); [discriminate|].
    destruct (Qlt_le_dec (area2 p t) (area2 p (nth i (s :: ts) no_face))) as [L|L].
    + exists (S i). split; [simpl in *; lia|]. intros [|j] Hj; cbn [nth]; [apply Qlt_le_weak, L|apply Hm; simpl in *; lia].
    + exists 0. split; [simpl; lia|]. intros [|j] Hj; cbn [nth]; [apply Qle_refl|].
      eapply Qle_trans; [|exact L]. apply Hm. simpl in *; lia.
Qed.
Lemma component_exists ts i : i < length ts -> exists l, component ts i l.
Proof.
  intros Hi. destruct (dfs_spec stable_argsort stable_is_argsort ts i Hi) as (flag & _ & Hl & Hf).
  exists (filter (fun j => nth j flag false) (seq 0 (length ts))). split; [apply NoDup_filter, seq_NoDup|].
  intros j. rewrite filter_In, in_seq. rewrite <- Hf. split; [tauto|]. intros H. split; auto.
  split; [lia|]. cbn. destruct (le_lt_dec (length ts) j); auto. rewrite nth_overflow in H by lia. discriminate.
Qed.
Lemma mesh_area_pos p ts : Forall (fun t => (0 < area2 p t)%Q) ts -> ts <> [] -> (0 < mesh_area p ts)%Q.
Proof.
  intros Hp Hne. unfold mesh_area, faces_area.
  replace (map _ _) with (map (area2 p) ts).
  - clear - Hp Hne. induction ts as [|t ts IH]; [congruence|]. inversion Hp; subst. cbn [map fold_right].
    destruct ts as [|s ts]; [cbn; lra|]. specialize (IH H2 ltac:(discriminate)). lra.
  - rewrite <- (faces_at_all ts) at 1. unfold faces_at. now rewrite map_map.
Qed.
Lemma some_large p ts m : (0 <= m)%Q -> Forall (fun t => (0 < area2 p t)%Q) ts -> ts <> [] -> below_share m (length ts) ->
  exists i, i < length ts /\ large p ts m i.
Proof.
  intros Hm Hp Hne Hsh. destruct (largest p ts Hne) as (i & Hi & Hmax). exists i. split; auto.
  destruct (component_exists ts i Hi) as (l & Hc). exists l. split; auto.
  assert (Hnn : Forall (fun t => (0 <= area2 p t)%Q) ts) by (eapply Forall_impl; [|exact Hp]; intros; now apply Qlt_le_weak).
  assert (H1 : (area2 p (nth i ts no_face) <= faces_area p ts l)%Q).
  { pose proof (faces_area_incl p ts [i] l Hnn) as G. unfold faces_area in G at 1. cbn [map fold_right] in G.
    rewrite Qplus_0_r in G. apply G; [repeat constructor; simpl; auto|]. intros x [<-|[]]. apply Hc. apply Relation_Operators.rt_refl. }
  assert (H2 : (mesh_area p ts <= inject_Z (Z.of_nat (length ts)) * area2 p (nth i ts no_face))%Q).
  { unfold mesh_area. rewrite <- (seq_length (length ts) 0) at 2. apply faces_area_le.
    intros j Hj. apply in_seq in Hj. apply Hmax. lia. }
  assert (H3 : (0 < area2 p (nth i ts no_face))%Q) by (rewrite Forall_forall in Hp; apply Hp, nth_In; auto).
  unfold below_share in Hsh. revert H1 H2 H3 Hsh Hm.
  generalize (mesh_area p ts) (faces_area p ts l) (area2 p (nth i ts no_face)) (inject_Z (Z.of_nat (length ts))).
  intros A F a n H1 H2 H3 Hsh Hm. nra.
Qed.

(** * fix_mesh keeps a mesh drawn in the plane *)
Definition plane (p : list point) (ts : list tri) : Prop :=
  Forall (in_range (length p)) ts /\ separated ptol_default p /\ Forall (fun t => (0 < area2 p t)%Q) ts /\ unfolded p ts /\ ts <> [].

Lemma corners_area p t u v a : Permutation (corners t) [u; v; a] ->
  (area2 p (u, v, a) == area2 p t \/ area2 p (u, v, a) == - area2 p t)%Q.
Proof.
  destruct t as [[x y] z]. cbn [corners]. intros H. apply Permutation_sym in H.
  assert (Hx : In x [u; v; a]) by (apply (Permutation_in _ (Permutation_sym H)); simpl; auto).
  unfold area2. simpl in Hx. destruct Hx as [ -> | [ -> | [ -> | [] ] ] ].
  - apply Permutation_cons_inv in H. apply Permutation_length_2_inv in H. destruct H as [E|E]; injection E as -> ->; [left|right]; ring.
  - assert (HP : Permutation [x; u; a] [x; y; z]) by (eapply perm_trans; [apply perm_swap|exact H]).
    apply Permutation_cons_inv in HP. apply Permutation_length_2_inv in HP. destruct HP as [E|E]; injection E as -> ->; [right|left]; ring.
  - assert (HP : Permutation [x; u; v] [x; y; z]).
    { eapply perm_trans; [|exact H]. apply (Permutation_cons_append [u; v] x). }
    apply Permutation_cons_inv in HP. apply Permutation_length_2_inv in HP. destruct HP as [E|E]; injection E as -> ->; [left|right]; ring.
Qed.

Lemma no_two_Forall2 {A B} (P : A -> A -> Prop) (P' : B -> B -> Prop) (R : A -> B -> Prop) l l' :
  Forall2 R l l' -> (forall x y x' y', In x l -> In y l -> R x x' -> R y y' -> P' x' y' -> P x y) -> no_two P l -> no_two P' l'.
Proof.
  unfold no_two. induction 1 as [|x x' l l' HR HF IH]; intros Hc H; [constructor|]. inversion H; subst. constructor.
  - apply Forall_forall. intros y' Hy' Hp. destruct (Forall2_In_r _ _ _ _ HF Hy') as (y & Hy & Hr).
    rewrite Forall_forall in H2. apply (H2 y Hy). apply (Hc x y x' y'); simpl; auto.
  - apply IH; auto. intros a b a' b' Ha Hb. apply Hc; simpl; auto.
Qed.
Lemma imaged_corners m t s u v a : imaged m t s -> Permutation (corners s) [u; v; a] ->
  exists u0 v0 a0, Permutation (corners t) [u0; v0; a0] /\ u = m u0 /\ v = m v0 /\ a = m a0.
Proof.
  intros Hi Hp. unfold imaged in Hi. assert (H : Permutation [u; v; a] (map m (corners t))) by (symmetry; eapply perm_trans; eauto).
  apply Permutation_map_inv in H. destruct H as (l & E & HP).
  destruct l as [|x [|y [|z [|w l]]]]; try discriminate. injection E as -> -> ->. exists x, y, z. auto.
Qed.
Lemma area2_points p p' m u v a : nth (m u) p' (0, 0)%Q = nth u p (0, 0)%Q -> nth (m v) p' (0, 0)%Q = nth v p (0, 0)%Q ->
  nth (m a) p' (0, 0)%Q = nth a p (0, 0)%Q -> area2 p' (m u, m v, m a) = area2 p (u, v, a).
Proof. intros H1 H2 H3. unfold area2. now rewrite H1, H2, H3. Qed.
Lemma perm3_in t u v a : Permutation (corners t) [u; v; a] -> In u (corners t) /\ In v (corners t) /\ In a (corners t).
Proof. intros H. apply Permutation_sym in H. repeat split; apply (Permutation_in _ H); simpl; auto. Qed.

Lemma fix_plane kleb (Hk : total_order kleb) p ts p' t' jx : plane p ts -> fix0 kleb p ts = Ok (p', t', jx) ->
  plane p' t' /\ length t' <= length ts /\ all_used (length p') t' /\
  forall qual, geometric qual -> no_ties qual p ts -> no_ties qual p' t'.
Proof.
  intros (Hr & Hsep & Hpos & Hunf & Hne) Hf. unfold fix0 in Hf.
  destruct (fix_separated kleb Hk ptol_default _ _ _ _ _ ptol_pos Hsep Hf) as (Hs' & m & ts1 & rest & HP & HF & Hall & Hpts & Hinj).
  destruct (fix_mesh_wf kleb ptol_default Hk _ _ _ _ _ _ Hf) as (W1 & _ & W3 & W4).
  destruct (fix_smaller kleb Hk ptol_default _ _ _ _ _ Hf) as [_ Hlen].
  assert (Hin1 : forall t, In t ts1 -> In t ts).
  { intros t Ht. apply (Permutation_in _ (Permutation_sym HP)). apply in_or_app. now left. }
  assert (Harea : forall t u v a, In t ts -> Permutation (corners t) [u; v; a] -> area2 p' (m u, m v, m a) = area2 p (u, v, a)).
  { intros t u v a Ht Hc. apply perm3_in in Hc. destruct Hc as (C1 & C2 & C3). apply area2_points; eapply Hpts; eauto. }
  split; [|split; [exact Hlen|split]].
  - split; [exact W1|]. split; [exact Hs'|]. split; [|split].
    + apply Forall_forall. intros s Hs. destruct (Forall2_In_r _ _ _ _ HF Hs) as (t & Ht & Hi).
      destruct t as [[a b] c]. assert (Hin : In (a, b, c) ts) by auto.
      pose proof (Harea _ a b c Hin (Permutation_refl _)) as E.
      assert (Ht0 : (0 < area2 p (a, b, c))%Q) by (rewrite Forall_forall in Hpos; auto).
      assert (Hc : Permutation (corners s) [m a; m b; m c]) by (symmetry; exact Hi).
      rewrite Forall_forall in W3. specialize (W3 s Hs). pose proof (corners_area p' s _ _ _ Hc) as D.
      rewrite E in D. clear - D Ht0 W3. destruct D; lra.
    + assert (Hunf1 : no_two (folded p) ts1) by (eapply no_two_app_l, no_two_perm; [apply folded_sym|exact HP|exact Hunf]).
      eapply no_two_Forall2; [exact HF| |exact Hunf1].
      intros t s t0 s0 Ht Hs Hit His (u & v & a & b & C1 & C2 & C3).
      destruct (imaged_corners _ _ _ _ _ _ Hit C1) as (u0 & v0 & a0 & D1 & -> & -> & ->).
      destruct (imaged_corners _ _ _ _ _ _ His C2) as (u1 & v1 & b1 & D2 & Eu & Ev & ->).
      destruct (perm3_in _ _ _ _ D1) as (I1 & I2 & I3), (perm3_in _ _ _ _ D2) as (J1 & J2 & J3).
      apply (Hinj t u0 s u1) in Eu; auto. apply (Hinj t v0 s v1) in Ev; auto. subst u1 v1.
      exists u0, v0, a0, b1. split; auto. split; auto.
      rewrite <- (Harea t u0 v0 a0), <- (Harea s u0 v0 b1); auto.
    + destruct ts as [|t ts]; [congruence|]. destruct (Hall t (or_introl eq_refl)) as (s & Hs & _). intros ->. destruct Hs.
  - intros v. split; [auto|]. intros (t & Ht & Hv). rewrite Forall_forall in W1. specialize (W1 t Ht).
    unfold in_range in W1. rewrite Forall_forall in W1. auto.
  - intros qual Hg Hnt. eapply no_two_Forall2; [exact HF| |eapply no_two_app_l, no_two_perm; [|exact HP|exact Hnt]].
    + intros t s t0 s0 Ht Hs Hit His.
      assert (Hq : forall t t0, In t ts1 -> imaged m t t0 -> tie (qual p t) (qual p' t0)).
      { intros x y Hx Hi. apply Hg. unfold corner_points.
        apply Permutation_trans with (map (fun i => nth i p' (0, 0)%Q) (map m (corners x))).
        - rewrite map_map. erewrite map_ext_in; [reflexivity|]. intros u Hu. symmetry. eapply Hpts; eauto.
        - now apply Permutation_map. }
      cbv beta. intros [T1 T2]. destruct (Hq t t0) as [A1 A2]; auto. destruct (Hq s s0) as [B1 B2]; auto.
      split.
      * eapply qle_trans; [exact A1|]. eapply qle_trans; [exact T1|exact B2].
      * eapply qle_trans; [exact B1|]. eapply qle_trans; [exact T2|exact A2].
    + intros x y [H1 H2]. split; auto.
Qed.

Lemma faces_at_no_two (R : tri -> tri -> Prop) ts l : (forall x y, R x y -> R y x) -> NoDup l -> (forall i, In i l -> i < length ts) ->
  no_two R ts -> no_two R (faces_at ts l).
Proof.
  intros Hs Hn Hl H. destruct (faces_at_perm_split ts l Hn Hl) as (rest & HP).
  eapply no_two_app_l, no_two_perm; [exact Hs|exact HP|exact H].
Qed.
Lemma plane_faces_at p ts l : plane p ts -> NoDup l -> (forall i, In i l -> i < length ts) -> l <> [] -> plane p (faces_at ts l).
Proof.
  intros (Hr & Hsep & Hpos & Hunf & Hne) Hn Hl Hl0. split; [now apply faces_at_Forall|]. split; auto.
  split; [now apply faces_at_Forall|]. split; [apply faces_at_no_two; auto; apply folded_sym|].
  destruct l; [congruence|discriminate].
Qed.

(** * Something is left by delete_interior_faces *)
Definition at_vertex (ts : list tri) (v f : nat) : Prop := f < length ts /\ In v (corners (nth f ts no_face)).
Lemma two_faces ts v f : Forall nondegenerate ts -> 2 < boundary_degree ts v -> exists g, g <> f /\ at_vertex ts v g.
Proof.
  intros Hn Hd.
  destruct (existsb (fun g => negb (g =? f) && existsb (Nat.eqb v) (corners (nth g ts no_face))) (seq 0 (length ts))) eqn:E.
  { apply existsb_exists in E. destruct E as (g & Hg & E). apply andb_prop in E. destruct E as [E1 E2].
    exists g. apply in_seq in Hg. split; [intros ->; now rewrite Nat.eqb_refl in E1|]. split; [lia|]. now apply existsb_eqb. }
  exfalso. assert (Hno : forall g, at_vertex ts v g -> g = f).
  { intros g (Hg & Hv). destruct (Nat.eq_dec g f) as [|Hgf]; auto. exfalso. apply not_true_iff_false in E. apply E.
    apply existsb_exists. exists g. split; [apply in_seq; lia|]. apply andb_true_intro. split; [|now apply existsb_eqb].
    apply negb_true_iff. now apply Nat.eqb_neq. }
  unfold boundary_degree in Hd.
  set (l := filter (fun u => edge_uses u v ts =? 1) (seq 0 (vbound ts))) in *.
  assert (Hnd : NoDup l) by (apply NoDup_filter, seq_NoDup).
  assert (Hu : forall u, In u l -> at_vertex ts v f /\ u <> v /\ In u (corners (nth f ts no_face))).
  { intros u Hu. apply filter_In in Hu. destruct Hu as [_ Hu]. apply Nat.eqb_eq in Hu.
    destruct (edge_uses_ge u v ts) as (t & Ht & Hs); [lia|].
    destruct (side_uses_vertex _ _ _ Hs) as [V1 V2]. destruct (In_nth _ _ no_face Ht) as (k & Hk & Ek).
    assert (Hv : forall w, has_vertex w t -> In w (corners t)).
    { clear. intros w. destruct t as [[a b] c]. simpl. intuition. }
    assert (Hat : at_vertex ts v k) by (split; auto; rewrite Ek; auto).
    assert (k = f) by auto. subst k. split; auto. split.
    - rewrite Forall_forall in Hn. apply (side_uses_nondeg u v t); auto.
    - rewrite Ek. auto. }
  destruct l as [|u1 [|u2 [|u3 l]]]; try (simpl in Hd; lia).
  destruct (Hu u1) as ((_ & C0) & N1 & C1); [simpl; auto|]. destruct (Hu u2) as (_ & N2 & C2); [simpl; auto|].
  destruct (Hu u3) as (_ & N3 & C3); [simpl; auto|].
  inversion Hnd as [|? ? D1 Hnd1]; subst. inversion Hnd1 as [|? ? D2 _]; subst. simpl in D1, D2.
  assert (HL : length [v; u1; u2; u3] <= length (corners (nth f ts no_face))).
  { apply NoDup_incl_length; [|intros x [<-|[<-|[<-|[<-|[]]]]]; auto].
    repeat constructor; simpl; intuition congruence. }
  destruct (nth f ts no_face) as [[a b] c]. simpl in HL. lia.
Qed.

Lemma greatest (prec : nat -> nat -> Prop) (Hdec : forall i j, {prec i j} + {~ prec i j})
  (Htr : forall i j k, prec i j -> prec j k -> prec i k) (Hir : forall i, ~ prec i i) l :
  l <> [] -> exists i, In i l /\ forall j, In j l -> ~ prec i j.
Proof.
  induction l as [|x l IH]; intros H; [congruence|]. destruct l as [|y l].
  - exists x. split; [now left|]. intros j [<-|[]]. apply Hir.
  - destruct IH as (i & Hi & Hm); [discriminate|]. destruct (Hdec i x) as [P|P].
    + exists x. split; [now left|]. intros j [<-|Hj]; [apply Hir|]. intros Q. apply (Hm j Hj). eapply Htr; eauto.
    + exists i. split; [now right|]. intros j [<-|Hj]; auto.
Qed.

(** If the face removed at a vertex comes first, in some order, among the faces that qualify, then the last face in
    that order among those with a vertex off the boundary (among all, if there are none of these) is not removed. *)
Lemma survivor (prec : nat -> nat -> Prop) (Hdec : forall i j, {prec i j} + {~ prec i j})
  (Htr : forall i j k, prec i j -> prec j k -> prec i k) (Hir : forall i, ~ prec i i) ts del :
  ts <> [] -> Forall nondegenerate ts ->
  let all_bnd i := forall u, In u (corners (nth i ts no_face)) -> exists w, on_boundary ts w u in
  (forall f, In f del -> exists v, 2 < boundary_degree ts v /\ at_vertex ts v f /\
     ((exists g, at_vertex ts v g /\ all_bnd g) -> all_bnd f) /\
     forall g, at_vertex ts v g -> g <> f -> (all_bnd f -> all_bnd g) -> prec f g) ->
  exists i, i < length ts /\ ~ In i del.
Proof.
  intros Hne Hn all_bnd Hdel.
  assert (Hbd : forall i, {all_bnd i} + {~ all_bnd i}).
  { intros i. unfold all_bnd.
    destruct (forallb (fun u => existsb (Nat.eqb u) (boundary_ends ts)) (corners (nth i ts no_face))) eqn:E.
    - left. intros u Hu. rewrite forallb_forall in E. apply boundary_ends_In. apply existsb_eqb. auto.
    - right. intros H. apply not_true_iff_false in E. apply E. apply forallb_forall. intros u Hu.
      apply existsb_eqb, boundary_ends_In. exact (H u Hu). }
  set (B := filter (fun i => if Hbd i then false else true) (seq 0 (length ts))).
  assert (HB : forall i, In i B <-> i < length ts /\ ~ all_bnd i).
  { intros i. unfold B. rewrite filter_In, in_seq. destruct (Hbd i); intuition (try lia; try discriminate). }
  destruct B as [|b B'] eqn:EB.
  - destruct (greatest prec Hdec Htr Hir (seq 0 (length ts))) as (i & Hi & Hm).
    { destruct ts; [congruence|discriminate]. }
    apply in_seq in Hi. exists i. split; [lia|]. intros Hin. destruct (Hdel i Hin) as (v & Hv & Hat & _ & Hg).
    destruct (two_faces ts v i Hn Hv) as (g & Hgi & Hgat). apply (Hm g); [apply in_seq; destruct Hgat; lia|].
    apply Hg; auto. intros _. destruct (Hbd g) as [|Hgb]; auto. exfalso. apply (proj2 (HB g)). split; auto. apply Hgat.
  - destruct (greatest prec Hdec Htr Hir (b :: B')) as (i & Hi & Hm); [discriminate|].
    apply HB in Hi. destruct Hi as [Hi Hib]. exists i. split; auto. intros Hin.
    destruct (Hdel i Hin) as (v & Hv & Hat & Hex & Hg). destruct (two_faces ts v i Hn Hv) as (g & Hgi & Hgat).
    apply (Hm g); [|apply Hg; auto; tauto]. apply HB. split; [apply Hgat|]. intros Hgb. apply Hib. apply Hex. eauto.
Qed.

Lemma qle_total a b : not_better a b \/ not_better b a.
Proof. destruct a as [a|], b as [b|]; simpl; auto. destruct (Qlt_le_dec a b); auto. left. now apply Qlt_le_weak. Qed.
Lemma qle_dec a b : {not_better a b} + {~ not_better a b}.
Proof. destruct a as [a|], b as [b|]; simpl; auto. destruct (Qlt_le_dec b a) as [H|H]; [right|left]; auto. now apply Qlt_not_le. Qed.

Section Distinct.
  Variable argsort : list nat -> list nat.
  Hypothesis Ha : is_argsort argsort.
  Variable qual : list point -> tri -> option Q.
  Lemma no_two_ne {A} (R : A -> A -> Prop) d l i j : (forall x y, R x y -> R y x) -> no_two R l -> i < length l -> j < length l -> i <> j ->
    ~ R (nth i l d) (nth j l d).
  Proof.
    intros Hs H Hi Hj Hij HR. pose proof (proj1 (no_two_nth R d l) H) as G.
    destruct (Nat.lt_total i j) as [L|[L|L]]; [eapply G; eauto|congruence|eapply (G j i); eauto].
  Qed.
  Lemma distinct_survivor p ts del : ts <> [] -> Forall nondegenerate ts -> no_ties qual p ts ->
    (forall f, In f del -> exists v, 2 < boundary_degree ts v /\ chosen qual p ts v f) -> exists i, i < length ts /\ ~ In i del.
  Proof.
    intros Hne Hn Hnt Hdel.
    apply (survivor (fun i j => ~ not_better (qual p (nth j ts no_face)) (qual p (nth i ts no_face)))); auto.
    - intros i j. destruct (qle_dec (qual p (nth j ts no_face)) (qual p (nth i ts no_face))); auto.
    - intros i j k H1 H2 H3. destruct (qle_total (qual p (nth j ts no_face)) (qual p (nth k ts no_face))) as [T|T]; auto.
      apply H1. eapply qle_trans; eauto.
    - intros i H. apply H, qle_refl.
    - intros f Hf. destruct (Hdel f Hf) as (v & Hv & C1 & C2 & C3). exists v. split; auto. split; [exact C1|]. split; [exact C2|].
      intros g Hg Hgf Himp Hle. specialize (C3 g Hg Himp).
      apply (no_two_ne _ no_face ts f g) in Hnt; [|firstorder|apply C1|apply Hg|auto]. apply Hnt. split; auto.
  Qed.
End Distinct.

(** * A stable argsort: of equal qualities the face with the smallest number is removed *)
Lemma argmin_from_first l : forall i best bq, best < i -> let r := argmin_from i best bq l in
  r = best \/ (i <= r /\ exists q, nth_error l (r - i) = Some q /\ ~ not_better bq q /\
    forall j x, j < r - i -> nth_error l j = Some x -> ~ not_better x q).
Proof.
  induction l as [|x l IH]; intros i best bq Hb; cbn [argmin_from]; [now left|].
  destruct bq as [b|]; [|now left]. destruct x as [x|].
  - destruct (Qle_bool b x) eqn:E.
    + destruct (IH (S i) best (Some b)) as [H|(H1 & q & H2 & H3 & H4)]; [lia|now left|right].
      split; [lia|]. exists q. cbv zeta. set (r := argmin_from (S i) best (Some b) l) in *.
      replace (r - i) with (S (r - S i)) by lia. split; [exact H2|]. split; [exact H3|].
      intros [|j] y Hj Hy; [|apply (H4 j y); auto; lia]. injection Hy as <-. intros Hq. apply H3.
      eapply qle_trans; [|exact Hq]. now apply Qle_bool_iff.
    + assert (Hlt : ~ (b <= x)%Q) by (rewrite <- Qle_bool_iff; congruence).
      right. destruct (IH (S i) i (Some x)) as [H|(H1 & q & H2 & H3 & H4)]; [lia| |].
      * cbv zeta in *. rewrite H. split; [lia|]. exists (Some x). rewrite Nat.sub_diag. split; [reflexivity|]. split; [exact Hlt|]. intros; lia.
      * cbv zeta. set (r := argmin_from (S i) i (Some x) l) in *. split; [lia|]. exists q.
        replace (r - i) with (S (r - S i)) by lia. split; [exact H2|].
        split.
        -- intros Hq. apply H3. eapply qle_trans; [|exact Hq]. simpl. apply Qlt_le_weak, Qnot_le_lt, Hlt.
        -- intros [|j] y Hj Hy; [|apply (H4 j y); auto; lia]. injection Hy as <-. exact H3.
  - right. split; auto. exists None. rewrite Nat.sub_diag. split; [reflexivity|]. split; [simpl; auto|]. intros; lia.
Qed.
Lemma argmin_first l i : argmin l = Ok i -> exists q, nth_error l i = Some q /\ forall j x, j < i -> nth_error l j = Some x -> ~ not_better x q.
Proof.
  destruct l as [|q l]; [discriminate|]. cbn [argmin]. intros E. injection E as <-.
  destruct (argmin_from_first l 1 0 q) as [H|(H1 & y & H2 & H3 & H4)]; [lia| |]; cbv zeta in *.
  - rewrite H. exists q. split; auto. intros; lia.
  - set (r := argmin_from 1 0 q l) in *. exists y. split; [destruct r; [lia|]; cbn [nth_error]; now rewrite Nat.sub_succ, Nat.sub_0_r in H2|].
    intros [|j] x Hj Hx; [injection Hx as <-; exact H3|]. apply (H4 j x); [lia|exact Hx].
Qed.
Lemma filter_sorted {A} (R : A -> A -> Prop) f l : StronglySorted R l -> StronglySorted R (filter f l).
Proof.
  induction 1 as [|a l Hs IH Hf]; cbn [filter]; [constructor|]. destruct (f a); auto. constructor; auto.
  rewrite Forall_forall in *. intros x Hx. apply filter_In in Hx. apply Hf, Hx.
Qed.
Lemma tagged_sorted {A} (g : tri -> list A) ts : forall s,
  StronglySorted (fun a b => snd a <= snd b) (tagged g s ts) /\ forall x, In x (tagged g s ts) -> s <= snd x.
Proof.
  induction ts as [|t ts IH]; intros s; unfold tagged in *; cbn [length seq combine flat_map].
  - split; [constructor|intros x []].
  - destruct (IH (S s)) as [I1 I2]. cbn [fst snd]. split.
    + induction (g t) as [|x l IHl]; cbn [map app]; auto. constructor; auto.
      apply Forall_forall. intros y Hy. apply in_app_iff in Hy. cbn [snd]. destruct Hy as [Hy|Hy].
      * apply in_map_iff in Hy. destruct Hy as (z & <- & _). cbn. lia.
      * apply I2 in Hy. lia.
    + intros x Hx. apply in_app_iff in Hx. destruct Hx as [Hx|Hx].
      * apply in_map_iff in Hx. destruct Hx as (z & <- & _). cbn. lia.
      * apply I2 in Hx. lia.
Qed.
Lemma stable_row_sorted ts n v : all_used n ts -> v < n -> exists l,
  row_of (fst (vertex_to_face stable_argsort ts)) (snd (vertex_to_face stable_argsort ts)) v = Ok l /\
  (forall f, In f l <-> at_vertex ts v f) /\ StronglySorted le l.
Proof.
  intros Hu Hv. destruct (vertex_to_face_row_In stable_argsort stable_is_argsort ts n v Hu Hv) as (l & E & Hl).
  exists l. split; auto. split; [exact Hl|].
  assert (Hs2 : StronglySorted (fun a b => fst a <= fst b /\ (fst a = fst b -> snd a <= snd b)) (fst (vertex_to_face stable_argsort ts))).
  { unfold vertex_to_face. cbn [fst]. set (ve := combine _ _).
    destruct (stable_argsort_spec (map fst ve)) as [HP Hs].
    assert (Hn : forall k, nth k (map fst ve) 0 = fst (nth k ve (0, 0))) by (intros; apply (map_nth fst ve (0, 0))).
    assert (Hsnd : StronglySorted (fun a b => snd a <= snd b) ve).
    { unfold ve. rewrite tag_eq by (intros [[? ?] ?]; reflexivity). apply tagged_sorted. }
    unfold take. refine (proj1 (StronglySorted_map _ _ _) _).
    eapply StronglySorted_In; [exact Hs|]. intros a b Hia Hib H. cbv beta in *. rewrite !Hn in H. destruct H as [H1 H2]. split; [exact H1|]. intros He.
    apply (StronglySorted_nth _ ve (0, 0) Hsnd); auto.
    apply (Permutation_in _ HP), in_seq in Hib. rewrite map_length in Hib. lia. }
  destruct (vertex_to_face_row stable_argsort stable_is_argsort ts n v Hu Hv) as (l2 & E2 & _).
  pose proof (vertex_to_face_perm stable_argsort stable_is_argsort ts) as Hp.
  pose proof (vertex_to_face_sorted stable_argsort stable_is_argsort ts) as Hs.
  change (snd (vertex_to_face stable_argsort ts)) with (pointers (map fst (fst (vertex_to_face stable_argsort ts)))) in E.
  rewrite (row_of_spec _ n) in E; auto.
  - injection E as <-. apply (filter_sorted _ (fun q => fst q =? v)) in Hs2.
    refine (proj1 (StronglySorted_map _ _ _) _). eapply StronglySorted_In; [exact Hs2|].
    intros a b H1 H2 [_ H3]. apply filter_In in H1, H2. destruct H1 as [_ H1], H2 as [_ H2].
    apply Nat.eqb_eq in H1, H2. apply H3. congruence.
  - intros k. split.
    + intros Hin. eapply Permutation_in in Hin; [|apply Permutation_map; exact Hp].
      apply in_map_iff in Hin. destruct Hin as ([w f] & <- & Hin). apply incidences_In in Hin.
      apply Hu. exists (nth f ts no_face). split; [apply nth_In|]; apply Hin.
    + intros Hk. apply Hu in Hk. destruct Hk as (t & Ht & Hc). destruct (In_nth _ _ no_face Ht) as (f & Hf & Ef).
      eapply Permutation_in; [apply Permutation_map; symmetry; exact Hp|].
      change k with (fst (k, f)). apply in_map. apply incidences_In. rewrite Ef. auto.
Qed.

(** The face removed comes first: of smaller quality than the others that qualify, or of equal quality and smaller number. *)
Definition before (qual : list point -> tri -> option Q) (p : list point) (ts : list tri) (f g : nat) : Prop :=
  not_better (qual p (nth f ts no_face)) (qual p (nth g ts no_face)) /\
  (not_better (qual p (nth g ts no_face)) (qual p (nth f ts no_face)) -> f < g).
Lemma before_dec qual p ts f g : {before qual p ts f g} + {~ before qual p ts f g}.
Proof.
  unfold before. destruct (qle_dec (qual p (nth f ts no_face)) (qual p (nth g ts no_face))); [|right; tauto].
  destruct (qle_dec (qual p (nth g ts no_face)) (qual p (nth f ts no_face))); [|left; tauto].
  destruct (lt_dec f g); [left|right]; tauto.
Qed.
Lemma before_trans qual p ts f g h : before qual p ts f g -> before qual p ts g h -> before qual p ts f h.
Proof.
  intros [A1 A2] [B1 B2]. split; [eapply qle_trans; eauto|]. intros H.
  assert (f < g) by (apply A2; eapply qle_trans; eauto). assert (g < h) by (apply B2; eapply qle_trans; eauto). lia.
Qed.
Lemma before_irrefl qual p ts f : ~ before qual p ts f f.
Proof. intros [_ H]. specialize (H (qle_refl _)). lia. Qed.

Section Stable.
  Variable qual : list point -> tri -> option Q.
  Lemma pick_first p ts l : l <> [] -> StronglySorted le l ->
    exists f, (let! i := argmin (map (fun f => qual p (nth f ts no_face)) l) in get l i) = Ok f /\
      In f l /\ forall g, In g l -> g <> f -> before qual p ts f g.
  Proof.
    intros Hl Hs. destruct (argmin_spec (map (fun f => qual p (nth f ts no_face)) l)) as (i & q & H1 & H2 & H3).
    { intros E. apply map_eq_nil in E. auto. }
    destruct (argmin_first _ _ H1) as (q' & H4 & H5). assert (q' = q) by congruence. subst q'.
    rewrite H1. cbn [bind]. unfold get. rewrite nth_error_map in H2. destruct (nth_error l i) as [f|] eqn:E; [|discriminate].
    injection H2 as <-. exists f. split; auto. split; [eapply nth_error_In; eauto|].
    intros g Hg Hgf. split; [apply H3; apply in_map_iff; eauto|]. intros Hle.
    destruct (In_nth_error _ _ Hg) as (j & Hj). assert (Hji : ~ j < i).
    { intros L. apply (H5 j (qual p (nth g ts no_face)) L); [now rewrite nth_error_map, Hj|exact Hle]. }
    assert (i <> j) by (intros ->; congruence).
    pose proof (StronglySorted_nth _ l 0 Hs i j) as S1. assert (j < length l) by (apply nth_error_Some; congruence).
    specialize (S1 ltac:(lia) ltac:(lia)). rewrite (nth_error_nth _ _ _ E), (nth_error_nth _ _ _ Hj) in S1. lia.
  Qed.
  Lemma face_to_delete_first p ts v conn : conn <> [] -> (forall f, In f conn <-> at_vertex ts v f) -> StronglySorted le conn ->
    let all_bnd i := forall u, In u (corners (nth i ts no_face)) -> exists w, on_boundary ts w u in
    exists f, face_to_delete qual p ts (boundary_ends ts) conn = Ok f /\ at_vertex ts v f /\
     ((exists g, at_vertex ts v g /\ all_bnd g) -> all_bnd f) /\
     forall g, at_vertex ts v g -> g <> f -> (all_bnd f -> all_bnd g) -> before qual p ts f g.
  Proof.
    intros Hne Hconn Hs all_bnd. unfold face_to_delete. change (0, 0, 0) with no_face.
    set (allb := fun f => forallb (fun v => existsb (Nat.eqb v) (boundary_ends ts)) (tri_vertices (nth f ts no_face))).
    assert (Hallb : forall f, allb f = true <-> all_bnd f).
    { intros f. unfold allb, all_bnd. rewrite forallb_forall, tri_vertices_corners.
      split; intros H u Hu; specialize (H u Hu).
      - apply existsb_eqb, boundary_ends_In in H. exact H.
      - apply existsb_eqb, boundary_ends_In. exact H. }
    change (filter _ conn) with (filter allb conn).
    destruct (filter allb conn) as [|c0 [|c1 cs]] eqn:Ec.
    - destruct (pick_first p ts conn Hne Hs) as (f & H1 & H2 & H3). exists f. split; auto.
      assert (Hno : forall g, In g conn -> ~ allb g = true).
      { intros g Hg Hb. assert (Hin : In g (filter allb conn)) by (apply filter_In; auto). rewrite Ec in Hin. contradiction. }
      split; [now apply Hconn|]. split.
      + intros (g & Hg & Hgb). exfalso. apply (Hno g); [now apply Hconn|now apply Hallb].
      + intros g Hg Hgf _. apply H3; auto. now apply Hconn.
    - assert (Hin : In c0 (filter allb conn)) by (rewrite Ec; now left). apply filter_In in Hin. destruct Hin as [Hin Hb].
      exists c0. split; auto. split; [now apply Hconn|]. split; [intros _; now apply Hallb|].
      intros g Hg Hgf Hgb. assert (In g (filter allb conn)) as Hg'.
      { apply filter_In. split; [now apply Hconn|]. apply Hallb. apply Hgb. now apply Hallb. }
      rewrite Ec in Hg'. destruct Hg' as [<-|[]]. congruence.
    - destruct (pick_first p ts (c0 :: c1 :: cs)) as (f & H1 & H2 & H3); [discriminate|rewrite <- Ec; now apply filter_sorted|].
      exists f. split; auto. rewrite <- Ec in H2, H3. apply filter_In in H2. destruct H2 as [Hin Hb].
      split; [now apply Hconn|]. split; [intros _; now apply Hallb|].
      intros g Hg Hgf Hgb. apply H3; auto. apply filter_In. split; [now apply Hconn|]. apply Hallb. apply Hgb. now apply Hallb.
  Qed.
  Lemma stable_interior p ts : all_used (length p) ts -> has_boundary ts -> Forall nondegenerate ts ->
    exists del, delete_interior_faces stable_argsort qual p ts = Ok (faces_at ts (kept (length ts) del), del) /\
      exists i, i < length ts /\ ~ In i del.
  Proof.
    intros Hu Hb Hn. unfold delete_interior_faces.
    rewrite external_topology_ok by (auto; now apply all_used_range). cbn [bind].
    destruct (vertex_to_face stable_argsort ts) as [vtoc nne] eqn:E. change (map fst (filter _ _)) with (over ts).
    set (all_bnd := fun i => forall u, In u (corners (nth i ts no_face)) -> exists w, on_boundary ts w u).
    destruct (mapM_ok (fun ix => let! conn := row_of vtoc nne ix in face_to_delete qual p ts (boundary_ends ts) conn) (over ts)
                (fun v f => at_vertex ts v f /\ ((exists g, at_vertex ts v g /\ all_bnd g) -> all_bnd f) /\
                   forall g, at_vertex ts v g -> g <> f -> (all_bnd f -> all_bnd g) -> before qual p ts f g)) as (del & Hd & HF).
    - intros v Hv. apply over_In in Hv.
      assert (Hvb : In v (boundary_ends ts)). { apply (count_In Nat.eqb Nat.eqb_eq). unfold ends_at in Hv. lia. }
      assert (Hvn : v < length p) by (eapply boundary_in_range; [now apply all_used_range|auto]).
      destruct (stable_row_sorted ts (length p) v Hu Hvn) as (l & Hl & Hin & Hso). rewrite E in Hl. cbn [fst snd] in Hl.
      rewrite Hl. cbn [bind]. apply face_to_delete_first; auto.
      apply boundary_ends_In in Hvb. destruct Hvb as (u & Hub).
      destruct (edge_uses_corner ts u v) as (t & Ht & Hc); [lia|].
      destruct (In_nth _ _ no_face Ht) as (k & Hk & Hnk). intros ->. apply (proj2 (Hin k)). split; auto. now rewrite Hnk.
    - rewrite Hd. cbn [bind]. exists del. rewrite delete_at_faces. split; auto.
      apply (survivor (before qual p ts) (before_dec qual p ts) (before_trans qual p ts) (before_irrefl qual p ts)); auto.
      + intros ->. destruct Hb as (u & v & H). unfold on_boundary in H. discriminate H.
      + intros f Hf. destruct (Forall2_In_r _ _ _ _ HF Hf) as (v & Hv & HR). exists v. split; auto.
        apply over_In in Hv. rewrite ends_at_nondeg in Hv; auto.
  Qed.
End Stable.

(** * The loop *)
Section Survive.
  Variable argsort : list nat -> list nat.
  Hypothesis Ha : is_argsort argsort.
  Variable kleb : Z * Z -> Z * Z -> bool.
  Hypothesis Hk : total_order kleb.
  Variable qual : list point -> tri -> option Q.
  Variable draw : nat -> nat -> nat -> nat.
  Hypothesis Hdraw : forall c k n, 0 < n -> draw c k n < n.
  Variable m : Q.
  Hypothesis Hm : (0 <= m)%Q.
  (** What makes delete_interior_faces leave a face, and is kept by the loop. *)
  Variable fine : list point -> list tri -> Prop.
  Hypothesis fine_at : forall p ts l, fine p ts -> NoDup l -> (forall i, In i l -> i < length ts) -> fine p (faces_at ts l).
  Hypothesis fine_fix : forall p ts p' t' jx, plane p ts -> fine p ts -> fix0 kleb p ts = Ok (p', t', jx) -> fine p' t'.
  Hypothesis fine_left : forall p ts, fine p ts -> all_used (length p) ts -> has_boundary ts -> Forall nondegenerate ts ->
    exists del, delete_interior_faces argsort qual p ts = Ok (faces_at ts (kept (length ts) del), del) /\
      exists i, i < length ts /\ ~ In i del.

  Lemma plane_nondegenerate p ts : plane p ts -> Forall nondegenerate ts.
  Proof. intros (_ & _ & H & _). eapply Forall_impl; [|exact H]. intros t. apply area_nondegenerate. Qed.
  Lemma below_share_le a b : a <= b -> below_share m b -> below_share m a.
  Proof.
    unfold below_share. intros H L. eapply Qle_lt_trans; [|exact L]. rewrite (Qmult_comm m), (Qmult_comm m).
    apply Qmult_le_compat_r; auto. rewrite <- Zle_Qle. lia.
  Qed.
  Lemma survive_loop fuel : forall c p ts, plane p ts -> fine p ts -> below_share m (length ts) ->
    traversable_loop argsort kleb qual fuel draw c p ts m <> Raise IndexError.
  Proof.
    induction fuel as [|fuel IH]; intros c p ts Hpl Hfi Hsh; [discriminate|]. cbn [traversable_loop].
    pose proof Hpl as (Hr & Hsep & Hpos & Hunf & Hne).
    rewrite external_topology_ok by (auto; now apply (plane_boundary p)). cbn [bind fst snd].
    destruct (_ <=? _); [discriminate|].
    assert (Hnn : Forall (fun t => (0 <= area2 p t)%Q) ts) by (eapply Forall_impl; [|exact Hpos]; intros; now apply Qlt_le_weak).
    destruct (exterior_exact argsort (draw c) p ts m Ha (Hdraw c) Hr Hnn (mesh_area_pos p ts Hpos Hne) Hm) as (keep & K1 & K2 & K3).
    rewrite K1. cbn [bind]. destruct (some_large p ts m Hm Hpos Hne Hsh) as (i & Hi & Hl).
    assert (Hkne : keep <> []) by (intros ->; apply (proj2 (K3 i)); auto).
    assert (Hklt : forall j, In j keep -> j < length ts) by (intros j Hj; now apply K3).
    pose proof (plane_faces_at p ts keep Hpl K2 Hklt Hkne) as Hpl1.
    pose proof (fine_at p ts keep Hfi K2 Hklt) as Hfi1.
    destruct (faces_at ts keep) as [|t0 l0] eqn:Efa; [destruct Hpl1 as (_ & _ & _ & _ & G); congruence|]. rewrite <- Efa in *.
    assert (Hpne : p <> []).
    { intros ->. rewrite Forall_forall in Hr. specialize (Hr (nth i ts no_face) (nth_In _ _ Hi)).
      destruct (nth i ts no_face) as [[a b] d]. inversion Hr; subst. simpl in *; lia. }
    destruct (proj2 (fix_mesh_total kleb ptol_default Hk p (faces_at ts keep) true)) as ([[p1 t2] j1] & Hf1); [split; auto; apply Hpl1|].
    change (fix0 kleb p (faces_at ts keep) = Ok (p1, t2, j1)) in Hf1. rewrite Hf1. cbn [bind].
    destruct (fix_plane kleb Hk _ _ _ _ _ Hpl1 Hf1) as (Hpl2 & Hlen2 & Hu2 & _).
    pose proof (fine_fix _ _ _ _ _ Hpl1 Hfi1 Hf1) as Hfi2. pose proof Hpl2 as (Hr2 & _ & Hpos2 & Hunf2 & Hne2).
    destruct (fine_left p1 t2 Hfi2 Hu2 (plane_boundary _ _ Hne2 Hpos2 Hunf2) (plane_nondegenerate _ _ Hpl2)) as (del & D1 & i2 & Hi2 & Hnd2).
    rewrite D1. cbn [bind fst].
    assert (Hk2 : kept (length t2) del <> []) by (intros E; apply (in_nil (a := i2)); rewrite <- E; now apply kept_In).
    pose proof (plane_faces_at p1 t2 _ Hpl2 (kept_NoDup _ _) (kept_in_lt _ _) Hk2) as Hpl3.
    pose proof (fine_at p1 t2 _ Hfi2 (kept_NoDup _ del) (kept_in_lt _ del)) as Hfi3.
    assert (Hp1 : p1 <> []).
    { intros ->. destruct t2 as [|s t2]; [congruence|]. rewrite Forall_forall in Hr2. specialize (Hr2 s (or_introl eq_refl)).
      destruct s as [[a b] d]. inversion Hr2; subst. simpl in *; lia. }
    destruct (proj2 (fix_mesh_total kleb ptol_default Hk p1 (faces_at t2 (kept (length t2) del)) true)) as ([[p2 t3] j2] & Hf2); [split; auto; apply Hpl3|].
    change (fix0 kleb p1 (faces_at t2 (kept (length t2) del)) = Ok (p2, t3, j2)) in Hf2. rewrite Hf2. cbn [bind].
    destruct (fix_plane kleb Hk _ _ _ _ _ Hpl3 Hf2) as (Hpl4 & Hlen4 & _ & _).
    apply IH; [exact Hpl4|exact (fine_fix _ _ _ _ _ Hpl3 Hfi3 Hf2)|]. eapply below_share_le; [|exact Hsh].
    rewrite faces_at_length in *. pose proof (kept_le (length t2) del). pose proof (NoDup_lt_length keep (length ts) K2 Hklt). lia.
  Qed.
  Lemma survive p ts : plane p ts -> fine p ts -> below_share m (length ts) ->
    exists r, make_mesh_boundaries_traversable argsort kleb qual draw p ts m = Ok r.
  Proof.
    intros Hpl Hfi Hsh. destruct (mmbt_total argsort Ha kleb Hk qual draw Hdraw m Hm p ts) as [H|H]; auto; [apply Hpl|].
    exfalso. now apply (survive_loop (S (length p + length ts)) 0 p ts Hpl Hfi Hsh).
  Qed.
End Survive.

Section Returns.
  Variable kleb : Z * Z -> Z * Z -> bool.
  Hypothesis Hk : total_order kleb.
  Variable qual : list point -> tri -> option Q.
  Variable draw : nat -> nat -> nat -> nat.
  Hypothesis Hdraw : forall c k n, 0 < n -> draw c k n < n.
  Variable m : Q.
  Hypothesis Hm : (0 <= m)%Q.
  Lemma returns_stable p ts : Forall (in_range (length p)) ts -> separated ptol_default p -> Forall (fun t => (0 < area2 p t)%Q) ts ->
    unfolded p ts -> ts <> [] -> below_share m (length ts) ->
    exists r, make_mesh_boundaries_traversable stable_argsort kleb qual draw p ts m = Ok r.
  Proof.
    intros H1 H2 H3 H4 H5 H6.
    apply (survive stable_argsort stable_is_argsort kleb Hk qual draw Hdraw m Hm (fun _ _ => True)); auto.
    - intros p0 ts0 _ Hu Hb Hn. now apply stable_interior.
    - repeat (split; [assumption|]). assumption.
  Qed.
  Lemma returns_distinct argsort : is_argsort argsort -> geometric qual -> forall p ts, Forall (in_range (length p)) ts -> separated ptol_default p ->
    Forall (fun t => (0 < area2 p t)%Q) ts -> unfolded p ts -> ts <> [] -> below_share m (length ts) -> no_ties qual p ts ->
    exists r, make_mesh_boundaries_traversable argsort kleb qual draw p ts m = Ok r.
  Proof.
    intros Ha Hg p ts H1 H2 H3 H4 H5 H6 H7.
    apply (survive argsort Ha kleb Hk qual draw Hdraw m Hm (no_ties qual)); auto.
    - intros p0 ts0 l Hf Hn Hl. apply faces_at_no_two; auto. intros x y [A B]. split; auto.
    - intros p0 ts0 p' t' jx Hpl Hf Hfx. destruct (fix_plane kleb Hk _ _ _ _ _ Hpl Hfx) as (_ & _ & _ & G). auto.
    - intros p0 ts0 Hf Hu Hb Hn. destruct (interior_spec argsort Ha qual p0 ts0 Hu Hb) as (del & D1 & _ & D3). exists del. split; auto.
      apply (distinct_survivor qual p0 ts0 del); auto.
      + intros ->. destruct Hb as (u & v & H). discriminate H.
      + intros f Hin. destruct (D3 f Hin) as (v & Hv & Hc). exists v. split; auto. now rewrite <- ends_at_nondeg.
    - repeat (split; [assumption|]). assumption.
  Qed.
End Returns.

(** * Ties *)
(** Three congruent triangles in a ring, each touching the other two in a vertex. *)
Definition ring_p : list point := [(0, 0); (1, 0); (2, 0); (0, 1); (1, 1); (0, 2)]%Q.
Definition ring_t : list tri := [(0, 1, 3); (1, 2, 4); (3, 4, 5)].
(** An argsort that leaves equal keys in their order, but 3 in the opposite order. *)
Definition odd_argsort (keys : list nat) : list nat :=
  let c := combine keys (seq 0 (length keys)) in
  map snd (isort (fun a b => fst a <=? fst b) (rev (filter (fun a => fst a =? 3) c) ++ filter (fun a => negb (fst a =? 3)) c)).
Lemma filter_partition {A} (f : A -> bool) l : Permutation (filter f l ++ filter (fun x => negb (f x)) l) l.
Proof.
  induction l as [|x l IH]; [constructor|]. cbn [filter]. destruct (f x); cbn [negb app]; [now constructor|].
  apply Permutation_sym, Permutation_cons_app, Permutation_sym, IH.
Qed.
Lemma odd_is_argsort : is_argsort odd_argsort.
Proof.
  intros keys. unfold odd_argsort. set (c := combine keys (seq 0 (length keys))).
  eexists. split; [reflexivity|]. split.
  - rewrite isort_perm. rewrite <- Permutation_rev. apply filter_partition.
  - apply (StronglySorted_In (fun a b => (fst a <=? fst b) = true)).
    + apply isort_sorted; intros; rewrite ?Nat.leb_le in *; lia.
    + intros a b _ _ H. now apply Nat.leb_le.
Qed.

(** The square of twice the area, as a quality. *)
Definition sq_area (p : list point) (t : tri) : option Q := Some (area2 p t * area2 p t)%Q.
Definition parea (l : list point) : Q :=
  match l with
  | [a; b; c] => (fst a * (snd b - snd c) + fst b * (snd c - snd a) + fst c * (snd a - snd b))%Q
  | _ => 0%Q
  end.
Lemma parea_perm l l' : Permutation l l' -> length l = 3 -> (parea l * parea l == parea l' * parea l')%Q.
Proof.
  intros H Hl. destruct l as [|a [|b [|c [|d l]]]]; try discriminate. clear Hl.
  pose proof (Permutation_length H) as HL. destruct l' as [|x [|y [|z [|w l']]]]; try discriminate HL.
  assert (Hx : In x [a; b; c]) by (apply (Permutation_in _ (Permutation_sym H)); simpl; auto).
  simpl in Hx. destruct Hx as [ <- | [ <- | [ <- | [] ] ] ].
  - apply Permutation_cons_inv in H. apply Permutation_length_2_inv in H. destruct H as [E|E]; injection E as -> ->; unfold parea; ring.
  - assert (HP : Permutation [b; a; c] [b; y; z]) by (eapply perm_trans; [apply perm_swap|exact H]).
    apply Permutation_cons_inv in HP. apply Permutation_length_2_inv in HP. destruct HP as [E|E]; injection E as -> ->; unfold parea; ring.
  - assert (HP : Permutation [c; a; b] [c; y; z]) by (eapply perm_trans; [|exact H]; apply (Permutation_cons_append [a; b] c)).
    apply Permutation_cons_inv in HP. apply Permutation_length_2_inv in HP. destruct HP as [E|E]; injection E as -> ->; unfold parea; ring.
Qed.
Lemma sq_area_geometric : geometric sq_area.
Proof.
  intros p t p' t' H.
  assert (E : forall p t, area2 p t = parea (corner_points p t)) by (intros q [[a b] c]; reflexivity).
  assert (HE : (area2 p t * area2 p t == area2 p' t' * area2 p' t')%Q).
  { rewrite !E. apply parea_perm; auto. now destruct t as [[a b] c]. }
  split; simpl; rewrite HE; apply Qle_refl.
Qed.

(** Deciding that two faces are folded onto each other. *)
Definition rots (t : tri) : list (nat * nat * nat) :=
  let '(a, b, c) := t in [(a, b, c); (b, c, a); (c, a, b); (b, a, c); (a, c, b); (c, b, a)].
Lemma rots_perm t u v a : Permutation (corners t) [u; v; a] -> In (u, v, a) (rots t).
Proof.
  destruct t as [[x y] z]. cbn [corners]. intros H.
  assert (Hx : In u [x; y; z]) by (apply (Permutation_in _ (Permutation_sym H)); simpl; auto).
  simpl in Hx. destruct Hx as [ <- | [ <- | [ <- | [] ] ] ].
  - apply Permutation_cons_inv in H. apply Permutation_length_2_inv in H. destruct H as [E|E]; injection E as -> ->; simpl; auto 9.
  - assert (HP : Permutation [y; x; z] [y; v; a]) by (eapply perm_trans; [apply perm_swap|exact H]).
    apply Permutation_cons_inv in HP. apply Permutation_length_2_inv in HP. destruct HP as [E|E]; injection E as -> ->; simpl; auto 9.
  - assert (HP : Permutation [z; x; y] [z; v; a]) by (eapply perm_trans; [|exact H]; apply (Permutation_cons_append [x; y] z)).
    apply Permutation_cons_inv in HP. apply Permutation_length_2_inv in HP. destruct HP as [E|E]; injection E as -> ->; simpl; auto 9.
Qed.
Definition foldedb (p : list point) (t s : tri) : bool :=
  existsb (fun r => existsb (fun r' => (fst (fst r) =? fst (fst r')) && (snd (fst r) =? snd (fst r')) &&
                                       Qle_bool 0 (area2 p r * area2 p r')) (rots s)) (rots t).
Fixpoint no_twob {A} (f : A -> A -> bool) (l : list A) : bool :=
  match l with [] => true | x :: r => forallb (fun y => negb (f x y)) r && no_twob f r end.
Lemma no_twob_spec {A} (R : A -> A -> Prop) f l : (forall x y, R x y -> f x y = true) -> no_twob f l = true -> no_two R l.
Proof.
  intros Hf. unfold no_two. induction l as [|x l IH]; intros H; [constructor|]. cbn [no_twob] in H. apply andb_prop in H. destruct H as [H1 H2].
  constructor; auto. rewrite forallb_forall in H1. apply Forall_forall. intros y Hy HR. specialize (H1 y Hy). rewrite (Hf x y HR) in H1. discriminate.
Qed.
Lemma foldedb_spec p t s : folded p t s -> foldedb p t s = true.
Proof.
  intros (u & v & a & b & H1 & H2 & H3). unfold foldedb. apply existsb_exists. exists (u, v, a). split; [now apply rots_perm|].
  apply existsb_exists. exists (u, v, b). split; [now apply rots_perm|]. cbn [fst snd]. rewrite !Nat.eqb_refl. cbn [andb].
  now apply Qle_bool_iff.
Qed.
Lemma unfolded_check p ts : no_twob (foldedb p) ts = true -> unfolded p ts.
Proof. apply no_twob_spec. apply foldedb_spec. Qed.

Definition nearb (d : Q) (a b : point) : bool := Qle_bool (Qabs.Qabs (fst a - fst b)) d && Qle_bool (Qabs.Qabs (snd a - snd b)) d.
Lemma separated_check p e : forallb (fun a => forallb (fun b => Qle_bool (fst a - fst b) e && Qle_bool (snd a - snd b) e) p) p = true ->
  no_twob (nearb (e * ptol_default)) p = true -> separated ptol_default p.
Proof.
  intros H1 H2. exists e. split.
  - intros a b Ha Hb. rewrite forallb_forall in H1. specialize (H1 a Ha). rewrite forallb_forall in H1. specialize (H1 b Hb).
    apply andb_prop in H1. destruct H1 as [A B]. split; now apply Qle_bool_iff.
  - eapply no_twob_spec; [|exact H2]. intros x y [A B]. unfold nearb. apply Qle_bool_iff in A, B. now rewrite A, B.
Qed.
Lemma positive_check p ts : forallb (fun t => negb (Qle_bool (area2 p t) 0)) ts = true -> Forall (fun t => (0 < area2 p t)%Q) ts.
Proof.
  intros H. rewrite forallb_forall in H. apply Forall_forall. intros t Ht. specialize (H t Ht). apply negb_true_iff in H.
  apply Qnot_le_lt. intros L. apply Qle_bool_iff in L. congruence.
Qed.
Lemma ring_plane : Forall (in_range (length ring_p)) ring_t /\ separated ptol_default ring_p /\
  Forall (fun t => (0 < area2 ring_p t)%Q) ring_t /\ unfolded ring_p ring_t.
Proof.
  split; [|split; [|split]].
  - apply in_rangeb_spec. reflexivity.
  - apply (separated_check ring_p 2); vm_compute; reflexivity.
  - apply positive_check. vm_compute. reflexivity.
  - apply unfolded_check. vm_compute. reflexivity.
Qed.
Lemma ring_emptied : make_mesh_boundaries_traversable odd_argsort zedge_leb sq_area (fun _ _ _ => 0) ring_p ring_t 0 = Raise IndexError.
Proof. vm_compute. reflexivity. Qed.
Lemma stable_left qual p ts : all_used (length p) ts -> Forall nondegenerate ts -> has_boundary ts ->
  exists t' del, delete_interior_faces stable_argsort qual p ts = Ok (t', del) /\ t' <> [].
Proof.
  intros Hu Hn Hb. destruct (stable_interior qual p ts Hu Hb Hn) as (del & E & i & Hi & Hd).
  exists (faces_at ts (kept (length ts) del)), del. split; auto. intros H.
  assert (Hin : In (nth i ts no_face) (faces_at ts (kept (length ts) del))).
  { unfold faces_at. apply (in_map (fun i => nth i ts no_face)). now apply kept_In. }
  rewrite H in Hin. destruct Hin.
Qed.
Lemma row20_sharp : unfolded row20_p row20_t /\ ((1 # 20) * inject_Z (Z.of_nat (length row20_t)) == 1)%Q /\
  forall argsort kleb qual draw, is_argsort argsort -> (forall c k n, 0 < n -> draw c k n < n) ->
    make_mesh_boundaries_traversable argsort kleb qual draw row20_p row20_t (1 # 20) = Raise IndexError.
Proof.
  split; [apply unfolded_check; vm_compute; reflexivity|]. split; [reflexivity|]. exact (proj2 (proj2 (proj2 (proj2 (proj2 row20_crash))))).
Qed.
Lemma ring_refuted : exists argsort p ts, is_argsort argsort /\ Forall (in_range (length p)) ts /\ separated ptol_default p /\
  Forall (fun t => (0 < area2 p t)%Q) ts /\ unfolded p ts /\ length ts = 3 /\
  exists qual kleb draw, geometric qual /\ total_order kleb /\ (forall c k n, 0 < n -> draw c k n < n) /\
    make_mesh_boundaries_traversable argsort kleb qual draw p ts 0 = Raise IndexError.
Proof.
  destruct ring_plane as (R1 & R2 & R3 & R4). exists odd_argsort, ring_p, ring_t. split; [exact odd_is_argsort|].
  split; [exact R1|]. split; [exact R2|]. split; [exact R3|]. split; [exact R4|]. split; [reflexivity|].
  exists sq_area, zedge_leb, (fun _ _ _ => 0). split; [exact sq_area_geometric|]. split; [exact zedge_total_order|].
  split; [intros; assumption|exact ring_emptied].
Qed.
