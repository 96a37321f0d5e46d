(** Proofs about boxes and regions. *)
From Coq Require Import List Arith Bool ZArith QArith Lia Lqa.
From Verif Require Import M_Base M_Sdf M_Region S_Region.
Import ListNotations.
Open Scope Q_scope.

Lemma global_iff b : is_global_bbox b = true <-> world_like b.
Proof.
  destruct b as [[[x0 x1] y0] y1]. unfold is_global_bbox, world_like. rewrite andb_true_iff, !orb_true_iff, !andb_true_iff, !Qle_bool_iff.
  split; intros [[A|[A A']] [B|[B B']]]; (split; [|]); try (left; lra); try (right; split; lra).
Qed.
Lemma within_global a b : within a b -> world_like b -> world_like a.
Proof.
  destruct a as [[[a0 a1] a2] a3], b as [[[b0 b1] b2] b3]. unfold within, world_like. intros (H1 & H2 & H3 & H4) [[A|[A A']] [B|[B B']]]; (split; [|]); try (left; lra); try (right; split; lra).
Qed.
Lemma contains_iff o i : bbox_contains o i = true <-> world_like o \/ within o i.
Proof.
  unfold bbox_contains. destruct (is_global_bbox o) eqn:G.
  - apply global_iff in G. tauto.
  - assert (NG : ~ world_like o) by (rewrite <- global_iff; congruence). cbn [negb]. rewrite andb_true_r.
    destruct (is_global_bbox i) eqn:Gi.
    + apply global_iff in Gi. split; [discriminate|]. intros [H|H]; [tauto|]. exfalso. apply NG. eapply within_global; eauto.
    + destruct o as [[[a0 a1] a2] a3], i as [[[b0 b1] b2] b3]. rewrite !andb_true_iff, !Qle_bool_iff. unfold within. tauto.
Qed.
Lemma within_refl b : within b b.
Proof. destruct b as [[[a0 a1] a2] a3]. unfold within. lra. Qed.
Lemma within_trans a b c : within a b -> within b c -> within a c.
Proof. destruct a as [[[a0 a1] a2] a3], b as [[[b0 b1] b2] b3], c as [[[c0 c1] c2] c3]. unfold within. lra. Qed.
Lemma contains_refl b : bbox_contains b b = true.
Proof. apply contains_iff. right. apply within_refl. Qed.
Lemma contains_trans a b c : bbox_contains a b = true -> bbox_contains b c = true -> bbox_contains a c = true.
Proof.
  rewrite !contains_iff. intros [H|H] [K|K]; auto; [left; eapply within_global; eassumption|right; eapply within_trans; eassumption].
Qed.
Lemma contains_exact o i : ~ world_like o -> (bbox_contains o i = true <-> within o i).
Proof. rewrite contains_iff. tauto. Qed.
Lemma contains_points o i : ~ world_like o -> (exists p, in_box i p) -> (bbox_contains o i = true <-> forall p, in_box i p -> in_box o p).
Proof.
  intros N [p0 H0]. rewrite contains_exact by auto. destruct o as [[[a0 a1] a2] a3], i as [[[b0 b1] b2] b3]. unfold within, in_box in *. destruct p0 as [x y]. cbn [fst snd] in *. split.
  - intros H p Hp. lra.
  - intros H. pose proof (H (b0, b2)) as H1. pose proof (H (b1, b3)) as H2. cbn [fst snd] in *. lra.
Qed.

Lemma num_lt_false a b : num_lt b a = false <-> not_reversed a b.
Proof.
  destruct a as [x|[]|], b as [y|[]|]; cbn; try tauto; try (split; congruence || tauto).
  rewrite negb_false_iff, Qle_bool_iff. tauto.
Qed.
Section R.
  Context {crs user : Type} (parse : user -> res crs) (crs_eq : crs -> crs -> bool) (transformer : crs -> crs -> res (pt -> pt)).
  Lemma check_ok e e' : check_bbox e = Ok e' -> e' = e /\ ordered e.
  Proof.
    unfold check_bbox. destruct e as [v|v]; [|intros [= <-]; split; [auto|exact I]].
    destruct v as [|a [|b [|c [|d r]]]]; try discriminate. destruct (num_lt b a) eqn:E1; [discriminate|]. destruct (num_lt d c) eqn:E2; [discriminate|].
    intros [= <-]. split; auto. exists a, b, c, d, r. rewrite <- !num_lt_false. auto.
  Qed.
  Lemma check_ordered e : ordered e -> check_bbox e = Ok e.
  Proof. destruct e as [v|v]; [|reflexivity]. intros (a & b & c & d & r & -> & E1 & E2). apply num_lt_false in E1. apply num_lt_false in E2. unfold check_bbox. now rewrite E1, E2. Qed.
  Lemma Region_ok e c r : Region parse e c = Ok r -> r_bbox r = e /\ parse c = Ok (r_crs r) /\ ordered e.
  Proof.
    unfold Region. destruct (check_bbox e) as [e'| |] eqn:E; try discriminate. cbn [bind]. destruct (parse c) as [c'| |] eqn:Ec; try discriminate. cbn [bind].
    intros [= <-]. apply check_ok in E. destruct E as [-> H]. cbn. auto.
  Qed.
  Lemma set_bbox_spec (r : region crs) e : match set_bbox r e with
    | (r', Ok tt) => r_bbox r' = e /\ r_crs r' = r_crs r /\ ordered e
    | (r', _) => r' = r end.
  Proof.
    unfold set_bbox. destruct (check_bbox e) as [e'| |] eqn:E; auto. apply check_ok in E. destruct E as [-> H]. cbn. auto.
  Qed.
  Lemma transform_spec r c : match transform_to parse crs_eq transformer r c with
    | (r', Ok tt) => exists d, parse c = Ok d /\
        ((crs_eq (r_crs r) d = true /\ r' = r) \/
         (crs_eq (r_crs r) d = false /\ r_crs r' = d /\ exists f, transformer (r_crs r) d = Ok f /\ moved f (r_bbox r) = Ok (r_bbox r') /\ ordered (r_bbox r')))
    | (r', _) => r' = r end.
  Proof.
    unfold transform_to. destruct (parse c) as [d| |]; auto. destruct (crs_eq (r_crs r) d) eqn:Ed; [exists d; auto|].
    destruct (transformer (r_crs r) d) as [f| |] eqn:Ef; cbn [bind]; auto. destruct (moved f (r_bbox r)) as [e| |] eqn:Em; auto.
    pose proof (set_bbox_spec r e) as S. destruct (set_bbox r e) as [r' [[]|x|]]; auto. destruct S as (S1 & S2 & S3). exists d. split; auto. right. cbn.
    split; auto. split; auto. exists f. rewrite S1. auto.
  Qed.
  Lemma run_ordered os : forall r, ordered (r_bbox r) -> ordered (r_bbox (run parse crs_eq transformer r os)).
  Proof.
    induction os as [|o os IH]; intros r H; [exact H|]. unfold run. cbn [fold_left]. apply IH. destruct o as [e|c]; cbn [run_op].
    - pose proof (set_bbox_spec r e) as S. destruct (set_bbox r e) as [r' [[]|x|]]; cbn [fst]; [|subst; auto|subst; auto]. destruct S as (-> & _ & S). auto.
    - pose proof (transform_spec r c) as S. destruct (transform_to parse crs_eq transformer r c) as [r' [[]|x|]]; cbn [fst]; [|subst; auto|subst; auto].
      destruct S as (d & _ & [[_ ->]|(_ & _ & f & _ & _ & S)]); auto.
  Qed.
End R.

Lemma separable g h x0 x1 y0 y1 : (forall x y, x <= y -> g x <= g y) -> (forall x y, x <= y -> h x <= h y) ->
  x0 <= x1 -> y0 <= y1 -> forall (f : pt -> pt), (forall x y, f (Fin x, Fin y) = (Fin (g x), Fin (h y))) ->
  forall crs user (parse : user -> res crs) crs_eq transformer (r : region crs) c d, parse c = Ok d -> crs_eq (r_crs r) d = false -> transformer (r_crs r) d = Ok f ->
  r_bbox r = Box [Fin x0; Fin x1; Fin y0; Fin y1] ->
  exists r', transform_to parse crs_eq transformer r c = (r', Ok tt) /\ r_crs r' = d /\ r_bbox r' = Box [Fin (g x0); Fin (g x1); Fin (h y0); Fin (h y1)] /\
    forall x y, in_box (x0, x1, y0, y1) (x, y) -> in_box (g x0, g x1, h y0, h y1) (g x, h y).
Proof.
  intros Hg Hh Hx Hy f Hf crs user parse crs_eq transformer r c d Hp Hd Ht Hb. eexists. split.
  - unfold transform_to. rewrite Hp, Hd, Ht. cbn [bind]. rewrite Hb. cbn [moved]. rewrite !Hf. cbn [fst snd]. unfold set_bbox. rewrite check_ordered; [reflexivity|].
    exists (Fin (g x0)), (Fin (g x1)), (Fin (h y0)), (Fin (h y1)), []. cbn. auto.
  - cbn [r_crs r_bbox]. split; auto. split; auto. intros x y. unfold in_box. cbn [fst snd]. intros [[A B] [C D]]. auto.
Qed.
