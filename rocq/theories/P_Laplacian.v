(** Proofs about laplacian2. *)
From Coq Require Import List Arith Bool Lia Permutation ZArith QArith Qminmax Lqa.
From Verif Require Import M_Base M_Numpy M_Edges M_FixMesh M_Adjacency M_Clean.
From Verif Require Import S_Edges S_FixMesh S_Adjacency S_Clean Util P_Edges P_FixMesh P_Adjacency P_Exterior P_Interior.
Import ListNotations.
Open Scope nat_scope.

Lemma lap_row_In ts i j : In j (lap_row ts i) -> exists t, In t ts /\ In i (corners t) /\ In j (corners t).
Proof.
  unfold lap_row. rewrite in_flat_map. intros ([[a b] c] & Ht & Hj). exists (a, b, c). split; auto.
  apply in_app_iff in Hj. simpl.
  destruct Hj as [Hj|Hj]; [|apply in_app_iff in Hj; destruct Hj as [Hj|Hj]];
    match goal with H : context [if ?x =? i then _ else _] |- _ => destruct (Nat.eqb_spec x i); [subst|contradiction H] end;
    simpl in Hj; intuition.
Qed.
Lemma lap_row_used ts i : (exists t, In t ts /\ In i (corners t)) -> lap_row ts i <> [].
Proof.
  intros (t & Ht & Hi) E. unfold lap_row in E.
  induction ts as [|s ts IH]; [contradiction|]. cbn [flat_map] in E. apply app_eq_nil in E. destruct E as [E1 E2].
  destruct Ht as [->|Ht]; [|now apply IH]. destruct t as [[a b] c]. simpl in Hi.
  destruct Hi as [<-|[<-|[<-|[]]]]; rewrite Nat.eqb_refl in E1.
  - discriminate.
  - apply app_eq_nil in E1. destruct E1 as [_ E1]. discriminate.
  - apply app_eq_nil in E1. destruct E1 as [_ E1]. apply app_eq_nil in E1. destruct E1 as [_ E1]. discriminate.
Qed.

Lemma sweep_length ts bnd p : length (lap_sweep ts bnd p) = length p.
Proof. unfold lap_sweep. now rewrite map_length, seq_length. Qed.
Lemma sweep_nth ts bnd p i : i < length p -> nth i (lap_sweep ts bnd p) (0, 0)%Q =
  if existsb (Nat.eqb i) bnd then nth i p (0, 0)%Q
  else (Qsum (map (fun j => fst (nth j p (0, 0)%Q)) (lap_row ts i)) / inject_Z (Z.of_nat (length (lap_row ts i))),
        Qsum (map (fun j => snd (nth j p (0, 0)%Q)) (lap_row ts i)) / inject_Z (Z.of_nat (length (lap_row ts i))))%Q.
Proof.
  intros Hi. unfold lap_sweep.
  match goal with |- nth i (map ?f _) _ = _ =>
    rewrite nth_indep with (d' := f 0) by (rewrite map_length, seq_length; lia); rewrite (map_nth f), seq_nth by lia; reflexivity end.
Qed.

Open Scope Q_scope.
Lemma Qsum_bounds l lo hi : (forall x, In x l -> lo <= x <= hi) ->
  lo * inject_Z (Z.of_nat (length l)) <= Qsum l <= hi * inject_Z (Z.of_nat (length l)).
Proof.
  induction l as [|x l IH]; intros H.
  - simpl. change (inject_Z 0) with 0. split; lra.
  - specialize (IH (fun y Hy => H y (or_intror Hy))). specialize (H x (or_introl eq_refl)).
    replace (Z.of_nat (length (x :: l))) with (1 + Z.of_nat (length l))%Z by (cbn [length]; lia).
    rewrite inject_Z_plus. change (inject_Z 1) with 1. change (Qsum (x :: l)) with (x + Qsum l).
    rewrite !Qmult_plus_distr_r. lra.
Qed.
Lemma mean_bounds l lo hi : l <> [] -> (forall x, In x l -> lo <= x <= hi) ->
  lo <= Qsum l / inject_Z (Z.of_nat (length l)) <= hi.
Proof.
  intros Hne H. apply Qsum_bounds in H. set (n := inject_Z (Z.of_nat (length l))) in *.
  assert (Hn : 0 < n). { unfold n. change 0 with (inject_Z 0). rewrite <- Zlt_Qlt. destruct l; [congruence|simpl; lia]. }
  split.
  - apply Qle_shift_div_l; tauto.
  - apply Qle_shift_div_r; tauto.
Qed.

(** A box that contains all points is kept. *)
Definition boxed (xlo xhi ylo yhi : Q) (p : list point) : Prop :=
  forall x, In x p -> xlo <= fst x <= xhi /\ ylo <= snd x <= yhi.

Section Sweep.
  Variables (ts : list tri) (bnd : list nat) (n : nat).
  Hypothesis Hr : Forall (in_range n) ts.
  Hypothesis Hu : forall i, (i < n)%nat -> lap_row ts i <> [].

  Lemma sweep_boxed xlo xhi ylo yhi p : length p = n -> boxed xlo xhi ylo yhi p -> boxed xlo xhi ylo yhi (lap_sweep ts bnd p).
  Proof.
    intros Hn Hb x Hx. destruct (In_nth _ _ (0, 0) Hx) as (i & Hi & <-). rewrite sweep_length in Hi.
    rewrite sweep_nth by auto. destruct (existsb (Nat.eqb i) bnd); [now apply Hb, nth_In|].
    assert (Hj : forall j, In j (lap_row ts i) -> (j < length p)%nat).
    { intros j Hj. apply lap_row_In in Hj. destruct Hj as (t & Ht & _ & Hc). rewrite Forall_forall in Hr.
      specialize (Hr t Ht). unfold in_range in Hr. rewrite Forall_forall in Hr. specialize (Hr j Hc). lia. }
    assert (Hne : lap_row ts i <> []) by (apply Hu; lia).
    cbn [fst snd]. split.
    - rewrite <- (map_length (fun j => fst (nth j p (0, 0))) (lap_row ts i)). apply mean_bounds.
      + intros E. apply map_eq_nil in E. auto.
      + intros y Hy. apply in_map_iff in Hy. destruct Hy as (j & <- & Hy). apply Hb, nth_In. auto.
    - rewrite <- (map_length (fun j => snd (nth j p (0, 0))) (lap_row ts i)). apply mean_bounds.
      + intros E. apply map_eq_nil in E. auto.
      + intros y Hy. apply in_map_iff in Hy. destruct Hy as (j & <- & Hy). apply Hb, nth_In. auto.
  Qed.

  Lemma loop_spec xlo xhi ylo yhi stop k : forall it p, length p = n -> boxed xlo xhi ylo yhi p ->
    length (lap_loop k it stop ts bnd p) = n /\
    (forall i, In i bnd -> (i < n)%nat -> nth i (lap_loop k it stop ts bnd p) (0, 0) = nth i p (0, 0)) /\
    boxed xlo xhi ylo yhi (lap_loop k it stop ts bnd p).
  Proof.
    induction k as [|k IH]; intros it p Hn Hb; cbn [lap_loop]; [auto|].
    assert (Hn' : length (lap_sweep ts bnd p) = n) by (now rewrite sweep_length).
    assert (Hb' : boxed xlo xhi ylo yhi (lap_sweep ts bnd p)) by (now apply sweep_boxed).
    assert (Hs : forall i, In i bnd -> (i < n)%nat -> nth i (lap_sweep ts bnd p) (0, 0) = nth i p (0, 0)).
    { intros i Hi Hlt. rewrite sweep_nth by lia. apply existsb_eqb in Hi. now rewrite Hi. }
    destruct (stop it (lap_sweep ts bnd p)); [auto|].
    destruct (IH (S it) (lap_sweep ts bnd p) Hn' Hb') as (G1 & G2 & G3). split; auto. split; auto.
    intros i Hi Hlt. rewrite G2 by auto. now apply Hs.
  Qed.
End Sweep.

Lemma boxed_in_box p p' : p <> [] -> (forall xlo xhi ylo yhi, boxed xlo xhi ylo yhi p -> boxed xlo xhi ylo yhi p') ->
  forall x, In x p' -> in_box p x.
Proof.
  intros Hne H x Hx.
  assert (Hmap : forall (f : point -> Q), map f p <> []) by (intros f E; apply map_eq_nil in E; auto).
  assert (Hb : boxed (col_min (map fst p)) (col_max (map fst p)) (col_min (map snd p)) (col_max (map snd p)) p).
  { intros y Hy. repeat split; (apply col_min_le || apply col_max_ge); now apply in_map. }
  apply H in Hb. specialize (Hb x Hx). destruct Hb as [[H1 H2] [H3 H4]].
  destruct (col_min_att _ (Hmap fst)) as (a & Ha & Ea), (col_max_att _ (Hmap fst)) as (b & Hb' & Eb),
           (col_min_att _ (Hmap snd)) as (c & Hc & Ec), (col_max_att _ (Hmap snd)) as (d & Hd & Ed).
  split; split; [exists a|exists b|exists c|exists d]; split; auto; lra.
Qed.

Lemma closest_node_ok x p : p <> [] -> exists i, closest_node x p = Ok i /\ closest x p i.
Proof.
  intros Hne. unfold closest_node.
  destruct (argmin_spec (map (fun y => Some ((fst y - fst x) * (fst y - fst x) + (snd y - snd x) * (snd y - snd x))) p)) as (i & q & H1 & H2 & H3).
  { intros E. apply map_eq_nil in E. auto. }
  exists i. split; auto. rewrite nth_error_map in H2. destruct (nth_error p i) as [y|] eqn:E; [|discriminate].
  injection H2 as <-. split; [apply nth_error_Some; congruence|]. intros j Hj.
  apply nth_error_nth with (d := (0, 0)) in E. rewrite E.
  assert (Hin : In (nth j p (0, 0)) p) by (now apply nth_In).
  specialize (H3 _ (in_map (fun y => Some ((fst y - fst x) * (fst y - fst x) + (snd y - snd x) * (snd y - snd x))) p _ Hin)).
  simpl in H3. unfold dist2. lra.
Qed.

Definition pins (pfix : option (list point)) : list point := match pfix with Some l => l | None => [] end.
Lemma laplacian_ok stop k pfix p ts : all_used (length p) ts -> has_boundary ts -> pfix <> Some [] ->
  exists p', laplacian2 stop k pfix p ts = Ok (p', ts) /\ length p' = length p /\
    (forall u v, on_boundary ts u v -> nth v p' (0, 0) = nth v p (0, 0)) /\
    (forall l x, pfix = Some l -> In x l -> exists i, closest x p i /\ nth i p' (0, 0) = nth i p (0, 0)) /\
    forall x, In x p' -> in_box p x.
Proof.
  intros Hu Hbd Hpf. pose proof (all_used_range _ _ Hu) as Hr. unfold laplacian2. fold (pins pfix).
  assert (Hts : ts <> []) by (intros ->; destruct Hbd as (u & v & H); discriminate H).
  assert (Hrb : forallb (fun t => forallb (fun v => v <? length p)%nat (tri_vertices t)) ts = true) by (now apply in_rangeb_spec).
  rewrite Hrb. rewrite external_topology_ok by auto. cbn [bind snd].
  assert (Hpne : p <> []).
  { destruct ts as [|[[a b] c] ts]; [congruence|]. intros ->. assert (a < 0)%nat; [|lia]. apply Hu. exists (a, b, c). split; simpl; auto. }
  destruct (mapM_ok (fun x => closest_node x p) (pins pfix) (fun x i => closest x p i)) as (ifix & Hi & HF).
  { intros x _. now apply closest_node_ok. }
  rewrite Hi. cbn [bind].
  assert (Hrow : forall i, (i < length p)%nat -> lap_row ts i <> []) by (intros i Hlt; apply lap_row_used, Hu, Hlt).
  assert (HW : existsb (fun i => length (lap_row ts i) =? 0)%nat (seq 0 (length p)) = false).
  { apply not_true_iff_false. rewrite existsb_exists. intros (i & Hin & E). apply in_seq in Hin. apply Nat.eqb_eq in E.
    apply length_zero_iff_nil in E. apply (Hrow i); auto. lia. }
  rewrite HW. replace (match pfix with Some [] => (0 <? k)%nat | _ => false end) with false by (destruct pfix as [[|]|]; congruence).
  eexists. split; [reflexivity|].
  assert (Hall : forall xlo xhi ylo yhi, boxed xlo xhi ylo yhi p ->
     length (lap_loop k 0 stop ts (bverts ts ++ ifix) p) = length p /\
     (forall i, In i (bverts ts ++ ifix) -> (i < length p)%nat -> nth i (lap_loop k 0 stop ts (bverts ts ++ ifix) p) (0, 0) = nth i p (0, 0)) /\
     boxed xlo xhi ylo yhi (lap_loop k 0 stop ts (bverts ts ++ ifix) p)).
  { intros xlo xhi ylo yhi Hb. apply loop_spec with (n := length p); auto. }
  assert (Hb0 : boxed (col_min (map fst p)) (col_max (map fst p)) (col_min (map snd p)) (col_max (map snd p)) p).
  { intros y Hy. repeat split; (apply col_min_le || apply col_max_ge); now apply in_map. }
  destruct (Hall _ _ _ _ Hb0) as (G1 & G2 & _). split; auto. split; [|split].
  - intros u v Hv. assert (Hin : In v (boundary_ends ts)) by (apply boundary_ends_In; exists u; exact Hv).
    apply G2; [apply in_or_app; left; now apply bverts_In|]. eapply boundary_in_range; eauto.
  - intros l x El Hx. assert (Hx' : In x (pins pfix)) by (rewrite El; exact Hx). destruct (Forall2_In_l _ _ _ _ HF Hx') as (i & Hi' & Hc). exists i. split; auto.
    apply G2; [apply in_or_app; now right|apply Hc].
  - apply boxed_in_box; auto. intros xlo xhi ylo yhi Hb. apply (Hall _ _ _ _ Hb).
Qed.

(** Each sweep moves a free vertex to the mean of its neighbours (each edge of a face counted). *)
Lemma laplacian_invalid stop k pfix p ts v : Forall (in_range (length p)) ts -> has_boundary ts -> (v < length p)%nat ->
  ~ (exists t, In t ts /\ In v (corners t)) -> laplacian2 stop k pfix p ts = Ok (p, ts).
Proof.
  intros Hr Hbd Hv Hno. unfold laplacian2. fold (pins pfix).
  assert (Hrb : forallb (fun t => forallb (fun v => v <? length p)%nat (tri_vertices t)) ts = true) by (now apply in_rangeb_spec).
  rewrite Hrb. rewrite external_topology_ok by auto. cbn [bind snd].
  assert (Hpne : p <> []) by (intros ->; simpl in Hv; lia).
  destruct (mapM_ok (fun x => closest_node x p) (pins pfix) (fun x i => closest x p i)) as (ifix & Hi & HF).
  { intros x _. now apply closest_node_ok. }
  rewrite Hi. cbn [bind].
  assert (HW : existsb (fun i => length (lap_row ts i) =? 0)%nat (seq 0 (length p)) = true).
  { apply existsb_exists. exists v. split; [apply in_seq; lia|]. apply Nat.eqb_eq.
    destruct (lap_row ts v) as [|j l] eqn:E; auto. exfalso. apply Hno.
    destruct (lap_row_In ts v j) as (t & Ht & Hc & _); [rewrite E; now left|eauto]. }
  now rewrite HW.
Qed.

Lemma laplacian_closed stop k pfix p ts : Forall (in_range (length p)) ts -> ~ has_boundary ts -> laplacian2 stop k pfix p ts = Raise IndexError.
Proof.
  intros Hr Hb. unfold laplacian2. apply in_rangeb_spec in Hr. rewrite Hr. now rewrite external_topology_closed.
Qed.
Lemma laplacian_no_pins stop k p ts : all_used (length p) ts -> has_boundary ts -> laplacian2 stop (S k) (Some []) p ts = Raise IndexError.
Proof.
  intros Hu Hb. pose proof (all_used_range _ _ Hu) as Hr. unfold laplacian2. pose proof Hr as Hr'. apply in_rangeb_spec in Hr'. rewrite Hr'.
  rewrite external_topology_ok by auto. cbn [bind mapM].
  assert (HW : existsb (fun i => length (lap_row ts i) =? 0)%nat (seq 0 (length p)) = false).
  { apply not_true_iff_false. rewrite existsb_exists. intros (i & Hin & E). apply in_seq in Hin. apply Nat.eqb_eq in E.
    apply length_zero_iff_nil in E. revert E. apply lap_row_used, Hu. lia. }
  now rewrite HW.
Qed.
Lemma lap_loop_length : forall k it stop ts bnd p, length (lap_loop k it stop ts bnd p) = length p.
Proof.
  induction k as [|k IH]; intros it stop ts bnd p; cbn [lap_loop]; [reflexivity|].
  destruct (stop it (lap_sweep ts bnd p)); [|rewrite IH]; apply sweep_length.
Qed.

(** An interior vertex 0, far from the point (0, 0), which is its index broadcast. *)
Definition pin_p : list point := [(10 # 1, 10 # 1); (11 # 1, 9 # 1); (9 # 1, 12 # 1); (8 # 1, 10 # 1); (9 # 1, 5 # 1)].
Definition pin_t : list tri := [(0, 1, 2); (0, 2, 3); (0, 3, 4); (0, 4, 1)]%nat.
Lemma pinned_index_moves : exists p ts i, all_used (length p) ts /\ has_boundary ts /\ (i < length p)%nat /\
  exists p', laplacian2 (fun _ _ => false) 1 (Some [scalar_pin (inject_Z (Z.of_nat i))]) p ts = Ok (p', ts) /\ nth i p' (0, 0) <> nth i p (0, 0).
Proof.
  exists pin_p, pin_t, 0%nat. split; [|split; [|split; [cbn; lia|]]].
  - intros v. split.
    + intros H. cbn in H.
      do 5 (destruct v as [|v]; [first [exists (0, 1, 2)%nat; split; simpl; auto; fail|exists (0, 3, 4)%nat; split; simpl; auto; fail]|]). lia.
    + intros (t & Ht & H). simpl in Ht. decompose [or] Ht; subst; simpl in *; try lia; contradiction.
  - exists 1%nat, 2%nat. reflexivity.
  - eexists. split; [vm_compute; reflexivity|]. vm_compute. discriminate.
Qed.
Lemma scalar_pins_ok : forall stop k l p ts, all_used (length p) ts -> has_boundary ts -> l <> [] ->
  exists p', laplacian2 stop k (Some (map scalar_pin l)) p ts = Ok (p', ts) /\ length p' = length p /\
    forall x, In x l -> exists i, closest (x, x) p i /\ nth i p' (0, 0) = nth i p (0, 0).
Proof.
  intros stop k l p ts Hu Hb Hl. destruct (laplacian_ok stop k (Some (map scalar_pin l)) p ts Hu Hb) as (p' & E & L & _ & P & _).
  - intros H. injection H as H. apply map_eq_nil in H. exact (Hl H).
  - exists p'. split; [exact E|]. split; [exact L|]. intros x Hx. exact (P _ (x, x) eq_refl (in_map scalar_pin l x Hx)).
Qed.
