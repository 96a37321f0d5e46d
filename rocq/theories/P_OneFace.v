(** Proofs about delete_faces_connected_to_one_face. *)
From Coq Require Import List Arith Bool Lia Relations Permutation Sorted ZArith QArith Lqa.
From Verif Require Import M_Base M_Numpy M_Edges M_FixMesh M_Adjacency M_Clean.
From Verif Require Import S_Edges S_FixMesh S_Adjacency S_Clean Util P_Edges P_FixMesh P_Adjacency P_Search P_Exterior P_Interior P_Traversable.
Import ListNotations.
Open Scope nat_scope.

Section OneFace.
  Variable argsort : list nat -> list nat.
  Hypothesis Ha : is_argsort argsort.
  Variable kleb : Z * Z -> Z * Z -> bool.
  Hypothesis Hk : total_order kleb.

  Lemma f2f_pointers ts : ts <> [] ->
    snd (face_to_face argsort ts) = map (fun k => below k (map fst (fst (face_to_face argsort ts)))) (seq 0 (S (length ts))).
  Proof.
    intros Hne. change (snd (face_to_face argsort ts)) with (pointers (map fst (fst (face_to_face argsort ts)))).
    apply pointers_spec.
    - refine (proj1 (StronglySorted_map le fst _) _). apply f2f_table_sorted. exact Ha.
    - apply f2f_first_col. exact Ha.
    - destruct ts; [congruence|simpl; lia].
  Qed.
  Lemma one_neighbour_nil : one_neighbour argsort [] = [].
  Proof.
    unfold one_neighbour.
    change (snd (face_to_face argsort [])) with (pointers (map fst (fst (face_to_face argsort [])))).
    assert (H : map fst (fst (face_to_face argsort [])) = []).
    { destruct (map fst (fst (face_to_face argsort []))) as [|k l] eqn:E; auto.
      assert (Hk' : In k (map fst (fst (face_to_face argsort [])))) by (rewrite E; now left).
      apply (f2f_first_col argsort Ha) in Hk'. cbn [length] in Hk'. lia. }
    rewrite H. reflexivity.
  Qed.

  Lemma one_neighbour_lt ts i : In i (one_neighbour argsort ts) -> i < length ts.
  Proof.
    destruct ts as [|t ts]; [rewrite one_neighbour_nil; contradiction|].
    unfold one_neighbour. rewrite filter_In. intros [H _]. apply in_seq in H.
    rewrite f2f_pointers in H by discriminate. rewrite map_length, seq_length in H. simpl in *. lia.
  Qed.
  Lemma one_neighbour_In ts i : manifold ts -> (In i (one_neighbour argsort ts) <-> i < length ts /\ dangling ts i).
  Proof.
    intros Hm. destruct ts as [|t ts']; [rewrite one_neighbour_nil; simpl; split; [contradiction|intros [H _]; lia]|].
    set (ts := t :: ts') in *. unfold one_neighbour. rewrite filter_In, in_seq.
    rewrite (f2f_pointers ts) by discriminate. rewrite map_length, seq_length.
    set (col := map fst (fst (face_to_face argsort ts))).
    split.
    - intros [Hi Heq]. assert (Hlt : i < length ts) by lia. split; auto. apply Nat.eqb_eq in Heq.
      destruct (f2f_row_length argsort Ha ts i Hm Hlt) as (l & Hl & HL).
      rewrite row_of_spec with (n := length ts) in Hl; auto; [|now apply f2f_table_sorted|now apply f2f_first_col].
      assert (El : l = map snd (filter (fun p => fst p =? i) (fst (face_to_face argsort ts)))) by congruence.
      rewrite El, map_length in HL.
      assert (nth (S i) (map (fun k => below k col) (seq 0 (S (length ts)))) 0 = below (S i) col /\ nth i (map (fun k => below k col) (seq 0 (S (length ts)))) 0 = below i col) as [E1 E2].
      { split; (rewrite nth_indep with (d' := below 0 col) by (rewrite map_length, seq_length; lia);
          rewrite (map_nth (fun k => below k col)); rewrite seq_nth by lia; reflexivity). }
      rewrite E1, E2 in Heq. unfold col in Heq. rewrite !below_map, filter_ltS_length in Heq. unfold dangling. lia.
    - intros [Hlt Hd]. split; [lia|]. apply Nat.eqb_eq.
      destruct (f2f_row_length argsort Ha ts i Hm Hlt) as (l & Hl & HL).
      rewrite row_of_spec with (n := length ts) in Hl; auto; [|now apply f2f_table_sorted|now apply f2f_first_col].
      assert (El : l = map snd (filter (fun p => fst p =? i) (fst (face_to_face argsort ts)))) by congruence.
      rewrite El, map_length in HL.
      assert (nth (S i) (map (fun k => below k col) (seq 0 (S (length ts)))) 0 = below (S i) col /\ nth i (map (fun k => below k col) (seq 0 (S (length ts)))) 0 = below i col) as [E1 E2].
      { split; (rewrite nth_indep with (d' := below 0 col) by (rewrite map_length, seq_length; lia);
          rewrite (map_nth (fun k => below k col)); rewrite seq_nth by lia; reflexivity). }
      rewrite E1, E2. unfold col. rewrite !below_map, filter_ltS_length. unfold dangling in Hd. lia.
  Qed.

  (** Termination and the exit state. *)
  Lemma one_face_total fuel : forall count mi p ts, Forall (in_range (length p)) ts -> length ts < fuel ->
    exists p' t', one_face_loop argsort kleb fuel count mi p ts = Ok (p', t') /\
      (mi = None -> one_neighbour argsort t' = []) /\
      (separated ptol_default p -> submesh p ts p' t' /\ separated ptol_default p' /\ (manifold ts -> manifold t') /\ (Forall nondegenerate ts -> Forall nondegenerate t')) /\
      Forall (in_range (length p')) t'.
  Proof.
    induction fuel as [|fuel IH]; intros count mi p ts Hr Hlt; [lia|]. cbn [one_face_loop].
    assert (Hstop : submesh p ts p ts) by (split; [apply incl_refl|]; intros s Hs; exists s; auto).
    destruct (match mi with None => true | Some k => count <? k end) eqn:Ec.
    2:{ exists p, ts. split; [reflexivity|]. split; [intros ->; discriminate|]. split; [|exact Hr]. intros Hs. repeat split; auto; apply Hstop. }
    destruct (one_neighbour argsort ts) as [|f del] eqn:Ed.
    { exists p, ts. split; [reflexivity|]. split; [auto|]. split; [|exact Hr]. intros Hs. repeat split; auto; apply Hstop. }
    rewrite delete_at_faces. set (dl := f :: del) in *.
    assert (Hf : f < length ts) by (apply one_neighbour_lt; rewrite Ed; now left).
    assert (Hpne : p <> []).
    { intros ->. rewrite Forall_forall in Hr. specialize (Hr (nth f ts no_face) (nth_In _ _ Hf)).
      destruct (nth f ts no_face) as [[x y] z]. inversion Hr; subst. simpl in *; lia. }
    destruct (proj2 (fix_mesh_total kleb ptol_default Hk p (faces_at ts (kept (length ts) dl)) true)) as ([[p1 t1] j1] & Hf1).
    { split; auto. apply faces_at_Forall; auto. apply kept_in_lt. }
    unfold fix0. rewrite Hf1. cbn [bind].
    destruct (fix_match kleb Hk ptol_default _ _ _ _ _ Hf1) as (m1 & ts1 & rest & HP1 & HF1 & Hu1 & Hs1 & _).
    destruct (fix_smaller kleb Hk ptol_default _ _ _ _ _ Hf1) as [_ Hl1]. rewrite faces_at_length in Hl1.
    assert (length (kept (length ts) dl) < length ts) by (apply kept_lt with f; auto; now left).
    destruct (IH (S count) mi p1 t1) as (p' & t' & G1 & G2 & G3 & G4); [now apply all_used_range|lia|].
    exists p', t'. split; auto. split; auto. split; auto. intros Hs.
    destruct (fix_sub kleb Hk ptol_default _ _ _ _ _ ptol_pos Hs Hf1) as (S1 & B1 & _ & M1 & N1).
    destruct (G3 S1) as (B2 & S2 & M2 & N2). split; [|split; [auto|split]].
    - split; [intros x Hx; apply B1, B2, Hx|]. intros s Hs'. destruct (proj2 B2 s Hs') as (s2 & Hs2 & P2).
      destruct (proj2 B1 s2 Hs2) as (s1 & Hs1' & P1). apply faces_at_In in Hs1'; [|apply kept_in_lt].
      exists s1. split; auto. eapply Permutation_trans; eauto.
    - intros Hmf. apply M2, M1. apply faces_at_manifold; auto; [apply kept_NoDup|apply kept_in_lt].
    - intros Hnd. apply N2, N1. apply faces_at_Forall; auto. apply kept_in_lt.
  Qed.

  Lemma one_face_ok mi p ts : Forall (in_range (length p)) ts -> mi <> Some 0 ->
    exists p' t', delete_faces_connected_to_one_face argsort kleb mi p ts = Ok (p', t') /\
      (separated ptol_default p -> submesh p ts p' t').
  Proof.
    intros Hr Hmi. destruct (one_face_total (S (length ts)) 0 mi p ts Hr) as (p' & t' & G1 & G2 & G3 & G4); [lia|].
    exists p', t'. split; [|intros H; now apply G3]. unfold delete_faces_connected_to_one_face.
    destruct mi as [[|k]|]; [congruence|exact G1|exact G1].
  Qed.

  Lemma one_face_exit p ts p' t' : Forall (in_range (length p)) ts ->
    delete_faces_connected_to_one_face argsort kleb None p ts = Ok (p', t') ->
    manifold t' -> forall i, i < length t' -> ~ dangling t' i.
  Proof.
    intros Hr H Hm i Hi Hd. destruct (one_face_total (S (length ts)) 0 None p ts Hr) as (p2 & t2 & G1 & G2 & _); [lia|].
    unfold delete_faces_connected_to_one_face in H. rewrite G1 in H. injection H as <- <-.
    assert (Hin : In i (one_neighbour argsort t2)) by (apply one_neighbour_In; auto).
    rewrite (G2 eq_refl) in Hin. contradiction.
  Qed.

  Lemma one_face_spec p ts p' t' : Forall (in_range (length p)) ts -> separated ptol_default p -> manifold ts ->
    delete_faces_connected_to_one_face argsort kleb None p ts = Ok (p', t') ->
    manifold t' /\ submesh p ts p' t' /\ forall i, i < length t' -> ~ dangling t' i.
  Proof.
    intros Hr Hs Hm H. destruct (one_face_total (S (length ts)) 0 None p ts Hr) as (p2 & t2 & G1 & G2 & G3 & _); [lia|].
    pose proof (one_face_exit p ts p' t' Hr H) as Hex.
    unfold delete_faces_connected_to_one_face in H. rewrite G1 in H. injection H as <- <-.
    destruct (G3 Hs) as (B & _ & M & _). auto.
  Qed.

  (** One round. *)
  Lemma one_face_round p ts : Forall (in_range (length p)) ts -> manifold ts ->
    exists keep, positions (length ts) (fun i => ~ dangling ts i) keep /\
      (length keep = length ts -> delete_faces_connected_to_one_face argsort kleb (Some 1) p ts = Ok (p, ts)) /\
      (length keep < length ts ->
        delete_faces_connected_to_one_face argsort kleb (Some 1) p ts =
        (let! f := fix_mesh kleb ptol_default p (faces_at ts keep) true in Ok (fst (fst f), snd (fst f)))).
  Proof.
    intros Hr Hm. exists (kept (length ts) (one_neighbour argsort ts)). split; [|split].
    - split; [apply kept_sorted|]. intros i. rewrite kept_In, one_neighbour_In by auto. tauto.
    - intros HL. unfold delete_faces_connected_to_one_face. cbn [one_face_loop].
      destruct (one_neighbour argsort ts) as [|f del] eqn:E; [reflexivity|].
      assert (f < length ts) by (apply one_neighbour_lt; rewrite E; now left).
      assert (length (kept (length ts) (f :: del)) < length ts) by (apply kept_lt with f; auto; now left). lia.
    - intros HL. unfold delete_faces_connected_to_one_face. cbn [one_face_loop Nat.ltb Nat.leb].
      destruct (one_neighbour argsort ts) as [|f del] eqn:E.
      + exfalso. unfold kept in HL. simpl in HL.
        replace (filter (fun _ : nat => true) (seq 0 (length ts))) with (seq 0 (length ts)) in HL; [rewrite seq_length in HL; lia|].
        generalize (seq 0 (length ts)). induction l; simpl; congruence.
      + rewrite delete_at_faces. unfold fix0. assert (f < length ts) by (apply one_neighbour_lt; rewrite E; now left).
        destruct (fix_mesh kleb ptol_default p (faces_at ts (kept (length ts) (f :: del))) true) as [[[p1 t1] j]| |]; auto.
        cbn [bind fst snd]. destruct (length ts); [lia|]. reflexivity.
  Qed.
End OneFace.
