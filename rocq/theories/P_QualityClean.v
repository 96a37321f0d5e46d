(** What the scale dependence of simp_qual does to delete_boundary_faces. *)
From Coq Require Import List Reals Lra Psatz QArith Qreals Sorted.
From Verif Require Import M_Base M_Numpy M_FixMesh M_Clean M_Quality S_Edges S_FixMesh S_Adjacency S_Clean S_Quality.
From Verif Require Import P_Adjacency P_Interior P_Quality.
Import ListNotations.

Lemma positions_iff n (P P' : nat -> Prop) l : (forall i, (i < n)%nat -> P i <-> P' i) -> positions n P l -> positions n P' l.
Proof.
  intros H [S I]. split; auto. intros i. rewrite I. split; intros [L K]; split; auto; apply (H i L); auto.
Qed.
Lemma small_mesh argsort : is_argsort argsort -> forall kleb qual p ts mq, all_used (length p) ts -> has_boundary ts ->
  (forall t, In t ts -> (face_area p t <> 0 /\ face_perimeter p t < 5 * Q2R mq)%R) ->
  (forall t, In t ts -> exists q, qual p t = Some q /\ (Q2R q <= face_qual p t * (102 / 100))%R) ->
  exists keep, positions (length ts) (fun i => ~ exists u v, on_boundary ts u v /\ In v (corners (nth i ts no_face))) keep /\
    delete_boundary_faces argsort kleb qual p ts mq =
    (let! f := fix_mesh kleb ptol_default p (faces_at ts keep) true in Ok (fst (fst f), snd (fst f))).
Proof.
  intros HA kleb qual p ts mq Hu Hbd Hs Hq. destruct (boundary_faces_ok argsort HA kleb qual p ts mq Hu Hbd) as (keep & Hk & E).
  exists keep. split; auto. revert Hk. apply positions_iff. intros i Hi.
  assert (Hin : In (nth i ts no_face) ts) by (apply nth_In; auto). set (t := nth i ts no_face) in *.
  assert (exists q, qual p t = Some q /\ (q < mq)%Q) as Hlt.
  { destruct (Hq t Hin) as (q & E1 & L). exists q. split; auto. apply Rlt_Qlt. destruct (Hs t Hin) as [H1 H2].
    destruct t as [[a b] c]. change (face_qual p (a, b, c)) with (tri_qual (corner p a) (corner p b) (corner p c)) in L. cbn [face_area face_perimeter] in *. pose proof (qual_small _ _ _ H1) as [H3 H4].
    set (pe := perimeter (corner p a) (corner p b) (corner p c)) in *. assert (B : (1.7 < sqrt 3)%R).
    { rewrite <- (sqrt_pow2 1.7) by lra. apply sqrt_lt_1_alt. lra. }
    assert (Hpe : (0 <= pe)%R) by (unfold pe, perimeter; pose proof (dist_nonneg (corner p a) (corner p b)); pose proof (dist_nonneg (corner p b) (corner p c)); pose proof (dist_nonneg (corner p c) (corner p a)); lra).
    assert (U : (pe / (3 * sqrt 3) <= pe / 5.1)%R).
    { unfold Rdiv. apply Rmult_le_compat_l; auto. apply Rinv_le_contravar; lra. }
    apply Rle_lt_trans with (1 := L). apply Rle_lt_trans with ((pe / 5.1) * (102 / 100))%R; [apply Rmult_le_compat_r; lra|]. lra. }
  tauto.
Qed.
