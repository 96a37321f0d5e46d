(** Proofs about the flood fill of clean.py. *)
From Coq Require Import List Arith Bool Lia Relations Permutation.
From Verif Require Import M_Base M_Numpy M_Edges M_FixMesh M_Adjacency M_Clean.
From Verif Require Import S_Edges S_FixMesh S_Adjacency S_Clean Util P_Edges P_FixMesh P_Adjacency.
Import ListNotations.

Section Graph.
  Variable row : nat -> res (list nat).
  Variable nt : nat.
  Hypothesis row_ok : forall c, c < nt -> exists l, row c = Ok l /\ forall j, In j l -> j < nt.
  Variable start : nat.
  Hypothesis start_lt : start < nt.

  Definition step (i j : nat) : Prop := exists l, row i = Ok l /\ In j l.
  Definition reach := clos_refl_trans nat step.

  (** Invariant of the visited list. *)
  Record vinv (flag : list bool) (vis : list nat) : Prop := {
    vi_len : length flag = nt;
    vi_lt : forall j, In j vis -> j < nt;
    vi_nd : NoDup vis;
    vi_start : In start vis;
    vi_flag : forall j, nth j flag false = true <-> In j vis;
    vi_reach : forall j, In j vis -> reach start j
  }.


  Lemma visit_neis_spec neis : forall flag vis sr, vinv flag vis ->
    (forall j, In j neis -> j < nt /\ reach start j) ->
    exists flag' new sr', visit_neis neis (flag, vis, sr) = (flag', vis ++ new, sr') /\ vinv flag' (vis ++ new) /\
      (forall j, In j neis -> In j (vis ++ new)) /\
      (new = [] -> flag' = flag /\ sr' = sr) /\ (new <> [] -> sr' = true).
  Proof.
    unfold visit_neis.
    induction neis as [|n neis IH]; intros flag vis sr Hv Hn.
    - exists flag, [], sr. rewrite app_nil_r. simpl. repeat split; auto; try contradiction; apply Hv.
    - cbn [fold_left].
      destruct (nth n flag false) eqn:E.
      + destruct (IH flag vis sr Hv) as (f' & new & sr' & H1 & H2 & H3 & H4); [intros; apply Hn; now right|].
        exists f', new, sr'. split; [exact H1|]. split; [exact H2|]. split; [|exact H4].
        intros j [<-|Hj]; auto. apply in_or_app. left. now apply (vi_flag _ _ Hv).
      + destruct (Hn n (or_introl eq_refl)) as [Hlt Hr].
        assert (Hnew : ~ In n vis). { intros H. apply (vi_flag _ _ Hv) in H. congruence. }
        assert (Hv' : vinv (upd flag n true) (vis ++ [n])).
        { destruct Hv as [A B C D F G]. constructor.
          - now rewrite upd_length.
          - intros j Hj. apply in_app_iff in Hj. destruct Hj as [Hj|[<-|[]]]; auto.
          - apply (Permutation_NoDup (Permutation_cons_append vis n)). now constructor.
          - apply in_or_app. now left.
          - intros j. rewrite in_app_iff. destruct (Nat.eq_dec n j) as [->|Hne].
            + rewrite upd_nth_same by lia. simpl. tauto.
            + rewrite upd_nth_other by auto. rewrite F. simpl. intuition.
          - intros j Hj. apply in_app_iff in Hj. destruct Hj as [Hj|[<-|[]]]; auto. }
        destruct (IH _ _ true Hv') as (f' & new & sr' & H1 & H2 & H3 & H4 & H5); [intros; apply Hn; now right|].
        exists f', (n :: new), sr'. rewrite <- app_assoc in *. simpl in *.
        split; [exact H1|]. split; [exact H2|]. split.
        * intros j [<-|Hj]; [apply in_or_app; right; now left|auto].
        * split; [discriminate|]. intros _. destruct new as [|x r]; [now apply H4|apply H5; discriminate].
  Qed.

  (** Everything already expanded has its neighbours in the list. *)
  Definition expanded (pos : nat) (vis : list nat) : Prop :=
    forall k c j, k < pos -> nth_error vis k = Some c -> step c j -> In j vis.

  Lemma vinv_upd_id flag vis c : vinv flag vis -> In c vis -> upd flag c true = flag.
  Proof.
    intros Hv Hc. apply (vi_flag _ _ Hv) in Hc. revert c Hc. clear Hv.
    induction flag as [|b flag IH]; intros [|c] Hc; simpl in *; auto; try congruence.
    f_equal. now apply IH.
  Qed.

  Lemma for_visited_spec fuel : forall pos flag vis sr, vinv flag vis -> expanded pos vis ->
    pos <= length vis -> nt < pos + fuel ->
    exists flag' new sr', for_visited row fuel pos (flag, vis, sr) = Ok (flag', vis ++ new, sr') /\
      vinv flag' (vis ++ new) /\ expanded (length (vis ++ new)) (vis ++ new) /\
      (new = [] -> flag' = flag /\ sr' = sr) /\ (new <> [] -> sr' = true).
  Proof.
    induction fuel as [|fuel IH]; intros pos flag vis sr Hv He Hpos Hf.
    - assert (length vis <= nt) by (apply NoDup_lt_length; apply Hv). lia.
    - cbn [for_visited]. destruct (nth_error vis pos) as [c|] eqn:Ec.
      + assert (Hc : In c vis) by (eapply nth_error_In; eauto).
        assert (Hclt : c < nt) by now apply Hv.
        destruct (row_ok c Hclt) as (l & Hl & Hlt). rewrite Hl. cbn [bind].
        rewrite (vinv_upd_id flag vis c Hv Hc).
        destruct (visit_neis_spec l flag vis sr Hv) as (f1 & n1 & s1 & H1 & H2 & H3 & H4 & H5).
        { intros j Hj. split; auto. eapply rt_trans; [apply Hv; exact Hc|]. apply rt_step. exists l. auto. }
        rewrite H1.
        destruct (IH (S pos) f1 (vis ++ n1) s1) as (f2 & n2 & s2 & G1 & G2 & G3 & G4 & G5).
        * exact H2.
        * intros k c' j Hk Hn Hs. destruct (Nat.eq_dec k pos) as [->|Hne].
          -- rewrite nth_error_app1 in Hn.
             2:{ apply nth_error_Some. congruence. }
             assert (c' = c) by congruence. subst. destruct Hs as (l' & Hl' & Hj).
             assert (l' = l) by congruence. subst. auto.
          -- assert (Hk' : k < pos) by lia.
             assert (pos < length vis) by (apply nth_error_Some; congruence).
             rewrite nth_error_app1 in Hn by lia. apply in_or_app. left. eapply He; eauto.
        * assert (pos < length vis) by (apply nth_error_Some; congruence). rewrite app_length. lia.
        * lia.
        * exists f2, (n1 ++ n2), s2. rewrite app_assoc. repeat (split; [assumption|]). split.
          -- intros Hnil. apply app_eq_nil in Hnil. destruct Hnil as [-> ->].
             destruct (H4 eq_refl), (G4 eq_refl). split; congruence.
          -- intros Hne. destruct n2 as [|x r]; [|apply G5; discriminate].
             destruct (G4 eq_refl) as [_ ->]. apply H5. intros ->. now apply Hne.
      + exists flag, [], sr. rewrite app_nil_r. split; [reflexivity|]. split; [exact Hv|].
        split; [|split; [auto|congruence]].
        apply nth_error_None in Ec. assert (pos = length vis) by lia. now subst.
  Qed.

  (** The first pass starts with no flag set; after its first step the invariant holds. *)
  Lemma first_pass fuel sr : nt < fuel ->
    exists flag' vis' sr', for_visited row fuel 0 (repeat false nt, [start], sr) = Ok (flag', vis', sr') /\
      vinv flag' vis' /\ expanded (length vis') vis'.
  Proof.
    intros Hf. destruct fuel as [|fuel]; [lia|]. cbn [for_visited nth_error].
    destruct (row_ok start start_lt) as (l & Hl & Hlt). rewrite Hl. cbn [bind].
    assert (Hv : vinv (upd (repeat false nt) start true) [start]).
    { constructor.
      - now rewrite upd_length, repeat_length.
      - intros j [<-|[]]; auto.
      - constructor; [intros []|constructor].
      - now left.
      - intros j. destruct (Nat.eq_dec start j) as [<-|Hne].
        + rewrite upd_nth_same by (now rewrite repeat_length). simpl. tauto.
        + rewrite upd_nth_other by auto. rewrite nth_repeat. simpl. split; [discriminate|intros [H|[]]; congruence].
      - intros j [<-|[]]. apply rt_refl. }
    destruct (visit_neis_spec l _ [start] sr Hv) as (f1 & n1 & s1 & H1 & H2 & H3 & H4 & H5).
    { intros j Hj. split; auto. apply rt_step. exists l. auto. }
    rewrite H1.
    destruct (for_visited_spec fuel 1 f1 ([start] ++ n1) s1) as (f2 & n2 & s2 & G1 & G2 & G3 & G4 & G5); auto.
    - intros k c j Hk Hn Hs. assert (k = 0) by lia. subst. simpl in Hn. injection Hn as <-.
      destruct Hs as (l' & Hl' & Hj). assert (l' = l) by congruence. subst. auto.
    - simpl. lia.
    - exists f2, (([start] ++ n1) ++ n2), s2. auto.
  Qed.

  Lemma expanded_all flag vis : vinv flag vis -> expanded (length vis) vis -> forall j, reach start j -> In j vis.
  Proof.
    intros Hv He j Hr. apply clos_rt_rtn1 in Hr. induction Hr as [|x y Hs Hr IH]; [apply Hv|].
    destruct (In_nth_error _ _ IH) as (k & Hk).
    eapply He; [|exact Hk|exact Hs]. apply nth_error_Some. congruence.
  Qed.

  Lemma no_new_visits flag vis sr fuel : vinv flag vis -> expanded (length vis) vis -> nt < fuel ->
    for_visited row fuel 0 (flag, vis, sr) = Ok (flag, vis, sr).
  Proof.
    intros Hv He Hf.
    destruct (for_visited_spec fuel 0 flag vis sr) as (f' & new & s' & H1 & H2 & H3 & H4 & H5); auto; try lia.
    { intros k c j Hk. lia. }
    destruct new as [|x r].
    - destruct (H4 eq_refl) as [-> ->]. now rewrite app_nil_r in H1.
    - exfalso. assert (Hin : In x vis).
      { apply (expanded_all flag vis Hv He). apply H2. apply in_or_app. right. now left. }
      pose proof (vi_nd _ _ H2) as Hnd. apply NoDup_remove_2 in Hnd. apply Hnd. apply in_or_app. now left.
  Qed.

  Lemma while_searching_spec fuel inner : 2 <= fuel -> nt < inner ->
    exists flag, while_searching row fuel inner (repeat false nt) [start] = Ok flag /\ length flag = nt /\
      forall j, nth j flag false = true <-> reach start j.
  Proof.
    intros Hf Hi. destruct fuel as [|[|fuel]]; try lia. cbn [while_searching].
    destruct (first_pass inner false Hi) as (f1 & v1 & s1 & H1 & H2 & H3). rewrite H1. cbn [bind].
    assert (Hfin : forall j, nth j f1 false = true <-> reach start j).
    { intros j. rewrite (vi_flag _ _ H2). split; [apply H2|now apply (expanded_all f1)]. }
    destruct s1.
    - rewrite (no_new_visits f1 v1 false inner H2 H3 Hi). cbn [bind]. exists f1. split; auto. split; auto. apply H2.
    - exists f1. split; auto. split; auto. apply H2.
  Qed.
End Graph.

Lemma connected_lt ts i j : i < length ts -> connected ts i j -> j < length ts.
Proof. intros Hi H. apply clos_rt_rtn1 in H. induction H as [|x y Hs Hr IH]; auto. apply Hs. Qed.

Lemma dfs_spec argsort : is_argsort argsort -> forall ts start, start < length ts ->
  exists flag, depth_first_search argsort start ts = Ok flag /\ length flag = length ts /\
    forall j, nth j flag false = true <-> connected ts start j.
Proof.
  intros Ha ts start Hs. unfold depth_first_search. destruct ts as [|t0 ts0]; [simpl in Hs; lia|].
  set (ts := t0 :: ts0) in *.
  destruct (face_to_face argsort ts) as [ftof idx] eqn:E.
  destruct (while_searching_spec (row_of ftof idx) (length ts)) with (start := start) (fuel := S (S (length ts))) (inner := S (length ts))
    as (flag & H1 & H2 & H3); try lia.
  - intros c Hc. destruct (f2f_sound argsort Ha ts c Hc) as (l & Hl & _ & Hj). rewrite E in Hl. exists l. split; auto.
    intros j Hin. destruct (Hj j Hin) as [<-|H]; auto. apply H.
  - exists flag. split; auto. split; auto. intros j. rewrite H3.
    rewrite <- (f2f_connected argsort Ha ts start j Hs). unfold reach, step, listed. now rewrite E.
Qed.

Lemma dfs_empty argsort start : depth_first_search argsort start [] = Raise ValueError.
Proof. reflexivity. Qed.
