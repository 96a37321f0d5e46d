(** Proofs about the mesh that generate_mesh returns, on doubles. *)
From Coq Require Import List Arith Bool ZArith Reals Lra Lia SpecFloat Permutation.
From Flocq Require Import Core IEEE754.BinarySingleNaN.
From Verif Require Import M_Base M_Edges M_FixMesh M_LapF M_QualF M_Ieee M_ForceF M_ProjF M_GenF S_FixMesh S_Double S_Ieee S_LapF S_ForceF S_GenF P_FixMesh P_Double P_Ieee P_Ieee3 P_Ieee4 P_Ieee5 P_Ieee6 P_Ieee7 P_ForceF2 P_GenF.
Import ListNotations.
Open Scope R_scope.

Lemma placed pfix : forall p p' inds, place_fixed_f pfix p = Ok (p', inds) -> length p' = length p /\ forall j, nth j p' nan2 = nth j p nan2 \/ In (nth j p' nan2) pfix.
Proof.
  induction pfix as [|x r IH]; intros p p' inds E; cbn [place_fixed_f] in E; [injection E as <- <-; split; [reflexivity|intros j; left; reflexivity]|].
  destruct (closest_node_f x p) as [i| |]; cbn [bind] in E; try discriminate. destruct (place_fixed_f r (upd p i x)) as [[q is]| |] eqn:PF; cbn [bind fst snd] in E; try discriminate. injection E as <- <-.
  destruct (IH _ _ _ PF) as [L A]. split; [rewrite L; apply upd_len|]. intros j. destruct (A j) as [B|B]; [|right; right; exact B].
  destruct (Nat.ltb_spec i (length p)) as [Hi|Hi].
  - rewrite (upd_at p i j x nan2 Hi) in B. destruct (j =? i)%nat; [right; left; symmetry; exact B|left; exact B].
  - left. rewrite B. f_equal. clear - Hi. revert i Hi. induction p as [|a p IHp]; intros i Hi; destruct i; cbn in *; try reflexivity; try lia. f_equal. apply IHp. lia.
Qed.
Lemma loop_parts tr locked fd fh geps deps dt m pfix n : forall count p p1 t, mesh_loop_f tr locked fd fh geps deps dt m pfix n count p = Ok (p1, t) ->
  exists q pd td is, tr (count + n)%nat q = Ok (pd, td) /\ place_fixed_f pfix pd = Ok (p1, is) /\ remove_triangles_outside_f p1 td fd geps = Ok t.
Proof.
  induction n as [|n IH]; intros count p p1 t E; cbn [mesh_loop_f] in E.
  - unfold topology_step_f in E. destruct (tr count p) as [[pd td]| |] eqn:T; cbn [bind fst snd] in E; try discriminate. destruct (locked pd td) as [l| |]; cbn [bind] in E; try discriminate.
    destruct (place_fixed_f pfix pd) as [[pf is]| |] eqn:PF; cbn [bind fst snd] in E; try discriminate. destruct (remove_triangles_outside_f pf td fd geps) as [t0| |] eqn:R; cbn [bind] in E; try discriminate. injection E as <- <-.
    exists p, pd, td, is. rewrite Nat.add_0_r. auto.
  - destruct (topology_step_f tr locked fd geps pfix count p) as [[[q t1] fx]| |]; cbn [bind] in E; try discriminate. destruct (move_step_f fd fh deps dt m q t1 fx) as [p2| |]; cbn [bind] in E; try discriminate.
    destruct (IH _ _ _ _ E) as (q' & pd & td & is & A). exists q', pd, td, is. rewrite <- Nat.add_succ_comm. exact A.
Qed.
Lemma removed_parts p td fd geps t : remove_triangles_outside_f p td fd geps = Ok t -> Forall (in_range (length p)) td /\ incl t td.
Proof.
  unfold remove_triangles_outside_f. intros E. destruct (mapM _ td) as [ks| |] eqn:EM; cbn [bind] in E; try discriminate. injection E as <-. destruct (mapM_filter _ _ _ EM) as [A B]. split.
  - apply Forall_forall. intros [[i j] k] I. destruct (B _ I) as [b Eb]. cbn beta iota in Eb. unfold get in Eb.
    destruct (nth_error p i) eqn:Ni; [|discriminate]. destruct (nth_error p j) eqn:Nj; [|discriminate]. destruct (nth_error p k) eqn:Nk; [|discriminate].
    unfold in_range, corners. repeat (apply Forall_cons; [eapply nth_error_Some; congruence|]). apply Forall_nil.
  - rewrite A. intros x Hx. apply filter_In in Hx. apply Hx.
Qed.
Lemma gen_parts tr locked fd fh geps deps dt m pfix kleb n p p' t' : generate_mesh_f tr locked fd fh geps deps dt m pfix kleb n p = Ok (p', t') ->
  exists k p1 t jx q pd td is, n = S k /\ p <> [] /\ mesh_loop_f tr locked fd fh geps deps dt m pfix k 0 p = Ok (p1, t) /\ fix_mesh_f kleb ptol_f p1 t true = Ok (p', t', jx) /\
    tr k q = Ok (pd, td) /\ place_fixed_f pfix pd = Ok (p1, is) /\ remove_triangles_outside_f p1 td fd geps = Ok t.
Proof.
  unfold generate_mesh_f. destruct n as [|k]; [discriminate|]. destruct p as [|x p]; [discriminate|]. cbn [length Nat.eqb]. intros E. destruct (mesh_loop_f _ _ _ _ _ _ _ _ _ k 0 (x :: p)) as [[p1 t]| |] eqn:ML; cbn [bind fst snd] in E; try discriminate.
  destruct (fix_mesh_f kleb ptol_f p1 t true) as [[[a b] jx]| |] eqn:FM; cbn [bind fst snd] in E; try discriminate. injection E as <- <-.
  destruct (loop_parts _ _ _ _ _ _ _ _ _ _ _ _ _ _ ML) as (q & pd & td & is & A & B & C). exists k, p1, t, jx, q, pd, td, is. split; [reflexivity|]. split; [discriminate|]. auto.
Qed.
Lemma first_nonempty kleb ts r : fix_mesh_f kleb ptol_f [] ts true = Ok r -> False.
Proof. unfold fix_mesh_f, fix_mesh_gen. cbn. discriminate. Qed.

(** * The result *)
Theorem returned_f tr locked fd fh geps deps dt m pfix kleb n p p' t' : total_order kleb -> generate_mesh_f tr locked fd fh geps deps dt m pfix kleb n p = Ok (p', t') ->
  (0 < n)%nat /\ p <> [] /\
  (exists q pd td, tr (n - 1)%nat q = Ok (pd, td) /\ (forall x, In x p' -> In x pd \/ In x pfix)) /\
  Forall (in_range (length p')) t' /\ no_two same_vertices t' /\ (forall i, (i < length p')%nat -> exists t, In t t' /\ In i (corners t)).
Proof.
  intros K E. destruct (gen_parts _ _ _ _ _ _ _ _ _ _ _ _ _ _ E) as (k & p1 & t & jx & q & pd & td & is & -> & N & _ & FM & T & PF & RM). destruct (removed_parts _ _ _ _ _ RM) as [RG IC].
  assert (N1 : p1 <> []) by (intros ->; exact (first_nonempty _ _ _ FM)). destruct (placed _ _ _ _ PF) as [L A].
  destruct (fix_f_wf kleb ptol_f K p1 t true N1) as (p2 & t2 & j2 & E2 & I & R & D & U). { apply Forall_forall. intros x Hx. rewrite Forall_forall in RG. apply RG, IC, Hx. }
  rewrite FM in E2. injection E2 as <- <- <-. split; [lia|]. split; [exact N|]. split; [|split; [exact R|split; [exact D|apply U; reflexivity]]].
  exists q, pd, td. cbn [Nat.sub]. rewrite Nat.sub_0_r. split; [exact T|]. intros x Hx. destruct (In_nth p1 x nan2 (I x Hx)) as (j & Hj & Ej). destruct (A j) as [B|B].
  - left. rewrite <- Ej, B. apply nth_In. rewrite <- L. exact Hj.
  - right. rewrite <- Ej. exact B.
Qed.

Definition Rsum (l : list R) : R := fold_right Rplus 0 l.
Lemma Rsum_perm l l' : Permutation l l' -> Rsum l = Rsum l'.
Proof. induction 1; cbn [Rsum fold_right]; unfold Rsum in *; lra. Qed.
Lemma corner3_sum p t : corner3 p t = (Rsum (map (fun i => val (fst (nth i p nan2))) (corners t)) / 3, Rsum (map (fun i => val (snd (nth i p nan2))) (corners t)) / 3).
Proof. destruct t as [[i j] k]. unfold corner3, true_centroid, mean3, corners, Rsum. cbn [map fold_right]. f_equal; field. Qed.
Lemma ptol_val : val ptol_f = 7922816251426434 * bpow radix2 (-95). Proof. reflexivity. Qed.
Lemma ptol_ok : finite_double ptol_f /\ bpow radix2 (-100) <= val ptol_f <= 1 /\ val ptol_f <= 2 / 10 ^ 13 * (1 + u).
Proof.
  split; [split; reflexivity|]. rewrite ptol_val. unfold u. change (bpow radix2 (-95)) with (/ 39614081257132168796771975168). change (bpow radix2 (-100)) with (/ 1267650600228229401496703205376). change (bpow radix2 (-53)) with (/ 9007199254740992). lra.
Qed.
Lemma moved_centroid m p t p' s d : (forall i, In i (corners t) -> Rabs (val (fst (nth i p nan2)) - val (fst (nth (m i) p' nan2))) <= d /\ Rabs (val (snd (nth i p nan2)) - val (snd (nth (m i) p' nan2))) <= d) ->
  Permutation (map m (corners t)) (corners s) -> Rabs (fst (corner3 p' s) - fst (corner3 p t)) <= d /\ Rabs (snd (corner3 p' s) - snd (corner3 p t)) <= d.
Proof.
  intros H P. rewrite !corner3_sum. cbn [fst snd].
  rewrite <- (Rsum_perm _ _ (Permutation_map (fun i => val (fst (nth i p' nan2))) P)), <- (Rsum_perm _ _ (Permutation_map (fun i => val (snd (nth i p' nan2))) P)).
  destruct t as [[i j] k]. unfold corners in *. cbn [map Rsum fold_right].
  destruct (H i) as [A1 A2]; [left; reflexivity|]. destruct (H j) as [B1 B2]; [right; left; reflexivity|]. destruct (H k) as [C1 C2]; [right; right; left; reflexivity|].
  apply Rabs_le_inv in A1, A2, B1, B2, C1, C2. split; apply Rabs_le; lra.
Qed.
Lemma merge_bound e M : 0 <= e -> 0 <= M -> e * val ptol_f * (1 + 8 * u) + 6 * u * M <= merge_error e M.
Proof.
  intros E HM. unfold merge_error. destruct ptol_ok as (_ & _ & P). pose proof u_bounds as U. apply Rplus_le_compat_r. rewrite (Rmult_comm (2 / 10 ^ 13) e), !Rmult_assoc. apply Rmult_le_compat_l; [exact E|].
  apply Rle_trans with (2 / 10 ^ 13 * (1 + u) * (1 + 8 * u)); [apply Rmult_le_compat_r; lra|]. rewrite Rmult_assoc. apply Rmult_le_compat_l; [lra|]. nra.
Qed.

Section Box.
  Variables (tr : nat -> list fpt -> res (list fpt * list tri)) (locked : list fpt -> list tri -> res (list nat)) (fh : list fpt -> res (list spec_float)).
  Variables (geps deps dt mult : spec_float) (pfix : list fpt) (x0 xN y0 yN : spec_float) (kleb : Z * Z -> Z * Z -> bool).
  Let fd (q : fpt) := bbox_f x0 xN y0 yN (fst q) (snd q).
  Hypothesis K : total_order kleb.
  Hypothesis (FG : finite_double geps) (PG : 0 <= val geps).
  Variables M e : R.
  Hypothesis HM : M <= bpow radix2 440.
  Hypothesis HB : within_size M (x0, y0) /\ within_size M (xN, yN).
  Lemma within_bounded p : bounded_points M p <-> Forall (within_size M) p.
  Proof. unfold bounded_points, within_size, finite_point. rewrite !Forall_forall. split; intros H x Hx; destruct (H x Hx) as [? ?]; tauto. Qed.
  Lemma M_pos : 0 <= M.
  Proof. destruct HB as ((_ & _ & H & _) & _). apply Rle_trans with (2 := H), Rabs_pos. Qed.
  Lemma M_900 : M <= 2 ^ 900.
  Proof. apply Rle_trans with (1 := HM). replace (2 ^ 900) with (bpow radix2 900) by (rewrite bpow_powerRZ; reflexivity). apply bpow_le. lia. Qed.
  Lemma extent_pos p : p <> [] -> extent_atmost p e -> 0 <= e.
  Proof. intros N H. destruct p as [|a p]; [congruence|]. destruct (H a a) as [A _]; [left; reflexivity|left; reflexivity|]. lra. Qed.
  Lemma box_all n p p' t' : generate_mesh_f tr locked fd fh geps deps dt mult pfix kleb n p = Ok (p', t') ->
    exists q pd td p1, (exists t, mesh_loop_f tr locked fd fh geps deps dt mult pfix (n - 1) 0 p = Ok (p1, t)) /\ tr (n - 1)%nat q = Ok (pd, td) /\ length p1 = length pd /\ (forall j, nth j p1 nan2 = nth j pd nan2 \/ In (nth j p1 nan2) pfix) /\
      (Forall (within_size M) p1 -> extent_atmost p1 e -> extent_atleast p1 (bpow radix2 (-340)) ->
       (forall s, In s t' -> box_depth (val x0) (val xN) (val y0) (val yN) (corner3 p' s) < - val geps + centroid_error M + merge_error e M) /\
       (forall a b c, In (a, b, c) t' -> - (8 * u * (e * e) + bpow radix2 (-1072)) <= Rarea2 (nth a p' nan2) (nth b p' nan2) (nth c p' nan2)) /\
       (forall t i, In t td -> In i (corners t) -> box_depth (val x0) (val xN) (val y0) (val yN) (corner3 p1 t) < - (1 + 2 * u) * val geps - 2 * centroid_error M ->
          exists j, (j < length p')%nat /\ Rabs (val (fst (nth j p' nan2)) - val (fst (nth i p1 nan2))) <= merge_error e M /\ Rabs (val (snd (nth j p' nan2)) - val (snd (nth i p1 nan2))) <= merge_error e M)).
  Proof.
    intros E. destruct (gen_parts _ _ _ _ _ _ _ _ _ _ _ _ _ _ E) as (k & p1 & t & jx & q & pd & td & is & -> & _ & ML & FM & T & PF & RM). destruct (removed_parts _ _ _ _ _ RM) as [RG IC]. destruct (placed _ _ _ _ PF) as [L A].
    exists q, pd, td, p1. cbn [Nat.sub]. rewrite Nat.sub_0_r. split; [exists t; exact ML|]. split; [exact T|]. split; [exact L|]. split; [exact A|]. intros W EM EL.
    assert (N1 : p1 <> []) by (intros ->; exact (first_nonempty _ _ _ FM)). assert (E0 : 0 <= e) by exact (extent_pos _ N1 EM). pose proof M_pos as M0.
    assert (RGt : Forall (in_range (length p1)) t). { apply Forall_forall. intros x Hx. rewrite Forall_forall in RG. apply RG, IC, Hx. }
    destruct ptol_ok as (P1 & P2 & P3). pose proof (proj2 (within_bounded p1) W) as W'. pose proof (merge_bound e M E0 M0) as MB.
    destruct (fix_f_near kleb ptol_f K p1 t true p' t' jx e M RGt W' HM EM EL P1 P2 FM) as (m & Near & To & From).
    destruct (kept_ok p1 td x0 xN y0 yN geps M t W (proj1 HB) (proj2 HB) M_900 FG PG RM) as (keep & Ek & Dk).
    assert (NearT : forall r i, In r t -> In i (corners r) -> (m i < length p')%nat /\ Rabs (val (fst (nth i p1 nan2)) - val (fst (nth (m i) p' nan2))) <= merge_error e M /\ Rabs (val (snd (nth i p1 nan2)) - val (snd (nth (m i) p' nan2))) <= merge_error e M).
    { intros r i Hr Hi. rewrite Forall_forall in RGt. pose proof (RGt r Hr) as RR. unfold in_range in RR. rewrite Forall_forall in RR. destruct (Near i (RR i Hi)) as (B1 & B2 & B3); [right; exists r; auto|]. split; [exact B1|]. lra. }
    split; [|split].
    - intros s Hs. destruct (From s Hs) as (r & Hr & P). destruct (moved_centroid m p1 r p' s (merge_error e M)) as [C1 C2]; [intros i Hi; apply (NearT r i Hr Hi)|exact P|].
      pose proof (depth_shift (val x0) (val xN) (val y0) (val yN) _ _ _ C1 C2) as DS. apply Rabs_le_inv in DS. assert (Hf : In r td /\ keep r = true) by (apply filter_In; rewrite <- Ek; exact Hr). destruct (Dk r (proj1 Hf)) as [D1 _]. specialize (D1 (proj2 Hf)). lra.
    - apply (fix_f_oriented kleb ptol_f K p1 t true p' t' jx e RGt); [|exact EM|exact FM]. unfold bounded_points in *. eapply Forall_impl; [|exact W']. intros x (X1 & X2 & X3). assert (bpow radix2 440 <= bpow radix2 500) by (apply bpow_le; lia). split; [exact X1|]. split; lra.
    - intros r i Hr Hi D. destruct (Dk r Hr) as [_ D2]. assert (KT : keep r = true) by (destruct (keep r); [reflexivity|exfalso; specialize (D2 eq_refl); lra]).
      assert (Ht : In r t) by (rewrite Ek; apply filter_In; auto). destruct (NearT r i Ht Hi) as (B1 & B2 & B3). exists (m i). split; [exact B1|]. split; rewrite Rabs_minus_sym; assumption.
  Qed.
  Theorem box_result n p p' t' : generate_mesh_f tr locked fd fh geps deps dt mult pfix kleb n p = Ok (p', t') ->
    exists q pd td p1, tr (n - 1)%nat q = Ok (pd, td) /\ length p1 = length pd /\ (forall j, nth j p1 nan2 = nth j pd nan2 \/ In (nth j p1 nan2) pfix) /\
      (Forall (within_size M) p1 -> extent_atmost p1 e -> extent_atleast p1 (bpow radix2 (-340)) ->
       (forall s, In s t' -> box_depth (val x0) (val xN) (val y0) (val yN) (corner3 p' s) < - val geps + centroid_error M + merge_error e M) /\
       (forall a b c, In (a, b, c) t' -> - (8 * u * (e * e) + bpow radix2 (-1072)) <= Rarea2 (nth a p' nan2) (nth b p' nan2) (nth c p' nan2)) /\
       (forall t i, In t td -> In i (corners t) -> box_depth (val x0) (val xN) (val y0) (val yN) (corner3 p1 t) < - (1 + 2 * u) * val geps - 2 * centroid_error M ->
          exists j, (j < length p')%nat /\ Rabs (val (fst (nth j p' nan2)) - val (fst (nth i p1 nan2))) <= merge_error e M /\ Rabs (val (snd (nth j p' nan2)) - val (snd (nth i p1 nan2))) <= merge_error e M)).
  Proof. intros E. destruct (box_all n p p' t' E) as (q & pd & td & p1 & _ & H). exists q, pd, td, p1. exact H. Qed.
  Theorem box_fixed n p p' t' : keeps_places tr -> finite_double dt -> Forall moderate pfix -> distinguishable pfix -> (forall x, In x pfix -> val x0 <= val (fst x) <= val xN /\ val y0 <= val (snd x) <= val yN) -> (forall x, In x pfix -> present p x) ->
    generate_mesh_f tr locked fd fh geps deps dt mult pfix kleb n p = Ok (p', t') ->
    exists q pd td p1, tr (n - 1)%nat q = Ok (pd, td) /\ length p1 = length pd /\ (forall j, nth j p1 nan2 = nth j pd nan2 \/ In (nth j p1 nan2) pfix) /\
      forall x, In x pfix -> exists i, (i < length p1)%nat /\ same_place x (pt p1 i) /\
        (Forall (within_size M) p1 -> extent_atmost p1 e -> extent_atleast p1 (bpow radix2 (-340)) ->
         forall t, In t td -> In i (corners t) -> box_depth (val x0) (val xN) (val y0) (val yN) (corner3 p1 t) < - (1 + 2 * u) * val geps - 2 * centroid_error M ->
         exists j, (j < length p')%nat /\ Rabs (val (fst (pt p' j)) - val (fst x)) <= merge_error e M /\ Rabs (val (snd (pt p' j)) - val (snd x)) <= merge_error e M).
  Proof.
    intros Tr Dt Mf Df In_f Pr E. destruct (box_all n p p' t' E) as (q & pd & td & p1 & (t & ML) & T & L & A & H). exists q, pd, td, p1. split; [exact T|]. split; [exact L|]. split; [exact A|].
    destruct HB as [(X1 & Y1 & _) (XN & YN & _)]. pose proof (loop_box tr locked fh geps deps dt mult pfix x0 xN y0 yN (n - 1) p p1 t X1 XN Y1 YN Tr Dt Mf Df In_f Pr ML) as LB.
    intros x Hx. destruct (LB x Hx) as (i & Hi & Sx). exists i. split; [exact Hi|]. split; [exact Sx|]. intros W EM EL r Hr Ci D. destruct (H W EM EL) as (_ & _ & H3). destruct (H3 r i Hr Ci D) as (j & Hj & B1 & B2).
    exists j. split; [exact Hj|]. destruct Sx as [Sx Sy]. unfold pt in *. rewrite Sx, Sy. auto.
  Qed.
End Box.

(** * A case *)
Definition g_mesh (n : nat) (pfix p : list fpt) := generate_mesh_f (same_points g_t) no_lock unit_box g_fh g_eps deps_f g_02 L0mult_f pfix zedge_leb n p.
Definition g_low : spec_float := S754_finite true 5764607523034234 (-57).
Definition g_last : list fpt := [(f_0, f_0); (g_1, g_low); (g_low, g_1); (g_1, g_1); (g_1, g_1)].
Lemma g_low_val : finite_double g_low /\ - 5 / 100 < val g_low < 0.
Proof. split; [split; reflexivity|]. unfold val, g_low, SF2R, F2R. cbn [Fnum Fexp cond_Zopp]. change (bpow radix2 (-57)) with (/ 144115188075855872). change (IZR (- Z.pos 5764607523034234)) with (- 5764607523034234). lra. Qed.
Lemma g_size : Forall (within_size 1) g_last /\ within_size 1 (f_0, f_0) /\ within_size 1 (g_1, g_1) /\ extent_atmost g_last 2 /\ extent_atleast g_last (bpow radix2 (-340)) /\ 1 <= bpow radix2 440.
Proof.
  destruct g_vals as (V0 & V1 & _). destruct g_low_val as [FL VL]. assert (F0 : finite_double f_0) by (split; reflexivity). assert (F1 : finite_double g_1) by (split; reflexivity).
  assert (W : forall x y, In x [f_0; g_1; g_low] -> In y [f_0; g_1; g_low] -> within_size 1 (x, y)).
  { assert (H : forall x, In x [f_0; g_1; g_low] -> finite_double x /\ Rabs (val x) <= 1) by (intros x [<-|[<-|[<-|[]]]]; (split; [assumption|apply Rabs_le; lra])).
    intros x y Hx Hy. destruct (H x Hx), (H y Hy). split; [assumption|]. split; [assumption|]. split; assumption. }
  assert (G : Forall (within_size 1) g_last) by (unfold g_last; repeat (apply Forall_cons; [apply W; cbn [In]; auto|]); apply Forall_nil).
  split; [exact G|]. split; [apply W; cbn [In]; auto|]. split; [apply W; cbn [In]; auto|]. split; [|split].
  - intros a b Ha Hb. rewrite Forall_forall in G. destruct (G a Ha) as (_ & _ & A1 & A2), (G b Hb) as (_ & _ & B1 & B2). apply Rabs_le_inv in A1, A2, B1, B2. lra.
  - exists (g_1, g_1), (f_0, f_0). split; [unfold g_last; cbn [In]; auto|]. split; [left; reflexivity|]. left. cbn [fst]. rewrite V0, V1, Rminus_0_r. change 1 with (bpow radix2 0). apply bpow_le. lia.
  - change 1 with (bpow radix2 0). apply bpow_le. lia.
Qed.
Lemma g_mesh_case : total_order zedge_leb /\ g_run 1 [(f_0, f_0); (g_1, g_1)] g_p = Ok (g_last, g_t) /\ Forall (within_size 1) g_last /\ within_size 1 (f_0, f_0) /\ within_size 1 (g_1, g_1) /\ extent_atmost g_last 2 /\ extent_atleast g_last (bpow radix2 (-340)) /\
  g_mesh 2 [(f_0, f_0); (g_1, g_1)] g_p = Ok ([(f_0, f_0); (g_1, g_1); (g_1, g_low); (g_low, g_1)], [(0, 2, 3); (2, 1, 3)]%nat).
Proof.
  destruct g_size as (A & B & C & D & E & _). split; [exact zedge_total_order|]. split; [vm_compute; reflexivity|]. split; [exact A|]. split; [exact B|]. split; [exact C|]. split; [exact D|]. split; [exact E|]. vm_compute. reflexivity.
Qed.
Lemma no_iterations tr locked fd fh geps deps dt m pfix kleb n p : (n = 0)%nat \/ p = [] -> generate_mesh_f tr locked fd fh geps deps dt m pfix kleb n p = Raise AssertionError.
Proof. intros [-> | ->]; [reflexivity|destruct n; reflexivity]. Qed.
Definition g_34 : spec_float := S754_finite false 6755399441055744 (-53).
Definition g_32 : spec_float := S754_finite false 6755399441055744 (-52).
Definition l_p : list fpt := [(f_0, f_0); (g_1, f_0); (f_0, g_1); (g_34, g_34); (g_1, g_1); (g_32, g_34); (g_34, g_32)].
Definition l_t : list tri := [(0, 1, 3); (1, 5, 3); (3, 5, 4); (4, 5, 6); (3, 4, 6); (2, 3, 6); (0, 3, 2)]%nat.
Lemma lost_corner : exists tr pfix p p' t' x, keeps_places tr /\ Forall moderate pfix /\ distinguishable pfix /\ (forall x, In x pfix -> 0 <= val (fst x) <= 1 /\ 0 <= val (snd x) <= 1) /\ (forall x, In x pfix -> present p x) /\
  generate_mesh_f tr no_lock unit_box g_fh g_eps deps_f g_02 L0mult_f pfix zedge_leb 1 p = Ok (p', t') /\ t' <> [] /\ In x pfix /\
  forall y, In y p' -> / 4 <= Rabs (val (fst x) - val (fst y)) \/ / 4 <= Rabs (val (snd x) - val (snd y)).
Proof.
  exists (same_points l_t), [(g_1, g_1)], l_p. do 2 eexists. exists (g_1, g_1). destruct g_vals as (V0 & V1 & _). assert (V3 : val g_34 = 3 / 4) by (unfold val, g_34, SF2R, F2R; cbn; lra).
  split; [apply same_keeps|]. split; [repeat (apply Forall_cons; [apply mod_pt; reflexivity|]); apply Forall_nil|]. split; [intros x y [<-|[]] [<-|[]]; left; apply same_refl|]. split; [intros x [<-|[]]; cbn [fst snd]; rewrite V1; lra|].
  split; [intros x [<-|[]]; exists 4%nat; split; [cbn; lia|apply same_refl]|]. split; [vm_compute; reflexivity|]. split; [discriminate|]. split; [left; reflexivity|].
  intros y Hy. cbn [In] in Hy. change (S754_zero false) with f_0 in Hy. fold g_1 g_34 in Hy. destruct Hy as [<-|[<-|[<-|[<-|[]]]]]; cbn [fst snd]; rewrite ?V0, ?V1, ?V3; first [left; apply Rle_trans with (2 := RRle_abs _); lra|right; apply Rle_trans with (2 := RRle_abs _); lra].
Qed.
