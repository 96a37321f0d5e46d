(** Proofs about multiscale_sizing_function, reproject_to and get_border. *)
From Coq Require Import List Arith Bool ZArith QArith Qabs Qround Lia Lqa.
From Verif Require Import M_Base M_Sdf M_Grid M_Blend M_Multi S_Grid S_Blend S_Multi P_Grid P_Blend.
Import ListNotations.
Open Scope Q_scope.

Lemma same_frame_refl g : same_frame g g.
Proof. unfold same_frame. tauto. Qed.
Lemma same_frame_trans a b c : same_frame a b -> same_frame b c -> same_frame a c.
Proof. unfold same_frame. intuition congruence. Qed.
Lemma build_frame g b : same_frame g (build_interpolant (set_extra g b)).
Proof. unfold same_frame. rewrite build_bbox. destruct (build_fields (set_extra g b)) as (A & B & _ & _ & C). rewrite A, B, C. tauto. Qed.
Lemma make_grid_frame b dx dy v h e c g : make_grid b dx dy v h e c = Ok g -> g_bbox g = b /\ g_dx g = dx /\ g_dy g = dy /\ g_crs g = c /\ g_values g = v /\ g_hmin g = h.
Proof. unfold make_grid. destruct (_ || _); [discriminate|]. intros E. injection E as <-. cbn. tauto. Qed.
Lemma interpolate_frame g t r : interpolate_to g t = Ok r -> same_frame t r.
Proof. unfold interpolate_to. destruct (boxes_overlap _ _); [|discriminate]. intros E. apply make_grid_frame in E. unfold same_frame. tauto. Qed.
Lemma blend_frame idw f c w r : blend_into idw f c w = Ok r -> same_frame c r.
Proof.
  unfold blend_into. destruct (strictly_inside f c); [|intros E; injection E as <-; apply same_frame_refl].
  destruct (pad_grid w f) as [p| |]; cbn [bind]; try discriminate. destruct (interpolate_to p c) as [x| |] eqn:I; cbn [bind]; try discriminate. apply interpolate_frame in I.
  destruct (filter _ (cells_of x (g_values x))) as [|q l].
  - destruct (amin _) as [h| |]; cbn [bind]; try discriminate. intros E. injection E as <-. exact I.
  - destruct (idw _ _) as [ans| |]; cbn [bind]; try discriminate. destruct (amin _) as [h| |]; cbn [bind]; try discriminate. intros E. injection E as <-. exact I.
Qed.
Lemma global_frame a b : same_frame a b -> global_box (g_bbox b) <-> global_box (g_bbox a).
Proof. intros (E & _). rewrite E. reflexivity. Qed.
Lemma not_global g : ~ global_box (g_bbox g) -> is_global g = false.
Proof.
  intros N. unfold is_global. destruct (Qeq_bool (Qabs (b0 (g_bbox g))) 180) eqn:A; [|reflexivity]. destruct (Qeq_bool (Qabs (b1 (g_bbox g))) 180) eqn:B; [|reflexivity].
  exfalso. apply N. split; apply Qeq_bool_iff; assumption.
Qed.
Lemma build_same_values g b : ~ global_box (g_bbox g) -> g_values (build_interpolant (set_extra g b)) = g_values g.
Proof. intros N. rewrite build_values. rewrite not_global by exact N. reflexivity. Qed.
Lemma strictly_extra f c b : strictly_inside (set_extra f b) c = strictly_inside f c.
Proof. reflexivity. Qed.

Section Multi.
  Variable idw : list ((Q * Q) * num) -> list (Q * Q) -> res (list num).
  Variable hu : nat -> bool.
  Variable w : Q.
  Notation blend := (blend idw hu w).
  Notation blend_all := (blend_all idw hu w).
  Notation blend_list := (blend_list idw hu w).
  Notation multi := (multiscale_sizing idw hu w).

  Lemma blend_ok f c r : blend f c = Ok r -> blend_into idw f c (Z.to_nat (blend_cells hu w f)) = Ok r /\ (strictly_inside f c = true -> (0 <= blend_cells hu w f)%Z).
  Proof.
    unfold M_Multi.blend. destruct (strictly_inside f c); cbn [andb].
    - destruct (Z.ltb_spec (blend_cells hu w f) 0) as [L|L]; [discriminate|]. intros E. split; [exact E|]. intros _. exact L.
    - intros E. split; [exact E|discriminate].
  Qed.
  Lemma all_cons alias own c f r o n r' : blend_all alias own c (f :: r) = Ok (o, n, r') ->
    exists c1 own1 r1, blend (set_extra f false) c = Ok c1 /\
      own1 = (if alias && negb (strictly_inside f c) then build_interpolant (set_extra c1 true) else own) /\
      blend_all (alias && negb (strictly_inside f c)) own1 (build_interpolant (set_extra c1 true)) r = Ok (o, n, r1) /\ r' = set_extra f false :: r1.
  Proof.
    cbn [M_Multi.blend_all]. destruct (blend (set_extra f false) c) as [c1| |]; cbn [bind]; try discriminate. rewrite strictly_extra.
    destruct (blend_all _ _ _ r) as [[[o1 n1] r1]| |] eqn:E; cbn [bind]; try discriminate. intros X. injection X as <- <- <-. exists c1. eexists. exists r1. split; [reflexivity|]. split; [reflexivity|]. split; [exact E|reflexivity].
  Qed.
  Lemma all_frame r : forall alias own c o n r', blend_all alias own c r = Ok (o, n, r') -> same_frame own c -> same_frame c n /\ same_frame own o /\ r' = map (fun f => set_extra f false) r.
  Proof.
    induction r as [|f r IH]; intros alias own c o n r' E F.
    - cbn in E. injection E as <- <- <-. split; [apply same_frame_refl|]. split; [apply same_frame_refl|reflexivity].
    - apply all_cons in E. destruct E as (c1 & own1 & r1 & A & B & C & ->). apply blend_ok in A. destruct A as (A & _). apply blend_frame in A.
      assert (X : same_frame c (build_interpolant (set_extra c1 true))) by (eapply same_frame_trans; [exact A|apply build_frame]).
      assert (Y : same_frame own own1 /\ same_frame own1 (build_interpolant (set_extra c1 true))).
      { subst own1. destruct (alias && _); split; try apply same_frame_refl; eapply same_frame_trans; eassumption. }
      destruct (IH _ _ _ _ _ _ C (proj2 Y)) as (P & Q & ->). split; [eapply same_frame_trans; eassumption|]. split; [eapply same_frame_trans; [apply Y|exact Q]|reflexivity].
  Qed.
  Lemma list_cons fuel g r n o : r <> [] -> blend_list (S fuel) (g :: r) = Ok (n, o) ->
    exists o1 n1 u v, blend_all true g g r = Ok (o1, n1, map (fun f => set_extra f false) r) /\ blend_list fuel (map (fun f => set_extra f false) r) = Ok (u, v) /\ n = n1 :: u /\ o = o1 :: v.
  Proof.
    intros N. destruct r as [|f r]; [congruence|]. cbn [M_Multi.blend_list]. remember (f :: r) as fr. destruct (blend_all true g g fr) as [[[o1 n1] r1]| |] eqn:E; cbn [bind]; try discriminate.
    destruct (all_frame _ _ _ _ _ _ _ E (same_frame_refl g)) as (_ & _ & ->). destruct (blend_list fuel _) as [[u v]| |] eqn:L; cbn [bind]; try discriminate.
    intros X. injection X as <- <-. exists o1, n1, u, v. split; [reflexivity|]. split; [first [exact L|reflexivity]|]. split; reflexivity.
  Qed.
  (** What a caller's grid looks like to the loop: the same but for the flag. *)
  Lemma frame_extra g b : same_frame g (set_extra g b).
  Proof. unfold same_frame. cbn. tauto. Qed.
  Lemma list_frames fuel : forall gs n o, blend_list fuel gs = Ok (n, o) -> Forall2 same_frame gs n /\ Forall2 same_frame gs o.
  Proof.
    induction fuel as [|fuel IH]; [discriminate|]. intros [|g [|f r]] n o E; [discriminate| |].
    - cbn in E. injection E as <- <-. split; (constructor; [apply frame_extra|constructor]).
    - apply list_cons in E; [|discriminate]. destruct E as (o1 & n1 & u & v & A & B & -> & ->). destruct (all_frame _ _ _ _ _ _ _ A (same_frame_refl g)) as (F1 & F2 & _).
      destruct (IH _ _ _ B) as (G1 & G2). assert (X : forall l, Forall2 same_frame (map (fun f => set_extra f false) (f :: r)) l -> Forall2 same_frame (f :: r) l).
      { generalize (f :: r). clear. induction l as [|a l IH]; intros l' H; inversion H; subst; constructor; [eapply same_frame_trans; [apply frame_extra|eassumption]|apply IH; assumption]. }
      split; (constructor; [assumption|apply X; assumption]).
  Qed.
  Lemma descending_iff gs : descending gs = true <-> steps_descend gs.
  Proof.
    unfold steps_descend. induction gs as [|a [|b r] IH]; [split; [intros _ [|i] x y H; discriminate|reflexivity]|split; [intros _ [|i] x y H H'; try discriminate; destruct i; discriminate|reflexivity]|].
    change (Qle_bool (g_dx b) (g_dx a) && descending (b :: r) = true <-> forall i x y, nth_error (a :: b :: r) i = Some x -> nth_error (a :: b :: r) (S i) = Some y -> g_dx y <= g_dx x).
    rewrite andb_true_iff, Qle_bool_iff, IH. split.
    - intros (A & B) [|i] x y H H'; [cbn in H, H'; injection H as <-; injection H' as <-; exact A|apply (B i); assumption].
    - intros H. split; [apply (H 0%nat); reflexivity|]. intros i x y X Y. apply (H (S i)); assumption.
  Qed.
  Lemma multi_frames gs n o : multi gs = Ok (n, o) -> gs <> [] /\ steps_descend gs /\ Forall2 same_frame gs n /\ Forall2 same_frame gs o /\
    (forall d, last n d = set_extra (last gs d) true /\ last o d = last n d).
  Proof.
    unfold multiscale_sizing. destruct (descending gs) eqn:D; [|discriminate]. intros E. apply descending_iff in D. pose proof (list_frames _ _ _ _ E) as (F1 & F2).
    split; [intros ->; discriminate|]. split; [exact D|]. split; [exact F1|]. split; [exact F2|]. clear D F1 F2.
    assert (G : forall fuel gs n o, blend_list fuel gs = Ok (n, o) -> gs <> [] -> forall d, last n d = set_extra (last gs d) true /\ last o d = last n d).
    { clear. induction fuel as [|fuel IH]; [discriminate|]. intros [|g [|f r]] n o E N d; [congruence|cbn in E; injection E as <- <-; split; reflexivity|].
      apply list_cons in E; [|discriminate]. destruct E as (o1 & n1 & u & v & _ & B & -> & ->). pose proof (list_frames _ _ _ _ B) as (F1 & F2).
      destruct (IH _ _ _ B ltac:(discriminate) (set_extra d false)) as (P & Q).
      assert (NE : u <> [] /\ v <> []) by (split; intros ->; [inversion F1|inversion F2]).
      assert (Z : forall (l : list grid) d d' x, l <> [] -> last (x :: l) d = last l d').
      { clear. intros l. induction l as [|a l IH]; intros d d' x N; [congruence|]. destruct l as [|b l]; [reflexivity|]. change (last (a :: b :: l) d = last (b :: l) d'). apply IH. discriminate. }
      rewrite (Z u d (set_extra d false) n1 (proj1 NE)), (Z v d (set_extra d false) o1 (proj2 NE)). split; [|exact Q]. rewrite P.
      rewrite (Z (f :: r) d d g) by discriminate. generalize (f :: r). clear. intros l. assert (Y : last (map (fun f => set_extra f false) l) (set_extra d false) = set_extra (last l d) false).
      { induction l as [|a l IH]; [reflexivity|]. destruct l as [|b l]; [reflexivity|]. exact IH. } rewrite Y. reflexivity. }
    intros d. apply (G _ _ _ _ E). intros ->. discriminate.
  Qed.
  Lemma multi_fails gs : (gs = [] -> multi gs = Raise IndexError) /\ (~ steps_descend gs -> multi gs = Raise AssertionError).
  Proof.
    split; [intros ->; reflexivity|]. intros N. unfold multiscale_sizing. destruct (descending gs) eqn:D; [apply descending_iff in D; contradiction|reflexivity].
  Qed.
  Lemma one_grid g : multi [g] = Ok ([set_extra g true], [set_extra g true]).
  Proof. reflexivity. Qed.

  (** * The range of sizes *)
  Lemma proper_extra g b n m : proper_grid g n m -> proper_grid (set_extra g b) n m.
  Proof. exact (fun H => H). Qed.
  Lemma within_extra lo hi g b : sizes_within lo hi g -> sizes_within lo hi (set_extra g b).
  Proof. exact (fun H => H). Qed.
  Lemma within_build lo hi g b : ~ global_box (g_bbox g) -> sizes_within lo hi g -> sizes_within lo hi (build_interpolant (set_extra g b)).
  Proof.
    intros N (n & m & P & C). exists n, m. split; [apply proper_build, P|]. intros i j I J. unfold value_at. rewrite build_same_values by exact N. apply C; assumption.
  Qed.
  Lemma proper_unique g n m N M : proper_grid g n m -> proper_grid g N M -> n = N /\ m = M.
  Proof.
    intros ((A & B) & Hn & _) ((C & D) & _). split; [congruence|]. destruct (g_values g) as [|r v]; [cbn in A; lia|]. inversion B; inversion D; congruence.
  Qed.
  Lemma blend_within lo hi f c r : range_preserving idw -> - (999) < lo -> g_extra f = false -> sizes_within lo hi f -> sizes_within lo hi c -> blend f c = Ok r ->
    sizes_within lo hi r /\ forall N M, proper_grid c N M -> proper_grid r N M.
  Proof.
    intros RP L X (n & m & Pf & Cf) (N & M & Pc & Cc) E. apply blend_ok in E. destruct E as (E & _).
    destruct (strictly_inside f c) eqn:S.
    - apply box_inside_iff in S. destruct (blend_range idw f c n m N M _ lo hi r Pf Pc X L Cf Cc RP S E) as (A & _).
      destruct (blend_total idw f c n m N M _ Pf Pc X (range_no_code lo hi f n m L Cf) (range_no_code lo hi c N M L Cc) (fun k q l H => proj1 (RP k q l H)) r S E) as (P & _).
      split; [exists N, M; tauto|]. intros N' M' P'. destruct (proper_unique _ _ _ _ _ Pc P') as (<- & <-). exact P.
    - unfold blend_into in E. rewrite S in E. injection E as <-. split; [exists N, M; tauto|tauto].
  Qed.
  Lemma all_within lo hi r : range_preserving idw -> - (999) < lo -> Forall (sizes_within lo hi) r -> forall alias own c o n r', ~ global_box (g_bbox c) -> sizes_within lo hi c -> blend_all alias own c r = Ok (o, n, r') ->
    sizes_within lo hi n /\ forall N M, proper_grid c N M -> proper_grid n N M.
  Proof.
    intros RP L. induction r as [|f r IH]; intros A alias own c o n r' N W E; [cbn in E; injection E as <- <- <-; tauto|].
    inversion A as [|? ? Af Ar]; subst. apply all_cons in E. destruct E as (c1 & own1 & r1 & B & _ & C & _).
    destruct (blend_within lo hi (set_extra f false) c c1 RP L eq_refl Af W B) as (W1 & Q1). apply blend_ok in B. destruct B as (B & _). apply blend_frame in B.
    assert (N1 : ~ global_box (g_bbox c1)) by (rewrite (global_frame _ _ B); exact N).
    assert (N2 : ~ global_box (g_bbox (build_interpolant (set_extra c1 true)))) by (rewrite (global_frame _ _ (build_frame c1 true)); exact N1).
    destruct (IH Ar _ _ _ _ _ _ N2 (within_build lo hi c1 true N1 W1) C) as (P1 & P2). split; [exact P1|]. intros N0 M0 H. apply P2, proper_build, proper_extra, Q1, H.
  Qed.
  Lemma list_within lo hi fuel : range_preserving idw -> - (999) < lo -> forall gs n o, Forall (sizes_within lo hi) gs -> Forall (fun g => ~ global_box (g_bbox g)) gs -> blend_list fuel gs = Ok (n, o) -> Forall (sizes_within lo hi) n.
  Proof.
    intros RP L. induction fuel as [|fuel IH]; [discriminate|]. intros [|g [|f r]] n o A B E; [discriminate|cbn in E; injection E as <- <-; constructor; [inversion A; assumption|constructor]|].
    apply list_cons in E; [|discriminate]. destruct E as (o1 & n1 & u & v & X & Y & -> & ->). inversion A as [|? ? A1 A2]; subst. inversion B as [|? ? B1 B2]; subst. constructor.
    - exact (proj1 (all_within lo hi _ RP L A2 _ _ _ _ _ _ B1 A1 X)).
    - refine (IH _ u v _ _ Y); apply Forall_map; [exact A2|exact B2].
  Qed.
  Lemma multi_within lo hi gs n o : range_preserving idw -> - (999) < lo -> Forall (sizes_within lo hi) gs -> Forall (fun g => ~ global_box (g_bbox g)) gs -> multi gs = Ok (n, o) -> Forall (sizes_within lo hi) n.
  Proof. intros RP L A B. unfold multiscale_sizing. destruct (descending gs); [|discriminate]. apply list_within; assumption. Qed.
  Lemma multi_function lo hi g gs n o N M q : range_preserving idw -> - (999) < lo -> hi <= 999999 -> Forall (sizes_within lo hi) (g :: gs) -> Forall (fun g => ~ global_box (g_bbox g)) (g :: gs) ->
    multi (g :: gs) = Ok (n, o) -> proper_grid g N M -> covered g N M q -> exists v, fst (msf_eval true n q) = Ok (Fin v) /\ lo <= v <= hi.
  Proof.
    intros RP L H A B E P C. pose proof (multi_within _ _ _ _ _ RP L A B E) as W. destruct (multi_frames _ _ _ E) as (_ & _ & F & _ & _). inversion F as [|? h ? t F1 F2]; subst.
    assert (R : Forall regional (h :: t)).
    { assert (Y : forall l l', Forall2 same_frame l l' -> Forall (fun g => ~ global_box (g_bbox g)) l -> Forall (sizes_within lo hi) l' -> Forall regional l').
      { clear. intros l l' F. induction F as [|a b l l' F1 F2 IH]; intros B W; [constructor|]. inversion B; subst. inversion W as [|? ? (n & m & P & C) W2]; subst. constructor; [|apply IH; assumption].
        split; [exists n, m; split; [exact P|]; intros i j I J; destruct (C i j I J) as (v & -> & _); exists v; reflexivity|]. rewrite (global_frame _ _ F1). assumption. }
      eapply Y; eassumption. }
    assert (S : proper_grid h N M).
    { unfold multiscale_sizing in E. destruct (descending (g :: gs)); [|discriminate]. destruct gs as [|f r]; [cbn in E; injection E as <- <- <-; exact P|].
      apply list_cons in E; [|discriminate]. destruct E as (o1 & n1 & u & v & X & _ & Y & _). injection Y as -> ->. inversion A as [|? ? A1 A2]; subst. inversion B as [|? ? B1 B2]; subst.
      exact (proj2 (all_within lo hi _ RP L A2 _ _ _ _ _ _ B1 A1 X) N M P). }
    apply (msf_range h t N M q lo hi R S).
    - destruct F1 as (F1 & Fx & Fy & _). unfold covered, x_of, y_of in *. rewrite F1, Fx, Fy. exact C.
    - exact H.
    - eapply Forall_impl; [|exact W]. intros a (n0 & m0 & P0 & C0) n1 m1 P1. destruct (proper_unique _ _ _ _ _ P0 P1) as (<- & <-). exact C0.
  Qed.
End Multi.

(** * The caller's grids *)
Section Own.
  Variable idw : list ((Q * Q) * num) -> list (Q * Q) -> res (list num).
  Variable hu : nat -> bool.
  Variable w : Q.
  Definition same_sizes (a b : grid) : Prop := g_values b = g_values a /\ g_hmin b = g_hmin a.
  Lemma all_own r : forall alias own c o n r', (alias = true -> c = own) -> ~ global_box (g_bbox own) -> blend_all idw hu w alias own c r = Ok (o, n, r') -> same_sizes own o.
  Proof.
    induction r as [|f r IH]; intros alias own c o n r' I G E; [cbn in E; injection E as <- <- <-; split; reflexivity|].
    apply all_cons in E. destruct E as (c1 & own1 & r1 & B & -> & C & _). destruct (alias && negb (strictly_inside f c)) eqn:A.
    - apply andb_true_iff in A. destruct A as (A & S). apply negb_true_iff in S. rewrite (I A) in *. apply blend_ok in B. destruct B as (B & _). unfold blend_into in B. rewrite strictly_extra, S in B. injection B as <-.
      assert (X : same_sizes (build_interpolant (set_extra own true)) o).
      { eapply IH; [|rewrite (global_frame _ _ (build_frame own true)); exact G|exact C]. reflexivity. }
      destruct X as (X1 & X2). split; [rewrite X1; apply build_same_values, G|]. rewrite X2. destruct (build_fields (set_extra own true)) as (_ & _ & _ & H & _). exact H.
    - eapply IH; [|exact G|exact C]. discriminate.
  Qed.
  Lemma list_own fuel : forall gs n o, Forall (fun g => ~ global_box (g_bbox g)) gs -> blend_list idw hu w fuel gs = Ok (n, o) -> Forall2 same_sizes gs o.
  Proof.
    induction fuel as [|fuel IH]; [discriminate|]. intros [|g [|f r]] n o B E; [discriminate|cbn in E; injection E as <- <-; constructor; [split; reflexivity|constructor]|].
    apply list_cons in E; [|discriminate]. destruct E as (o1 & n1 & u & v & X & Y & -> & ->). inversion B as [|? ? B1 B2]; subst. constructor; [eapply all_own; [|exact B1|exact X]; reflexivity|].
    assert (Z : Forall2 same_sizes (map (fun f => set_extra f false) (f :: r)) v) by (refine (IH _ u v _ Y); apply Forall_map; exact B2).
    clear -Z. revert v Z. generalize (f :: r). induction l as [|a l IH]; intros v Z; inversion Z; subst; constructor; [assumption|apply IH; assumption].
  Qed.
  Lemma multi_own gs n o : Forall (fun g => ~ global_box (g_bbox g)) gs -> multiscale_sizing idw hu w gs = Ok (n, o) -> Forall2 (fun g x => g_values x = g_values g /\ g_hmin x = g_hmin g) gs o.
  Proof. intros B. unfold multiscale_sizing. destruct (descending gs); [|discriminate]. apply list_own. exact B. Qed.
  Lemma blend_cells_most f : 0 < g_dx f -> most_cells (blend_cells hu w f) (if hu (g_crs f) then g_dx f else g_dx f * 111000) w.
  Proof.
    intros P. unfold blend_cells, most_cells. set (s := if hu (g_crs f) then g_dx f else g_dx f * 111000). assert (Ps : 0 < s) by (unfold s; destruct (hu (g_crs f)); lra).
    pose proof (Qfloor_le (w / s)) as A. pose proof (Qlt_floor (w / s)) as B. rewrite inject_Z_plus in B. change (inject_Z 1) with 1 in B. assert (E : w / s * s == w) by (field; lra).
    pose proof (Qmult_le_compat_r _ _ s A (Qlt_le_weak _ _ Ps)) as A'. pose proof (Qmult_lt_compat_r _ _ s Ps B) as B'. split; [eapply Qle_trans; [exact A'|rewrite E; apply Qle_refl]|eapply Qle_lt_trans; [|exact B']; rewrite E; apply Qle_refl].
  Qed.
End Own.
Lemma feet hu : hu (g_crs bay) = true -> exists w f, g_crs f = g_crs bay /\ 0 < g_dx f /\ ~ most_cells (blend_cells hu w f) (g_dx f * (3048 # 10000)) w.
Proof.
  intros H. exists 1000, {| g_bbox := g_bbox bay; g_dx := 100; g_dy := 100; g_values := g_values bay; g_hmin := None; g_extra := true; g_crs := g_crs bay; g_fill := None |}.
  split; [reflexivity|]. split; [reflexivity|]. unfold blend_cells, most_cells. cbn [g_crs g_dx]. rewrite H. intros (_ & B). revert B. vm_compute. discriminate.
Qed.
Lemma flag_changed : exists gs n o g x, multiscale_sizing idw_first (fun _ => true) 1 gs = Ok (n, o) /\ nth_error gs 1 = Some g /\ nth_error o 1 = Some x /\ g_extra g = false /\ g_extra x = true.
Proof. exists [sea; inlet]. do 4 eexists. split; [vm_compute; reflexivity|]. repeat split. Qed.
Lemma values_changed : exists gs n o g x, multiscale_sizing idw_first (fun _ => true) 1 gs = Ok (n, o) /\ nth_error gs 0 = Some g /\ nth_error o 0 = Some x /\ hd_error n = Some x /\ g_values x <> g_values g.
Proof. exists [globe; globe]. do 4 eexists. split; [vm_compute; reflexivity|]. split; [reflexivity|]. split; [reflexivity|]. split; [reflexivity|]. vm_compute. discriminate. Qed.

(** * reproject_to *)
Lemma aligned_reproject tr base other : aligned tr base other = (let! r := reproject_to tr other base in Ok (g_values r)).
Proof.
  unfold aligned, reproject_to. destruct (g_crs other =? g_crs base)%nat; [reflexivity|].
  destruct (mapM _ (seq 0 (nx base))) as [rows| |]; cbn [bind]; try reflexivity. destruct (make_grid _ _ _ _ _ _ _) as [g| |]; reflexivity.
Qed.
Lemma build_frame' g : same_frame g (build_interpolant g).
Proof. unfold same_frame. rewrite build_bbox. destruct (build_fields g) as (A & B & _ & _ & C). rewrite A, B, C. tauto. Qed.
Lemma reproject_frame tr g t r : reproject_to tr g t = Ok r -> same_frame t r /\ g_hmin r = if (g_crs g =? g_crs t)%nat then g_hmin t else g_hmin g.
Proof.
  unfold reproject_to. destruct (g_crs g =? g_crs t)%nat.
  - intros E. split; [eapply interpolate_frame, E|]. unfold interpolate_to in E. destruct (boxes_overlap _ _); [|discriminate]. apply make_grid_frame in E. tauto.
  - destruct (mapM _ (seq 0 (nx t))) as [rows| |]; cbn [bind]; try discriminate. destruct (make_grid _ _ _ _ _ _ _) as [m| |] eqn:M; cbn [bind]; try discriminate. intros E. injection E as <-.
    apply make_grid_frame in M. destruct M as (A & B & C & D & V & H). split; [eapply same_frame_trans; [|apply build_frame']; unfold same_frame; tauto|]. destruct (build_fields m) as (_ & _ & _ & X & _). rewrite X. exact H.
Qed.
Lemma mapM_nth {A B} (f : A -> res B) l l' i a d : mapM f l = Ok l' -> nth_error l i = Some a -> f a = Ok (nth i l' d).
Proof.
  revert l' i. induction l as [|x l IH]; intros l' i E N; [destruct i; discriminate|]. cbn in E. destruct (f x) as [y| |] eqn:F; cbn in E; try discriminate. destruct (mapM f l) as [ys| |]; cbn in E; try discriminate. injection E as <-.
  destruct i as [|i]; cbn in N; [injection N as <-; exact F|]. apply (IH ys i eq_refl N).
Qed.
Lemma nth_error_seq n i : (i < n)%nat -> nth_error (seq 0 n) i = Some i.
Proof. intros H. rewrite (nth_error_nth' _ 0%nat) by (rewrite seq_length; exact H). rewrite seq_nth by exact H. reflexivity. Qed.
Lemma reproject_values tr g t r n m i j : proper_grid t n m -> ~ global_box (g_bbox t) -> g_crs g <> g_crs t -> reproject_to tr g t = Ok r -> (i < n)%nat -> (j < m)%nat ->
  eval g (tr (g_crs t) (g_crs g) (x_of t i, y_of t j)) = Ok (value_at r i j).
Proof.
  intros ((S1 & S2) & Hn & Hm & Px & Py) G N E I J. unfold reproject_to in E. apply Nat.eqb_neq in N. rewrite N in E.
  assert (X : nx t = n) by exact S1. assert (Y : ny t = m). { unfold ny. destruct (g_values t) as [|row v]; [cbn in S1; lia|]. inversion S2. assumption. }
  rewrite X, Y in E. destruct (mapM _ (seq 0 n)) as [rows| |] eqn:M; cbn [bind] in E; try discriminate. destruct (make_grid _ _ _ _ _ _ _) as [o| |] eqn:K; cbn [bind] in E; try discriminate. injection E as <-.
  apply make_grid_frame in K. destruct K as (K1 & _ & _ & _ & K5 & _). unfold value_at. rewrite build_values, not_global by (rewrite K1; exact G). rewrite K5.
  pose proof (mapM_nth _ _ _ i i [] M (nth_error_seq n i I)) as R. cbn beta in R. pose proof (mapM_nth _ _ _ j j NaN R (nth_error_seq m j J)) as F. cbn beta in F. rewrite <- F. f_equal. f_equal. unfold node_x, node_y, x_of, y_of, node. rewrite (Qabs_eq (g_dy t) Py). reflexivity.
Qed.
Definition flat (v h : Q) : grid :=
  {| g_bbox := (0, 1, 0, 1); g_dx := 1; g_dy := 1; g_values := repeat (repeat (Fin v) 2) 2; g_hmin := Some (Fin h); g_extra := false; g_crs := 0%nat; g_fill := None |}.
Lemma flat_least v : 0 < v -> proper_grid (flat v v) 2 2 /\ least_positive (flat v v) 2 2 v.
Proof.
  intros P. assert (C : forall i j, (i < 2)%nat -> (j < 2)%nat -> value_at (flat v v) i j = Fin v) by (intros [|[|i]] [|[|j]] I J; try lia; reflexivity).
  split; [unfold proper_grid, shape; cbn; repeat split; try lia; repeat constructor|]. split; [exact P|]. split; [exists 0%nat, 0%nat; repeat split; lia|]. intros i j u I J E _. rewrite (C i j I J) in E. injection E as <-. lra.
Qed.
Lemma reproject_hmin : exists g t r, proper_grid g 2 2 /\ proper_grid t 2 2 /\ least_positive g 2 2 1 /\ least_positive t 2 2 5 /\ g_hmin g = Some (Fin 1) /\ g_hmin t = Some (Fin 5) /\
  (forall tr, reproject_to tr g t = Ok r) /\ g_hmin r = Some (Fin 5) /\ least_positive r 2 2 1.
Proof.
  exists (flat 1 1), (flat 5 5), (flat 1 5). destruct (flat_least 1 eq_refl) as (A & B), (flat_least 5 eq_refl) as (C & D). do 6 (split; [first [assumption|reflexivity]|]). split; [intros tr; vm_compute; reflexivity|]. split; [reflexivity|exact B].
Qed.

(** * get_border *)
Lemma nth_map_seq {A} (f : nat -> A) n k d : (k < n)%nat -> nth k (map f (seq 0 n)) d = f k.
Proof. intros H. rewrite (nth_indep _ d (f 0%nat)) by (rewrite map_length, seq_length; exact H). rewrite map_nth, seq_nth by exact H. reflexivity. Qed.
Lemma list_seq {A} (l : list A) f n d : length l = n -> (forall k, (k < n)%nat -> nth k l d = f k) -> l = map f (seq 0 n).
Proof. intros L H. apply (nth_ext _ _ d d); [rewrite map_length, seq_length; exact L|]. intros k K. rewrite nth_map_seq by lia. apply H. lia. Qed.
Lemma removelast_length {A} (l : list A) : length (removelast l) = (length l - 1)%nat.
Proof. induction l as [|a [|b l] IH]; [reflexivity|reflexivity|]. change (removelast (a :: b :: l)) with (a :: removelast (b :: l)). cbn [length] in *. lia. Qed.
Lemma removelast_nth {A} (l : list A) k d : (k < length l - 1)%nat -> nth k (removelast l) d = nth k l d.
Proof.
  revert k. induction l as [|a [|b l] IH]; intros k H; [cbn in H; lia|cbn in H; lia|]. change (removelast (a :: b :: l)) with (a :: removelast (b :: l)). destruct k; [reflexivity|]. cbn [nth]. apply IH. cbn [length] in *. lia.
Qed.
Lemma flat_map_single {A B} (f : A -> list B) g l : (forall x, In x l -> f x = [g x]) -> flat_map f l = map g l.
Proof. intros H. induction l as [|a l IH]; [reflexivity|]. cbn. rewrite (H a) by (left; reflexivity). cbn. f_equal. apply IH. intros x I. apply H. right. exact I. Qed.
Lemma final_one {A} (r : list A) m d : (1 <= m)%nat -> length r = m -> skipn (length r - 1) r = [nth (m - 1) r d].
Proof. intros P <-. destruct (exists_last (l := r)) as (l & a & ->); [intros ->; cbn in P; lia|]. rewrite app_length. cbn [length]. replace (length l + 1 - 1)%nat with (length l) by lia. rewrite skipn_app, skipn_all, Nat.sub_diag. cbn. rewrite app_nth2, Nat.sub_diag by lia. reflexivity. Qed.
Definition border_path (n m : nat) : list (nat * nat) :=
  map (fun j => (0, j)%nat) (seq 0 (m - 1)) ++ map (fun i => (i, m - 1)%nat) (seq 0 (n - 1)) ++ map (fun k => (n - 1, m - 1 - k)%nat) (seq 0 m) ++ map (fun k => (n - 2 - k, 0)%nat) (seq 0 (n - 2)).
Lemma tl_nth {A} (l : list A) k d : nth k (tl l) d = nth (S k) l d.
Proof. destruct l; [destruct k; reflexivity|reflexivity]. Qed.
Lemma border_values {A} (arr : list (list A)) n m d : length arr = n -> Forall (fun r => length r = m) arr -> (2 <= n)%nat -> (2 <= m)%nat ->
  get_border arr = map (fun p => nth (snd p) (nth (fst p) arr []) d) (border_path n m).
Proof.
  intros Ln F Hn Hm. assert (R : forall i, (i < n)%nat -> length (nth i arr []) = m) by (intros i I; rewrite Forall_forall in F; apply F, nth_In; lia).
  assert (RL : forall r, In r (removelast arr) -> length r = m).
  { intros r I. apply (In_nth _ _ []) in I. destruct I as (k & K & <-). rewrite removelast_length in K. rewrite removelast_nth by exact K. apply R. lia. }
  assert (RT : forall r, In r (rev (removelast (tl arr))) -> length r = m).
  { intros r I. apply in_rev in I. apply (In_nth _ _ []) in I. destruct I as (k & K & <-). rewrite removelast_length in K. rewrite removelast_nth by exact K. rewrite tl_nth. apply R. destruct arr; cbn in *; lia. }
  unfold get_border, border_path. rewrite !map_app, !map_map. cbn [fst snd]. f_equal; [|f_equal; [|f_equal]].
  - replace (match arr with [] => [] | r :: _ => r end) with (nth 0 arr []) by (destruct arr; reflexivity). apply (list_seq _ _ _ d); [rewrite removelast_length, R by lia; reflexivity|]. intros k K. apply removelast_nth. rewrite R by lia. exact K.
  - rewrite (flat_map_single _ (fun r => nth (m - 1) r d)) by (intros r I; apply final_one; [lia|apply RL, I]). rewrite (list_seq (removelast arr) (fun i => nth i arr []) (n - 1) []); [rewrite map_map; reflexivity|rewrite removelast_length; lia|]. intros k K. apply removelast_nth. lia.
  - replace (match rev arr with [] => [] | r :: _ => r end) with (nth (n - 1) arr []).
    2:{ replace (match rev arr with [] => [] | r :: _ => r end) with (nth 0 (rev arr) []) by (destruct (rev arr); reflexivity). rewrite rev_nth by lia. f_equal. lia. }
    apply (list_seq _ _ _ d); [rewrite rev_length; apply R; lia|]. intros k K. rewrite rev_nth by (rewrite R by lia; exact K). rewrite R by lia. f_equal. lia.
  - rewrite (flat_map_single _ (fun r => nth 0 r d)) by (intros r I; specialize (RT r I); destruct r; [cbn in RT; lia|reflexivity]).
    assert (LT : length (removelast (tl arr)) = (n - 2)%nat) by (rewrite removelast_length; destruct arr; cbn in *; lia).
    rewrite (list_seq (rev (removelast (tl arr))) (fun k => nth (n - 2 - k) arr []) (n - 2) []); [rewrite map_map; reflexivity|rewrite rev_length; exact LT|].
    intros k K. rewrite rev_nth by lia. rewrite LT. rewrite removelast_length in LT. rewrite removelast_nth by lia. rewrite tl_nth. f_equal. lia.
Qed.
Lemma border_In n m p : (2 <= n)%nat -> (2 <= m)%nat -> In p (border_path n m) <-> on_border n m p.
Proof.
  intros Hn Hm. unfold border_path, on_border. rewrite !in_app_iff, !in_map_iff. destruct p as (i & j). cbn [fst snd]. split.
  - intros [(k & E & K)|[(k & E & K)|[(k & E & K)|(k & E & K)]]]; apply in_seq in K; injection E as <- <-; lia.
  - intros (I & J & [->|[B|[->|B]]]).
    + destruct (Nat.eq_dec j (m - 1)) as [->|N]; [right; left; exists 0%nat; split; [reflexivity|apply in_seq; lia]|left; exists j; split; [reflexivity|apply in_seq; lia]].
    + right. right. left. exists (m - 1 - j)%nat. split; [f_equal; lia|apply in_seq; lia].
    + destruct (Nat.eq_dec i 0) as [->|N]; [left; exists 0%nat; split; [reflexivity|apply in_seq; lia]|]. destruct (Nat.eq_dec i (n - 1)) as [->|N']; [right; right; left; exists (m - 1)%nat; split; [f_equal; lia|apply in_seq; lia]|].
      right. right. right. exists (n - 2 - i)%nat. split; [f_equal; lia|apply in_seq; lia].
    + destruct (Nat.eq_dec i (n - 1)) as [->|N]; [right; right; left; exists 0%nat; split; [f_equal; lia|apply in_seq; lia]|right; left; exists i; split; [f_equal; lia|apply in_seq; lia]].
Qed.
Lemma NoDup_map_seq {A} (f : nat -> A) s n : (forall a b, (s <= a < s + n)%nat -> (s <= b < s + n)%nat -> f a = f b -> a = b) -> NoDup (map f (seq s n)).
Proof.
  revert s. induction n as [|n IH]; intros s H; [constructor|]. cbn. constructor; [|apply IH; intros a b X Y; apply H; lia].
  intros I. apply in_map_iff in I. destruct I as (k & E & K). apply in_seq in K. apply H in E; lia.
Qed.
Lemma NoDup_app' {A} (a b : list A) : NoDup a -> NoDup b -> (forall x, In x a -> In x b -> False) -> NoDup (a ++ b).
Proof.
  intros A1 B1 D. induction a as [|x a IH]; [exact B1|]. inversion A1; subst. cbn. constructor; [rewrite in_app_iff; intros [I|I]; [contradiction|apply (D x); [left; reflexivity|exact I]]|].
  apply IH; [assumption|]. intros y I J. apply (D y); [right; exact I|exact J].
Qed.
Lemma border_NoDup n m : (2 <= n)%nat -> (2 <= m)%nat -> NoDup (border_path n m).
Proof.
  intros Hn Hm. unfold border_path. repeat apply NoDup_app'.
  - apply NoDup_map_seq. intros a b _ _ E. congruence.
  - apply NoDup_map_seq. intros a b _ _ E. congruence.
  - apply NoDup_map_seq. intros a b A B E. injection E. lia.
  - apply NoDup_map_seq. intros a b A B E. injection E. lia.
  - intros (i & j) I J. rewrite in_map_iff in *. destruct I as (a & A & Ia), J as (b & B & Ib). apply in_seq in Ia, Ib. injection A as <- <-. injection B. lia.
  - intros (i & j) I J. rewrite in_app_iff in J. rewrite !in_map_iff in *. destruct I as (a & A & Ia). apply in_seq in Ia. injection A as <- <-. destruct J as [(b & B & Ib)|(b & B & Ib)]; apply in_seq in Ib; injection B; lia.
  - intros (i & j) I J. rewrite !in_app_iff in J. rewrite !in_map_iff in *. destruct I as (a & A & Ia). apply in_seq in Ia. injection A as <- <-. destruct J as [(b & B & Ib)|[(b & B & Ib)|(b & B & Ib)]]; apply in_seq in Ib; injection B; lia.
Qed.
Definition border_at (n m k : nat) : nat * nat :=
  if (k <? m - 1)%nat then (0, k)%nat else if (k <? m - 1 + (n - 1))%nat then (k - (m - 1), m - 1)%nat
  else if (k <? m - 1 + (n - 1) + m)%nat then (n - 1, m - 1 - (k - (m - 1) - (n - 1)))%nat else (n - 2 - (k - (m - 1) - (n - 1) - m), 0)%nat.
Lemma border_length n m : (2 <= n)%nat -> (2 <= m)%nat -> length (border_path n m) = (2 * n + 2 * m - 4)%nat.
Proof. intros. unfold border_path. rewrite !app_length, !map_length, !seq_length. lia. Qed.
Lemma border_nth n m k : (2 <= n)%nat -> (2 <= m)%nat -> (k < 2 * n + 2 * m - 4)%nat -> nth k (border_path n m) (0, 0)%nat = border_at n m k.
Proof.
  intros Hn Hm K. unfold border_path, border_at. destruct (Nat.ltb_spec k (m - 1)) as [A|A]; [rewrite app_nth1 by (rewrite map_length, seq_length; exact A); apply nth_map_seq; exact A|].
  rewrite app_nth2 by (rewrite map_length, seq_length; exact A). rewrite map_length, seq_length. destruct (Nat.ltb_spec k (m - 1 + (n - 1))) as [B|B].
  - rewrite app_nth1 by (rewrite map_length, seq_length; lia). apply (nth_map_seq (fun i => (i, m - 1)%nat)). lia.
  - rewrite app_nth2 by (rewrite map_length, seq_length; lia). rewrite map_length, seq_length. destruct (Nat.ltb_spec k (m - 1 + (n - 1) + m)) as [C|C].
    + rewrite app_nth1 by (rewrite map_length, seq_length; lia). apply (nth_map_seq (fun k => (n - 1, m - 1 - k)%nat)). lia.
    + rewrite app_nth2 by (rewrite map_length, seq_length; lia). rewrite map_length, seq_length. apply (nth_map_seq (fun k => (n - 2 - k, 0)%nat)). lia.
Qed.
Lemma border_cycle n m k : (2 <= n)%nat -> (2 <= m)%nat -> (k < 2 * n + 2 * m - 4)%nat -> beside (nth k (border_path n m) (0, 0)%nat) (nth (S k mod (2 * n + 2 * m - 4)) (border_path n m) (0, 0)%nat).
Proof.
  intros Hn Hm K. rewrite border_nth by assumption. rewrite border_nth by (try assumption; apply Nat.mod_upper_bound; lia). unfold beside, border_at.
  destruct (Nat.eq_dec (S k) (2 * n + 2 * m - 4)) as [E|E].
  - rewrite E, Nat.mod_same by lia. repeat match goal with |- context [(?a <? ?b)%nat] => destruct (Nat.ltb_spec a b); try (exfalso; lia) end; cbn [fst snd]; lia.
  - rewrite Nat.mod_small by lia. repeat match goal with |- context [(?a <? ?b)%nat] => destruct (Nat.ltb_spec a b); try (exfalso; lia) end; cbn [fst snd]; lia.
Qed.
Lemma border_total {A} (arr : list (list A)) n m d : length arr = n -> Forall (fun r => length r = m) arr -> (2 <= n)%nat -> (2 <= m)%nat ->
  exists path, length path = (2 * n + 2 * m - 4)%nat /\ NoDup path /\ (forall p, In p path <-> on_border n m p) /\
    (forall k, (k < length path)%nat -> beside (nth k path (0, 0)%nat) (nth (S k mod length path) path (0, 0)%nat)) /\ get_border arr = map (fun p => nth (snd p) (nth (fst p) arr []) d) path.
Proof.
  intros L F Hn Hm. exists (border_path n m). rewrite border_length by assumption. split; [reflexivity|]. split; [apply border_NoDup; assumption|]. split; [intros p; apply border_In; assumption|].
  split; [intros k K; apply border_cycle; assumption|]. apply border_values; assumption.
Qed.
Lemma border_row {A} (a b : A) r : get_border [a :: r ++ [b]] = (a :: r ++ [b]) ++ rev r ++ [a].
Proof.
  unfold get_border. cbn [rev tl app]. rewrite rev_app_distr. change (a :: r ++ [b]) with ((a :: r) ++ [b]). rewrite removelast_last. cbn. rewrite app_nil_r, <- !app_assoc. reflexivity.
Qed.

(** * Termination *)
Lemma blend_fuel idw hu w f c : (forall k q, idw k q <> OutOfFuel) -> blend idw hu w f c <> OutOfFuel.
Proof.
  intros T. unfold blend. destruct (_ && _); [discriminate|]. unfold blend_into. destruct (strictly_inside f c); [|discriminate].
  assert (M : forall b dx dy v h e c, make_grid b dx dy v h e c <> OutOfFuel) by (intros; unfold make_grid; destruct (_ || _); discriminate).
  assert (A : forall l, amin l <> OutOfFuel) by (intros [|a l]; discriminate).
  destruct (pad_grid _ f) as [p| |] eqn:P; cbn [bind]; [|discriminate|exact (fun _ => M _ _ _ _ _ _ _ P)].
  destruct (interpolate_to p c) as [x| |] eqn:I; cbn [bind]; [|discriminate|unfold interpolate_to in I; destruct (boxes_overlap _ _); [exact (fun _ => M _ _ _ _ _ _ _ I)|discriminate]].
  destruct (filter _ _) as [|a l].
  - destruct (amin _) eqn:E; cbn [bind]; try discriminate. exact (fun _ => A _ E).
  - destruct (idw _ _) eqn:E; cbn [bind]; [|discriminate|exact (fun _ => T _ _ E)]. destruct (amin _) eqn:E'; cbn [bind]; try discriminate. exact (fun _ => A _ E').
Qed.
Lemma all_fuel idw hu w r : (forall k q, idw k q <> OutOfFuel) -> forall alias own c, blend_all idw hu w alias own c r <> OutOfFuel.
Proof.
  intros T. induction r as [|f r IH]; intros alias own c; [discriminate|]. cbn [blend_all]. destruct (blend _ _ _ _ c) as [c1| |] eqn:E; cbn [bind]; [|discriminate|exact (fun _ => blend_fuel _ _ _ _ _ T E)].
  match goal with |- context [blend_all ?i ?h ?w ?a ?o ?c r] => specialize (IH a o c); destruct (blend_all i h w a o c r) as [[[x y] z]| |] end; cbn [bind]; [discriminate|discriminate|congruence].
Qed.
Lemma multi_fuel idw hu w gs : (forall k q, idw k q <> OutOfFuel) -> multiscale_sizing idw hu w gs <> OutOfFuel.
Proof.
  intros T. unfold multiscale_sizing. destruct (descending gs); [|discriminate]. assert (G : forall fuel gs, (length gs < fuel)%nat -> blend_list idw hu w fuel gs <> OutOfFuel); [|apply G; lia].
  clear gs. induction fuel as [|fuel IH]; [lia|]. intros [|g [|f r]] L; [discriminate|discriminate|]. cbn [blend_list]. remember (f :: r) as fr.
  destruct (blend_all idw hu w true g g fr) as [[[o n] r']| |] eqn:E; cbn [bind]; [|discriminate|exact (fun _ => all_fuel _ _ _ _ T _ _ _ E)].
  destruct (all_frame _ _ _ _ _ _ _ _ _ _ E (same_frame_refl g)) as (_ & _ & ->). specialize (IH (map (fun f => set_extra f false) fr)). rewrite map_length in IH. cbn [length] in L.
  destruct (blend_list _ _ _ fuel _); cbn [bind]; [discriminate|discriminate|]. apply IH. lia.
Qed.
