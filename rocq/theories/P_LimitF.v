(** Proofs about the gradient limiter on doubles. *)
From Coq Require Import List Arith Bool Lia Relations ZArith Reals Lra SpecFloat Psatz.
From Flocq Require Import Core IEEE754.BinarySingleNaN Relative.
From Verif Require Import M_Base M_GradLimit M_FixMesh M_LimitF S_Double S_GradLimit S_LimitF P_Double P_Ieee Util.
From Verif Require P_GradLimit.
Import ListNotations.
Open Scope R_scope.

(** * Square roots *)
Lemma sqrt_equiv (x : bin) : fsqrt (B2SF x) = B2SF (Bsqrt mode_NE x).
Proof.
  destruct x as [s|s| |s m e B]; try reflexivity; try (destruct s; reflexivity).
  destruct s; [reflexivity|]. cbn -[SFsqrt_core_binary]. rewrite B2SF_SF2B. unfold fsqrt, SFsqrt. cbn -[SFsqrt_core_binary].
  destruct (SFsqrt_core_binary _ _ _ _) as [[mz ez] lz]. apply round_aux_equiv.
Qed.
Lemma sqrt_rounds x : finite_double x -> 0 < val x -> finite_double (fsqrt x) /\ val (fsqrt x) = rnd (sqrt (val x)).
Proof.
  intros F P. destruct (lift x F) as (b & <- & X1 & X2). rewrite <- X2 in *. rewrite sqrt_equiv.
  destruct (Bsqrt_correct 53 1024 _ _ mode_NE b) as (C1 & C2 & _).
  assert (F' : is_finite (Bsqrt mode_NE b) = true).
  { rewrite C2. destruct b as [s|s| |s m e B]; try reflexivity; try discriminate. destruct s; [|reflexivity]. exfalso.
    cbn in P. assert (F2R (Float radix2 (Z.neg m) e) < 0) by (apply F2R_lt_0; reflexivity). cbn in H. lra. }
  split; [apply lowered, F'|]. rewrite val_B. exact C1.
Qed.
Lemma finite_check m e : valid_binary 53 1024 (S754_finite false m e) = true -> finite_double (S754_finite false m e).
Proof. intros H. split; [exact H|reflexivity]. Qed.
Lemma eps_double : finite_double f_eps. Proof. apply finite_check. reflexivity. Qed.
Lemma two_double : finite_double ftwo. Proof. apply finite_check. reflexivity. Qed.
Lemma val_two : val ftwo = 2.
Proof. unfold val, ftwo, SF2R, F2R. cbn. lra. Qed.
Definition f_1 : spec_float := S754_finite false 4503599627370496 (-52).
Definition f_1e9 : spec_float := S754_finite false 8388608000000000 (-23).
Lemma val_eps : val f_eps = rnd (1 / 10 ^ 9).
Proof.
  assert (E : fdiv f_1 f_1e9 = f_eps) by (vm_compute; reflexivity).
  assert (V1 : val f_1 = 1) by (unfold val, f_1, SF2R, F2R; cbn; lra).
  assert (V2 : val f_1e9 = 10 ^ 9) by (unfold val, f_1e9, SF2R, F2R; cbn; lra).
  destruct (div_rounds f_1 f_1e9) as [_ G].
  - apply finite_check. reflexivity.
  - apply finite_check. reflexivity.
  - rewrite V2. apply pow_nonzero. lra.
  - rewrite V1, V2. apply Rle_lt_trans with (Rabs 1).
    + unfold rnd. rewrite <- round_NE_abs by auto with typeclass_instances. rewrite <- (rnd_id (Rabs 1)).
      * apply rnd_le. rewrite Rabs_R1. rewrite Rabs_pos_eq; lra.
      * rewrite Rabs_R1. rewrite <- V1. apply format_val. apply finite_check. reflexivity.
    + rewrite Rabs_R1. unfold huge. change 1 with (bpow radix2 0). apply bpow_lt. lia.
  - rewrite <- E, G, V1, V2. reflexivity.
Qed.
Lemma sqrt_two_double : finite_double sqrt_two_f /\ val sqrt_two_f = rnd (sqrt 2).
Proof. unfold sqrt_two_f. pose proof (sqrt_rounds ftwo two_double) as H. rewrite val_two in H. apply H. lra. Qed.
Lemma eps_pos : 0 < val f_eps.
Proof. unfold val, f_eps, SF2R, F2R. cbn. lra. Qed.
Lemma sqrt_eps_double : finite_double sqrt_eps_f /\ val sqrt_eps_f = rnd (sqrt (rnd (1 / 10 ^ 9))).
Proof. unfold sqrt_eps_f. rewrite <- val_eps. apply sqrt_rounds; [apply eps_double|apply eps_pos]. Qed.
Lemma sqrt_eps_lit : sqrt_eps_f = S754_finite false 4666698134970813 (-67). Proof. vm_compute. reflexivity. Qed.
Lemma sqrt_two_lit : sqrt_two_f = S754_finite false 6369051672525773 (-52). Proof. vm_compute. reflexivity. Qed.
Lemma sqrt_eps_range : 0 < val sqrt_eps_f < 1.
Proof. rewrite sqrt_eps_lit. unfold val, SF2R, F2R. cbn. lra. Qed.
Lemma sqrt_two_range : 1 < val sqrt_two_f < 2.
Proof. rewrite sqrt_two_lit. unfold val, SF2R, F2R. cbn. lra. Qed.

(** * Products of amounts *)
(** [we] is what a product of real value [W] rounds to, or an infinity if W is too large. *)
Definition weighs (we : spec_float) (W : R) : Prop := 0 <= W /\ ((finite_double we /\ val we = W) \/ (we = S754_infinity false /\ huge <= W)).
Definition weight (we : spec_float) : Prop := (exists W, weighs we W) \/ we = S754_nan.
Lemma mul_weighs x y : amount x -> amount y -> weighs (fmul x y) (rnd (val x * val y)).
Proof.
  intros [Fx Px] [Fy Py]. assert (P : 0 <= rnd (val x * val y)) by (apply rnd_sign_pos; nra). split; auto.
  destruct (Rlt_le_dec (rnd (val x * val y)) huge) as [L|L].
  - left. apply mul_rounds; auto. rewrite Rabs_pos_eq; auto.
  - right. split; auto.
    destruct (lift x Fx) as (bx & <- & X1 & X2), (lift y Fy) as (b & <- & Y1 & Y2). rewrite <- X2, <- Y2 in *. rewrite mul_equiv.
    pose proof (Bmult_correct 53 1024 _ _ mode_NE bx b) as C. change (round radix2 (SpecFloat.fexp 53 1024) (round_mode mode_NE) (B2R bx * B2R b)) with (rnd (B2R bx * B2R b)) in C.
    change (bpow radix2 1024) with huge in C. rewrite Rlt_bool_false in C by (rewrite Rabs_pos_eq; auto). rewrite overflow_NE in C. rewrite C. f_equal.
    pose proof huge_pos as HP. assert (NZ : B2R bx * B2R b <> 0). { intros Z. rewrite Z, rnd_id in L by apply rep_0. lra. }
    assert (A : 0 < B2R bx) by (destruct (Rle_lt_or_eq_dec _ _ Px) as [|Q]; auto; rewrite <- Q in NZ; lra).
    assert (A' : 0 < B2R b) by (destruct (Rle_lt_or_eq_dec _ _ Py) as [|Q]; auto; rewrite <- Q in NZ; lra).
    rewrite (proj2 (B_sign_val bx X1) A), (proj2 (B_sign_val b Y1) A'). reflexivity.
Qed.
Lemma inf_mul x : amount x -> fmul (S754_infinity false) x = S754_infinity false \/ fmul (S754_infinity false) x = S754_nan.
Proof.
  intros [[V F] P]. destruct x as [s|s| |s m e]; try discriminate; [now right|]. destruct s; [|now left]. exfalso.
  unfold val, SF2R in P. assert (F2R (Float radix2 (Z.neg m) e) < 0) by (apply F2R_lt_0; reflexivity). cbn in P, H. lra.
Qed.
(** * Sums *)
Lemma inf_add x : finite_double x -> fadd x (S754_infinity false) = S754_infinity false /\ fadd (S754_infinity false) x = S754_infinity false.
Proof. intros [V F]. destruct x as [s|s| |s m e]; try discriminate; split; reflexivity. Qed.
Lemma nan_add x : fadd x S754_nan = S754_nan /\ fadd S754_nan x = S754_nan.
Proof. destruct x as [s|s| |s m e]; split; try reflexivity; destruct s; reflexivity. Qed.
Lemma ltb_nan x : SFltb S754_nan x = false /\ SFltb x S754_nan = false.
Proof. destruct x as [s|s| |s m e]; split; try reflexivity; destruct s; reflexivity. Qed.
Lemma ltb_inf x : finite_double x -> SFltb (S754_infinity false) x = false.
Proof. intros F. apply (fin_ltb_inf x false F). Qed.
Lemma rnd_ge a b : representable a -> a <= b -> a <= rnd b.
Proof. intros H L. rewrite <- (rnd_id a H). now apply rnd_le. Qed.
Lemma fin_lt_huge x : finite_double x -> val x < huge.
Proof.
  intros F. destruct (lift x F) as (b & <- & X1 & <-). pose proof (abs_B2R_lt_emax 53 1024 b) as H. change (bpow radix2 1024) with huge in H.
  apply Rabs_def2 in H. lra.
Qed.
(** Adding an amount: finite with the rounded value, or infinite because that is too large. *)
Lemma add_amount x y : amount x -> amount y -> weighs (fadd x y) (rnd (val x + val y)).
Proof.
  intros [Fx Px] [Fy Py]. assert (P : 0 <= rnd (val x + val y)) by (apply rnd_sign_pos; lra). split; auto.
  destruct (add_rounds x y Fx Fy) as [A B]. rewrite Rabs_pos_eq in A, B by auto. destruct (Rlt_le_dec (rnd (val x + val y)) huge) as [L|L]; [left; auto|].
  right. rewrite B by auto. destruct (Rlt_dec _ _); [lra|]. auto.
Qed.
Lemma add_weighs x we W : amount x -> weighs we W -> weighs (fadd x we) (rnd (val x + W)).
Proof.
  intros Hx [P [[F <-]|[-> L]]]; [apply add_amount; auto; split; auto|].
  destruct (inf_add x (proj1 Hx)) as [-> _]. destruct Hx as [Fx Px].
  assert (G : huge <= rnd (val x + W)). { apply rnd_ge; [|lra]. apply generic_format_FLT_bpow; [reflexivity|lia]. }
  pose proof huge_pos. split; [lra|]. right. auto.
Qed.
Lemma weighs_add we W x : weighs we W -> amount x -> weighs (fadd we x) (rnd (W + val x)).
Proof.
  intros [P [[F <-]|[-> L]]] Hx; [apply add_amount; auto; split; auto|].
  destruct (inf_add x (proj1 Hx)) as [_ ->]. destruct Hx as [Fx Px].
  assert (G : huge <= rnd (W + val x)). { apply rnd_ge; [|lra]. apply generic_format_FLT_bpow; [reflexivity|lia]. }
  pose proof huge_pos. split; [lra|]. right. auto.
Qed.
Lemma weighs_ltb we W x : weighs we W -> finite_double x -> SFltb we x = true <-> W < val x.
Proof.
  intros [P [[F <-]|[-> L]]] Hx; [apply ltb_val; auto|]. rewrite ltb_inf by auto. pose proof (fin_lt_huge x Hx). split; [discriminate|lra].
Qed.

(** The test of the code. *)
Lemma test_spec fo we W ft fz : amount fo -> weighs we W -> amount ft -> finite_double fz ->
  SFltb (fadd (fadd fo we) ft) fz = true <-> reach (val fo) W (val ft) < val fz.
Proof. intros H1 H2 H3 H4. apply weighs_ltb; auto. unfold reach. apply weighs_add; auto. now apply add_weighs. Qed.
Lemma reach_ge g W t : 0 <= W -> 0 <= t -> representable g -> g <= reach g W t.
Proof. intros H1 H2 H3. unfold reach. apply rnd_ge; auto. assert (g <= rnd (g + W)) by (apply rnd_ge; auto; lra). lra. Qed.
Lemma reach_ge1 g W t : 0 <= t -> rnd (g + W) <= reach g W t.
Proof. intros H. unfold reach. apply rnd_ge; [apply rnd_rep|lra]. Qed.
Lemma reach_mono g g' W t : g <= g' -> reach g W t <= reach g' W t.
Proof. intros H. unfold reach. apply rnd_le. apply Rplus_le_compat_r. apply rnd_le. lra. Qed.
(** A value is only replaced by a smaller finite one. *)
Lemma lowering fo we ft fz : size_or_nan fo -> weight we -> amount ft -> size_or_nan fz ->
  SFltb (fadd (fadd fo we) ft) fz = true ->
  exists W, weighs we W /\ amount fo /\ amount fz /\ amount (fadd fo we) /\ val (fadd fo we) = rnd (val fo + W) /\ reach (val fo) W (val ft) < val fz /\ val (fadd fo we) < val fz.
Proof.
  intros [Ho| ->] Hw Ht Hz E; [|rewrite (proj2 (nan_add we)), (proj2 (nan_add ft)), (proj1 (ltb_nan fz)) in E; discriminate].
  destruct Hz as [Hz| ->]; [|rewrite (proj2 (ltb_nan _)) in E; discriminate].
  destruct Hw as [[W Hw]| ->]; [|rewrite (proj1 (nan_add fo)), (proj2 (nan_add ft)), (proj1 (ltb_nan fz)) in E; discriminate].
  apply (test_spec fo we W ft fz Ho Hw Ht (proj1 Hz)) in E. exists W. split; auto. split; auto. split; auto.
  pose proof (reach_ge1 (val fo) W (val ft) (proj2 Ht)) as G. pose proof (fin_lt_huge fz (proj1 Hz)) as B.
  destruct (add_weighs fo we W Ho Hw) as [P [[F V]|[_ L]]]; [|lra]. split; [split; [auto|lra]|]. split; auto. split; auto. lra.
Qed.

(** * Doubles as multiples of the smallest one *)
Definition ticks (x : spec_float) : Z := Zfloor (val x * bpow radix2 1074).
Lemma ticks_val x : finite_double x -> IZR (ticks x) = val x * bpow radix2 1074.
Proof.
  intros F. pose proof (format_val x F) as H. apply generic_format_FIX_FLT in H. apply FIX_format_generic in H. destruct H as [[m e] E1 E2]. cbn in E2. subst e.
  unfold ticks. rewrite E1. unfold F2R. cbn [Fnum Fexp]. rewrite Rmult_assoc, <- bpow_plus. replace (-1074 + 1074)%Z with 0%Z by reflexivity. cbn [bpow]. rewrite Rmult_1_r.
  now rewrite Zfloor_IZR.
Qed.
Lemma ticks_lt x y : finite_double x -> finite_double y -> val x < val y -> (ticks x < ticks y)%Z.
Proof. intros Fx Fy L. apply lt_IZR. rewrite !ticks_val by auto. apply Rmult_lt_compat_r; auto. apply bpow_gt_0. Qed.
Lemma ticks_nn x : amount x -> (0 <= ticks x)%Z.
Proof. intros [F P]. apply le_IZR. rewrite ticks_val by auto. apply Rmult_le_pos; auto. apply bpow_ge_0. Qed.
Lemma ticks_nan : ticks S754_nan = 0%Z.
Proof. unfold ticks. cbn [val SF2R]. unfold val. cbn [SF2R]. rewrite Rmult_0_l. apply (Zfloor_IZR 0). Qed.

(** * The passes *)
Open Scope nat_scope.
Notation "f .[ i ]" := (nth i f S754_nan) (at level 2, format "f .[ i ]").
Notation find_indices_In := P_GradLimit.find_indices_In.
Section Graph.
  Variables (d0 d1 : nat) (w wd ftol : spec_float) (n : nat).
  Notation moves := (node_moves_f d0 d1 w wd).
  Hypothesis moves_lt : forall x y we, x < n -> In (y, we) (moves x) -> y < n /\ weight we.
  Hypothesis ftol_nn : amount ftol.

  Definition sizes (f : list spec_float) : Prop := forall x, In x f -> size_or_nan x.
  Lemma sizes_at f i : sizes f -> size_or_nan f.[i].
  Proof. intros H. destruct (Nat.lt_ge_cases i (length f)); [apply H, nth_In; auto|rewrite nth_overflow by auto; now right]. Qed.
  Lemma sizes_upd f i v : sizes f -> size_or_nan v -> sizes (upd f i v).
  Proof.
    intros H V. revert i. induction f as [|a f IH]; intros [|i]; cbn [upd]; intros x []; try (subst; auto; apply H; now left).
    - apply H. now right.
    - apply (IH (fun x Hx => H x (or_intror Hx)) i x). auto.
  Qed.
  Definition okpair (f : list spec_float) (x y : nat) (W : R) : Prop :=
    finite_double f.[x] -> finite_double f.[y] -> (val f.[x] <= reach (val f.[y]) W (val ftol))%R /\ (val f.[y] <= reach (val f.[x]) W (val ftol))%R.

  (** One lowering of entry z from entry o. *)
  Definition lowered (iter : Z) (z o : nat) (we : spec_float) (s s' : list spec_float * list Z) : Prop :=
    z < n /\ o < n /\ (In (o, we) (moves z) \/ In (z, we) (moves o)) /\
    SFltb (fadd (fadd (fst s).[o] we) ftol) (fst s).[z] = true /\
    s' = (upd (fst s) z (fadd (fst s).[o] we), upd (snd s) z iter).
  Definition event (iter : Z) (s s' : list spec_float * list Z) : Prop := exists z o we, lowered iter z o we s s'.
  Definition events (iter : Z) := clos_refl_trans_1n _ (event iter).
  Definition sized (s : list spec_float * list Z) : Prop := length (fst s) = n /\ length (snd s) = n /\ sizes (fst s).

  Lemma lowered_weight iter z o we s s' : lowered iter z o we s s' -> weight we.
  Proof. intros (Hz & Ho & [H|H] & _); [exact (proj2 (moves_lt z o we Hz H))|exact (proj2 (moves_lt o z we Ho H))]. Qed.
  (** What a lowering does. *)
  Lemma lowered_spec iter z o we s s' : sized s -> lowered iter z o we s s' ->
    exists W, weighs we W /\ amount (fst s).[o] /\ amount (fst s).[z] /\ amount (fadd (fst s).[o] we) /\ val (fadd (fst s).[o] we) = rnd (val (fst s).[o] + W) /\
      (reach (val (fst s).[o]) W (val ftol) < val (fst s).[z])%R /\ (val (fadd (fst s).[o] we) < val (fst s).[z])%R.
  Proof.
    intros (_ & _ & S) H. pose proof (lowered_weight _ _ _ _ _ _ H) as Hw. destruct H as (_ & _ & _ & E & _).
    exact (lowering _ _ _ _ (sizes_at _ o S) Hw ftol_nn (sizes_at _ z S) E).
  Qed.
  Lemma event_sized iter s s' : sized s -> event iter s s' -> sized s'.
  Proof.
    intros Hs (z & o & we & H). destruct (lowered_spec _ _ _ _ _ _ Hs H) as (W & _ & _ & _ & A & _).
    destruct Hs as (H1 & H2 & H3), H as (_ & _ & _ & _ & ->). split; [|split]; cbn [fst snd]; try (now rewrite upd_length). apply sizes_upd; auto. now left.
  Qed.
  Lemma events_ind iter (P : list spec_float * list Z -> Prop) : (forall s s', sized s -> P s -> event iter s s' -> P s') ->
    forall s s', events iter s s' -> sized s -> P s -> sized s' /\ P s'.
  Proof.
    intros HP s s' H. induction H as [|s s1 s' H1 H2 IH]; intros Hs Hps; [auto|].
    apply IH; [eapply event_sized; eauto|eapply HP; eauto].
  Qed.
  Lemma events_trans iter s1 s2 s3 : events iter s1 s2 -> events iter s2 s3 -> events iter s1 s3.
  Proof.
    intros H1. revert s3. induction H1 as [|s1 s' s2 H H1 IH]; intros s3 H2; [exact H2|].
    eapply Relation_Operators.rt1n_trans; [exact H|apply IH; exact H2].
  Qed.

  Lemma relax_cases iter x y we s : x < n -> In (y, we) (moves x) -> sized s ->
    (relax_f ftol iter x y we s = s /\ forall W, weighs we W -> okpair (fst s) x y W) \/
    (exists z o, (z = x /\ o = y \/ z = y /\ o = x) /\ lowered iter z o we s (relax_f ftol iter x y we s)).
  Proof.
    intros Hx Hin (_ & _ & Hs). destruct (moves_lt x y we Hx Hin) as [Hy Hwe]. destruct s as [f a]. unfold relax_f. cbn [fst snd] in *.
    assert (OK : forall z o W, weighs we W -> SFltb (fadd (fadd f.[o] we) ftol) f.[z] = false -> finite_double f.[z] -> finite_double f.[o] ->
      (val f.[o] <= val f.[z])%R -> (val f.[z] <= reach (val f.[o]) W (val ftol))%R /\ (val f.[o] <= reach (val f.[z]) W (val ftol))%R).
    { intros z o W HW E Fz Fo L. destruct (sizes_at f o Hs) as [Ao|Q]; [|rewrite Q in Fo; destruct Fo; discriminate]. split.
      - apply Rnot_lt_le. intros G. apply (test_spec _ we W ftol _ Ao HW ftol_nn Fz) in G. congruence.
      - eapply Rle_trans; [exact L|]. apply reach_ge; [apply HW|apply ftol_nn|now apply format_val]. }
    destruct (SFltb f.[y] f.[x]) eqn:E1.
    - destruct (SFltb (fadd (fadd f.[y] we) ftol) f.[x]) eqn:E2.
      + right. exists x, y. split; auto. unfold lowered. cbn [fst snd]. auto 8.
      + left. split; auto. intros W HW Fx Fy. cbn. apply ltb_val in E1; auto. apply OK; auto. lra.
    - destruct (SFltb (fadd (fadd f.[x] we) ftol) f.[y]) eqn:E2.
      + right. exists y, x. split; auto. unfold lowered. cbn [fst snd]. auto 8.
      + left. split; auto. intros W HW Fx Fy. cbn. apply and_comm. apply OK; auto. apply Rnot_lt_le. intros G. apply (ltb_val _ _ Fy Fx) in G. congruence.
  Qed.
  Lemma relax_events iter x y we s : x < n -> In (y, we) (moves x) -> sized s -> events iter s (relax_f ftol iter x y we s).
  Proof.
    intros Hx Hin Hs. destruct (relax_cases iter x y we s Hx Hin Hs) as [[-> _]|(z & o & _ & H)]; [apply Relation_Operators.rt1n_refl|].
    eapply Relation_Operators.rt1n_trans; [exists z, o, we; exact H|apply Relation_Operators.rt1n_refl].
  Qed.
  Lemma events_sized iter s s' : sized s -> events iter s s' -> sized s'.
  Proof. intros Hs He. apply (events_ind iter (fun _ => True)) with (s := s); auto. Qed.
  Lemma moves_events iter x l : x < n -> incl l (moves x) -> forall s, sized s ->
    events iter s (fold_left (fun st m => relax_f ftol iter x (fst m) (snd m) st) l s).
  Proof.
    intros Hx. induction l as [|[y we] l IH]; intros Hl s Hs; simpl; [apply Relation_Operators.rt1n_refl|].
    pose proof (relax_events iter x y we s Hx (Hl _ (or_introl eq_refl)) Hs) as E.
    eapply events_trans; [exact E|]. apply IH; [|now apply (events_sized iter s)]. intros m Hm. apply Hl. now right.
  Qed.
  Lemma node_events iter x s : x < n -> sized s -> events iter s (relax_node_f d0 d1 w wd ftol iter x s).
  Proof. intros Hx Hs. apply moves_events; auto. apply incl_refl. Qed.
  Lemma sweep_events iter l : (forall x, In x l -> x < n) -> forall s, sized s -> events iter s (sweep_f d0 d1 w wd ftol iter l s).
  Proof.
    intros Hl. unfold sweep_f. induction l as [|x l IH]; intros s Hs; simpl; [apply Relation_Operators.rt1n_refl|].
    pose proof (node_events iter x s (Hl _ (or_introl eq_refl)) Hs) as E.
    eapply events_trans; [exact E|]. apply IH; [|now apply (events_sized iter s)]. intros y Hy. apply Hl. now right.
  Qed.
  Lemma active_lt s v x : sized s -> In x (find_indices (snd s) v) -> x < n.
  Proof. intros (_ & L & _) H. apply find_indices_In in H. lia. Qed.

  (** Invariants of the field that do not depend on the active set. *)
  Lemma loop_inv (P : list spec_float -> Prop) :
    (forall iter z o we s s', sized s -> P (fst s) -> lowered iter z o we s s' -> P (fst s')) ->
    forall k iter s, sized s -> P (fst s) ->
    let f := fst (limit_loop_f d0 d1 w wd ftol k iter s) in P f /\ length f = n /\ sizes f.
  Proof.
    intros HP. induction k as [|k IH]; intros iter s Hs Hps; cbn [limit_loop_f]; [split; auto; split; apply Hs|].
    destruct (find_indices (snd s) (iter - 1)) as [|x l] eqn:E; [split; auto; split; apply Hs|].
    destruct (events_ind iter (fun s => P (fst s))) with (s := s) (s' := sweep_f d0 d1 w wd ftol iter (x :: l) s) as [G1 G2]; auto.
    - intros s1 s2 H1 H2 (z & o & we & H3). eapply HP; eauto.
    - apply sweep_events; auto. intros y Hy. rewrite <- E in Hy. eapply active_lt; eauto.
  Qed.

  (** * Convergence implies the limit on symmetric pairs *)
  Definition settled (iter : Z) (s : list spec_float * list Z) x y W : Prop :=
    okpair (fst s) x y W \/ nth x (snd s) 0%Z = iter \/ nth y (snd s) 0%Z = iter.
  Lemma settled_event iter s s' x y W : sized s -> x < n -> y < n -> settled iter s x y W -> event iter s s' -> settled iter s' x y W.
  Proof.
    intros (L1 & L2 & _) Hx Hy Hs (z & o & we' & Hz & Ho & _ & _ & ->). unfold settled in *. cbn [fst snd].
    destruct (Nat.eq_dec z x) as [->|Hzx]; [right; left; apply upd_nth_same; lia|].
    destruct (Nat.eq_dec z y) as [->|Hzy]; [right; right; apply upd_nth_same; lia|].
    unfold okpair in *. rewrite !upd_nth_other by auto. exact Hs.
  Qed.
  Lemma settled_events iter s s' x y W : sized s -> x < n -> y < n -> settled iter s x y W -> events iter s s' -> settled iter s' x y W.
  Proof.
    intros Hs Hx Hy Hst He. apply (events_ind iter (fun s => settled iter s x y W)) with (s := s); auto.
    intros s1 s2 H1 H2 H3. eapply settled_event; eauto.
  Qed.
  Lemma relax_settled iter s x y we W : sized s -> x < n -> In (y, we) (moves x) -> weighs we W -> settled iter (relax_f ftol iter x y we s) x y W.
  Proof.
    intros Hs Hx Hin HW. destruct (relax_cases iter x y we s Hx Hin Hs) as [[-> H]|(z & o & Hzo & H)]; [left; auto|right].
    destruct Hs as (L1 & L2 & _), H as (Hz & Ho & _ & _ & ->). cbn [snd].
    destruct Hzo as [[-> _]|[-> _]]; [left|right]; apply upd_nth_same; lia.
  Qed.
  Lemma node_settled iter x : x < n -> forall s, sized s -> forall y we W, In (y, we) (moves x) -> weighs we W ->
    settled iter (relax_node_f d0 d1 w wd ftol iter x s) x y W.
  Proof.
    intros Hx s Hs y we W Hin HW. unfold relax_node_f.
    assert (G : forall l1 l2, moves x = l1 ++ (y, we) :: l2 ->
      settled iter (fold_left (fun st m => relax_f ftol iter x (fst m) (snd m) st) (moves x) s) x y W).
    { intros l1 l2 E. rewrite E at 1. rewrite fold_left_app. cbn [fold_left fst snd].
      set (s1 := fold_left _ l1 s).
      assert (Hs1 : sized s1). { apply (events_sized iter s); auto. apply moves_events; auto. rewrite E. intros m Hm. apply in_or_app. now left. }
      assert (Hs2 : sized (relax_f ftol iter x y we s1)) by (eapply events_sized; [exact Hs1|now apply relax_events]).
      apply settled_events with (s := relax_f ftol iter x y we s1); auto.
      - apply (moves_lt x y we Hx Hin).
      - now apply relax_settled.
      - apply moves_events; auto. rewrite E. intros m Hm. apply in_or_app. right. now right. }
    apply in_split in Hin. destruct Hin as (l1 & l2 & E). eapply G; eauto.
  Qed.

  Definition sympair x y we := In (y, we) (moves x) /\ In (x, we) (moves y).
  Lemma okpair_sym f x y W : okpair f x y W -> okpair f y x W.
  Proof. intros H F1 F2. apply and_comm. now apply H. Qed.
  Lemma settled_sym iter s x y W : settled iter s x y W -> settled iter s y x W.
  Proof. intros [H|[H|H]]; [left; now apply okpair_sym|right; now right|right; now left]. Qed.
  Lemma sweep_settled iter l : (forall x, In x l -> x < n) -> forall s, sized s -> forall x y we W, x < n -> y < n -> sympair x y we -> weighs we W ->
    (settled iter s x y W \/ In x l \/ In y l) -> settled iter (sweep_f d0 d1 w wd ftol iter l s) x y W.
  Proof.
    intros Hl. induction l as [|z l IH]; intros s Hs x y we W Hx Hy Hsym HW H; unfold sweep_f in *; cbn [fold_left].
    - destruct H as [H|[[]|[]]]; auto.
    - assert (Hz : z < n) by (apply Hl; now left).
      pose proof (node_events iter z s Hz Hs) as He.
      apply IH with (we := we); auto; [intros q Hq; apply Hl; now right|now apply (events_sized iter s)|].
      destruct (Nat.eq_dec z x) as [->|Hzx]; [left; apply node_settled with (we := we); auto; apply Hsym|].
      destruct (Nat.eq_dec z y) as [->|Hzy]; [left; apply settled_sym; apply node_settled with (we := we); auto; apply Hsym|].
      destruct H as [H|[[H|H]|[H|H]]]; try congruence; auto. left. eapply settled_events; eauto.
  Qed.
  Lemma loop_converged k : forall iter s, sized s ->
    (forall x y we W, x < n -> y < n -> sympair x y we -> weighs we W -> settled (iter - 1) s x y W) ->
    snd (limit_loop_f d0 d1 w wd ftol k iter s) = true ->
    forall x y we W, x < n -> y < n -> sympair x y we -> weighs we W -> okpair (fst (limit_loop_f d0 d1 w wd ftol k iter s)) x y W.
  Proof.
    induction k as [|k IH]; intros iter s Hs Hinv Hc; cbn [limit_loop_f] in *; [discriminate|].
    destruct (find_indices (snd s) (iter - 1)) as [|z l] eqn:E.
    - intros x y we W Hx Hy Hsym HW. cbn [fst].
      destruct (Hinv x y we W Hx Hy Hsym HW) as [H|[H|H]]; auto; exfalso.
      + assert (In x (find_indices (snd s) (iter - 1))) as Hi by (apply find_indices_In; split; [destruct Hs; lia|auto]). rewrite E in Hi. contradiction.
      + assert (In y (find_indices (snd s) (iter - 1))) as Hi by (apply find_indices_In; split; [destruct Hs; lia|auto]). rewrite E in Hi. contradiction.
    - assert (Hl : forall x, In x (z :: l) -> x < n).
      { intros x Hx. rewrite <- E in Hx. eapply active_lt; eauto. }
      apply IH; auto.
      + apply (events_sized iter s); auto. now apply sweep_events.
      + intros x y we W Hx Hy Hsym HW. replace (iter + 1 - 1)%Z with iter by lia.
        apply sweep_settled with (we := we); auto. destruct (Hinv x y we W Hx Hy Hsym HW) as [H|[H|H]]; [left; now left| |].
        * right. left. rewrite <- E. apply find_indices_In. split; [destruct Hs; lia|auto].
        * right. right. rewrite <- E. apply find_indices_In. split; [destruct Hs; lia|auto].
  Qed.

  (** * Termination *)
  Definition total (f : list spec_float) : Z := fold_right (fun x t => (ticks x + t)%Z) 0%Z f.
  Lemma total_upd f z v : z < length f -> (total (upd f z v) = total f - ticks f.[z] + ticks v)%Z.
  Proof.
    revert z. induction f as [|x f IH]; intros z Hz; [simpl in Hz; lia|]. destruct z as [|z]; cbn [upd total fold_right nth]; [unfold total; lia|].
    change (fold_right (fun x t => (ticks x + t)%Z) 0%Z (upd f z v)) with (total (upd f z v)). rewrite IH by (simpl in Hz; lia). unfold total. lia.
  Qed.
  Lemma total_nn f : sizes f -> (0 <= total f)%Z.
  Proof.
    induction f as [|x f IH]; intros H; [cbn; lia|]. cbn [total fold_right]. assert (0 <= total f)%Z by (apply IH; intros y Hy; apply H; now right). unfold total in H0.
    assert (0 <= ticks x)%Z. { destruct (H x (or_introl eq_refl)) as [A| ->]; [now apply ticks_nn|rewrite ticks_nan; lia]. } lia.
  Qed.
  Lemma event_total iter s s' : sized s -> event iter s s' -> (total (fst s') < total (fst s))%Z.
  Proof.
    intros Hs (z & o & we & H). destruct (lowered_spec _ _ _ _ _ _ Hs H) as (W & _ & _ & Az & A & _ & _ & L).
    destruct Hs as (L1 & _), H as (Hz & _ & _ & _ & ->). cbn [fst]. rewrite total_upd by lia. pose proof (ticks_lt _ _ (proj1 A) (proj1 Az) L). lia.
  Qed.
  Lemma events_total iter s s' : sized s -> events iter s s' -> s' = s \/ (total (fst s') < total (fst s))%Z.
  Proof.
    intros Hs He. induction He as [|s s1 s' H1 H2 IH]; [now left|]. right.
    pose proof (event_total _ _ _ Hs H1). destruct (IH (event_sized _ _ _ Hs H1)) as [->|]; lia.
  Qed.
  Lemma loop_terminates k : forall N iter s, sized s -> S N < k -> (forall i, i < n -> (nth i (snd s) 0 <= iter - 1)%Z) -> (total (fst s) <= Z.of_nat N)%Z ->
    snd (limit_loop_f d0 d1 w wd ftol k iter s) = true.
  Proof.
    induction k as [|k IH]; intros N iter s Hs HN Ha HT; [lia|]. cbn [limit_loop_f].
    destruct (find_indices (snd s) (iter - 1)) as [|x l] eqn:E; auto.
    assert (Hl : forall y, In y (x :: l) -> y < n).
    { intros y Hy. rewrite <- E in Hy. eapply active_lt; eauto. }
    set (s' := sweep_f d0 d1 w wd ftol iter (x :: l) s).
    assert (He : events iter s s') by (now apply sweep_events).
    pose proof (events_sized _ _ _ Hs He) as Hs'.
    destruct (events_total _ _ _ Hs He) as [Eq|Hlt].
    - rewrite Eq. destruct k as [|k]; [lia|]. cbn [limit_loop_f].
      replace (iter + 1 - 1)%Z with iter by lia.
      destruct (find_indices (snd s) iter) as [|y l'] eqn:E'; auto. exfalso.
      assert (Hy : In y (find_indices (snd s) iter)) by (rewrite E'; now left). apply find_indices_In in Hy.
      destruct Hy as [Hy1 Hy2]. specialize (Ha y). destruct Hs as (_ & L2 & _). rewrite Hy2 in Ha. lia.
    - pose proof (total_nn _ (proj2 (proj2 Hs'))) as P. destruct N as [|N]; [lia|].
      apply (IH N); [exact Hs'|lia| |lia].
      replace (iter + 1 - 1)%Z with iter by lia.
      refine (proj2 (events_ind iter (fun s => forall i, i < n -> (nth i (snd s) 0 <= iter)%Z) _ s s' He Hs _)).
      + intros s1 s2 (L1 & L2 & _) H1 (z & o & we & Hz & _ & _ & _ & ->) i Hi. cbn [snd].
        destruct (Nat.eq_dec z i) as [->|Hne]; [rewrite upd_nth_same by lia; lia|rewrite upd_nth_other by auto; auto].
      + intros i Hi. specialize (Ha i Hi). lia.
  Qed.
  Lemma loop_stable k : forall j iter s, snd (limit_loop_f d0 d1 w wd ftol k iter s) = true ->
    limit_loop_f d0 d1 w wd ftol (k + j) iter s = limit_loop_f d0 d1 w wd ftol k iter s.
  Proof.
    induction k as [|k IH]; intros j iter s H; cbn [limit_loop_f Nat.add] in *; [discriminate|].
    destruct (find_indices (snd s) (iter - 1)); auto.
  Qed.
  Lemma loop_fixed k iter s : sized s -> (forall z o we, z < n -> o < n -> (In (o, we) (moves z) \/ In (z, we) (moves o)) ->
      SFltb (fadd (fadd (fst s).[o] we) ftol) (fst s).[z] = false) -> fst (limit_loop_f d0 d1 w wd ftol k iter s) = fst s.
  Proof.
    intros Hs H. apply (loop_inv (fun f => f = fst s)); auto.
    intros it z o we s1 s2 _ E (Hz & Ho & Hin & Hlt & _). exfalso. rewrite E in Hlt. specialize (H z o we Hz Ho Hin). congruence.
  Qed.
End Graph.

(** * The grid *)
Section Grid.
  Variables (d0 d1 d2 : nat) (w wd : spec_float).
  Notation cell := (S_GradLimit.cell d0 d1).
  Notation moves := (node_moves_f d0 d1 w wd).
  Lemma moves_cell i j k y we : i < d0 -> j < d1 -> In (y, we) (moves (cell i j k)) ->
    exists i' j', i' < d0 /\ j' < d1 /\ y = cell i' j' k /\
      ((we = w /\ gap i i' + gap j j' <= 1) \/ (we = wd /\ touching i j i' j')).
  Proof.
    intros Hi Hj. unfold node_moves_f. rewrite P_GradLimit.stencil_cell by auto. cbn [combine]. unfold touching, gap. intros H.
    simpl in H. decompose [or] H; try contradiction;
    match goal with E : (S_GradLimit.cell d0 d1 ?a ?b k, ?v) = (y, we) |- _ =>
      injection E as <- <-; exists a, b; repeat split; try lia; first [left; split; [reflexivity|lia]|right; split; [reflexivity|lia]] end.
  Qed.
  Lemma moves_lt_grid x y we : 0 < d0 -> 0 < d1 -> weight w -> weight wd -> x < d0 * d1 * d2 -> In (y, we) (moves x) ->
    y < d0 * d1 * d2 /\ weight we.
  Proof.
    intros H0 H1 Hw Hwd Hx Hin. destruct (P_GradLimit.cell_of d0 d1 d2 x H0 H1 Hx) as (i & j & k & Hi & Hj & Hk & ->).
    apply moves_cell in Hin; auto. destruct Hin as (i' & j' & Hi' & Hj' & -> & H). split; [now apply P_GradLimit.cell_lt|].
    destruct H as [[-> _]|[-> _]]; auto.
  Qed.
  Lemma sym_col i j k : i < d0 -> S j < d1 -> sympair d0 d1 w wd (cell i j k) (cell i (S j) k) w.
  Proof.
    intros Hi Hj. unfold sympair, node_moves_f. rewrite !P_GradLimit.stencil_cell by lia. cbn [combine]. split.
    - left. f_equal. f_equal. lia.
    - right. left. f_equal. f_equal. lia.
  Qed.
  Lemma sym_row i j k : S i < d0 -> j < d1 -> sympair d0 d1 w wd (cell i j k) (cell (S i) j k) w.
  Proof.
    intros Hi Hj. unfold sympair, node_moves_f. rewrite !P_GradLimit.stencil_cell by lia. cbn [combine]. split.
    - do 2 right. left. f_equal. f_equal. lia.
    - do 3 right. left. f_equal. f_equal. lia.
  Qed.
  Lemma sym_diag i j k : S i < d0 -> S j < d1 -> sympair d0 d1 w wd (cell i j k) (cell (S i) (S j) k) wd.
  Proof.
    intros Hi Hj. unfold sympair, node_moves_f. rewrite !P_GradLimit.stencil_cell by lia. cbn [combine]. split.
    - do 4 right. left. f_equal. f_equal; lia.
    - do 6 right. left. f_equal. f_equal; lia.
  Qed.
End Grid.

(** * The smallest size *)
Lemma fmin_fold r : forall x, finite_double x -> sizes r -> let m := fold_left (fun m y => if SFltb y m then y else m) r x in
  finite_double m /\ (m = x \/ In m r) /\ (val m <= val x)%R /\ forall y, In y r -> finite_double y -> (val m <= val y)%R.
Proof.
  induction r as [|z r IH]; intros x Fx Hr; cbn [fold_left].
  - split; auto. split; [now left|]. split; [lra|]. intros y [].
  - assert (Hr' : sizes r) by (intros y Hy; apply Hr; now right).
    destruct (Hr z (or_introl eq_refl)) as [[Fz _]| ->].
    + destruct (SFltb z x) eqn:E.
      * apply ltb_val in E; auto. destruct (IH z Fz Hr') as (H0 & H1 & H2 & H3). split; auto. split; [destruct H1 as [->|H1]; right; [left|right]; auto|].
        split; [lra|]. intros y [<-|Hy] Fy; auto.
      * assert (L : (val x <= val z)%R) by (apply Rnot_lt_le; intros G; apply (ltb_val _ _ Fz Fx) in G; congruence).
        destruct (IH x Fx Hr') as (H0 & H1 & H2 & H3). split; auto. split; [destruct H1; [left|right; right]; auto|].
        split; auto. intros y [<-|Hy] Fy; auto. lra.
    + rewrite (proj1 (ltb_nan x)). destruct (IH x Fx Hr') as (H0 & H1 & H2 & H3). split; auto. split; [destruct H1; [left|right; right]; auto|].
      split; auto. intros y [<-|Hy] Fy; auto. destruct Fy; discriminate.
Qed.
Lemma fmin_spec l : sizes l -> nth 0 l S754_nan <> S754_nan -> amount (fmin_list l) /\ smallest_size l (val (fmin_list l)).
Proof.
  destruct l as [|x r]; [intros _ H; now elim H|]. intros Hs Hx. cbn [nth] in Hx.
  destruct (Hs x (or_introl eq_refl)) as [[Fx _]|]; [|contradiction].
  destruct (fmin_fold r x Fx (fun y Hy => Hs y (or_intror Hy))) as (H0 & H1 & H2 & H3). unfold fmin_list. set (m := fold_left _ r x) in *.
  assert (Hm : In m (x :: r)) by (destruct H1 as [->|H1]; [now left|now right]). split.
  - split; auto. destruct (Hs m Hm) as [[_ P]|E]; auto. rewrite E in H0. destruct H0; discriminate.
  - split; [exists m; auto|]. intros y [<-|Hy] Fy; auto.
Qed.
Lemma smallest_unique l m m' : smallest_size l m -> smallest_size l m' -> m = m'.
Proof. intros [(x & Hx & Fx & Ex) H1] [(y & Hy & Fy & Ey) H2]. specialize (H1 y Hy Fy). specialize (H2 x Hx Fx). lra. Qed.
Lemma finite_amount f x : sizes f -> In x f -> finite_double x -> amount x.
Proof. intros Hs Hx F. destruct (Hs x Hx) as [A| ->]; auto. destruct F; discriminate. Qed.
Lemma tol_amount m : amount m -> amount (fmul m sqrt_eps_f) /\ val (fmul m sqrt_eps_f) = tolerance (val m).
Proof.
  intros [F P]. destruct sqrt_eps_double as [Fs Vs]. pose proof sqrt_eps_range as Rg.
  assert (A : amount sqrt_eps_f) by (split; [auto|lra]). destruct (mul_weighs m sqrt_eps_f (conj F P) A) as [P' [[F' V]|[_ L]]].
  - split; [split; [auto|lra]|]. unfold tolerance. rewrite V, Vs. reflexivity.
  - exfalso. assert (rnd (val m * val sqrt_eps_f) <= val m)%R. { rewrite <- (rnd_id (val m)) at 2 by now apply format_val. apply rnd_le. nra. }
    pose proof (fin_lt_huge m F). lra.
Qed.

(** * The function *)
Section Function.
  Variables (elen dfdx : spec_float) (d0 d1 d2 : nat) (ffun : list spec_float).
  Hypothesis Helen : amount elen.
  Hypothesis Hg : amount dfdx.
  Hypothesis Hgrid : double_grid d0 d1 d2 ffun.
  Let n := d0 * d1 * d2.
  Let w := fmul elen dfdx.
  Let wd := fmul (fmul elen sqrt_two_f) dfdx.
  Let ftol := fmul (fmin_list ffun) sqrt_eps_f.
  Let st0 : list spec_float * list Z := (ffun, repeat (-1)%Z n).
  Notation loop := (limit_loop_f d0 d1 w wd ftol).

  Lemma min_amount : amount (fmin_list ffun). Proof. apply fmin_spec; [exact (dg_sizes _ _ _ _ Hgrid)|exact (dg_first _ _ _ _ Hgrid)]. Qed.
  Lemma min_spec : smallest_size ffun (val (fmin_list ffun)). Proof. apply fmin_spec; [exact (dg_sizes _ _ _ _ Hgrid)|exact (dg_first _ _ _ _ Hgrid)]. Qed.
  Lemma ftol_amount : amount ftol. Proof. apply tol_amount, min_amount. Qed.
  Lemma ftol_val m : smallest_size ffun m -> val ftol = tolerance m.
  Proof. intros Hm. rewrite (smallest_unique _ _ _ Hm min_spec). apply tol_amount, min_amount. Qed.
  Lemma s2_amount : amount sqrt_two_f. Proof. split; [apply sqrt_two_double|pose proof sqrt_two_range; lra]. Qed.
  Lemma w_weighs : weighs w (side_growth (val elen) (val dfdx)). Proof. apply mul_weighs; auto. Qed.
  Lemma wd_weighs : (val elen <= bpow radix2 1022)%R -> weighs wd (diagonal_growth (val elen) (val dfdx)).
  Proof.
    intros B. unfold wd, diagonal_growth. destruct sqrt_two_double as [Fs Vs]. rewrite <- Vs.
    destruct (mul_weighs elen sqrt_two_f Helen s2_amount) as [P [[F V]|[_ L]]].
    - rewrite <- V. apply mul_weighs; auto. split; [auto|lra].
    - exfalso. assert (rnd (val elen * val sqrt_two_f) <= bpow radix2 1023)%R.
      { rewrite <- (rnd_id (bpow radix2 1023)) by (apply generic_format_FLT_bpow; [reflexivity|lia]). apply rnd_le.
        replace (bpow radix2 1023) with (bpow radix2 1022 * 2)%R by (change 2%R with (bpow radix2 1); rewrite <- bpow_plus; reflexivity).
        pose proof sqrt_two_range. destruct Helen as [_ Pe]. nra. }
      assert (bpow radix2 1023 < huge)%R by (apply bpow_lt; lia). lra.
  Qed.
  Lemma wd_weight : weight wd.
  Proof.
    destruct (mul_weighs elen sqrt_two_f Helen s2_amount) as [P [[F V]|[E L]]].
    - left. eexists. apply mul_weighs; auto. split; [auto|lra].
    - unfold wd. rewrite E. destruct (inf_mul dfdx Hg) as [->| ->]; [left|now right]. exists huge. pose proof huge_pos. split; [lra|]. right. split; [auto|lra].
  Qed.
  Lemma sized0 : sized n st0.
  Proof. split; [|split]; simpl; [exact (dg_length _ _ _ _ Hgrid)|apply repeat_length|exact (dg_sizes _ _ _ _ Hgrid)]. Qed.
  Lemma mlt x y we : x < n -> In (y, we) (node_moves_f d0 d1 w wd x) -> y < n /\ weight we.
  Proof. destruct Hgrid as [(H0 & H1 & H2) _ _ _]. apply moves_lt_grid; auto; [left; eexists; apply w_weighs|apply wd_weight]. Qed.
  Lemma flag_eq imax : limit_f_flag d0 d1 d2 elen dfdx imax ffun = Ok (loop imax 0 st0).
  Proof.
    destruct Hgrid as [(H0 & H1 & H2) Hlen _ _]. unfold limit_f_flag. rewrite Hlen.
    rewrite (proj2 (Nat.ltb_lt 0 d0) H0), (proj2 (Nat.ltb_lt 0 d1) H1), (proj2 (Nat.ltb_lt 0 d2) H2), Nat.eqb_refl. reflexivity.
  Qed.
  Lemma limit_eq imax : limit_f d0 d1 d2 elen dfdx imax ffun = Ok (fst (loop imax 0 st0)).
  Proof. unfold limit_f. rewrite flag_eq. reflexivity. Qed.

  Lemma limit_range imax : exists f, limit_f d0 d1 d2 elen dfdx imax ffun = Ok f /\ length f = length ffun /\
    forall i, i < length ffun ->
      (at_cell ffun i = S754_nan -> at_cell f i = S754_nan) /\
      (at_cell ffun i <> S754_nan -> amount (at_cell f i) /\ (val (at_cell f i) <= val (at_cell ffun i))%R /\
        forall m, smallest_size ffun m -> (m <= val (at_cell f i))%R).
  Proof.
    rewrite limit_eq. eexists. split; [reflexivity|].
    destruct (loop_inv d0 d1 w wd ftol n mlt ftol_amount (fun f => forall i, i < n ->
      (ffun.[i] = S754_nan -> f.[i] = S754_nan) /\ (ffun.[i] <> S754_nan -> amount f.[i] /\ (val f.[i] <= val ffun.[i])%R /\ (val (fmin_list ffun) <= val f.[i])%R)))
      with (k := imax) (iter := 0%Z) (s := st0) as (G1 & G2 & _).
    - intros iter z o we s s' Hs HP HL i Hi. destruct (lowered_spec _ _ _ _ _ _ mlt ftol_amount _ _ _ _ _ _ Hs HL) as (W & HW & Ao & Az & Av & Ev & _ & Lv).
      destruct Hs as (L1 & L2 & _), HL as (Hz & Ho & _ & _ & ->). cbn [fst].
      destruct (Nat.eq_dec z i) as [->|Hne]; [rewrite upd_nth_same by lia|rewrite upd_nth_other by auto; auto].
      destruct (HP i Hi) as [N1 N2]. split.
      + intros E. rewrite (N1 E) in Az. destruct Az as [[]]; discriminate.
      + intros E. destruct (N2 E) as (A1 & A2 & A3). split; auto. split; [lra|].
        assert (Eo : ffun.[o] <> S754_nan). { intros E'. rewrite (proj1 (HP o Ho) E') in Ao. destruct Ao as [[]]; discriminate. }
        destruct (proj2 (HP o Ho) Eo) as (B1 & B2 & B3). rewrite Ev. apply Rle_trans with (1 := B3). apply rnd_ge; [apply format_val, B1|]. destruct HW. lra.
    - apply sized0.
    - intros i Hi. cbn [fst st0]. split; auto. intros E. pose proof (sizes_at ffun i (dg_sizes _ _ _ _ Hgrid)) as [A|A]; [|contradiction].
      split; auto. split; [lra|]. apply min_spec; [|apply A]. apply nth_In. rewrite (dg_length _ _ _ _ Hgrid). exact Hi.
    - split; [rewrite G2; now rewrite (dg_length _ _ _ _ Hgrid)|]. intros i Hi. rewrite (dg_length _ _ _ _ Hgrid) in Hi. destruct (G1 i Hi) as [N1 N2].
      split; auto. intros E. destruct (N2 E) as (A1 & A2 & A3). split; auto. split; auto. intros m Hm. rewrite (smallest_unique _ _ _ Hm min_spec). exact A3.
  Qed.

  Lemma limit_converged imax f m : limit_f_flag d0 d1 d2 elen dfdx imax ffun = Ok (f, true) -> smallest_size ffun m ->
    forall i j k, i < d0 -> j < d1 -> k < d2 ->
    let ok a b W := finite_double (at_cell f a) -> finite_double (at_cell f b) ->
      (val (at_cell f a) <= reach (val (at_cell f b)) W (tolerance m))%R /\ (val (at_cell f b) <= reach (val (at_cell f a)) W (tolerance m))%R in
    (S j < d1 -> ok (cell d0 d1 i j k) (cell d0 d1 i (S j) k) (side_growth (val elen) (val dfdx))) /\
    (S i < d0 -> ok (cell d0 d1 i j k) (cell d0 d1 (S i) j k) (side_growth (val elen) (val dfdx))) /\
    (S i < d0 -> S j < d1 -> (val elen <= bpow radix2 1022)%R -> ok (cell d0 d1 i j k) (cell d0 d1 (S i) (S j) k) (diagonal_growth (val elen) (val dfdx))).
  Proof.
    rewrite flag_eq. intros E Hm i j k Hi Hj Hk ok. injection E as E.
    assert (C : snd (loop imax 0 st0) = true) by (rewrite E; reflexivity).
    pose proof (loop_converged d0 d1 w wd ftol n mlt ftol_amount imax 0 st0 sized0) as H. rewrite E in H. cbn [fst snd] in H. specialize (fun I => H I eq_refl).
    assert (I : forall x y we W, x < n -> y < n -> sympair d0 d1 w wd x y we -> weighs we W -> settled ftol (0 - 1) st0 x y W).
    { intros x y we W Hx Hy _ _. right. left. cbn [snd st0]. apply (repeat_spec n). apply nth_In. rewrite repeat_length. exact Hx. }
    specialize (H I). unfold okpair in H. rewrite (ftol_val m Hm) in H.
    split; [|split].
    - intros L. unfold ok, at_cell. intros F1 F2. apply (H _ _ w); [apply P_GradLimit.cell_lt; lia|apply P_GradLimit.cell_lt; lia|apply sym_col; lia|apply w_weighs|exact F1|exact F2].
    - intros L. unfold ok, at_cell. intros F1 F2. apply (H _ _ w); [apply P_GradLimit.cell_lt; lia|apply P_GradLimit.cell_lt; lia|apply sym_row; lia|apply w_weighs|exact F1|exact F2].
    - intros L1 L2 B. unfold ok, at_cell. intros F1 F2. apply (H _ _ wd); [apply P_GradLimit.cell_lt; lia|apply P_GradLimit.cell_lt; lia|apply sym_diag; lia|now apply wd_weighs|exact F1|exact F2].
  Qed.

  Lemma limit_terminates : exists N f, forall imax, N <= imax -> limit_f_flag d0 d1 d2 elen dfdx imax ffun = Ok (f, true).
  Proof.
    set (N := Z.to_nat (total ffun)). assert (T : snd (loop (S (S N)) 0 st0) = true).
    { apply (loop_terminates d0 d1 w wd ftol n mlt ftol_amount _ N); [apply sized0|lia| |].
      - intros i Hi. cbn [snd st0]. enough (nth i (repeat (-1)%Z n) 0%Z = (-1)%Z) by lia. apply (repeat_spec n). apply nth_In. now rewrite repeat_length.
      - cbn [fst st0]. unfold N. pose proof (total_nn ffun (dg_sizes _ _ _ _ Hgrid)). lia. }
    exists (S (S N)), (fst (loop (S (S N)) 0 st0)). intros imax H. rewrite flag_eq. replace imax with (S (S N) + (imax - S (S N))) by lia.
    rewrite loop_stable by exact T. destruct (loop (S (S N)) 0 st0) as [g b]. cbn in T |- *. now subst b.
  Qed.

  Lemma lowered_cells iter z o we s s' : lowered d0 d1 w wd ftol n iter z o we s s' ->
    exists i j i' j' k, i < d0 /\ j < d1 /\ i' < d0 /\ j' < d1 /\ k < d2 /\ z = cell d0 d1 i j k /\ o = cell d0 d1 i' j' k /\
      ((we = w /\ side_neighbours i j i' j') \/ (we = wd /\ touching i j i' j') \/ z = o).
  Proof.
    destruct Hgrid as [(H0 & H1 & H2) _ _ _]. intros (Hz & Ho & Hin & _).
    destruct Hin as [Hin|Hin].
    - destruct (P_GradLimit.cell_of d0 d1 d2 z H0 H1 Hz) as (i & j & k & Hi & Hj & Hk & ->). apply moves_cell in Hin; auto.
      destruct Hin as (i' & j' & Hi' & Hj' & -> & H). exists i, j, i', j', k. repeat split; auto.
      destruct H as [[-> G]|[-> G]]; [|right; left; auto]. destruct (Nat.eq_dec (gap i i' + gap j j') 1) as [Q|Q]; [left; split; auto|].
      right. right. unfold gap in *. f_equal; lia.
    - destruct (P_GradLimit.cell_of d0 d1 d2 o H0 H1 Ho) as (i & j & k & Hi & Hj & Hk & ->). apply moves_cell in Hin; auto.
      destruct Hin as (i' & j' & Hi' & Hj' & -> & H). exists i', j', i, j, k. repeat split; auto.
      destruct H as [[-> G]|[-> [G1 G2]]]; [|right; left; split; auto; unfold touching, gap in *; split; lia].
      destruct (Nat.eq_dec (gap i i' + gap j j') 1) as [Q|Q]; [left; split; auto; unfold side_neighbours, gap in *; lia|].
      right. right. unfold gap in *. f_equal; lia.
  Qed.
  Lemma not_self iter z we s s' : sized n s -> lowered d0 d1 w wd ftol n iter z z we s s' -> False.
  Proof.
    intros Hs HL. destruct (lowered_spec _ _ _ _ _ _ mlt ftol_amount _ _ _ _ _ _ Hs HL) as (W & HW & Ao & _ & _ & _ & L & _).
    pose proof (reach_ge (val (fst s).[z]) W (val ftol) (proj1 HW) (proj2 ftol_amount) (format_val _ (proj1 Ao))). lra.
  Qed.
  Lemma limit_maximal imax f h : limit_f d0 d1 d2 elen dfdx imax ffun = Ok f -> (val elen <= bpow radix2 1022)%R ->
    (forall i, i < length ffun -> at_cell ffun i <> S754_nan -> (val (at_cell h i) <= val (at_cell ffun i))%R) ->
    limited_f d0 d1 d2 h (side_growth (val elen) (val dfdx)) (diagonal_growth (val elen) (val dfdx)) ->
    forall i, i < length ffun -> at_cell ffun i <> S754_nan -> (val (at_cell h i) <= val (at_cell f i))%R.
  Proof.
    rewrite limit_eq. intros E B Hle Hlim. injection E as <-. rewrite (dg_length _ _ _ _ Hgrid) in *. unfold at_cell in *.
    destruct (loop_inv d0 d1 w wd ftol n mlt ftol_amount (fun f => forall i, i < n -> finite_double f.[i] -> ffun.[i] <> S754_nan /\ (val h.[i] <= val f.[i])%R)) with (k := imax) (iter := 0%Z) (s := st0) as (G1 & G2 & G3).
    - intros iter z o we s s' Hs HP HL i Hi. destruct (lowered_spec _ _ _ _ _ _ mlt ftol_amount _ _ _ _ _ _ Hs HL) as (W & HW & Ao & Az & Av & Ev & _ & Lv).
      pose proof HL as HL'. pose proof Hs as (L1 & L2 & _). destruct HL as (Hz & Ho & _ & _ & ->). cbn [fst].
      destruct (Nat.eq_dec z i) as [->|Hne]; [rewrite upd_nth_same by lia|rewrite upd_nth_other by auto; auto].
      intros _. destruct (HP i Hi (proj1 Az)) as [N _]. split; auto. destruct (HP o Ho (proj1 Ao)) as [_ B2].
      destruct (lowered_cells _ _ _ _ _ _ HL') as (ci & cj & ci' & cj' & ck & Hci & Hcj & Hci' & Hcj' & Hck & Ez & Eo & Hc).
      destruct (Hlim ci cj ck ci' cj' Hci Hcj Hck Hci' Hcj') as [S1 S2]. unfold at_cell in S1, S2. rewrite <- Ez, <- Eo in S1, S2.
      rewrite Ev. destruct Hc as [[-> Hc]|[[-> Hc]|Hc]].
      + eapply Rle_trans; [apply S1, Hc|]. apply rnd_le. apply Rplus_le_compat; auto.
        destruct w_weighs as [Pw [[Fw Vw]|[Iw Lw]]], HW as [PW [[FW VW]|[IW LW]]]; try (rewrite Iw in FW; destruct FW; discriminate); try (rewrite IW in Fw; destruct Fw; discriminate); [rewrite <- VW, <- Vw; lra|].
        exfalso. rewrite IW in Av. rewrite (proj1 (inf_add _ (proj1 Ao))) in Av. destruct Av as [[]]; discriminate.
      + eapply Rle_trans; [apply S2, Hc|]. apply rnd_le. apply Rplus_le_compat; auto.
        destruct (wd_weighs B) as [Pw [[Fw Vw]|[Iw Lw]]], HW as [PW [[FW VW]|[IW LW]]]; try (rewrite Iw in FW; destruct FW; discriminate); try (rewrite IW in Fw; destruct Fw; discriminate); [rewrite <- VW, <- Vw; lra|].
        exfalso. rewrite IW in Av. rewrite (proj1 (inf_add _ (proj1 Ao))) in Av. destruct Av as [[]]; discriminate.
      + exfalso. rewrite Hc in HL'. exact (not_self _ _ _ _ _ Hs HL').
    - apply sized0.
    - intros i Hi F. cbn [fst st0] in *. assert (ffun.[i] <> S754_nan) by (intros Q; rewrite Q in F; destruct F; discriminate). split; auto.
    - intros i Hi Hn. apply G1; auto. destruct (limit_range imax) as (f' & Ef & _ & R). rewrite limit_eq in Ef. injection Ef as <-.
      rewrite (dg_length _ _ _ _ Hgrid) in R. apply (R i Hi). exact Hn.
  Qed.
  Lemma limit_unchanged imax m : smallest_size ffun m -> (val elen <= bpow radix2 1022)%R ->
    (forall i j k i' j', i < d0 -> j < d1 -> k < d2 -> i' < d0 -> j' < d1 ->
      let a := at_cell ffun (cell d0 d1 i j k) in let b := at_cell ffun (cell d0 d1 i' j' k) in a <> S754_nan -> b <> S754_nan ->
      (side_neighbours i j i' j' -> (val a <= reach (val b) (side_growth (val elen) (val dfdx)) (tolerance m))%R) /\
      (touching i j i' j' -> (val a <= reach (val b) (diagonal_growth (val elen) (val dfdx)) (tolerance m))%R)) ->
    limit_f d0 d1 d2 elen dfdx imax ffun = Ok ffun.
  Proof.
    intros Hm B H. rewrite limit_eq. f_equal. apply (loop_fixed d0 d1 w wd ftol n mlt ftol_amount imax 0 st0 sized0). cbn [fst st0].
    intros z o we Hz Ho Hin. destruct (SFltb (fadd (fadd ffun.[o] we) ftol) ffun.[z]) eqn:E; auto. exfalso.
    assert (HL : lowered d0 d1 w wd ftol n 0 z o we st0 (upd ffun z (fadd ffun.[o] we), upd (snd st0) z 0%Z)) by (unfold lowered; cbn [fst st0]; auto 8).
    destruct (lowered_spec _ _ _ _ _ _ mlt ftol_amount _ _ _ _ _ _ sized0 HL) as (W & HW & Ao & Az & Av & Ev & Lr & Lv). cbn [fst st0] in *.
    assert (NN : forall x, amount x -> x <> S754_nan) by (intros x [[_ Q] _] ->; discriminate).
    destruct (lowered_cells _ _ _ _ _ _ HL) as (ci & cj & ci' & cj' & ck & Hci & Hcj & Hci' & Hcj' & Hck & Ez & Eo & Hc).
    destruct (H ci cj ck ci' cj' Hci Hcj Hck Hci' Hcj') as [S1 S2]; unfold at_cell in *; rewrite <- ?Ez, <- ?Eo in *; auto.
    rewrite <- (ftol_val m Hm) in S1, S2. pose proof (fin_lt_huge _ (proj1 Az)) as Bz.
    assert (SW : forall V, weighs we V -> (val ffun.[z] <= reach (val ffun.[o]) V (val ftol))%R -> False).
    { intros V HV L. destruct HW as [_ [[F1 <-]|[I1 L1]]], HV as [_ [[F2 <-]|[I2 L2]]]; try lra.
      - rewrite I2 in F1. destruct F1; discriminate.
      - rewrite I1 in F2. destruct F2; discriminate.
      - rewrite I1 in Av. rewrite (proj1 (inf_add _ (proj1 Ao))) in Av. destruct Av as [[]]; discriminate. }
    destruct Hc as [[-> Hc]|[[-> Hc]|Hc]].
    - exact (SW _ w_weighs (S1 Hc)).
    - exact (SW _ (wd_weighs B) (S2 Hc)).
    - subst z. rewrite Hc in HL. exact (not_self _ _ _ _ _ sized0 HL).
  Qed.
End Function.

(** * A nan in the first cell *)
Lemma relax_nan iter x y we s : relax_f S754_nan iter x y we s = s.
Proof.
  destruct s as [f a]. unfold relax_f. rewrite !(proj1 (nan_add _)), !(proj1 (ltb_nan _)). destruct (SFltb _ _); reflexivity.
Qed.
Lemma node_nan d0 d1 w wd iter x s : relax_node_f d0 d1 w wd S754_nan iter x s = s.
Proof. unfold relax_node_f. induction (node_moves_f d0 d1 w wd x) as [|m l IH]; [reflexivity|]. cbn [fold_left]. rewrite relax_nan. exact IH. Qed.
Lemma sweep_nan d0 d1 w wd iter l s : sweep_f d0 d1 w wd S754_nan iter l s = s.
Proof. unfold sweep_f. induction l as [|x l IH]; [reflexivity|]. cbn [fold_left]. rewrite node_nan. exact IH. Qed.
Lemma loop_nan d0 d1 w wd k : forall iter s, fst (limit_loop_f d0 d1 w wd S754_nan k iter s) = fst s.
Proof.
  induction k as [|k IH]; intros iter s; [reflexivity|]. cbn [limit_loop_f]. destruct (find_indices (snd s) (iter - 1)); [reflexivity|].
  rewrite IH, sweep_nan. reflexivity.
Qed.
Lemma min_nan r : fold_left (fun m y => if SFltb y m then y else m) r S754_nan = S754_nan.
Proof. induction r as [|x r IH]; [reflexivity|]. cbn [fold_left]. rewrite (proj2 (ltb_nan x)). exact IH. Qed.
Lemma first_nan d0 d1 d2 elen dfdx imax ffun : 0 < d0 -> 0 < d1 -> 0 < d2 -> length ffun = d0 * d1 * d2 -> nth 0 ffun S754_nan = S754_nan ->
  limit_f d0 d1 d2 elen dfdx imax ffun = Ok ffun.
Proof.
  intros H0 H1 H2 HL HN. unfold limit_f, limit_f_flag. rewrite HL.
  rewrite (proj2 (Nat.ltb_lt 0 d0) H0), (proj2 (Nat.ltb_lt 0 d1) H1), (proj2 (Nat.ltb_lt 0 d2) H2), Nat.eqb_refl. cbn [andb].
  assert (E : fmul (fmin_list ffun) sqrt_eps_f = S754_nan).
  { destruct ffun as [|x r]; [reflexivity|]. cbn [nth] in HN. subst x. unfold fmin_list. rewrite min_nan. reflexivity. }
  rewrite E. cbn [bind]. rewrite loop_nan. reflexivity.
Qed.

(** * Relative error *)
Open Scope R_scope.
Lemma rnd_above x : 0 <= x -> rnd x <= x * (1 + uro) + bpow radix2 (-1075).
Proof.
  intros P. destruct (error_N_FLT radix2 (-1074) 53 eq_refl (fun x => negb (Z.even x)) x) as (eps & eta & H1 & H2 & _ & H3).
  unfold rnd. rewrite H3. apply Rabs_le_inv in H1, H2. assert (U : (/ 2 * bpow radix2 (Z.opp 53 + 1))%R = uro) by (unfold uro; cbn; lra). rewrite U in H1.
  assert (E : / 2 * bpow radix2 (-1074) = bpow radix2 (-1075)) by (replace (/ 2) with (bpow radix2 (-1)) by reflexivity; rewrite <- bpow_plus; reflexivity).
  rewrite E in H2. nra.
Qed.
Lemma sqrt_eps_small : val sqrt_eps_f <= / 31622.
Proof. rewrite sqrt_eps_lit. unfold val, SF2R, F2R. cbn. lra. Qed.
Lemma reach_above g e d m : 0 <= g -> 0 <= e -> 0 <= d -> 0 <= m ->
  reach g (side_growth e d) (tolerance m) <= (g + e * d + m / 31622) * (1 + 4 * uro) + bpow radix2 (-1072).
Proof.
  intros Hg He Hd Hm. unfold reach, side_growth, tolerance. destruct sqrt_eps_double as [_ <-]. pose proof sqrt_eps_small as Hs. pose proof sqrt_eps_range as [Hp _].
  set (s := val sqrt_eps_f) in *. set (h := bpow radix2 (-1075)). assert (Hh : 0 < h) by apply bpow_gt_0.
  assert (E8 : bpow radix2 (-1072) = 8 * h) by (unfold h; replace 8 with (bpow radix2 3) by (cbn; lra); rewrite <- bpow_plus; reflexivity). rewrite E8.
  assert (Pw : 0 <= e * d) by nra. assert (Pm : 0 <= m * s) by nra. assert (Ms : m * s <= m / 31622) by (unfold Rdiv; nra).
  assert (U : 0 < uro < / 1000) by (unfold uro; lra).
  pose proof (rnd_above _ Pw) as A. pose proof (rnd_above _ Pm) as B. pose proof (rnd_sign_pos _ Pw) as A0. pose proof (rnd_sign_pos _ Pm) as B0.
  set (w := rnd (e * d)) in *. set (t := rnd (m * s)) in *. fold h in A, B.
  assert (Pc : 0 <= g + w) by lra. pose proof (rnd_above _ Pc) as C. pose proof (rnd_sign_pos _ Pc) as C0. set (c := rnd (g + w)) in *. fold h in C.
  assert (Pd : 0 <= c + t) by lra. pose proof (rnd_above _ Pd) as D. fold h in D.
  set (y := uro) in *.
  assert (C' : c <= (g + (e * d * (1 + y) + h)) * (1 + y) + h) by nra.
  assert (D' : rnd (c + t) <= (((g + (e * d * (1 + y) + h)) * (1 + y) + h) + (m / 31622 * (1 + y) + h)) * (1 + y) + h) by nra.
  assert (Q1 : (1 + y) * (1 + y) <= 1 + 3 * y) by nra. assert (Q2 : (1 + y) * (1 + y) * (1 + y) <= 1 + 4 * y) by nra.
  assert (Mp : 0 <= m / 31622) by lra.
  assert (K1 : g * ((1 + y) * (1 + y)) <= g * (1 + 4 * y)) by nra.
  assert (K2 : e * d * ((1 + y) * (1 + y) * (1 + y)) <= e * d * (1 + 4 * y)) by nra.
  assert (K3 : m / 31622 * ((1 + y) * (1 + y)) <= m / 31622 * (1 + 4 * y)) by nra.
  assert (K4 : h * ((1 + y) * (1 + y)) <= 2 * h) by nra. assert (K5 : h * (1 + y) <= 2 * h) by nra.
  lra.
Qed.

Lemma off_refuted : exists d0 d1 d2 elen dfdx ffun m i j,
  amount elen /\ amount dfdx /\ (0 < d0 /\ 0 < d1 /\ 0 < d2)%nat /\ length ffun = (d0 * d1 * d2)%nat /\ (forall x, In x ffun -> size_or_nan x) /\ smallest_size ffun m /\
  (S i < d0)%nat /\ (j < d1)%nat /\ finite_double (at_cell ffun (cell d0 d1 i j 0)) /\ finite_double (at_cell ffun (cell d0 d1 (S i) j 0)) /\
  reach (val (at_cell ffun (cell d0 d1 i j 0))) (side_growth (val elen) (val dfdx)) (tolerance m) < val (at_cell ffun (cell d0 d1 (S i) j 0)) /\
  forall imax, (2 <= imax)%nat -> limit_f_flag d0 d1 d2 elen dfdx imax ffun = Ok (ffun, true).
Proof.
  set (d10 := S754_finite false 5629499534213120 (-49)). set (d40 := S754_finite false 5629499534213120 (-47)).
  set (d100 := S754_finite false 7036874417766400 (-46)). set (d015 := S754_finite false 5404319552844595 (-55)).
  assert (F : forall m e, valid_binary 53 1024 (S754_finite false m e) = true -> amount (S754_finite false m e)).
  { intros m e H. split; [split; [exact H|reflexivity]|]. unfold val, SF2R. cbn. apply F2R_ge_0. cbn. lia. }
  assert (A10 : amount d10) by (apply F; reflexivity). assert (A40 : amount d40) by (apply F; reflexivity).
  assert (V10 : val d10 = 10) by (unfold val, d10, SF2R, F2R; cbn; lra). assert (V40 : val d40 = 40) by (unfold val, d40, SF2R, F2R; cbn; lra).
  exists 2%nat, 2%nat, 1%nat, d100, d015, [S754_nan; d40; d10; d40], 10, 0%nat, 1%nat.
  split; [apply F; reflexivity|]. split; [apply F; reflexivity|]. split; [lia|]. split; [reflexivity|]. split.
  { intros x Hx. cbn in Hx. decompose [or] Hx; subst; try contradiction; try (left; assumption). now right. }
  split.
  { split; [exists d10; split; [cbn; auto|split; [apply A10|auto]]|]. intros x Hx Fx. cbn in Hx. decompose [or] Hx; subst; try contradiction; try lra. destruct Fx; discriminate. }
  split; [lia|]. split; [lia|]. cbn [at_cell cell nth Nat.mul Nat.add]. split; [apply A10|]. split; [apply A40|]. split.
  - unfold at_cell. cbn [nth cell Nat.mul Nat.add]. rewrite V10, V40. eapply Rle_lt_trans.
    + apply reach_above; try lra; apply F; reflexivity.
    + assert (V100 : val d100 = 100) by (unfold val, d100, SF2R, F2R; cbn; lra). assert (V015 : val d015 <= 2 / 10) by (unfold val, d015, SF2R, F2R; cbn; lra).
      assert (bpow radix2 (-1072) <= 1) by (apply (bpow_le radix2 (-1072) 0); lia). rewrite V100. unfold uro. lra.
  - intros imax H. destruct imax as [|[|k]]; try lia. vm_compute. reflexivity.
Qed.
