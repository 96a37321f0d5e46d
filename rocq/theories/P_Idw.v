(** Proofs about inverse-distance weighting. *)
From Coq Require Import List Arith Bool Reals Lra Lia.
From Verif Require Import M_Base M_Idw S_Idw.
Import ListNotations.
Open Scope R_scope.

Lemma get_nth {A} (l : list A) i x : nth_error l i = Some x -> get l i = Ok x.
Proof. intros H. unfold get. now rewrite H. Qed.
Lemma get_out {A} (l : list A) i : (length l <= i)%nat -> get l i = Raise IndexError.
Proof. intros H. unfold get. now rewrite (proj2 (nth_error_None l i) H). Qed.
Lemma nth_error_nth' {A} (l : list A) i d : (i < length l)%nat -> nth_error l i = Some (nth i l d).
Proof. revert i. induction l; intros [|i] H; simpl in *; try lia; auto. apply IHl. lia. Qed.

Lemma total_pos f l : (forall i, In i l -> 0 < f i) -> l <> [] -> 0 < total f l.
Proof.
  induction l as [|a l IH]; intros H Hn; [congruence|]. simpl. assert (0 < f a) by (apply H; now left).
  destruct l as [|b l]; [simpl; lra|]. assert (0 < total f (b :: l)); [|lra]. apply IH; [|discriminate]. intros; apply H; now right.
Qed.
Lemma total_le f g l : (forall i, In i l -> f i <= g i) -> total f l <= total g l.
Proof. induction l as [|a l IH]; simpl; intros H; [lra|]. assert (f a <= g a) by auto. assert (total f l <= total g l) by auto. lra. Qed.
Lemma total_scale c f l : total (fun i => c * f i) l = c * total f l.
Proof. induction l as [|a l IH]; simpl; [ring|]. rewrite IH. ring. Qed.
Lemma total_ext f g l : (forall i, In i l -> f i = g i) -> total f l = total g l.
Proof. induction l as [|a l IH]; simpl; intros H; auto. rewrite H, IH; auto. Qed.
Lemma sum_map {A} (f : A -> R) g l h : (forall a : nat, In a l -> f (h a) = g a) -> sum (map f (map h l)) = total g l.
Proof. induction l as [|a l IH]; simpl; intros H; auto. rewrite H, IH; auto. Qed.
Lemma dot_map s (f z : nat -> R) l : dot (map (fun x => x / s) (map f l)) (map z l) = total (fun i => f i / s * z i) l.
Proof. induction l as [|a l IH]; simpl; auto. now rewrite IH. Qed.
Lemma mapM_get z l : (forall i, In i l -> (i < length z)%nat) -> mapM (fun i => get z i) l = Ok (map (fun i => nth i z 0) l).
Proof.
  induction l as [|a l IH]; simpl; intros H; auto. rewrite (get_nth z a (nth a z 0)) by (apply nth_error_nth'; auto).
  cbn [bind]. rewrite IH by auto. reflexivity.
Qed.
Lemma mapM_map' {A B C} (f : B -> res C) (g : A -> B) l : mapM f (map g l) = mapM (fun a => f (g a)) l.
Proof. induction l as [|a l IH]; simpl; auto. now rewrite IH. Qed.
Lemma mapM_app_raise {A B} (f : A -> res B) l1 x l2 e : (forall a, In a l1 -> exists b, f a = Ok b) -> f x = Raise e -> mapM f (l1 ++ x :: l2) = Raise e.
Proof.
  induction l1 as [|a l1 IH]; simpl; intros H Hx; [now rewrite Hx|]. destruct (H a) as [b ->]; [now left|]. cbn [bind].
  rewrite IH; auto.
Qed.

Lemma idw_unfold z k p row r i0 tl : row = (Some r, i0) :: tl ->
  idw_one z k p row = if (k =? 1)%nat then get z i0 else if Rlt_dec r eps_same then get z i0
    else bind (mapM (fun a => get z (snd a)) row) (fun zs => Ok (dot (map (fun x => x / sum (map (fun a => weight p (fst a)) row)) (map (fun a => weight p (fst a)) row)) zs)).
Proof. intros ->. unfold idw_one. destruct (k =? 1)%nat; auto. destruct (Rlt_dec r eps_same); reflexivity. Qed.

Section Idw.
  Context {P : Type}.
  Variable dist : P -> P -> R.
  Variable X : list P.
  Variable z : list R.
  Hypothesis Hlen : length X = length z.

  Notation D := (distance_to dist X).

  Lemma D_some q i x : nth_error X i = Some x -> D q i = dist q x.
  Proof. unfold distance_to. now intros ->. Qed.
  Lemma in_some i : (i < length X)%nat -> exists x, nth_error X i = Some x.
  Proof. intros H. destruct (nth_error X i) eqn:E; [eauto|]. apply nth_error_None in E. lia. Qed.

  Lemma first_nearest q k row : nearest_answer dist X k q row -> (1 <= k)%nat -> X <> [] ->
    exists near i0 rest, near = i0 :: rest /\ length near = Nat.min k (length X) /\ NoDup near /\
      (forall i, In i near -> (i < length X)%nat) /\
      row = map (fun i => (Some (D q i), i)) near ++ repeat (None, length X) (k - length near) /\
      (forall j, (j < length X)%nat -> D q i0 <= D q j) /\
      (forall i j, In i near -> ~ In j near -> (j < length X)%nat -> D q i <= D q j).
  Proof.
    intros (near & Er & Hl & Hnd & Hin & Hsort & Hout) Hk HX.
    destruct near as [|i0 rest]. { destruct X; [congruence|]. simpl in Hl. lia. }
    exists (i0 :: rest), i0, rest. split; [reflexivity|]. split; [assumption|]. split; [assumption|]. split; [assumption|].
    split.
    - rewrite Er. f_equal. apply map_ext_in. intros i Hi. destruct (in_some i (Hin i Hi)) as [x Hx]. unfold distance_to. now rewrite Hx.
    - assert (Hi0 : (i0 < length X)%nat) by (apply Hin; now left). destruct (in_some i0 Hi0) as [x0 Hx0]. split.
      + intros j Hj. destruct (in_some j Hj) as [y Hy]. rewrite (D_some q i0 x0 Hx0), (D_some q j y Hy).
        destruct (in_dec Nat.eq_dec j (i0 :: rest)) as [Hjin|Hjin].
        * apply In_nth_error in Hjin. destruct Hjin as [b Hb]. eapply (Hsort 0%nat b i0 j); eauto. lia.
        * eapply Hout; eauto. now left.
      + intros i j Hi Hj Hjl. destruct (in_some i (Hin i Hi)) as [x Hx]. destruct (in_some j Hjl) as [y Hy].
        rewrite (D_some q i x Hx), (D_some q j y Hy). eapply Hout; eauto.
  Qed.

  Lemma eps_pos : 0 < eps_same.
  Proof. unfold eps_same. apply Rinv_0_lt_compat. apply pow_lt. lra. Qed.

  (** The value for one query point. *)
  Lemma idw_value q k p row : nearest_answer dist X k q row -> (1 <= k <= length X)%nat ->
    exists v, idw_one z k p row = Ok v /\
      ((exists i, (i < length X)%nat /\ (forall j, (j < length X)%nat -> D q i <= D q j) /\ v = nth i z 0 /\ (k = 1%nat \/ D q i < eps_same)) \/
       (exists near, length near = k /\ NoDup near /\ (forall i, In i near -> (i < length X)%nat) /\
          (forall i j, In i near -> ~ In j near -> (j < length X)%nat -> D q i <= D q j) /\
          (k <> 1)%nat /\ (forall j, (j < length X)%nat -> eps_same <= D q j) /\
          v = total (fun i => nth i z 0 / D q i ^ p) near / total (fun i => 1 / D q i ^ p) near)).
  Proof.
    intros Ha Hk. destruct (first_nearest q k row Ha) as (near & i0 & rest & E & Hl & Hnd & Hin & Er & Hfirst & Hout); [lia|destruct X; simpl in *; [lia|congruence]|].
    assert (Hln : length near = k) by lia. rewrite Hln, Nat.sub_diag in Er. simpl in Er. rewrite app_nil_r in Er.
    assert (Hi0 : (i0 < length X)%nat) by (apply Hin; rewrite E; now left).
    assert (Hg0 : get z i0 = Ok (nth i0 z 0)) by (apply get_nth, nth_error_nth'; lia).
    rewrite (idw_unfold z k p row (D q i0) i0 (map (fun i => (Some (D q i), i)) rest)) by (rewrite Er, E; reflexivity).
    rewrite Er. destruct (Nat.eqb_spec k 1) as [E1|E1].
    - exists (nth i0 z 0). split; auto. left. exists i0. auto.
    - destruct (Rlt_dec (D q i0) eps_same) as [Hlt|Hge].
      + exists (nth i0 z 0). split; auto. left. exists i0. auto.
      + rewrite mapM_map'. cbn [snd]. rewrite mapM_get by (intros i Hi; rewrite <- Hlen; auto). cbn [bind].
        eexists. split; [reflexivity|]. right. exists near. split; [assumption|]. split; [assumption|]. split; [assumption|]. split; [assumption|].
        split; [assumption|]. assert (Hge' : forall j, (j < length X)%nat -> eps_same <= D q j).
        { intros j Hj. specialize (Hfirst j Hj). lra. }
        split; [assumption|]. rewrite (sum_map _ (fun i => 1 / D q i ^ p)) by reflexivity.
        rewrite (map_map (fun i : nat => (Some (D q i), i)) (fun a => weight p (fst a))). cbn [fst weight].
        rewrite (dot_map _ (fun i => 1 / D q i ^ p) (fun i => nth i z 0)).
        set (S := total (fun i => 1 / D q i ^ p) near).
        assert (HS : 0 < S).
        { apply total_pos; [|rewrite E; discriminate]. intros i Hi. pose proof eps_pos. specialize (Hge' i (Hin i Hi)).
          apply Rdiv_lt_0_compat; [lra|]. apply pow_lt. lra. }
        rewrite (total_ext _ (fun i => / S * (nth i z 0 / D q i ^ p))).
        * rewrite total_scale. field. lra.
        * intros i Hi. pose proof eps_pos. specialize (Hge' i (Hin i Hi)). assert (D q i ^ p <> 0) by (apply pow_nonzero; lra). field. split; [assumption|lra].
  Qed.

  Lemma weighted_range (w y : nat -> R) near lo hi : near <> [] -> (forall i, In i near -> 0 < w i) -> (forall i, In i near -> lo <= y i <= hi) ->
    lo <= total (fun i => y i * w i) near / total w near <= hi.
  Proof.
    intros Hne Hw Hy. assert (HS : 0 < total w near) by now apply total_pos.
    assert (H1 : total (fun i => lo * w i) near <= total (fun i => y i * w i) near).
    { apply total_le. intros i Hi. specialize (Hw i Hi). specialize (Hy i Hi). apply Rmult_le_compat_r; lra. }
    assert (H2 : total (fun i => y i * w i) near <= total (fun i => hi * w i) near).
    { apply total_le. intros i Hi. specialize (Hw i Hi). specialize (Hy i Hi). apply Rmult_le_compat_r; lra. }
    rewrite total_scale in *. split.
    - apply Rmult_le_reg_r with (total w near); [assumption|]. unfold Rdiv. rewrite Rmult_assoc, Rinv_l by lra. lra.
    - apply Rmult_le_reg_r with (total w near); [assumption|]. unfold Rdiv. rewrite Rmult_assoc, Rinv_l by lra. lra.
  Qed.

  (** Bounds that hold for the k nearest data values hold for the result. *)
  Lemma idw_range q k p row lo hi : nearest_answer dist X k q row -> (1 <= k <= length X)%nat ->
    (forall d i, In (d, i) row -> lo <= nth i z 0 <= hi) -> exists v, idw_one z k p row = Ok v /\ lo <= v <= hi.
  Proof.
    intros Ha Hk Hb. destruct (first_nearest q k row Ha) as (near & i0 & rest & E & Hl & Hnd & Hin & Er & Hfirst & Hout); [lia|destruct X; simpl in *; [lia|congruence]|].
    assert (Hln : length near = k) by lia. rewrite Hln, Nat.sub_diag in Er. simpl in Er. rewrite app_nil_r in Er.
    assert (Hb' : forall i, In i near -> lo <= nth i z 0 <= hi).
    { intros i Hi. apply (Hb (Some (D q i)) i). rewrite Er. apply in_map_iff. now exists i. }
    assert (Hi0 : (i0 < length X)%nat) by (apply Hin; rewrite E; now left).
    assert (Hg0 : get z i0 = Ok (nth i0 z 0)) by (apply get_nth, nth_error_nth'; lia).
    assert (Hb0 : lo <= nth i0 z 0 <= hi) by (apply Hb'; rewrite E; now left).
    rewrite (idw_unfold z k p row (D q i0) i0 (map (fun i => (Some (D q i), i)) rest)) by (rewrite Er, E; reflexivity).
    rewrite Er. destruct (Nat.eqb_spec k 1) as [E1|E1]; [eauto|].
    destruct (Rlt_dec (D q i0) eps_same) as [Hlt|Hge]; [eauto|].
    rewrite mapM_map'. cbn [snd]. rewrite mapM_get by (intros i Hi; rewrite <- Hlen; auto). cbn [bind].
    eexists. split; [reflexivity|].
    rewrite (sum_map _ (fun i => 1 / D q i ^ p)) by reflexivity.
    rewrite (map_map (fun i : nat => (Some (D q i), i)) (fun a => weight p (fst a))). cbn [fst weight].
    rewrite (dot_map _ (fun i => 1 / D q i ^ p) (fun i => nth i z 0)).
    set (w := fun i => 1 / D q i ^ p).
    assert (Hw : forall i, In i near -> 0 < w i).
    { intros i Hi. specialize (Hfirst i (Hin i Hi)). pose proof eps_pos. apply Rdiv_lt_0_compat; [lra|]. apply pow_lt. lra. }
    assert (HS : 0 < total w near) by (apply total_pos; [assumption|rewrite E; discriminate]).
    replace (total (fun i => 1 / D q i ^ p / total w near * nth i z 0) near) with (total (fun i => nth i z 0 * w i) near / total w near).
    - apply weighted_range; auto. rewrite E. discriminate.
    - unfold Rdiv at 1. rewrite Rmult_comm, <- total_scale. apply total_ext. intros i Hi. unfold w, Rdiv. ring.
  Qed.

  (** At a data point the value of a data point at the same place is returned. *)
  Lemma idw_reproduces q k p row i : nearest_answer dist X k q row -> (1 <= k)%nat -> nth_error X i = Some q ->
    (forall x y, 0 <= dist x y) -> (forall x, dist x x = 0) -> (forall x y, dist x y = 0 -> x = y) ->
    exists j, nth_error X j = Some q /\ idw_one z k p row = Ok (nth j z 0).
  Proof.
    intros Ha Hk Hi Hnn Hrefl Hsep. assert (HX : X <> []) by (destruct X; [destruct i; discriminate|congruence]).
    destruct (first_nearest q k row Ha Hk HX) as (near & i0 & rest & E & Hl & Hnd & Hin & Er & Hfirst & Hout).
    assert (Hi0 : (i0 < length X)%nat) by (apply Hin; rewrite E; now left).
    assert (H0 : D q i0 = 0).
    { assert (Hil : (i < length X)%nat) by (apply nth_error_Some; congruence). specialize (Hfirst i Hil). rewrite (D_some q i q Hi), Hrefl in Hfirst.
      destruct (in_some i0 Hi0) as [x0 Hx0]. rewrite (D_some q i0 x0 Hx0) in *. specialize (Hnn q x0). lra. }
    exists i0. split.
    - destruct (in_some i0 Hi0) as [x0 Hx0]. rewrite (D_some q i0 x0 Hx0) in H0. apply Hsep in H0. congruence.
    - assert (Hg0 : get z i0 = Ok (nth i0 z 0)) by (apply get_nth, nth_error_nth'; lia).
      unfold idw_one. rewrite Er, E. cbn [map app]. destruct (k =? 1)%nat; auto.
      destruct (Rlt_dec (D q i0) eps_same) as [_|Hc]; auto. exfalso. apply Hc. rewrite H0. apply eps_pos.
  Qed.

  (** More neighbours asked for than there are data points. *)
  Lemma idw_too_few q k p row : nearest_answer dist X k q row -> (length X < k)%nat -> X <> [] -> k <> 1%nat ->
    (forall j x, nth_error X j = Some x -> eps_same <= dist q x) -> idw_one z k p row = Raise IndexError.
  Proof.
    intros Ha Hk HX H1 Hfar. destruct (first_nearest q k row Ha) as (near & i0 & rest & E & Hl & Hnd & Hin & Er & Hfirst & Hout); [lia|assumption|].
    assert (Hln : length near = length X) by lia. destruct (k - length near)%nat as [|c] eqn:Ec; [lia|]. simpl in Er.
    rewrite (idw_unfold z k p row (D q i0) i0 (map (fun i => (Some (D q i), i)) rest ++ (None, length X) :: repeat (None, length X) c)) by (rewrite Er, E; reflexivity).
    rewrite Er. destruct (Nat.eqb_spec k 1) as [|_]; [contradiction|].
    assert (Hi0 : (i0 < length X)%nat) by (apply Hin; rewrite E; now left). destruct (in_some i0 Hi0) as [x0 Hx0].
    destruct (Rlt_dec (D q i0) eps_same) as [Hlt|_].
    { rewrite (D_some q i0 x0 Hx0) in Hlt. specialize (Hfar i0 x0 Hx0). lra. }
    match goal with |- bind (mapM ?f ?l) _ = _ => replace (mapM f l) with (@Raise (list R) IndexError); [reflexivity|] end.
    symmetry. apply mapM_app_raise.
    - intros a Ha'. apply in_map_iff in Ha'. destruct Ha' as (i & <- & Hi). cbn [snd]. specialize (Hin i Hi).
      exists (nth i z 0). apply get_nth, nth_error_nth'. lia.
    - cbn [snd]. apply get_out. lia.
  Qed.
End Idw.

(** Scaling all distances by the same factor changes nothing, as long as the nearest is on the same side of 1e-10. *)
Lemma idw_scale z k p c r i0 (tl : list (R * nat)) : 0 < c -> 0 < r -> (forall d i, In (d, i) tl -> 0 < d) -> (r < eps_same <-> c * r < eps_same) ->
  idw_one z k p ((Some (c * r), i0) :: map (fun a => (Some (c * fst a), snd a)) tl) =
  idw_one z k p ((Some r, i0) :: map (fun a => (Some (fst a), snd a)) tl).
Proof.
  intros Hc Hr Htl Hiff.
  rewrite (idw_unfold _ _ _ _ (c * r) i0 (map (fun a => (Some (c * fst a), snd a)) tl)) by reflexivity.
  rewrite (idw_unfold _ _ _ _ r i0 (map (fun a => (Some (fst a), snd a)) tl)) by reflexivity.
  destruct (k =? 1)%nat; auto.
  destruct (Rlt_dec (c * r) eps_same) as [H1|H1], (Rlt_dec r eps_same) as [H2|H2]; auto; try tauto.
  assert (Es : forall (f : R -> R) (l : list (R * nat)), map (fun a : option R * nat => get z (snd a)) (map (fun a => (Some (f (fst a)), snd a)) l) = map (fun a => get z (snd a)) l)
    by (intros; rewrite map_map; reflexivity).
  assert (Ez : forall f : R -> R, mapM (fun a : option R * nat => get z (snd a)) ((Some (f r), i0) :: map (fun a => (Some (f (fst a)), snd a)) tl)
    = mapM (fun a : R * nat => get z (snd a)) ((r, i0) :: tl)).
  { intros f. cbn [mapM snd]. rewrite mapM_map'. reflexivity. }
  rewrite (Ez (fun x => c * x)), (Ez (fun x => x)).
  destruct (mapM (fun a : R * nat => get z (snd a)) ((r, i0) :: tl)) as [zs|e|]; cbn [bind]; auto. f_equal.
  set (l := (r, i0) :: tl). assert (Hl : forall a, In a l -> 0 < fst a) by (intros a [<-|Ha]; auto; destruct a; eapply Htl; eauto).
  assert (Ew : forall f : R -> R, map (fun a : option R * nat => weight p (fst a)) ((Some (f r), i0) :: map (fun a => (Some (f (fst a)), snd a)) tl) = map (fun a => 1 / f (fst a) ^ p) l).
  { intros f. unfold l. cbn [map fst weight]. f_equal. rewrite map_map. reflexivity. }
  rewrite (Ew (fun x => c * x)), (Ew (fun x => x)).
  set (k1 := / c ^ p). assert (Hcp : 0 < c ^ p) by now apply pow_lt. assert (Hk1 : k1 <> 0) by (apply Rinv_neq_0_compat; lra).
  assert (Em : map (fun a => 1 / (c * fst a) ^ p) l = map (fun x => k1 * x) (map (fun a => 1 / fst a ^ p) l)).
  { rewrite map_map. apply map_ext_in. intros a Ha. specialize (Hl a Ha). assert (fst a ^ p <> 0) by (apply pow_nonzero; lra).
    rewrite Rpow_mult_distr. unfold k1. field. split; lra. }
  rewrite Em. assert (Hsum : forall l, sum (map (fun x => k1 * x) l) = k1 * sum l) by (induction l0; simpl; [ring|rewrite IHl0; ring]).
  rewrite Hsum. f_equal. rewrite map_map. apply map_ext. intros x. unfold Rdiv. rewrite Rinv_mult.
  match goal with |- k1 * x * (/ k1 * / ?s) = _ => transitivity ((k1 * / k1) * (x * / s)); [ring|rewrite Rinv_r by exact Hk1; ring] end.
Qed.

(** Two data points on a line. *)
Definition line_dist (a b : R) : R := Rabs (a - b).
Lemma line_answer : nearest_answer line_dist [0; 4] 2 1 [(Some 1, 0%nat); (Some 3, 1%nat)].
Proof.
  exists [0; 1]%nat. cbn [map nth_error option_map length repeat Nat.min Nat.sub app]. 
  assert (E1 : line_dist 1 0 = 1) by (unfold line_dist; rewrite Rabs_right; lra).
  assert (E2 : line_dist 1 4 = 3) by (unfold line_dist; rewrite Rabs_left; lra).
  split; [now rewrite E1, E2|]. split; [reflexivity|]. split; [repeat constructor; simpl; intuition lia|].
  split; [simpl; intros i Hi; lia|]. split.
  - intros a b i j Hab Ha Hb x y Hx Hy. destruct a as [|[|a]]; simpl in Ha; [| |destruct a; discriminate]; injection Ha as <-;
      (destruct b as [|[|b]]; simpl in Hb; [| |destruct b; discriminate]); injection Hb as <-; simpl in *; injection Hx as <-; injection Hy as <-; try lia; rewrite ?E1, ?E2; lra.
  - intros i j x y Hi Hj Hx Hy. exfalso. apply Hj. destruct j as [|[|j]]; simpl in *; auto. destruct j; discriminate.
Qed.
Lemma line_case : nearest_answer line_dist [0; 4] 2 1 [(Some 1, 0%nat); (Some 3, 1%nat)] /\
  idw_one [10; 20] 2 1 [(Some 1, 0%nat); (Some 3, 1%nat)] = Ok (25 / 2).
Proof.
  split; [apply line_answer|]. assert (He : eps_same < 1).
  { unfold eps_same. rewrite <- Rinv_1. apply Rinv_lt_contravar; [|simpl; lra]. rewrite Rmult_1_l. apply pow_lt. lra. }
  rewrite (idw_unfold _ _ _ _ 1 0%nat [(Some 3, 1%nat)]) by reflexivity. cbn [Nat.eqb]. destruct (Rlt_dec 1 eps_same); [lra|].
  cbn [mapM get nth_error bind map fst snd weight dot sum]. f_equal. field.
Qed.
(** The example in the class's documentation: distances 1, 2, 3 give the weights 6/11, 3/11, 2/11. *)
Lemma doc_case z1 z2 z3 : idw_one [z1; z2; z3] 3 1 [(Some 1, 0%nat); (Some 2, 1%nat); (Some 3, 2%nat)] = Ok (6 / 11 * z1 + 3 / 11 * z2 + 2 / 11 * z3).
Proof.
  assert (He : eps_same < 1).
  { unfold eps_same. rewrite <- Rinv_1. apply Rinv_lt_contravar; [|simpl; lra]. rewrite Rmult_1_l. apply pow_lt. lra. }
  rewrite (idw_unfold _ _ _ _ 1 0%nat [(Some 2, 1%nat); (Some 3, 2%nat)]) by reflexivity. cbn [Nat.eqb]. destruct (Rlt_dec 1 eps_same); [lra|].
  cbn [mapM get nth_error bind map fst snd weight dot sum]. f_equal. field.
Qed.

Lemma mapM_each {A B} (f : A -> res B) (R : A -> B -> Prop) l : (forall a, In a l -> exists b, f a = Ok b /\ R a b) ->
  exists l', mapM f l = Ok l' /\ Forall2 R l l'.
Proof.
  induction l as [|a l IH]; intros H; [exists []; split; [reflexivity|constructor]|].
  destruct (H a) as (b & Hb & HR); [now left|]. destruct IH as (l' & Hl & HF); [intros; apply H; now right|].
  exists (b :: l'). cbn [mapM]. rewrite Hb. cbn [bind]. rewrite Hl. split; [reflexivity|]. now constructor.
Qed.
Section Call.
  Context {P : Type}.
  Variable dist : P -> P -> R.
  Variable query : list P -> nat -> P -> answer.

  Lemma call_values X z k p qs : correct_search dist query X k qs -> length X = length z -> (1 <= k <= length X)%nat ->
    exists vs, idw_call query X z k p qs = Ok vs /\ Forall2 (idw_value_at dist X z eps_same k p) qs vs.
  Proof.
    intros Hq Hl Hk. unfold idw_call. apply Nat.eqb_eq in Hl as Hl'. rewrite Hl'. destruct (Nat.eqb_spec (length z) 0) as [|_]; [lia|].
    apply mapM_each. intros q Hin. exact (idw_value dist X z Hl q k p _ (Hq q Hin) Hk).
  Qed.
  Lemma call_range X z k p qs lo hi : correct_search dist query X k qs -> length X = length z -> (1 <= k <= length X)%nat -> (forall a, In a z -> lo <= a <= hi) ->
    exists vs, idw_call query X z k p qs = Ok vs /\ length vs = length qs /\ forall v, In v vs -> lo <= v <= hi.
  Proof.
    intros Hq Hl Hk Hz. unfold idw_call. apply Nat.eqb_eq in Hl as Hl'. rewrite Hl'. destruct (Nat.eqb_spec (length z) 0) as [|_]; [lia|].
    destruct (mapM_each (fun x => idw_one z k p (query X k x)) (fun _ v => lo <= v <= hi) qs) as (vs & E & HF).
    - intros q Hqs. apply (idw_range dist X z Hl q k p _ lo hi (Hq q Hqs) Hk). intros d i Hi.
      destruct (first_nearest dist X z Hl q k _ (Hq q Hqs)) as (near & i0 & rest & _ & Hln & _ & Hin & Er & _); [lia|destruct X; simpl in *; [lia|congruence]|].
      assert (Hki : (k - length near = 0)%nat) by lia. rewrite Hki in Er. simpl in Er. rewrite app_nil_r in Er. rewrite Er in Hi.
      apply in_map_iff in Hi. destruct Hi as (i' & Ei & Hi). injection Ei as _ <-. apply Hz, nth_In. rewrite <- Hl. auto.
    - exists vs. split; auto. clear E Hq. split; [now induction HF; simpl; auto|]. induction HF; intros v; simpl; [tauto|]. intros [<-|]; auto.
  Qed.
  Lemma call_data X z k p q i : correct_search dist query X k [q] -> length X = length z -> (1 <= k)%nat -> nth_error X i = Some q -> NoDup X ->
    (forall x y, 0 <= dist x y) -> (forall x, dist x x = 0) -> (forall x y, dist x y = 0 -> x = y) ->
    idw_call query X z k p [q] = Ok [nth i z 0].
  Proof.
    intros Hq Hl Hk Hi Hnd H1 H2 H3. assert (Hil : (i < length X)%nat) by (apply nth_error_Some; congruence).
    unfold idw_call. apply Nat.eqb_eq in Hl as Hl'. rewrite Hl'. destruct (Nat.eqb_spec (length z) 0) as [|_]; [lia|].
    cbn [mapM]. destruct (idw_reproduces dist X z Hl q k p _ i (Hq q (or_introl eq_refl)) Hk Hi H1 H2 H3) as (j & Hj & ->).
    assert (j = i) as ->; [|reflexivity]. eapply (proj1 (NoDup_nth_error X)); auto; [apply nth_error_Some; congruence|congruence].
  Qed.
  Lemma call_too_few X z k p q qs : correct_search dist query X k (q :: qs) -> length X = length z -> X <> [] -> (length X < k)%nat -> k <> 1%nat ->
    (forall x, In x X -> eps_same <= dist q x) -> idw_call query X z k p (q :: qs) = Raise IndexError.
  Proof.
    intros Hq Hl HX Hk H1 Hfar. unfold idw_call. apply Nat.eqb_eq in Hl as Hl'. rewrite Hl'.
    destruct (Nat.eqb_spec (length z) 0) as [E|_]; [destruct X; simpl in *; [congruence|lia]|].
    cbn [mapM]. rewrite (idw_too_few dist X z Hl q k p _ (Hq q (or_introl eq_refl))); auto. intros j x Hx. apply Hfar. eapply nth_error_In; eauto.
  Qed.
End Call.

Definition line_query (X : list R) (k : nat) (q : R) : answer := [(Some 1, 0%nat); (Some 3, 1%nat)].
Lemma line_call : correct_search line_dist line_query [0; 4] 2 [1] /\ idw_call line_query [0; 4] [10; 20] 2 1 [1] = Ok [25 / 2].
Proof.
  split.
  - intros q [<-|[]]. apply line_answer.
  - unfold idw_call. cbn [length Nat.eqb mapM]. unfold line_query. rewrite (proj2 line_case). reflexivity.
Qed.
Lemma call_rejects {P} (query : list P -> nat -> P -> answer) X z k p qs : (length X <> length z -> idw_call query X z k p qs = Raise AssertionError) /\
  (length X = length z -> z = [] -> idw_call query X z k p qs = Raise IndexError).
Proof.
  split.
  - intros H. unfold idw_call. destruct (Nat.eqb_spec (length X) (length z)); [contradiction|reflexivity].
  - intros H ->. unfold idw_call. rewrite H. reflexivity.
Qed.
