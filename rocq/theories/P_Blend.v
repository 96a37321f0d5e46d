(** Proofs about blending. *)
From Coq Require Import List Arith Bool ZArith QArith Qabs Lia Lqa.
From Verif Require Import M_Base M_Sdf M_Grid M_Blend S_Grid S_Blend P_Grid.
Import ListNotations.
Open Scope Q_scope.

(** * Flat arrays *)
Lemma nth_flat {A} (g : nat -> nat -> A) N M i j d : (i < N)%nat -> (j < M)%nat ->
  nth (i * M + j) (flat_map (fun i => map (g i) (seq 0 M)) (seq 0 N)) d = g i j.
Proof.
  intros Hi Hj. assert (G : forall N s i, (i < N)%nat -> nth (i * M + j) (flat_map (fun i => map (g i) (seq 0 M)) (seq s N)) d = g (s + i)%nat j).
  { clear - Hj. induction N as [|N IH]; intros s i Hi; [lia|]. cbn [seq flat_map]. destruct i as [|i].
    - simpl. rewrite app_nth1 by (rewrite map_length, seq_length; lia). rewrite Nat.add_0_r. now apply map_seq_nth.
    - rewrite app_nth2 by (rewrite map_length, seq_length; simpl; lia). rewrite map_length, seq_length.
      replace (S i * M + j - M)%nat with (i * M + j)%nat by (simpl; lia). rewrite IH by lia. f_equal. lia. }
  exact (G N 0%nat i Hi).
Qed.
Lemma flat_length {A} (g : nat -> nat -> A) N M s : length (flat_map (fun i => map (g i) (seq 0 M)) (seq s N)) = (N * M)%nat.
Proof. revert s. induction N as [|N IH]; intros s; simpl; auto. rewrite app_length, map_length, seq_length, IH. lia. Qed.
Lemma reshape_shape N M l : length l = (N * M)%nat -> shape (reshape N M l) N M.
Proof.
  revert l. induction N as [|N IH]; intros l Hl; simpl; [split; auto|]. simpl in Hl.
  destruct (IH (skipn M l)) as [H1 H2]; [rewrite skipn_length; lia|]. split; [simpl; lia|].
  constructor; auto. rewrite firstn_length. lia.
Qed.
Lemma nth_firstn_lt {A} (l : list A) n k d : (k < n)%nat -> nth k (firstn n l) d = nth k l d.
Proof. revert n k. induction l as [|a l IH]; intros [|n] [|k] H; simpl; try lia; auto. apply IH. lia. Qed.
Lemma nth_skipn_add {A} (l : list A) n k d : nth k (skipn n l) d = nth (n + k) l d.
Proof. revert n. induction l as [|a l IH]; intros [|n]; simpl; auto. now destruct k. Qed.
Lemma nth_reshape N M l i j : (i < N)%nat -> (j < M)%nat -> nth j (nth i (reshape N M l) []) NaN = nth (i * M + j) l NaN.
Proof.
  revert l i. induction N as [|N IH]; intros l i Hi Hj; [lia|]. cbn [reshape]. destruct i as [|i].
  - simpl. now apply nth_firstn_lt.
  - simpl nth at 2. cbn [nth]. rewrite IH by lia. rewrite nth_skipn_add. f_equal. simpl. lia.
Qed.

(** * Filling in *)
Definition is_pad (a : num) : bool := neq_bool a pad_code.
Definition pads (l : list num) : nat := length (filter is_pad l).
Lemma fill_length l : forall s, length (fill_in l s) = length l.
Proof. induction l as [|a l IH]; intros s; simpl; auto. destruct (neq_bool a pad_code); [destruct s|]; simpl; now rewrite IH. Qed.
Lemma fill_nth l : forall s t d, length s = pads l -> (t < length l)%nat ->
  nth t (fill_in l s) d = if is_pad (nth t l d) then nth (pads (firstn t l)) s d else nth t l d.
Proof.
  induction l as [|a l IH]; intros s t d Hs Ht; simpl in Ht; [lia|]. unfold pads in Hs. cbn [filter] in Hs. cbn [fill_in]. fold (is_pad a).
  destruct (is_pad a) eqn:E.
  - destruct s as [|x s]; simpl in Hs; [lia|]. destruct t as [|t]; cbn [nth firstn].
    + rewrite E. reflexivity.
    + rewrite IH by (unfold pads; lia). unfold pads. cbn [filter]. rewrite E. cbn [length nth]. reflexivity.
  - destruct t as [|t]; cbn [nth firstn].
    + now rewrite E.
    + rewrite IH by (unfold pads; lia). unfold pads. cbn [filter]. rewrite E. reflexivity.
Qed.
Lemma filter_nth {A} (f : A -> bool) l : forall t d, (t < length l)%nat -> f (nth t l d) = true ->
  nth_error (filter f l) (length (filter f (firstn t l))) = Some (nth t l d).
Proof.
  induction l as [|a l IH]; intros t d Ht Hf; simpl in Ht; [lia|]. destruct t as [|t]; cbn [nth firstn] in *.
  - simpl. now rewrite Hf.
  - cbn [filter]. destruct (f a); simpl; apply IH; auto; lia.
Qed.
Lemma filter_snd {A} (l : list (A * num)) : length (filter (fun a => neq_bool (snd a) pad_code) l) = pads (map snd l).
Proof. unfold pads, is_pad. induction l as [|a l IH]; simpl; auto. destruct (neq_bool (snd a) pad_code); simpl; now rewrite IH. Qed.
Lemma firstn_map' {A B} (f : A -> B) n l : firstn n (map f l) = map f (firstn n l).
Proof. revert n. induction l as [|a l IH]; intros [|n]; simpl; auto. now rewrite IH. Qed.

(** * The padded grid *)
Lemma pad_shape w v n m : shape v n m -> (0 < n)%nat -> shape (pad w v) (n + 2 * w) (m + 2 * w).
Proof.
  intros [H1 H2] Hn. unfold pad. assert (Em : match v with [] => 0%nat | r :: _ => length r end = m) by (destruct v; simpl in *; [lia|now inversion H2]).
  rewrite Em. split.
  - rewrite !app_length, !repeat_length, map_length. lia.
  - rewrite !Forall_app. rewrite Forall_forall in H2. repeat split.
    + apply Forall_forall. intros r Hr. apply repeat_spec in Hr. subst. apply repeat_length.
    + apply Forall_forall. intros r Hr. apply in_map_iff in Hr. destruct Hr as (r' & <- & Hr). rewrite !app_length, !repeat_length, (H2 r' Hr). lia.
    + apply Forall_forall. intros r Hr. apply repeat_spec in Hr. subst. apply repeat_length.
Qed.
Lemma pad_cell w v n m a b : shape v n m -> (0 < n)%nat -> (a < n + 2 * w)%nat -> (b < m + 2 * w)%nat ->
  cell (pad w v) a b = if ((w <=? a) && (a <? w + n) && (w <=? b) && (b <? w + m))%nat then cell v (a - w) (b - w) else pad_code.
Proof.
  intros [H1 H2] Hn Ha Hb. unfold pad. assert (Em : match v with [] => 0%nat | r :: _ => length r end = m) by (destruct v; simpl in *; [lia|now inversion H2]).
  rewrite Em. rewrite Forall_forall in H2. unfold cell.
  assert (Hrep : forall k c, nth c (repeat pad_code k) NaN = pad_code \/ (k <= c)%nat).
  { intros k c. destruct (le_lt_dec k c); [auto|left]. rewrite (nth_indep _ NaN pad_code) by (rewrite repeat_length; lia). apply nth_repeat. }
  destruct (Nat.leb_spec w a) as [La|La]; cbn [andb].
  - rewrite app_nth2 by (rewrite repeat_length; lia). rewrite repeat_length.
    destruct (Nat.ltb_spec a (w + n)) as [Lb|Lb]; cbn [andb].
    + rewrite app_nth1 by (rewrite map_length; lia).
      rewrite (nth_indep _ [] (repeat pad_code w ++ [] ++ repeat pad_code w)) by (rewrite map_length; lia).
      rewrite (map_nth (fun r => repeat pad_code w ++ r ++ repeat pad_code w) v [] (a - w)).
      assert (Lr : length (nth (a - w) v []) = m) by (apply H2, nth_In; lia).
      destruct (Nat.leb_spec w b) as [Lc|Lc]; cbn [andb].
      * rewrite app_nth2 by (rewrite repeat_length; lia). rewrite repeat_length. destruct (Nat.ltb_spec b (w + m)) as [Ld|Ld].
        -- now rewrite app_nth1 by lia.
        -- rewrite app_nth2 by lia. destruct (Hrep w (b - w - length (nth (a - w) v []))%nat); [assumption|lia].
      * rewrite app_nth1 by (rewrite repeat_length; lia). destruct (Hrep w b); [assumption|lia].
    + rewrite app_nth2 by (rewrite map_length; lia). rewrite map_length.
      rewrite (nth_indep _ [] (repeat pad_code (m + 2 * w))) by (rewrite repeat_length; lia). rewrite nth_repeat.
      destruct (Hrep (m + 2 * w)%nat b); [assumption|lia].
  - rewrite app_nth1 by (rewrite repeat_length; lia).
    rewrite (nth_indep _ [] (repeat pad_code (m + 2 * w))) by (rewrite repeat_length; lia). rewrite nth_repeat.
    destruct (Hrep (m + 2 * w)%nat b); [assumption|lia].
Qed.

Lemma pad_grid_ok w fine n m : proper_grid fine n m ->
  exists gp, pad_grid w fine = Ok gp /\ proper_grid gp (n + 2 * w) (m + 2 * w) /\ g_extra gp = g_extra fine /\
    g_values gp = pad w (g_values fine) /\ g_dx gp = g_dx fine /\ g_dy gp = g_dy fine /\
    b0 (g_bbox gp) = b0 (g_bbox fine) - g_dx fine * inject_Z (Z.of_nat w) /\ b2 (g_bbox gp) = b2 (g_bbox fine) - g_dy fine * inject_Z (Z.of_nat w) /\
    b1 (g_bbox gp) = b1 (g_bbox fine) + g_dx fine * inject_Z (Z.of_nat w) /\ b3 (g_bbox gp) = b3 (g_bbox fine) + g_dy fine * inject_Z (Z.of_nat w).
Proof.
  intros (Hs & Hn & Hm & Hdx & Hdy). unfold pad_grid, make_grid.
  assert (E1 : Qle_bool (g_dx fine) 0 = false). { destruct (Qle_bool (g_dx fine) 0) eqn:E; auto. apply Qle_bool_iff in E. lra. }
  assert (E2 : Qle_bool (g_dy fine) 0 = false). { destruct (Qle_bool (g_dy fine) 0) eqn:E; auto. apply Qle_bool_iff in E. lra. }
  rewrite E1, E2. cbn [orb]. eexists. split; [reflexivity|]. repeat split; try reflexivity; try assumption; cbn [g_values]; try lia;
    destruct (pad_shape w (g_values fine) n m Hs) as [P1 P2]; try lia; assumption.
Qed.

Lemma lattice_shift lo d w n x a : nearest_node (lo - d * inject_Z (Z.of_nat w)) d (n + 2 * w) x a ->
  lattice_nearest lo d (- Z.of_nat w) (Z.of_nat n - 1 + Z.of_nat w) x (Z.of_nat a - Z.of_nat w).
Proof.
  intros [Ha Hnear]. split; [lia|]. intros b Hb. specialize (Hnear (Z.to_nat (b + Z.of_nat w))). unfold node in Hnear.
  rewrite Z2Nat.id in Hnear by lia.
  assert (E : forall c, lo - d * inject_Z (Z.of_nat w) + inject_Z c * d == lo + inject_Z (c - Z.of_nat w) * d).
  { intros c. rewrite inject_Z_minus. ring. }
  rewrite !E in Hnear. replace (b + Z.of_nat w - Z.of_nat w)%Z with b in Hnear by lia. apply Hnear. lia.
Qed.
Lemma shift_num lo d w c : lo - d * inject_Z (Z.of_nat w) + inject_Z c * d == lo + inject_Z (c - Z.of_nat w) * d.
Proof. rewrite inject_Z_minus. ring. Qed.

Lemma covered_pad gp fine n m w q : (1 <= n)%nat -> (1 <= m)%nat ->
  g_dx gp = g_dx fine -> g_dy gp = g_dy fine ->
  b0 (g_bbox gp) = b0 (g_bbox fine) - g_dx fine * inject_Z (Z.of_nat w) -> b2 (g_bbox gp) = b2 (g_bbox fine) - g_dy fine * inject_Z (Z.of_nat w) ->
  (covered gp (n + 2 * w) (m + 2 * w) q <-> within_pad fine n m w q).
Proof.
  intros Hn Hm E1 E2 E3 E4. unfold covered, within_pad, x_of, y_of, node. rewrite E1, E2, E3, E4. rewrite !shift_num.
  replace (Z.of_nat (n + 2 * w - 1) - Z.of_nat w)%Z with (Z.of_nat (n - 1) + Z.of_nat w)%Z by lia.
  replace (Z.of_nat (m + 2 * w - 1) - Z.of_nat w)%Z with (Z.of_nat (m - 1) + Z.of_nat w)%Z by lia.
  replace (Z.of_nat 0 - Z.of_nat w)%Z with (Z.of_nat 0 + - Z.of_nat w)%Z by lia. rewrite !inject_Z_plus, inject_Z_opp.
  split; intros [[] []]; repeat split; lra.
Qed.

Lemma neq_bool_iff a q : neq_bool a (Fin q) = true <-> same_num a (Fin q).
Proof. destruct a; simpl; try (split; [discriminate|tauto]). apply Qeq_bool_iff. Qed.
Lemma no_code_pad a : no_code a -> is_pad a = false.
Proof. intros [H _]. unfold is_pad, pad_code. destruct (neq_bool a (Fin (-99999))) eqn:E; auto. apply neq_bool_iff in E. contradiction. Qed.

Lemma taken_spec fine coarse gp n m N M w i j : proper_grid fine n m -> proper_grid coarse N M -> g_extra fine = false ->
  all_cells no_code fine n m -> all_cells no_code coarse N M -> pad_grid w fine = Ok gp -> (i < N)%nat -> (j < M)%nat ->
  let f := interpolate_cell gp coarse i j in taken fine coarse n m w i j (if is_pad f then None else Some f).
Proof.
  intros Hf Hc He Hnf Hnc Hgp Hi Hj f. destruct (pad_grid_ok w fine n m Hf) as (gp' & E & Hp & Ee & Ev & Edx & Edy & E0 & E2 & _).
  assert (gp' = gp) as -> by congruence. clear E.
  pose proof (interpolate_cell_spec coarse gp N M _ _ i j Hc Hp Hi Hj) as Hs. fold f in Hs. destruct Hs as [Hin Hout].
  assert (Hn1 : (1 <= n)%nat) by (destruct Hf as (_ & ? & _); lia). assert (Hm1 : (1 <= m)%nat) by (destruct Hf as (_ & _ & ? & _); lia).
  pose proof (covered_pad gp fine n m w (x_of coarse i, y_of coarse j) Hn1 Hm1 Edx Edy E0 E2) as Hcov. split.
  - intros Hno. rewrite <- Hcov in Hno. rewrite Hout by (congruence || assumption). now rewrite no_code_pad by (apply Hnc; assumption).
  - intros Hyes. apply Hcov in Hyes. destruct (Hin (or_intror Hyes)) as (a & b & Na & Nb & Hv). clear Hin Hout. cbn [fst snd] in *.
    rewrite E0, Edx in Na. rewrite E2, Edy in Nb. assert (La := proj1 Na). assert (Lb := proj1 Nb). apply lattice_shift in Na, Nb.
    exists (Z.of_nat a - Z.of_nat w)%Z, (Z.of_nat b - Z.of_nat w)%Z. split; [assumption|]. split; [assumption|].
    rewrite Ee, He in Hv. unfold value_at at 1 in Hv. rewrite Ev in Hv. fold (cell (pad w (g_values fine)) a b) in Hv.
    rewrite (pad_cell w _ n m a b (proj1 Hf)) in Hv by lia.
    destruct ((w <=? a) && (a <? w + n) && (w <=? b) && (b <? w + m))%nat eqn:Ec.
    + rewrite !andb_true_iff, !Nat.leb_le, !Nat.ltb_lt in Ec. split; [|lia]. intros _.
      assert (Hno : no_code (cell (g_values fine) (a - w) (b - w))) by (apply Hnf; lia).
      assert (Ef : f = cell (g_values fine) (a - w) (b - w)).
      { rewrite Hv. destruct Hno as [_ Hno]. destruct (cell (g_values fine) (a - w) (b - w)) as [u| |]; auto.
        destruct (Qeq_bool u (-999)) eqn:Eu; auto. exfalso. apply Hno. simpl. now apply Qeq_bool_iff. }
      rewrite Ef, no_code_pad by assumption. f_equal. unfold value_at, cell. f_equal; [lia|]. f_equal. lia.
    + split.
      * intros Hr. exfalso. rewrite !andb_false_iff, !Nat.leb_gt, !Nat.ltb_ge in Ec. lia.
      * intros _. assert (Ef : f = pad_code) by (rewrite Hv; reflexivity). rewrite Ef. reflexivity.
Qed.

Lemma nleq_min_fold l : forall a, is_minimum (fold_left nmin l a) (a :: l).
Proof. exact (fold_nmin l). Qed.

Lemma box_inside_iff f c : strictly_inside f c = true <-> box_inside (g_bbox f) (g_bbox c).
Proof.
  unfold strictly_inside, box_inside. rewrite !andb_true_iff, !negb_true_iff.
  assert (E : forall x y, Qle_bool x y = false <-> y < x).
  { intros x y. split; intros H.
    - apply Qnot_le_lt. intros Hc. apply Qle_bool_iff in Hc. congruence.
    - destruct (Qle_bool x y) eqn:Ex; auto. apply Qle_bool_iff in Ex. lra. }
  rewrite !E. tauto.
Qed.

Section Blending.
  Variable idw : list ((Q * Q) * num) -> list (Q * Q) -> res (list num).
  Variables (fine coarse : grid) (n m N M w : nat).
  Hypothesis Hf : proper_grid fine n m.
  Hypothesis Hc : proper_grid coarse N M.
  Hypothesis He : g_extra fine = false.
  Hypothesis Hnf : all_cells no_code fine n m.
  Hypothesis Hnc : all_cells no_code coarse N M.
  Hypothesis Hidw : forall known qs l, idw known qs = Ok l -> length l = length qs.

  Lemma blend_spec r : box_inside (g_bbox fine) (g_bbox coarse) -> blend_into idw fine coarse w = Ok r ->
    proper_grid r N M /\ g_bbox r = g_bbox coarse /\ g_dx r = g_dx coarse /\ g_dy r = g_dy coarse /\ g_crs r = g_crs coarse /\
    exists (t : nat -> nat -> option num) known asks answers,
      (forall i j, (i < N)%nat -> (j < M)%nat -> taken fine coarse n m w i j (t i j)) /\
      (forall i j v, (i < N)%nat -> (j < M)%nat -> t i j = Some v -> value_at r i j = v /\ In (place coarse i j, v) known) /\
      (forall p v, In (p, v) known -> exists i j, (i < N)%nat /\ (j < M)%nat /\ p = place coarse i j /\ t i j = Some v) /\
      (forall i j, (i < N)%nat -> (j < M)%nat -> t i j = None ->
         exists k, nth_error asks k = Some (place coarse i j) /\ nth_error answers k = Some (value_at r i j)) /\
      (asks = [] -> answers = [] /\ exists h, g_hmin r = Some h /\ is_minimum h (map snd known)) /\
      (asks <> [] -> idw known asks = Ok answers /\ length answers = length asks /\ exists h, g_hmin r = Some h /\ is_minimum h answers).
  Proof.
    intros Hbox Hr. unfold blend_into in Hr. apply box_inside_iff in Hbox. rewrite Hbox in Hr.
    destruct (pad_grid_ok w fine n m Hf) as (gp & Egp & Hp & Ee & Ev & Edx & Edy & E0 & E2 & E1 & E3). rewrite Egp in Hr. cbn [bind] in Hr.
    destruct (interpolate_to gp coarse) as [c|e|] eqn:Ec; cbn [bind] in Hr; try discriminate.
    assert (Hcv : g_values c = tabulate N M (interpolate_cell gp coarse)).
    { destruct (interpolate_to_ok gp coarse N M Hc) as [[Hx _]|(_ & g & Hx & Hg)]; congruence. }
    assert (Hcf : g_bbox c = g_bbox coarse /\ g_dx c = g_dx coarse /\ g_dy c = g_dy coarse /\ g_crs c = g_crs coarse).
    { unfold interpolate_to in Ec. destruct (boxes_overlap _ _); [|discriminate]. unfold make_grid in Ec. destruct (_ || _); [discriminate|].
      injection Ec as <-. auto. }
    destruct Hcf as (F1 & F2 & F3 & F4).
    assert (Hpc : proper_grid c N M).
    { destruct Hc as (_ & A & B & C & D). unfold proper_grid. rewrite Hcv, F2, F3. split; [apply tabulate_shape|auto]. }
    destruct (shape_ny c N M (proj1 Hpc)) as [En Em]; [destruct Hc as (_ & ? & _); lia|].
    set (f := interpolate_cell gp coarse) in *.
    assert (Ht : forall i j, (i < N)%nat -> (j < M)%nat -> taken fine coarse n m w i j (if is_pad (f i j) then None else Some (f i j))).
    { intros i j Hi Hj. exact (taken_spec fine coarse gp n m N M w i j Hf Hc He Hnf Hnc Egp Hi Hj). }
    set (t := fun i j => if is_pad (f i j) then None else Some (f i j)) in *.
    set (cs := cells_of c (g_values c)) in *.
    assert (Hcs : forall i j d, (i < N)%nat -> (j < M)%nat -> nth (i * M + j) cs d = (place coarse i j, f i j)).
    { intros i j d Hi Hj. unfold cs, cells_of. rewrite En, Em.
      rewrite (nth_flat (fun i j => ((node_x c i, node_y c j), cell (g_values c) i j)) N M i j d Hi Hj).
      rewrite Hcv, tabulate_cell by assumption. unfold place, x_of, y_of, node, node_x, node_y. rewrite F1, F2, F3.
      rewrite (Qabs_eq (g_dy coarse)) by apply Hc. reflexivity. }
    assert (Lcs : length cs = (N * M)%nat) by (unfold cs, cells_of; rewrite En, Em; apply flat_length).
    assert (Hinv : forall k d, (k < N * M)%nat -> exists i j, (i < N)%nat /\ (j < M)%nat /\ k = (i * M + j)%nat /\ nth k cs d = (place coarse i j, f i j)).
    { intros k d Hk. assert (HM : (M <> 0)%nat) by (destruct Hc as (_ & _ & ? & _); lia).
      exists (k / M)%nat, (k mod M)%nat. pose proof (Nat.div_mod k M HM). pose proof (Nat.mod_upper_bound k M HM).
      assert ((k / M < N)%nat) by (apply Nat.div_lt_upper_bound; lia).
      split; [assumption|]. split; [assumption|]. split; [lia|]. rewrite <- (Hcs (k / M)%nat (k mod M)%nat d) by assumption. f_equal. lia. }
    assert (Hidx : forall i j, (i < N)%nat -> (j < M)%nat -> (i * M + j < N * M)%nat) by (intros; nia).
    set (ask := filter (fun a => neq_bool (snd a) pad_code) cs) in *.
    set (known := filter (fun a : Q * Q * num => negb (neq_bool (snd a) pad_code)) cs) in *.
    assert (Hknown : forall p v, In (p, v) known <-> exists i j, (i < N)%nat /\ (j < M)%nat /\ p = place coarse i j /\ t i j = Some v).
    { intros p v. unfold known. rewrite filter_In. cbn [snd]. split.
      - intros [Hin Hb]. destruct (In_nth _ _ ((0, 0), NaN) Hin) as (k & Hk & Hx). rewrite Lcs in Hk.
        destruct (Hinv k ((0, 0), NaN) Hk) as (i & j & Hi & Hj & _ & Hy). rewrite Hy in Hx. injection Hx as <- <-.
        exists i, j. repeat split; auto. unfold t, is_pad. apply negb_true_iff in Hb. now rewrite Hb.
      - intros (i & j & Hi & Hj & -> & Htv). unfold t in Htv. destruct (is_pad (f i j)) eqn:Ei; [discriminate|]. injection Htv as <-.
        split; [|unfold is_pad in Ei; now rewrite Ei].
        rewrite <- (Hcs i j ((0, 0), NaN)) by assumption. apply nth_In. rewrite Lcs. auto. }
    assert (Hval : forall i j d, (i < N)%nat -> (j < M)%nat -> nth (i * M + j) (map snd cs) d = f i j).
    { intros i j d Hi Hj. rewrite (nth_indep _ d (snd ((0, 0), d) : num)) by (rewrite map_length, Lcs; auto). rewrite (map_nth snd), Hcs by assumption. reflexivity. }
    (* the padding cells are asked in order *)
    assert (Hask : forall i j, (i < N)%nat -> (j < M)%nat -> t i j = None ->
      nth_error (map fst ask) (pads (firstn (i * M + j) (map snd cs))) = Some (place coarse i j)).
    { intros i j Hi Hj Hn. assert (Hpad : is_pad (f i j) = true) by (unfold t in Hn; destruct (is_pad (f i j)); congruence).
      rewrite firstn_map', <- filter_snd. rewrite nth_error_map. unfold ask.
      rewrite (filter_nth (fun a => neq_bool (snd a) pad_code) cs (i * M + j) ((0, 0), NaN)); [|rewrite Lcs; auto|].
      - rewrite Hcs by assumption. reflexivity.
      - rewrite Hcs by assumption. exact Hpad. }
    destruct ask as [|a0 ask'] eqn:Eask.
    - (* no padding cell *)
      destruct (amin (map snd cs)) as [h|e|] eqn:Eh; cbn [bind] in Hr; try discriminate. injection Hr as <-.
      split; [exact Hpc|]. split; [exact F1|]. split; [exact F2|]. split; [exact F3|]. split; [exact F4|].
      assert (Hnone : forall i j, (i < N)%nat -> (j < M)%nat -> t i j <> None).
      { intros i j Hi Hj Hn. specialize (Hask i j Hi Hj Hn). simpl in Hask. destruct (pads _); discriminate. }
      exists t, known, [], []. split; [exact Ht|]. split; [|split; [|split; [|split]]].
      + intros i j v Hi Hj Hv. split; [|apply Hknown; eauto 6]. unfold value_at. cbn [set_hmin g_values]. rewrite Hcv. fold (cell (tabulate N M f) i j).
        rewrite tabulate_cell by assumption. unfold t in Hv. destruct (is_pad (f i j)); congruence.
      + intros p v Hpv. now apply Hknown.
      + intros i j Hi Hj Hn. destruct (Hnone i j Hi Hj Hn).
      + intros _. split; auto. exists h. split; [reflexivity|]. 
        assert (Hall : known = cs).
        { unfold known. clear -Eask. induction cs as [|a l IH]; auto. simpl in *. destruct (neq_bool (snd a) pad_code); [discriminate|]. simpl. f_equal. auto. }
        rewrite Hall. unfold amin in Eh. destruct (map snd cs) as [|a l]; [discriminate|]. injection Eh as <-. apply fold_nmin.
      + congruence.
    - rewrite <- Eask in *. clear Eask.
      destruct (idw known (map fst ask)) as [answers|e|] eqn:Ei; cbn [bind] in Hr; try discriminate.
      destruct (amin answers) as [h|e|] eqn:Eh; cbn [bind] in Hr; try discriminate. injection Hr as <-.
      pose proof (Hidw _ _ _ Ei) as Hla.
      assert (Hpads : length answers = pads (map snd cs)) by (rewrite Hla, map_length; apply filter_snd).
      set (vals := fill_in (map snd cs) answers). rewrite En, Em.
      assert (Hsh : shape (reshape N M vals) N M) by (apply reshape_shape; unfold vals; now rewrite fill_length, map_length).
      split; [destruct Hpc as (_ & Q1 & Q2 & Q3 & Q4); split; [exact Hsh|repeat split; assumption]|].
      split; [exact F1|]. split; [exact F2|]. split; [exact F3|]. split; [exact F4|].
      assert (Hrv : forall i j, (i < N)%nat -> (j < M)%nat ->
        nth j (nth i (reshape N M vals) []) NaN = if is_pad (f i j) then nth (pads (firstn (i * M + j) (map snd cs))) answers NaN else f i j).
      { intros i j Hi Hj. rewrite nth_reshape by assumption. unfold vals. rewrite fill_nth; [|assumption|rewrite map_length, Lcs; auto].
        rewrite Hval by assumption. reflexivity. }
      exists t, known, (map fst ask), answers. split; [exact Ht|]. split; [|split; [|split; [|split]]].
      + intros i j v Hi Hj Hv. split; [|apply Hknown; eauto 6]. unfold value_at. cbn [set_hmin set_values g_values]. rewrite Hrv by assumption.
        unfold t in Hv. destruct (is_pad (f i j)); congruence.
      + intros p v Hpv. now apply Hknown.
      + intros i j Hi Hj Hn. specialize (Hask i j Hi Hj Hn). exists (pads (firstn (i * M + j) (map snd cs))). split; [assumption|].
        unfold value_at. cbn [set_hmin set_values g_values]. rewrite Hrv by assumption. unfold t in Hn. destruct (is_pad (f i j)); [|discriminate].
        apply nth_error_nth'. rewrite Hla. apply nth_error_Some. congruence.
      + intros E. apply (f_equal (@length _)) in E. rewrite <- Hla in E. simpl in E. destruct answers; discriminate.
      + intros _. split; [assumption|]. split; [assumption|]. exists h. split; [reflexivity|]. unfold amin in Eh.
        destruct answers as [|a l]; [discriminate|]. injection Eh as <-. apply fold_nmin.
  Qed.
End Blending.

Lemma blend_total idw fine coarse n m N M w : proper_grid fine n m -> proper_grid coarse N M -> g_extra fine = false ->
  all_cells no_code fine n m -> all_cells no_code coarse N M -> (forall known qs l, idw known qs = Ok l -> length l = length qs) ->
  forall r, box_inside (g_bbox fine) (g_bbox coarse) -> blend_into idw fine coarse w = Ok r ->
    proper_grid r N M /\ g_bbox r = g_bbox coarse /\ g_dx r = g_dx coarse /\ g_dy r = g_dy coarse /\ g_crs r = g_crs coarse /\
    exists (t : nat -> nat -> option num) known asks answers,
      (forall i j, (i < N)%nat -> (j < M)%nat -> taken fine coarse n m w i j (t i j)) /\
      (forall i j v, (i < N)%nat -> (j < M)%nat -> t i j = Some v -> value_at r i j = v /\ In (place coarse i j, v) known) /\
      (forall p v, In (p, v) known -> exists i j, (i < N)%nat /\ (j < M)%nat /\ p = place coarse i j /\ t i j = Some v) /\
      (forall i j, (i < N)%nat -> (j < M)%nat -> t i j = None ->
         exists k, nth_error asks k = Some (place coarse i j) /\ nth_error answers k = Some (value_at r i j)) /\
      (asks = [] -> answers = [] /\ exists h, g_hmin r = Some h /\ is_minimum h (map snd known)) /\
      (asks <> [] -> idw known asks = Ok answers /\ length answers = length asks /\ exists h, g_hmin r = Some h /\ is_minimum h answers).
Proof. intros. eapply blend_spec; eauto. Qed.

Definition in_range (lo hi : Q) (a : num) : Prop := exists v, a = Fin v /\ lo <= v <= hi.
Lemma range_no_code lo hi g n m : - (999) < lo -> all_cells (in_range lo hi) g n m -> all_cells no_code g n m.
Proof. intros H Hc i j Hi Hj. destruct (Hc i j Hi Hj) as (v & -> & Hv). split; simpl; lra. Qed.
Lemma blend_range idw fine coarse n m N M w lo hi r : proper_grid fine n m -> proper_grid coarse N M -> g_extra fine = false -> - (999) < lo ->
  all_cells (in_range lo hi) fine n m -> all_cells (in_range lo hi) coarse N M -> range_preserving idw ->
  box_inside (g_bbox fine) (g_bbox coarse) -> blend_into idw fine coarse w = Ok r ->
  all_cells (in_range lo hi) r N M /\ exists h, g_hmin r = Some h /\ in_range lo hi h.
Proof.
  intros Hf Hc He Hlo Hrf Hrc Hidw Hbox Hr.
  destruct (blend_total idw fine coarse n m N M w Hf Hc He (range_no_code _ _ _ _ _ Hlo Hrf) (range_no_code _ _ _ _ _ Hlo Hrc)
    (fun k q l H => proj1 (Hidw k q l H)) r Hbox Hr) as (_ & _ & _ & _ & _ & t & known & asks & answers & Ht & Hsome & Hkn & Hnone & H0 & H1).
  assert (Htr : forall i j v, (i < N)%nat -> (j < M)%nat -> t i j = Some v -> in_range lo hi v).
  { intros i j v Hi Hj Hv. destruct (Ht i j Hi Hj) as [T1 T2].
    assert (D : within_pad fine n m w (place coarse i j) \/ ~ within_pad fine n m w (place coarse i j)).
    { unfold within_pad. destruct (Qlt_le_dec (fst (place coarse i j)) (x_of fine 0 - inject_Z (Z.of_nat w) * g_dx fine)); [right; lra|].
      destruct (Qlt_le_dec (x_of fine (n - 1) + inject_Z (Z.of_nat w) * g_dx fine) (fst (place coarse i j))); [right; lra|].
      destruct (Qlt_le_dec (snd (place coarse i j)) (y_of fine 0 - inject_Z (Z.of_nat w) * g_dy fine)); [right; lra|].
      destruct (Qlt_le_dec (y_of fine (m - 1) + inject_Z (Z.of_nat w) * g_dy fine) (snd (place coarse i j))); [right; lra|left; lra]. }
    destruct D as [D|D].
    - destruct (T2 D) as (a & b & _ & _ & A1 & A2).
      assert (Dz : (0 <= a < Z.of_nat n /\ 0 <= b < Z.of_nat m)%Z \/ ~ (0 <= a < Z.of_nat n /\ 0 <= b < Z.of_nat m)%Z) by lia.
      destruct Dz as [Dz|Dz]; [|rewrite (A2 Dz) in Hv; discriminate]. rewrite (A1 Dz) in Hv. injection Hv as <-. apply Hrf; lia.
    - rewrite (T1 D) in Hv. injection Hv as <-. apply Hrc; assumption. }
  assert (Hk : forall p a, In (p, a) known -> exists v, a = Fin v /\ lo <= v <= hi).
  { intros p a Hpa. destruct (Hkn p a Hpa) as (i & j & Hi & Hj & _ & Hv). exact (Htr i j a Hi Hj Hv). }
  assert (Hans : forall a, In a answers -> in_range lo hi a).
  { intros a Ha. destruct asks as [|q asks]; [destruct (H0 eq_refl) as [-> _]; destruct Ha|].
    destruct H1 as (Hi & _); [discriminate|]. exact (proj2 (Hidw _ _ _ Hi) lo hi Hk a Ha). }
  split.
  - intros i j Hi Hj. destruct (t i j) as [v|] eqn:Ev.
    + destruct (Hsome i j v Hi Hj Ev) as [-> _]. eauto.
    + destruct (Hnone i j Hi Hj Ev) as (k & _ & Hk'). apply Hans. eapply nth_error_In; eauto.
  - destruct asks as [|q asks].
    + destruct (H0 eq_refl) as (_ & h & Eh & Hm). exists h. split; auto.
      assert (Hin : forall a, In a (map snd known) -> in_range lo hi a). { intros a Ha. apply in_map_iff in Ha. destruct Ha as ([p b] & <- & Hb). exact (Hk p b Hb). }
      destruct Hm as [[Hn _]|(_ & Hin' & _)]; [|auto]. destruct (Hin NaN Hn) as (v & Hv & _). discriminate.
    + destruct H1 as (_ & _ & h & Eh & Hm); [discriminate|]. exists h. split; auto.
      destruct Hm as [[Hn _]|(_ & Hin' & _)]; [|auto]. destruct (Hans NaN Hn) as (v & Hv & _). discriminate.
Qed.

Lemma blend_outside idw fine coarse w : ~ box_inside (g_bbox fine) (g_bbox coarse) -> blend_into idw fine coarse w = Ok coarse.
Proof. intros H. unfold blend_into. destruct (strictly_inside fine coarse) eqn:E; [apply box_inside_iff in E; contradiction|reflexivity]. Qed.

(** A fine grid that extrapolates: nothing of the coarse values is left. *)
Lemma blend_extrapolating idw fine coarse N M v w : g_extra fine = true -> shape (g_values coarse) N M -> shape v N M -> (0 < N)%nat ->
  box_inside (g_bbox fine) (g_bbox coarse) -> blend_into idw fine (set_values coarse v) w = blend_into idw fine coarse w.
Proof.
  intros He Hc Hv HN Hbox. unfold blend_into. change (strictly_inside fine (set_values coarse v)) with (strictly_inside fine coarse).
  apply box_inside_iff in Hbox. rewrite Hbox.
  destruct (pad_grid w fine) as [gp|e|] eqn:Egp; cbn [bind]; auto.
  assert (Ege : g_extra gp = true). { unfold pad_grid, make_grid in Egp. destruct (_ || _); [discriminate|]. injection Egp as <-. exact He. }
  assert (E : interpolate_to gp (set_values coarse v) = interpolate_to gp coarse).
  { unfold interpolate_to. change (g_bbox (set_values coarse v)) with (g_bbox coarse). destruct (boxes_overlap _ _); auto.
    destruct (shape_ny coarse N M Hc HN) as [-> ->]. destruct (shape_ny (set_values coarse v) N M Hv HN) as [-> ->].
    cbn [set_values g_dx g_dy g_hmin g_crs]. f_equal. unfold tabulate. apply map_ext. intros i. apply map_ext. intros j.
    unfold interpolate_cell. rewrite Ege. reflexivity. }
  rewrite E. reflexivity.
Qed.

(** * Witness: hmin is not the smallest size *)
Definition sea : grid :=
  {| g_bbox := (-1, 3, -1, 3); g_dx := 1; g_dy := 1; g_values := repeat (repeat (Fin 4) 5) 5; g_hmin := None; g_extra := true; g_crs := 0%nat; g_fill := None |}.
Definition idw_first (known : list ((Q * Q) * num)) (qs : list (Q * Q)) : res (list num) :=
  match known with [] => Raise IndexError | (_, a) :: _ => Ok (map (fun _ => a) qs) end.
Lemma idw_first_range : range_preserving idw_first.
Proof.
  intros known qs l H. unfold idw_first in H. destruct known as [|[p a] known]; [discriminate|]. injection H as <-. split; [now rewrite map_length|].
  intros lo hi Hk b Hb. apply in_map_iff in Hb. destruct Hb as (_ & <- & _). apply (Hk p). now left.
Qed.
Lemma sea_proper : proper_grid sea 5 5 /\ all_cells (in_range (1 # 2) 4) sea 5 5 /\ all_cells (in_range (1 # 2) 4) inlet 3 3 /\ box_inside (g_bbox inlet) (g_bbox sea).
Proof.
  split; [repeat split; simpl; try lia; try lra; repeat constructor|]. split; [|split].
  - intros i j Hi Hj. exists 4. split; [|lra]. unfold value_at, sea. cbn [g_values].
    rewrite (nth_indep _ [] (repeat (Fin 4) 5)) by (rewrite repeat_length; lia). rewrite nth_repeat. rewrite (nth_indep _ NaN (Fin 4)) by (rewrite repeat_length; lia). apply nth_repeat.
  - apply cells3. simpl. intros i j Hi Hj.
    repeat (destruct Hi as [<-|Hi]; [repeat (destruct Hj as [<-|Hj]; [eexists; split; [reflexivity|split; vm_compute; discriminate]|]); destruct Hj|]). destruct Hi.
  - repeat split; reflexivity.
Qed.
Lemma blend_hmin : exists idw fine coarse n m N M w lo hi r h i j, range_preserving idw /\ proper_grid fine n m /\ proper_grid coarse N M /\ g_extra fine = false /\
  0 < lo /\ all_cells (in_range lo hi) fine n m /\ all_cells (in_range lo hi) coarse N M /\ box_inside (g_bbox fine) (g_bbox coarse) /\
  blend_into idw fine coarse w = Ok r /\ g_hmin r = Some h /\ (i < N)%nat /\ (j < M)%nat /\ ~ nleq h (value_at r i j).
Proof.
  destruct sea_proper as (H1 & H2 & H3 & H4).
  exists idw_first, inlet, sea, 3%nat, 3%nat, 5%nat, 5%nat, 1%nat, (1 # 2), 4. eexists _, _, 2%nat, 2%nat.
  split; [apply idw_first_range|]. split; [apply inlet_regional|]. split; [assumption|]. split; [reflexivity|]. split; [lra|].
  split; [assumption|]. split; [assumption|]. split; [assumption|]. split; [vm_compute; reflexivity|]. split; [reflexivity|].
  split; [lia|]. split; [lia|]. vm_compute. intros H. now apply H.
Qed.
Lemma blend_case : proper_grid inlet 3 3 /\ proper_grid sea 5 5 /\ g_extra inlet = false /\ all_cells no_code inlet 3 3 /\ all_cells no_code sea 5 5 /\
  box_inside (g_bbox inlet) (g_bbox sea) /\
  exists r, blend_into idw_first inlet sea 1 = Ok r /\ value_at r 2 2 = Fin (1 # 2) /\ value_at r 0 0 = Fin 4.
Proof.
  destruct sea_proper as (H1 & H2 & H3 & H4). split; [apply inlet_regional|]. split; [assumption|]. split; [reflexivity|].
  split; [eapply range_no_code; [|exact H3]; lra|]. split; [eapply range_no_code; [|exact H2]; lra|]. split; [assumption|].
  eexists. split; [vm_compute; reflexivity|]. split; reflexivity.
Qed.
