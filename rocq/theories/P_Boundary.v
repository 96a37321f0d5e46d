(** Proofs about ocean boundary sections. *)
From Coq Require Import List Arith Bool Lia ZArith QArith Permutation.
From Verif Require Import M_Base M_Numpy M_Edges M_Sdf M_Boundary S_Edges S_Boundary Util P_Edges.
Import ListNotations.
Open Scope nat_scope.

(** * The scan *)
Fixpoint scan_from (m : Z) (l : list nat) (st : scan_state) : scan_state :=
  match l with
  | s1 :: ((s2 :: r') as r) => scan_from m r (scan_step m (match r' with [] => true | _ => false end) s1 s2 st)
  | _ => st
  end.
Lemma scan_from_cons m x y l st : scan_from m (x :: y :: l) st = scan_from m (y :: l) (scan_step m (match l with [] => true | _ => false end) x y st).
Proof. reflexivity. Qed.
Lemma scan_loop_from m n : forall l idx st, idx + length l = n -> scan_loop m n idx (combine (removelast l) (tl l)) st = scan_from m l st.
Proof.
  induction l as [|x l IH]; intros idx st H; [reflexivity|]. destruct l as [|y l]; [reflexivity|].
  change (removelast (x :: y :: l)) with (x :: removelast (y :: l)). cbn [tl combine scan_loop]. rewrite scan_from_cons.
  assert (E : (idx + 2 =? n) = match l with [] => true | _ => false end).
  { destruct l; simpl in H; [apply Nat.eqb_eq|apply Nat.eqb_neq]; lia. }
  rewrite E. rewrite <- (IH (S idx)) by (simpl in *; lia). reflexivity.
Qed.
Lemma scan_sections_from m l : scan_sections m l = ss_sections (scan_from m l scan_init).
Proof. unfold scan_sections. now rewrite scan_loop_from. Qed.

Lemma step_near_first m lst x y st : near m x y -> ss_first st = true ->
  scan_step m lst x y st = {| ss_first := false; ss_start := Some x; ss_end := ss_end st; ss_sections := ss_sections st |}.
Proof. unfold near, scan_step. intros H ->. apply Z.ltb_lt in H. now rewrite H. Qed.
Lemma step_near_more m lst x y st : near m x y -> ss_first st = false ->
  scan_step m lst x y st = {| ss_first := false; ss_start := ss_start st; ss_end := Some y;
    ss_sections := if lst then ss_sections st ++ [(ss_start st, Some y)] else ss_sections st |}.
Proof. unfold near, scan_step. intros H E. rewrite E. apply Z.ltb_lt in H. rewrite H. destruct lst; reflexivity. Qed.
Lemma step_far_close m lst x y st : ~ near m x y -> ss_first st = false ->
  scan_step m lst x y st = {| ss_first := true; ss_start := Some x; ss_end := ss_end st; ss_sections := ss_sections st ++ [(ss_start st, ss_end st)] |}.
Proof.
  unfold near, scan_step. intros H E. rewrite E. assert ((Z.of_nat y - Z.of_nat x <? m)%Z = false) as -> by (apply Z.ltb_ge; lia).
  assert ((m <=? Z.of_nat y - Z.of_nat x)%Z = true) as -> by (apply Z.leb_le; lia). reflexivity.
Qed.
Lemma step_far_first m x y st : ~ near m x y -> ss_first st = true -> scan_step m false x y st = st.
Proof.
  unfold near, scan_step. intros H E. rewrite E. assert ((Z.of_nat y - Z.of_nat x <? m)%Z = false) as -> by (apply Z.ltb_ge; lia).
  rewrite andb_false_r. reflexivity.
Qed.

Lemma last_cons_indep {A} (l : list A) x d : last (x :: l) d = last l x.
Proof. revert x d. induction l as [|w l IH]; intros x d; [reflexivity|]. change (last (x :: w :: l) d) with (last (w :: l) d). rewrite IH. symmetry. exact (IH w x). Qed.
Lemma mid_end m a : forall l x st, run m (x :: l) -> l <> [] -> ss_first st = false -> ss_start st = Some a ->
  ss_sections (scan_from m (x :: l) st) = ss_sections st ++ [(Some a, Some (last l x))].
Proof.
  induction l as [|y l IH]; intros x st Hr Hl Hf Hs; [congruence|]. inversion Hr as [|x' y' l' Hn Hr']; subst.
  rewrite scan_from_cons, step_near_more by auto. destruct l as [|z l].
  - cbn. now rewrite Hs.
  - rewrite IH; auto; try congruence. cbn [ss_sections]. now rewrite (last_cons_indep (z :: l) y x).
Qed.
Lemma mid_next m a : forall l x y rest st, run m (x :: l) -> ~ near m (last l x) y -> ss_first st = false -> ss_start st = Some a ->
  (l <> [] \/ ss_end st = Some x) ->
  scan_from m ((x :: l) ++ y :: rest) st =
  scan_from m (y :: rest) {| ss_first := true; ss_start := Some (last l x); ss_end := Some (last l x); ss_sections := ss_sections st ++ [(Some a, Some (last l x))] |}.
Proof.
  induction l as [|z l IH]; intros x y rest st Hr Hn Hf Hs He.
  - destruct He as [He|He]; [congruence|]. cbn [app last]. cbn [last] in Hn.
    change (scan_from m (x :: y :: rest) st) with (scan_from m (y :: rest) (scan_step m (match rest with [] => true | _ => false end) x y st)).
    rewrite step_far_close by auto. now rewrite Hs, He.
  - inversion Hr as [|x' y' l' Hn' Hr']; subst. cbn [app].
    change (scan_from m (x :: z :: l ++ y :: rest) st) with (scan_from m ((z :: l) ++ y :: rest) (scan_step m (match l ++ y :: rest with [] => true | _ => false end) x z st)).
    rewrite step_near_more by auto. assert (E : (match l ++ y :: rest with [] => true | _ => false end) = false) by (destruct l; reflexivity). rewrite E.
    assert (L := last_cons_indep l z x).
    rewrite L in Hn |- *. rewrite (IH z y rest) by (auto; cbn; auto). cbn [ss_sections]. reflexivity.
Qed.
Lemma concat_nil_runs m rs : max_runs m rs -> concat rs = [] -> rs = [].
Proof.
  inversion 1 as [|r Hr|r x y l rs' Hr Hn Hm]; subst; auto; simpl; intros E.
  - inversion Hr; subst; discriminate.
  - destruct r; discriminate.
Qed.

Definition section_of (r : list nat) : option nat * option nat := (Some (hd 0 r), Some (last r 0)).
Definition long (r : list nat) : bool := 3 <=? length r.
Definition two_singles_last (rs : list (list nat)) : Prop := exists pre x y, rs = pre ++ [[x]; [y]].

Lemma scan_runs m rs : max_runs m rs -> Forall (fun r => length r = 1 \/ 3 <= length r) rs -> ~ two_singles_last rs ->
  forall st, ss_first st = true -> ss_sections (scan_from m (concat rs) st) = ss_sections st ++ map section_of (filter long rs).
Proof.
  induction 1 as [|r Hr|r x y l rs Hr Hn Hm IH]; intros Hlen Hsing st Hf.
  - cbn. now rewrite app_nil_r.
  - cbn [concat]. rewrite app_nil_r. inversion Hlen as [|? ? [H1|H3] _]; subst.
    + destruct r as [|a [|b r]]; try discriminate. cbn. now rewrite app_nil_r.
    + destruct r as [|a [|b [|c r]]]; try (simpl in H3; lia). inversion Hr as [|? ? ? Hn Hr']; subst.
      change (scan_from m (a :: b :: c :: r) st) with (scan_from m (b :: c :: r) (scan_step m false a b st)). rewrite step_near_first by auto.
      rewrite (mid_end m a) by (auto; congruence). cbn [ss_sections filter map]. assert (long (a :: b :: c :: r) = true) as -> by reflexivity.
      unfold section_of. cbn [map hd]. rewrite !last_cons_indep. reflexivity.
  - inversion Hlen as [|? ? Hr1 Hlen']; subst.
    assert (Hsing' : ~ two_singles_last ((y :: l) :: rs)). { intros (pre & a & b & E). apply Hsing. exists ((r ++ [x]) :: pre), a, b. rewrite E. reflexivity. }
    specialize (IH Hlen' Hsing'). cbn [concat filter]. destruct Hr1 as [H1|H3].
    + destruct r as [|a r]; [|rewrite app_length in H1; simpl in H1; lia]. cbn [app long length Nat.leb].
      assert (Hne : l ++ concat rs <> []).
      { intros Ec. apply app_eq_nil in Ec. destruct Ec as [-> Ec]. exfalso. apply Hsing. assert (rs = []) as ->.
        { inversion Hm as [|? ?|r0 x0 y0 l0 rs0 Hr0 Hn0 Hm0 E0]; subst; auto. simpl in Ec. discriminate. }
        exists [], x, y. reflexivity. }
      change (scan_from m (x :: y :: l ++ concat rs) st) with (scan_from m (concat ((y :: l) :: rs)) (scan_step m (match l ++ concat rs with [] => true | _ => false end) x y st)).
      assert ((match l ++ concat rs with [] => true | _ => false end) = false) as -> by (destruct (l ++ concat rs); congruence). rewrite step_far_first by auto. rewrite IH by auto. reflexivity.
    + assert (long (r ++ [x]) = true) as -> by (apply Nat.leb_le; auto). cbn [map].
      destruct r as [|a r]; [simpl in H3; lia|]. destruct r as [|b r]; [simpl in H3; lia|].
      change ((a :: b :: r) ++ [x]) with (a :: (b :: r) ++ [x]) in *. inversion Hr as [|? ? ? Hn' Hr']; subst.
      change (scan_from m ((a :: (b :: r) ++ [x]) ++ (y :: l) ++ concat rs) st) with
        (scan_from m ((b :: r ++ [x]) ++ y :: (l ++ concat rs)) (scan_step m (match (r ++ [x]) ++ y :: (l ++ concat rs) with [] => true | _ => false end) a b st)).
      rewrite step_near_first by auto.
      rewrite (mid_next m a (r ++ [x]) b y (l ++ concat rs)); auto.
      * change (y :: l ++ concat rs) with (concat ((y :: l) :: rs)). rewrite IH by reflexivity. cbn [ss_sections]. rewrite <- app_assoc. cbn [app].
        unfold section_of at 2. cbn [hd]. rewrite !last_cons_indep. rewrite !last_last. cbn [app]. rewrite ?last_cons_indep, ?last_last. reflexivity.
      * rewrite last_last. exact Hn.
      * left. destruct r; discriminate.
Qed.

(** * Order of the boundary nodes *)
Fixpoint verts (s : nat) (w : list edge) : list nat :=
  match w with [] => [] | (a, b) :: w' => let v := if a =? s then b else a in v :: verts v w' end.
Fixpoint starts (s : nat) (w : list edge) : list nat :=
  match w with [] => [] | (a, b) :: w' => s :: starts (if a =? s then b else a) w' end.
Lemma walk_cons s a b w t : walk s ((a, b) :: w) t -> a <> b -> (s = a /\ (a =? s) = true /\ walk b w t) \/ (s = b /\ (a =? s) = false /\ walk a w t).
Proof.
  intros [[-> H]|[-> H]] Hn; [left|right]; repeat split; auto; [apply Nat.eqb_refl|now apply Nat.eqb_neq].
Qed.
Lemma verts_starts : forall w s t, (forall a b, In (a, b) w -> a <> b) -> walk s w t -> s :: verts s w = starts s w ++ [t].
Proof.
  induction w as [|[a b] w IH]; intros s t Hn Hw; [simpl in Hw; now subst|].
  assert (Hn' : forall a b, In (a, b) w -> a <> b) by (intros; apply Hn; now right).
  destruct (walk_cons _ _ _ _ _ Hw (Hn a b (or_introl eq_refl))) as [(-> & E & Hw')|(-> & E & Hw')]; cbn [verts starts app]; rewrite E, (IH _ t); auto.
Qed.
Lemma starts_verts_count v : forall w s t, (forall a b, In (a, b) w -> a <> b) -> walk s w t ->
  count_occ Nat.eq_dec (starts s w) v + count_occ Nat.eq_dec (verts s w) v = wdeg w v.
Proof.
  induction w as [|[a b] w IH]; intros s t Hn Hw; [reflexivity|].
  assert (Hn' : forall a b, In (a, b) w -> a <> b) by (intros; apply Hn; now right). pose proof (Hn a b (or_introl eq_refl)) as Hab.
  unfold wdeg. cbn [filter]. unfold touchesb at 1. cbn [fst snd].
  destruct (walk_cons _ _ _ _ _ Hw Hab) as [(-> & E & Hw')|(-> & E & Hw')]; cbn [verts starts]; rewrite E; specialize (IH _ _ Hn' Hw'); unfold wdeg in IH; cbn [count_occ];
    destruct (Nat.eq_dec a v), (Nat.eq_dec b v); subst; try congruence; rewrite ?Nat.eqb_refl, ?orb_true_r; cbn [orb length]; try lia.
  - apply Nat.eqb_neq in n, n0. rewrite n, n0. cbn. lia.
  - apply Nat.eqb_neq in n, n0. rewrite n, n0. cbn. lia.
Qed.
Lemma first_seen_verts : forall w s t seen, (forall a b, In (a, b) w -> a <> b) -> walk s w t -> In s seen ->
  first_seen seen (flatten w) = first_seen seen (verts s w).
Proof.
  assert (M : forall x l, In x l -> existsb (Nat.eqb x) l = true) by (intros x l H; apply existsb_exists; exists x; split; auto; apply Nat.eqb_refl).
  induction w as [|[a b] w IH]; intros s t seen Hn Hw Hs; [reflexivity|].
  assert (Hn' : forall a b, In (a, b) w -> a <> b) by (intros; apply Hn; now right). pose proof (Hn a b (or_introl eq_refl)) as Hab.
  change (flatten ((a, b) :: w)) with (a :: b :: flatten w). cbn [verts].
  destruct (walk_cons _ _ _ _ _ Hw Hab) as [(-> & E & Hw')|(-> & E & Hw')]; rewrite E; cbn [first_seen].
  - rewrite (M _ _ Hs). destruct (existsb (Nat.eqb b) seen) eqn:Eb.
    + apply existsb_exists in Eb. destruct Eb as (x & Hx & Ex). apply Nat.eqb_eq in Ex. subst x. now apply (IH b t).
    + f_equal. apply (IH b t); auto. now left.
  - destruct (existsb (Nat.eqb a) seen) eqn:Ea.
    + rewrite (M _ _ Hs). apply existsb_exists in Ea. destruct Ea as (x & Hx & Ex). apply Nat.eqb_eq in Ex. subst x. now apply (IH a t).
    + f_equal. rewrite (M b (a :: seen)) by now right. apply (IH a t); auto. now left.
Qed.
Lemma first_seen_nodup s : forall l seen, NoDup l -> (forall x, In x l -> ~ In x seen) -> In s l \/ In s seen -> first_seen seen (l ++ [s]) = l.
Proof.
  induction l as [|x l IH]; intros seen Hd Hs Hin.
  - destruct Hin as [[]|Hin]. cbn. assert (existsb (Nat.eqb s) seen = true) as ->; auto. apply existsb_exists. exists s. split; auto. apply Nat.eqb_refl.
  - inversion Hd; subst. cbn [app first_seen]. assert (existsb (Nat.eqb x) seen = false) as ->.
    { apply not_true_is_false. intros H. apply existsb_exists in H. destruct H as (y & Hy & E). apply Nat.eqb_eq in E. subst y. apply (Hs x); simpl; auto. }
    f_equal. apply IH; auto.
    + intros y Hy [->|Hy']; [contradiction|]. apply (Hs y); simpl; auto.
    + destruct Hin as [[->|Hin]|Hin]; simpl; auto.
Qed.
Lemma verts_edges : forall w s t i u v, (forall a b, In (a, b) w -> a <> b) -> walk s w t ->
  nth_error (s :: verts s w) i = Some u -> nth_error (s :: verts s w) (S i) = Some v -> In (u, v) w \/ In (v, u) w.
Proof.
  induction w as [|[a b] w IH]; intros s t i u v Hn Hw Hu Hv; [cbn in Hv; destruct i; discriminate|].
  assert (Hn' : forall a b, In (a, b) w -> a <> b) by (intros; apply Hn; now right). pose proof (Hn a b (or_introl eq_refl)) as Hab.
  cbn [verts] in Hu, Hv. destruct (walk_cons _ _ _ _ _ Hw Hab) as [(-> & E & Hw')|(-> & E & Hw')]; rewrite E in Hu, Hv; cbv zeta in Hu, Hv.
  - destruct i as [|i]; [injection Hu as <-; injection Hv as <-; left; now left|].
    destruct (IH b t i u v Hn' Hw' Hu Hv); [left|right]; now right.
  - destruct i as [|i]; [injection Hu as <-; injection Hv as <-; right; now left|].
    destruct (IH a t i u v Hn' Hw' Hu Hv); [left|right]; now right.
Qed.
Lemma same_pair_comm u v x y : same_pair u v x y = same_pair v u x y.
Proof. unfold same_pair. destruct (u =? x), (v =? y), (u =? y), (v =? x); reflexivity. Qed.
Lemma edge_uses_comm u v ts : edge_uses u v ts = edge_uses v u ts.
Proof. unfold edge_uses. f_equal. apply map_ext. intros [[a b] c]. unfold side_uses. now rewrite (same_pair_comm u v a b), (same_pair_comm u v b c), (same_pair_comm u v c a). Qed.
Lemma first_edge ts w s t : get_winded_boundary_edges ts None = Ok w -> (forall a b, In (a, b) w -> a <> b) -> walk s w t ->
  exists a b w', w = (a, b) :: w'.
Proof.
  unfold get_winded_boundary_edges. destruct (nth_error _ _) as [[a b]|] eqn:E; [|discriminate]. destruct (wind_loop _ _ _ _ _) as [o| |] eqn:El; cbn; intros H; try discriminate.
  injection H as <-. intros _ _. destruct o as [|i o]; [|destruct (nth i (get_boundary_edges ts) (0, 0)) as [x y] eqn:Ex; exists x, y; cbn; rewrite Ex; eauto].
  exfalso. clear E. assert (G : forall fuel be vis o v o', wind_loop fuel be vis o v = Ok o' -> length o <= length o').
  { clear. induction fuel as [|fuel IH]; intros be vis o v o' H; [discriminate|]. cbn [wind_loop] in H. destruct (filter _ (rows_with be v)) as [|c cs]; [injection H as <-; lia|].
    destruct (nth c be (0, 0)) as [a b]. destruct (filter _ [a; b]) as [|x xs]; [discriminate|]. apply IH in H. rewrite app_length in H. lia. }
  apply G in El. simpl in El. lia.
Qed.
Lemma winded_first ts w : Forall nondegenerate ts -> get_winded_boundary_edges ts None = Ok w ->
  exists a b w' t, w = (a, b) :: w' /\ a <> b /\ walk a w t /\ (forall u v, In (u, v) w -> u <> v).
Proof.
  intros Hnd. unfold get_winded_boundary_edges. set (be := get_boundary_edges ts). destruct (nth_error be (wind_start be None)) as [[a b]|] eqn:E; [|discriminate].
  assert (Hne : forall a b, In (a, b) be -> a <> b) by (intros ? ?; now apply boundary_nondeg).
  destruct (wind_loop_ok (S (length be)) be _ _ a b (wind_init be _ a b E) Hne) as (o' & t & vis' & H1 & H2 & (o'' & H3) & _); [simpl; lia|].
  rewrite H1. cbn [bind]. intros H. injection H as <-. rewrite H3. cbn [app map]. rewrite (nth_error_nth _ _ _ E). exists a, b, (nth_edges be o''), t.
  assert (Hin : In (a, b) be) by (eapply nth_error_In; eauto). repeat split; auto.
  - pose proof (wi_walk _ _ _ _ _ H2) as W. rewrite H3 in W. unfold nth_edges in W. cbn [app map] in W. rewrite (nth_error_nth _ _ _ E) in W. exact W.
  - intros u v [Hi|Hi]; [injection Hi as <- <-; auto|]. apply Hne. apply (nth_edges_In be o''); auto. intros i Hi'. apply (wi_lt _ _ _ _ _ H2). rewrite H3. now right.
Qed.
Lemma walk_start_unique w s t : (forall a b, In (a, b) w -> a <> b) -> walk s w t -> forall s' t', walk s' w t' -> s = s' -> t = t'.
Proof.
  revert s t. induction w as [|[a b] w IH]; intros s t Hn H s' t' H' ->; [simpl in *; congruence|].
  assert (Hn' : forall a b, In (a, b) w -> a <> b) by (intros; apply Hn; now right). pose proof (Hn a b (or_introl eq_refl)) as Hab.
  destruct (walk_cons _ _ _ _ _ H Hab) as [(-> & E & Hw)|(-> & E & Hw)]; destruct (walk_cons _ _ _ _ _ H' Hab) as [(? & _ & Hw')|(? & _ & Hw')]; subst; try congruence; eapply IH; eauto.
Qed.
(** the loop: the boundary nodes in order *)
Lemma nodes_first_seen ts w : Forall nondegenerate ts -> get_winded_boundary_edges ts None = Ok w ->
  exists a t, walk a w t /\ (forall u v, In (u, v) w -> u <> v) /\ w <> [] /\ boundary_nodes ts = Ok (first_seen [] (a :: verts a w)).
Proof.
  intros Hnd Hw. destruct (winded_first ts w Hnd Hw) as (a & b & w' & t & -> & Hab & W & Hn). exists a, t. repeat split; auto; [congruence|].
  unfold boundary_nodes. rewrite Hw. cbn [bind]. f_equal. change (flatten ((a, b) :: w')) with (a :: b :: flatten w'). cbn [first_seen existsb].
  f_equal. assert (W0 := W). destruct (walk_cons _ _ _ _ _ W Hab) as [(_ & E & W')|(? & _)]; [|congruence]. cbn [verts]. rewrite E. cbn [first_seen]. 
  cbn [existsb]. assert (Eb : (b =? a) = false) by (apply Nat.eqb_neq; congruence). rewrite Eb. cbn [orb].
  f_equal. apply (first_seen_verts w' b t); auto; [intros; apply Hn; now right|now left].
Qed.
Lemma nodes_loop ts : Forall nondegenerate ts -> (exists u v, on_boundary ts u v) ->
  (forall v, boundary_degree ts v = 0 \/ boundary_degree ts v = 2) ->
  exists nodes, boundary_nodes ts = Ok nodes /\ nodes <> [] /\ boundary_loop ts nodes.
Proof.
  intros Hnd Hex Hdeg. destruct (winded_closed ts None Hnd Hex Hdeg) as (w & s & Hw & Hne & Hd & W & Hin & _).
  destruct (nodes_first_seen ts w Hnd Hw) as (a & t & Wa & Hn & _ & Hb).
  (* the walk from a is closed too *)
  assert (Hle : forall v, wdeg w v <= 2).
  { intros v. assert (I : incl w (get_boundary_edges ts)).
    { intros [x y] He. destruct (Hin _ _ He) as [L U]. apply get_boundary_edges_In. split; [lia|auto]. }
    pose proof (wdeg_incl_le w _ v Hd I) as G. rewrite boundary_degree_wdeg in G by auto. destruct (Hdeg v); lia. }
  assert (Hpar : forall v, Nat.even (wdeg w v) = true).
  { intros v. pose proof (walk_parity w s s v Hn W) as P. destruct (v =? s); [replace (wdeg w v + 1 + 1) with (S (S (wdeg w v))) in P by lia; exact P|].
    now rewrite !Nat.add_0_r in P. }
  assert (Ht : a = t).
  { destruct (Nat.eq_dec a t) as [|Hat]; auto. exfalso. pose proof (walk_parity w a t a Hn Wa) as P. rewrite Nat.eqb_refl in P. apply Nat.eqb_neq in Hat. rewrite Hat in P.
    rewrite Nat.add_0_r, Nat.add_1_r, Nat.even_succ, <- Nat.negb_even, Hpar in P. discriminate. }
  subst t. assert (Hvs := verts_starts w a a Hn Wa).
  assert (Hnd' : NoDup (starts a w)).
  { apply (NoDup_count_occ Nat.eq_dec). intros v. pose proof (starts_verts_count v w a a Hn Wa) as C. specialize (Hle v).
    assert (E : count_occ Nat.eq_dec (a :: verts a w) v = count_occ Nat.eq_dec (starts a w ++ [a]) v) by now rewrite Hvs.
    rewrite count_occ_app in E. cbn [count_occ] in E. destruct (Nat.eq_dec a v); lia. }
  assert (Ea : exists r, starts a w = a :: r). { destruct w as [|[x y] w]; [congruence|]. cbn. eauto. }
  destruct Ea as (r & Ea).
  assert (Hns : boundary_nodes ts = Ok (starts a w)).
  { rewrite Hb, Hvs. f_equal. apply first_seen_nodup; auto. left. rewrite Ea. now left. }
  exists (starts a w). split; auto. split; [rewrite Ea; congruence|]. split; auto.
  assert (Hon : forall u v, In (u, v) w \/ In (v, u) w -> on_boundary ts u v).
  { intros u v [H|H]; destruct (Hin _ _ H) as [_ U]; auto. unfold on_boundary. now rewrite edge_uses_comm. }
  split.
  - intros i u v Hu Hv. apply Hon. apply (verts_edges w a a i u v Hn Wa); rewrite Hvs; rewrite nth_error_app1; auto; apply nth_error_Some; congruence.
  - intros u v Hu Hv. apply Hon. rewrite Ea in Hu. cbn in Hu. injection Hu as <-.
    apply (verts_edges w a a (length (starts a w) - 1) v a Hn Wa); rewrite Hvs.
    + rewrite nth_error_app1; auto. rewrite Ea. simpl. lia.
    + assert (L : length (starts a w) > 0) by (rewrite Ea; simpl; lia). rewrite nth_error_app2 by lia. replace (S (length (starts a w) - 1) - length (starts a w)) with 0 by lia. reflexivity.
Qed.

(** * Deep positions *)
Lemma mapM_get_ok {A} (l : list A) : forall is, (forall i, In i is -> i < length l) -> exists r, mapM (get l) is = Ok r /\ length r = length is /\
  forall k i, nth_error is k = Some i -> nth_error r k = nth_error l i.
Proof.
  induction is as [|i is IH]; intros H; [exists []; repeat split; auto; intros [|k] ? E; discriminate|].
  destruct IH as (r & E & L & N); [intros; apply H; now right|]. cbn [mapM]. unfold get at 1.
  destruct (nth_error l i) as [x|] eqn:Ex; [|apply nth_error_None in Ex; specialize (H i (or_introl eq_refl)); lia].
  cbn [bind]. rewrite E. cbn [bind]. exists (x :: r). split; auto. split; [simpl; lia|]. intros [|k] j Hk; cbn in *; [injection Hk as <-; auto|auto].
Qed.
Lemma num_leb_deep d t : num_leb d t = true <-> deep t d.
Proof. destruct d as [q|b|]; cbn; [apply Qle_bool_iff|destruct b; cbn; intuition congruence|intuition congruence]. Qed.
Lemma increasing_cons x l : increasing (x :: l) <-> (forall y, In y l -> x < y) /\ increasing l.
Proof.
  revert x. induction l as [|y l IH]; intros x; [simpl; intuition|]. cbn [increasing]. rewrite (IH y). split.
  - intros (H1 & H2 & H3). split; [|auto]. intros z [<-|Hz]; auto. specialize (H2 z Hz). lia.
  - intros (H1 & H2 & H3). split; [apply H1; now left|auto].
Qed.
Lemma positions_spec (f : num -> bool) : forall d off, let ps := map fst (filter (fun p => f (snd p)) (combine (seq off (length d)) d)) in
  increasing ps /\ (forall i, In i ps <-> off <= i /\ exists x, nth_error d (i - off) = Some x /\ f x = true).
Proof.
  induction d as [|x d IH]; intros off ps; [split; [exact I|]; intros i; split; [intros []|intros (_ & y & E & _); destruct (i - off); discriminate]|].
  destruct (IH (S off)) as [I1 I2]. cbv zeta in I1, I2. subst ps. cbn [length seq combine filter snd].
  set (ps := map fst (filter (fun p => f (snd p)) (combine (seq (S off) (length d)) d))) in *.
  assert (Hstep : forall i, In i ps <-> S off <= i /\ exists y, nth_error (x :: d) (i - off) = Some y /\ f y = true).
  { intros i. rewrite I2. split; intros (H & y & E & F); (split; [auto|exists y; split; auto]); [replace (i - off) with (S (i - S off)) by lia; exact E|replace (i - off) with (S (i - S off)) in E by lia; exact E]. }
  destruct (f x) eqn:Fx; cbn [map]; fold ps.
  - split.
    + apply increasing_cons. split; auto. intros y Hy. apply I2 in Hy. cbn. lia.
    + intros i. cbn [In fst]. rewrite Hstep. split.
      * intros [<-|(H & y & E & F)]; [split; auto; exists x; rewrite Nat.sub_diag; auto|split; [lia|eauto]].
      * intros (H & y & E & F). destruct (Nat.eq_dec off i); [now left|right]. split; [lia|eauto].
  - split; auto. intros i. rewrite Hstep. split.
    + intros (H & y & E & F). split; [lia|eauto].
    + intros (H & y & E & F). destruct (Nat.eq_dec off i); [subst; rewrite Nat.sub_diag in E; cbn in E; congruence|split; [lia|eauto]].
Qed.
Lemma combine_seq_snoc (d : list num) (f : num -> bool) : f NaN = false ->
  filter (fun p => f (snd p)) (combine (seq 0 (S (length d))) (d ++ [NaN])) = filter (fun p => f (snd p)) (combine (seq 0 (length d)) d).
Proof.
  intros F. generalize 0 as off. induction d as [|x d IH]; intros off; [cbn; now rewrite F|]. specialize (IH (S off)).
  change (combine (seq off (S (length (x :: d)))) ((x :: d) ++ [NaN])) with ((off, x) :: combine (seq (S off) (S (length d))) (d ++ [NaN])).
  change (combine (seq off (length (x :: d))) (x :: d)) with ((off, x) :: combine (seq (S off) (length d)) d).
  cbn [filter]. rewrite IH. reflexivity.
Qed.
Lemma find_stops_spec topo nodes t : (forall v, In v nodes -> v < length topo) -> exists ps, find_stops topo nodes t = Ok ps /\ deep_positions topo t nodes ps.
Proof.
  intros H. unfold find_stops. destruct (mapM_get_ok topo nodes H) as (d & E & L & N). rewrite E. cbn [bind].
  rewrite (combine_seq_snoc d (fun x => num_leb x t)) by reflexivity. eexists. split; [reflexivity|].
  destruct (positions_spec (fun x => num_leb x t) d 0) as [I1 I2]. split; auto. intros i. rewrite I2. rewrite Nat.sub_0_r. split.
  - intros (_ & x & Ex & Fx). destruct (nth_error nodes i) as [v|] eqn:Ev.
    + exists v, x. split; auto. rewrite (N i v Ev) in Ex. split; auto. now apply num_leb_deep.
    + exfalso. apply nth_error_None in Ev. assert (nth_error d i <> None) by congruence. apply nth_error_Some in H0. lia.
  - intros (v & x & Ev & Ex & Hd). split; [lia|]. exists x. rewrite (N i v Ev). split; auto. now apply num_leb_deep.
Qed.
Lemma increasing_unique : forall l l', increasing l -> increasing l' -> (forall i : nat, In i l <-> In i l') -> l = l'.
Proof.
  induction l as [|x l IH]; intros [|y l'] H H' E; auto.
  - exfalso. apply (E y). now left.
  - exfalso. apply (E x). now left.
  - apply increasing_cons in H, H'. destruct H as [H1 H2], H' as [H1' H2'].
    assert (x = y). { assert (Hx : In x (y :: l')) by (apply E; now left). assert (Hy : In y (x :: l)) by (apply E; now left).
      destruct Hx as [->|Hx]; auto. destruct Hy as [->|Hy]; auto. specialize (H1 y Hy). specialize (H1' x Hx). lia. }
    subst y. f_equal. apply IH; auto. intros i. specialize (E i). cbn in E. split; intros Hi.
    + destruct (proj1 E (or_intror Hi)) as [->|]; auto. specialize (H1 i Hi). lia.
    + destruct (proj2 E (or_intror Hi)) as [->|]; auto. specialize (H1' i Hi). lia.
Qed.
Lemma deep_positions_unique topo t nodes ps ps' : deep_positions topo t nodes ps -> deep_positions topo t nodes ps' -> ps = ps'.
Proof. intros [H1 H2] [H3 H4]. apply increasing_unique; auto. intros i. now rewrite H2, H4. Qed.
Lemma deep_positions_lt topo t nodes ps i : deep_positions topo t nodes ps -> In i ps -> i < length nodes.
Proof. intros [_ H] Hi. apply H in Hi. destruct Hi as (v & d & E & _). apply nth_error_Some. congruence. Qed.

Lemma run_nonempty m r : run m r -> r <> [].
Proof. inversion 1; congruence. Qed.
Lemma max_runs_run m rs r : max_runs m rs -> In r rs -> run m r.
Proof. induction 1 as [|r' Hr|r' x y l rs Hr Hn Hm IH]; intros Hin; [destruct Hin|destruct Hin as [<-|[]]; auto|destruct Hin as [<-|Hin]; auto]. Qed.
Lemma sections_nodes nodes rs : (forall r, In r rs -> r <> []) -> (forall i, In i (concat rs) -> i < length nodes) ->
  mapM (map_section nodes) (map section_of rs) = Ok (map (fun r => (nth (hd 0 r) nodes 0, nth (last r 0) nodes 0)) rs).
Proof.
  induction rs as [|r rs IH]; intros Hne Hlt; [reflexivity|]. cbn [map mapM].
  assert (G : forall i, In i r -> get nodes i = Ok (nth i nodes 0)).
  { intros i Hi. unfold get. destruct (nth_error nodes i) eqn:E; [now rewrite (nth_error_nth _ _ 0 E)|]. apply nth_error_None in E. assert (i < length nodes) by (apply Hlt; cbn; apply in_or_app; auto). lia. }
  assert (Hr : r <> []) by (apply Hne; now left). unfold map_section at 1, section_of at 1. cbn [fst snd node_at].
  rewrite (G (hd 0 r)) by (destruct r; [congruence|now left]). cbn [bind]. unfold section_of at 1. cbn [fst snd node_at].
  rewrite (G (last r 0)) by (destruct (exists_last Hr) as (r' & x & ->); rewrite last_last; apply in_or_app; right; now left).
  cbn [bind]. rewrite IH; [reflexivity| |]; [intros; apply Hne; now right|intros i Hi; apply Hlt; cbn; apply in_or_app; auto].
Qed.
Lemma nodes_lt ts (topo : list num) nodes : (forall t v, In t ts -> has_vertex v t -> v < length topo) -> boundary_loop ts nodes -> forall v, In v nodes -> v < length topo.
Proof.
  intros H (Hd & He & Hl) v Hv. assert (P : exists u, on_boundary ts v u).
  { apply In_nth_error in Hv. destruct Hv as [i Hi]. destruct i as [|i].
    - destruct nodes as [|x nodes]; [discriminate|]. injection Hi as ->. destruct nodes as [|y nodes]; [exists v; apply Hl; reflexivity|].
      exists y. apply (He 0); reflexivity.
    - destruct (nth_error nodes i) as [u|] eqn:E; [|apply nth_error_None in E; assert (nth_error nodes (S i) <> None) as K by congruence; apply nth_error_Some in K; lia].
      exists u. unfold on_boundary. rewrite edge_uses_comm. exact (He i u v E Hi). }
  destruct P as (u & Hu). unfold on_boundary, edge_uses in Hu.
  assert (X : exists t, In t ts /\ side_uses v u t >= 1).
  { clear - Hu. induction ts as [|t ts IH]; [discriminate|]. cbn in Hu. destruct (side_uses v u t) eqn:E; [destruct IH as (t' & Ht & G); auto; exists t'; simpl; auto|exists t; simpl; split; [auto|lia]]. }
  destruct X as (t & Ht & G). apply side_uses_vertex in G. now apply (H t v Ht).
Qed.
Lemma sections_exact ts (topo : list num) : Forall nondegenerate ts -> (exists u v, on_boundary ts u v) ->
  (forall v, boundary_degree ts v = 0 \/ boundary_degree ts v = 2) -> (forall t v, In t ts -> has_vertex v t -> v < length topo) ->
  exists nodes, nodes <> [] /\ boundary_loop ts nodes /\
  forall t m rs, max_runs m rs -> deep_positions topo t nodes (concat rs) ->
    Forall (fun r => length r = 1 \/ 3 <= length r) rs -> ~ (exists pre x y, rs = pre ++ [[x]; [y]]) ->
    identify_ocean_boundary_sections ts topo t m =
      Ok (map (fun r => (nth (hd 0 r) nodes 0, nth (last r 0) nodes 0)) (filter (fun r => 3 <=? length r) rs)).
Proof.
  intros H1 H2 H3 H4. destruct (nodes_loop ts H1 H2 H3) as (nodes & E & Hne & Hl). exists nodes. split; auto. split; auto.
  intros t m rs Hm Hp Hlen Hs. unfold identify_ocean_boundary_sections. rewrite E. cbn [bind].
  destruct (find_stops_spec topo nodes t (nodes_lt ts topo nodes H4 Hl)) as (ps & Ep & Hp'). rewrite Ep. cbn [bind].
  assert (ps = concat rs) as -> by (eapply deep_positions_unique; eauto). rewrite scan_sections_from, scan_runs by auto. cbn [ss_sections scan_init app].
  apply sections_nodes.
  - intros r Hr. apply filter_In in Hr. destruct Hr as [Hr _]. apply (run_nonempty m). now apply (max_runs_run m rs).
  - intros i Hi. apply (deep_positions_lt topo t nodes (concat rs)); auto. apply in_concat in Hi. destruct Hi as (r & Hr & Hi). apply filter_In in Hr. apply in_concat. exists r. tauto.
Qed.
(** every increasing list can be cut into maximal runs *)
Lemma cut_runs m : forall l, exists rs, max_runs m rs /\ concat rs = l.
Proof.
  induction l as [|x l (rs & Hm & <-)]; [exists []; split; [constructor|reflexivity]|].
  destruct rs as [|[|y r] rs].
  - exists [[x]]. split; [repeat constructor|reflexivity].
  - exfalso. inversion Hm as [|r Hr|r x' y' l' rs' Hr Hn Hm' E]; subst; [inversion Hr|]. destruct r; discriminate.
  - destruct (Z_lt_dec (Z.of_nat y - Z.of_nat x) m) as [Hn|Hn].
    + exists ((x :: y :: r) :: rs). split; [|reflexivity]. inversion Hm as [|r0 Hr|r0 x' y' l' rs' Hr Hn' Hm' E]; subst.
      * constructor. constructor; auto.
      * change (x :: r0 ++ [x']) with ((x :: r0) ++ [x']). constructor; auto. cbn [app]. rewrite E in Hr |- *. constructor; auto.
    + exists ([x] :: (y :: r) :: rs). split; [|reflexivity]. change [x] with ([] ++ [x]). constructor; auto. constructor.
Qed.
(** exactly two deep nodes *)
Lemma two_deep ts topo t m nodes a b : boundary_nodes ts = Ok nodes -> (forall v, In v nodes -> v < length topo) -> deep_positions topo t nodes [a; b] ->
  (near m a b -> identify_ocean_boundary_sections ts topo t m = Ok []) /\
  (~ near m a b -> identify_ocean_boundary_sections ts topo t m = Raise TypeError).
Proof.
  intros E H Hp. unfold identify_ocean_boundary_sections. rewrite E. cbn [bind].
  destruct (find_stops_spec topo nodes t H) as (ps & Ep & Hp'). rewrite Ep. cbn [bind].
  assert (ps = [a; b]) as -> by (eapply deep_positions_unique; eauto). rewrite scan_sections_from. rewrite scan_from_cons. cbn [scan_from]. split; intros Hn.
  - rewrite step_near_first by auto. reflexivity.
  - unfold scan_step, near in *. assert ((Z.of_nat b - Z.of_nat a <? m)%Z = false) as -> by (apply Z.ltb_ge; lia). rewrite andb_false_r. reflexivity.
Qed.
Lemma two_deep_nodes ts (topo : list num) : Forall nondegenerate ts -> (exists u v, on_boundary ts u v) ->
  (forall v, boundary_degree ts v = 0 \/ boundary_degree ts v = 2) -> (forall t v, In t ts -> has_vertex v t -> v < length topo) ->
  exists nodes, nodes <> [] /\ boundary_loop ts nodes /\ forall t m a b, deep_positions topo t nodes [a; b] ->
  (near m a b -> identify_ocean_boundary_sections ts topo t m = Ok []) /\
  (~ near m a b -> identify_ocean_boundary_sections ts topo t m = Raise TypeError).
Proof.
  intros H1 H2 H3 H4. destruct (nodes_loop ts H1 H2 H3) as (nodes & E & Hne & Hl). exists nodes. split; auto. split; auto.
  intros t m a b Hp. apply (two_deep ts topo t m nodes); auto. now apply (nodes_lt ts topo nodes).
Qed.

(** * Findings *)
Definition fan : list tri := map (fun i => (0, i, S i)) (seq 1 10).
(** depth -100 at the listed nodes, 0 elsewhere *)
Definition topo_of (n : nat) (deepn : list nat) : list num := map (fun i => Fin (if existsb (Nat.eqb i) deepn then -100 else 0)%Q) (seq 0 n).
Lemma filter_none {A} (f : A -> bool) l : (forall x, In x l -> f x = false) -> filter f l = [].
Proof. induction l as [|a l IH]; intros H; cbn; auto. rewrite (H a (or_introl eq_refl)). apply IH. intros; apply H; now right. Qed.
Lemma fan_ok : Forall nondegenerate fan /\ (exists u v, on_boundary fan u v) /\ (forall v, boundary_degree fan v = 0 \/ boundary_degree fan v = 2) /\
  (forall t v, In t fan -> has_vertex v t -> v < length (topo_of 12 [])).
Proof.
  split; [repeat constructor; discriminate|]. split; [exists 0, 1; reflexivity|]. split.
  - intros v. destruct (le_lt_dec 12 v) as [H|H].
    + left. unfold boundary_degree. replace (filter _ _) with (@nil nat); [reflexivity|]. symmetry. apply filter_none. intros u _. apply Nat.eqb_neq. intros E.
      assert (L : edge_uses u v fan >= 1) by lia. apply edge_uses_lt in L. cbv in L. lia.
    + do 12 (destruct v as [|v]; [right; reflexivity|]). lia.
  - intros t v Ht Hv. cbn [length topo_of]. unfold topo_of. rewrite map_length, seq_length. assert (v < vbound fan) by now apply (has_vertex_lt fan t). cbv in H. lia.
Qed.
Lemma lost_pair : identify_ocean_boundary_sections fan (topo_of 12 [3; 4]) (-50) 2 = Ok [].
Proof. vm_compute. reflexivity. Qed.
Lemma pair_crash : identify_ocean_boundary_sections fan (topo_of 12 [0; 1; 4; 5; 6]) (-50) 2 = Raise TypeError.
Proof. vm_compute. reflexivity. Qed.
Lemma single_crash : identify_ocean_boundary_sections fan (topo_of 12 [3; 6; 9]) (-50) 2 = Raise TypeError.
Proof. vm_compute. reflexivity. Qed.
Lemma stale_end : identify_ocean_boundary_sections fan (topo_of 12 [0; 1; 2; 4; 5; 7; 8; 9]) (-50) 2 = Ok [(0, 2); (4, 2); (7, 9)].
Proof. vm_compute. reflexivity. Qed.
Lemma bogus_last : identify_ocean_boundary_sections fan (topo_of 12 [0; 1; 2; 5; 9]) (-50) 2 = Ok [(0, 2); (2, 9)].
Proof. vm_compute. reflexivity. Qed.
Lemma short_section : identify_ocean_boundary_sections fan (topo_of 12 [4; 5; 6]) (-50) 10 = Ok [(4, 6)].
Proof. vm_compute. reflexivity. Qed.
Lemma seam_split : identify_ocean_boundary_sections fan (topo_of 12 [0; 1; 2; 9; 10; 11]) (-50) 2 = Ok [(0, 2); (9, 11)] /\ on_boundary fan 11 0.
Proof. split; vm_compute; reflexivity. Qed.
Lemma annulus_inner : identify_ocean_boundary_sections annulus (topo_of 8 [4; 5; 6; 7]) (-50) 10 = Ok [] /\
  on_boundary annulus 4 5 /\ on_boundary annulus 5 6 /\ on_boundary annulus 6 7 /\ on_boundary annulus 4 7.
Proof. repeat split; vm_compute; reflexivity. Qed.

(** Any runs. *)
Lemma long_shape (r : list nat) : 3 <= length r -> exists a b c r', r = a :: b :: c :: r'.
Proof. destruct r as [|a [|b [|c r']]]; cbn; intros; try lia. eauto. Qed.
Lemma scan_reported m rs : max_runs m rs -> forall st, ss_first st = true ->
  ss_sections (scan_from m (concat rs) st) = ss_sections st ++ reported (ss_start st) (ss_end st) rs.
Proof.
  induction 1 as [|r R|r x y l rs R F M IH]; intros st FS.
  - cbn. rewrite app_nil_r. reflexivity.
  - cbn [concat reported]. rewrite app_nil_r. destruct r as [|a [|b [|c r']]].
    + cbn. rewrite app_nil_r. reflexivity.
    + cbn. rewrite app_nil_r. reflexivity.
    + inversion R; subst. rewrite scan_from_cons. rewrite step_near_first by assumption. cbn. rewrite app_nil_r. reflexivity.
    + inversion R as [|? ? ? N R']; subst. rewrite scan_from_cons. rewrite step_near_first by assumption.
      rewrite (mid_end m a); [|exact R'|discriminate|reflexivity|reflexivity].
      cbn [ss_sections length Nat.leb hd]. rewrite !last_cons_indep. reflexivity.
  - set (rest := (y :: l) :: rs) in *. cbn [concat]. rewrite <- app_assoc. cbn [app].
    assert (CR : exists tl, concat rest = y :: tl) by (unfold rest; cbn; eauto). destruct CR as (tl & CR). rewrite CR.
    destruct r as [|a [|b r']].
    + (* a single node *)
      cbn [app]. rewrite scan_from_cons. destruct tl as [|z tl].
      * (* the last run is [y] *)
        assert (l = [] /\ rs = []).
        { unfold rest in CR. cbn in CR. injection CR as CR. apply app_eq_nil in CR. destruct CR as (-> & CR). split; [reflexivity|].
          inversion M; subst; auto. cbn in CR. discriminate. }
        destruct H as (-> & ->). unfold rest. cbn [reported]. unfold scan_step.
        assert (N : (Z.of_nat y - Z.of_nat x <? m)%Z = false) by (apply Z.ltb_ge; unfold near in F; lia).
        rewrite N, FS. rewrite andb_false_r. reflexivity.
      * rewrite step_far_first by assumption. rewrite <- CR. rewrite IH by exact FS. f_equal. unfold rest in *. cbn [reported].
        destruct l as [|l0 l]; [|destruct rs; reflexivity]. destruct rs; [|reflexivity]. cbn in CR. injection CR as CR. discriminate.
    + (* a pair *)
      cbn [app] in *. inversion R as [|? ? ? N R']; subst. rewrite scan_from_cons. rewrite step_near_first by assumption.
      rewrite scan_from_cons, step_far_close by (assumption || reflexivity). rewrite <- CR, IH by reflexivity. cbn [ss_sections ss_start ss_end].
      rewrite <- app_assoc. reflexivity.
    + (* three or more *)
      cbn [app] in *. inversion R as [|? ? ? N R']; subst. rewrite scan_from_cons. rewrite step_near_first by assumption.
      assert (LA : last (r' ++ [x]) b = x) by apply last_last.
      change (b :: r' ++ x :: y :: tl) with ((b :: r') ++ x :: y :: tl). replace ((b :: r') ++ x :: y :: tl) with ((b :: (r' ++ [x])) ++ y :: tl) by (cbn; rewrite <- app_assoc; reflexivity).
      rewrite (mid_next m a); [|exact R'|rewrite LA; exact F|reflexivity|reflexivity|left; destruct r'; discriminate].
      rewrite <- CR, IH by reflexivity. cbn [ss_sections ss_start ss_end]. rewrite LA, <- app_assoc. f_equal. unfold rest. cbn [reported].
      destruct (r' ++ [x]) as [|c r2] eqn:E; [destruct r'; discriminate|]. rewrite !last_cons_indep. rewrite last_cons_indep in LA. rewrite LA. reflexivity.
Qed.
Lemma pair_inside_cons r rest : pair_inside (r :: rest) <-> (length r = 2 /\ rest <> []) \/ pair_inside rest.
Proof.
  split.
  - intros (pre & x & y & post & E & N). destruct pre as [|p pre]; cbn in E; injection E as -> ->; [left; auto|right; exists pre, x, y, post; auto].
  - intros [(L & N)|(pre & x & y & post & -> & N)].
    + destruct r as [|x [|y [|z r]]]; cbn in L; try lia. exists [], x, y, rest. auto.
    + exists (r :: pre), x, y, post. auto.
Qed.
Lemma no_end_cons r rest : no_end_yet (r :: rest) <-> (length r = 2 /\ rest <> []) \/ (length r < 3 /\ no_end_yet rest).
Proof.
  split.
  - intros (pre & x & y & post & E & N & F). destruct pre as [|p pre]; cbn in E; injection E as -> ->; [left; auto|]. inversion F; subst.
    right. split; [assumption|]. exists pre, x, y, post. auto.
  - intros [(L & N)|(L & pre & x & y & post & -> & N & F)].
    + destruct r as [|x [|y [|z r]]]; cbn in L; try lia. exists [], x, y, rest. auto.
    + exists (r :: pre), x, y, post. auto.
Qed.
Lemma singles_last_cons r rest : singles_last (r :: rest) <-> (exists x y, r = [x] /\ rest = [[y]]) \/ singles_last rest.
Proof.
  split.
  - intros (pre & x & y & E). destruct pre as [|p pre]; cbn in E; injection E as -> ->; [left; eauto|right; exists pre, x, y; auto].
  - intros [(x & y & -> & ->)|(pre & x & y & ->)]; [exists [], x, y; auto|exists (r :: pre), x, y; auto].
Qed.
Lemma singles_last_long r : ~ singles_last [r].
Proof. intros (pre & x & y & E). destruct pre as [|p [|q pre]]; discriminate. Qed.
Lemma pair_inside_nil : ~ pair_inside [].
Proof. intros ([|p pre] & x & y & post & E & _); discriminate. Qed.
Lemma no_end_nil : ~ no_end_yet [].
Proof. intros ([|p pre] & x & y & post & E & _); discriminate. Qed.
Lemma singles_last_nil : ~ singles_last [].
Proof. intros ([|p pre] & x & y & E); discriminate. Qed.

Lemma reported_more : forall rs start stop, length (filter long rs) <= length (reported start stop rs) /\
  (length (reported start stop rs) = length (filter long rs) -> ~ pair_inside rs /\ ~ singles_last rs).
Proof.
  induction rs as [|r rest IH]; intros start stop.
  - cbn. split; [lia|]. intros _. split; [apply pair_inside_nil|apply singles_last_nil].
  - destruct rest as [|r' rest'].
    + cbn [reported filter]. unfold long. destruct (3 <=? length r); cbn; (split; [lia|]); intros _; (split; [|apply singles_last_long]);
        intros P; apply pair_inside_cons in P; destruct P as [(_ & N)|P]; [congruence|apply (pair_inside_nil P)|congruence|apply (pair_inside_nil P)].
    + set (rest := r' :: rest') in *. destruct r as [|x [|y [|z r]]].
      * change (reported start stop ([] :: rest)) with ((Some (hd 0 []), Some (last [] 0)) :: reported (Some (last [] 0)) (Some (last [] 0)) rest).
        destruct (IH (Some (last [] 0)) (Some (last [] 0))) as (L & _). cbn [filter long length Nat.leb]. cbn [length]. split; [lia|]. intros E. lia.
      * cbn [filter long length Nat.leb].
        assert (C : (exists y, rest = [[y]]) \/ reported start stop ([x] :: rest) = reported start stop rest).
        { unfold rest. destruct r' as [|y [|y2 r2]]; [right; reflexivity| |right; reflexivity]. destruct rest'; [left; eauto|right; reflexivity]. }
        destruct C as [(y & ->)|C].
        -- cbn. split; [lia|]. intros E. discriminate.
        -- rewrite C. destruct (IH start stop) as (L & I). split; [exact L|]. intros E. destruct (I E) as (P & S). split.
           ++ intros Q. apply pair_inside_cons in Q. destruct Q as [(Q & _)|Q]; [cbn in Q; lia|auto].
           ++ intros Q. apply singles_last_cons in Q. destruct Q as [(u & v & _ & Q)|Q]; [|auto].
              rewrite Q in *. cbn in C. discriminate.
      * change (reported start stop ([x; y] :: rest)) with ((Some x, stop) :: reported (Some y) stop rest).
        destruct (IH (Some y) stop) as (L & _). cbn [filter long length Nat.leb]. split; [lia|]. intros E. lia.
      * change (reported start stop ((x :: y :: z :: r) :: rest)) with
          ((Some (hd 0 (x :: y :: z :: r)), Some (last (x :: y :: z :: r) 0)) :: reported (Some (last (x :: y :: z :: r) 0)) (Some (last (x :: y :: z :: r) 0)) rest).
        destruct (IH (Some (last (x :: y :: z :: r) 0)) (Some (last (x :: y :: z :: r) 0))) as (L & I).
        change (filter long ((x :: y :: z :: r) :: rest)) with ((x :: y :: z :: r) :: filter long rest). cbn [length]. split; [lia|].
        intros E. destruct I as (P & S); [lia|]. split.
        -- intros Q. apply pair_inside_cons in Q. destruct Q as [(Q & _)|Q]; [cbn in Q; lia|auto].
        -- intros Q. apply singles_last_cons in Q. destruct Q as [(u & v & Q & _)|Q]; [discriminate|auto].
Qed.
Lemma reported_good : forall rs start stop, Forall (fun r => r <> []) rs -> ~ pair_inside rs -> ~ singles_last rs ->
  reported start stop rs = map section_of (filter long rs).
Proof.
  induction rs as [|r rest IH]; intros start stop NE P S; [reflexivity|]. inversion NE as [|? ? NR NE']; subst. destruct rest as [|r' rest'].
  - cbn [reported filter]. unfold long. destruct (3 <=? length r); reflexivity.
  - set (rest := r' :: rest') in *.
    assert (P' : ~ pair_inside rest) by (intros Q; apply P; apply pair_inside_cons; auto).
    assert (S' : ~ singles_last rest) by (intros Q; apply S; apply singles_last_cons; auto).
    destruct r as [|x [|y [|z r]]]; [congruence| | |].
    + cbn [filter long length Nat.leb].
      assert (C : (exists y, rest = [[y]]) \/ reported start stop ([x] :: rest) = reported start stop rest).
      { unfold rest. destruct r' as [|y [|y2 r2]]; [right; reflexivity| |right; reflexivity]. destruct rest'; [left; eauto|right; reflexivity]. }
      destruct C as [(y & Q)|C]; [exfalso; apply S; apply singles_last_cons; left; exists x, y; auto|]. rewrite C. apply IH; assumption.
    + exfalso. apply P. apply pair_inside_cons. left. split; [reflexivity|discriminate].
    + change (reported start stop ((x :: y :: z :: r) :: rest)) with
        ((Some (hd 0 (x :: y :: z :: r)), Some (last (x :: y :: z :: r) 0)) :: reported (Some (last (x :: y :: z :: r) 0)) (Some (last (x :: y :: z :: r) 0)) rest).
      rewrite IH by assumption. reflexivity.
Qed.
Definition missing (p : option nat * option nat) : Prop := fst p = None \/ snd p = None.
Lemma reported_missing : forall rs start stop, Forall (fun r => r <> []) rs ->
  (Exists missing (reported start stop rs) <-> (stop = None /\ no_end_yet rs) \/ (start = None /\ all_single rs)).
Proof.
  induction rs as [|r rest IH]; intros start stop NE.
  - cbn. split; [intros H; inversion H|]. intros [(_ & H)|(_ & H & _)]; [destruct (no_end_nil H)|cbn in H; lia].
  - inversion NE as [|? ? NR NE']; subst. destruct rest as [|r' rest'].
    + cbn [reported]. split.
      * destruct (3 <=? length r); intros H; inversion H as [? ? X|? ? X]; subst; [destruct X; discriminate|inversion X].
      * intros [(_ & H)|(_ & H & _)]; [|cbn in H; lia]. apply no_end_cons in H. destruct H as [(_ & H)|(_ & H)]; [congruence|destruct (no_end_nil H)].
    + set (rest := r' :: rest') in *.
      assert (AS : forall x, all_single ([x] :: rest) <-> (all_single rest \/ exists y, rest = [[y]])).
      { intros x. unfold all_single. split.
        - intros (_ & F). inversion F; subst. destruct rest' as [|r2 rest2]; [|left; split; [cbn; lia|assumption]].
          right. inversion H2; subst. destruct r' as [|y [|z r']]; cbn in H3; try lia. exists y. reflexivity.
        - intros [(L & F)|(y & ->)]; [split; [cbn in *; lia|constructor; auto]|split; [cbn; lia|repeat constructor]]. }
      destruct r as [|x [|y [|z r]]]; [congruence| | |].
      * assert (C : (exists y, rest = [[y]]) \/ ((~ exists y, rest = [[y]]) /\ reported start stop ([x] :: rest) = reported start stop rest)).
        { unfold rest. destruct r' as [|y [|y2 r2]]; [right; split; [intros (q & Q); discriminate|reflexivity]| |right; split; [intros (q & Q); discriminate|reflexivity]].
          destruct rest'; [left; eauto|right; split; [intros (q & Q); discriminate|reflexivity]]. }
        destruct C as [(y & Q)|(NQ & C)].
        -- rewrite Q in *. cbn [reported]. split.
           ++ intros H. inversion H as [? ? X|? ? X]; subst; [|inversion X]. destruct X as [X|X]; [|discriminate]. cbn in X. subst start.
              right. split; [reflexivity|]. apply AS. right. exists y. reflexivity.
           ++ intros [(_ & H)|(-> & _)]; [|left; left; reflexivity].
              exfalso. apply no_end_cons in H. destruct H as [(H & _)|(_ & H)]; [cbn in H; lia|].
              apply no_end_cons in H. destruct H as [(_ & H)|(_ & H)]; [congruence|destruct (no_end_nil H)].
        -- rewrite C, IH by assumption. rewrite AS, no_end_cons. cbn [length]. split.
           ++ intros [(-> & H)|(-> & H)]; [left; split; [reflexivity|right; split; [lia|exact H]]|right; auto].
           ++ intros [(-> & [(H & _)|(_ & H)])|(-> & [H|H])]; [lia|auto|auto|tauto].
      * change (reported start stop ([x; y] :: rest)) with ((Some x, stop) :: reported (Some y) stop rest). rewrite Exists_cons, IH by assumption.
        rewrite no_end_cons. cbn [length]. split.
        -- intros [[H|H]|[(-> & H)|(H & _)]]; [discriminate|cbn in H; subst; left; split; [reflexivity|left; split; [reflexivity|discriminate]]
           |left; split; [reflexivity|right; split; [lia|exact H]]|discriminate].
        -- intros [(-> & _)|(_ & (_ & F))]; [left; right; reflexivity|inversion F; subst; discriminate].
      * change (reported start stop ((x :: y :: z :: r) :: rest)) with
          ((Some (hd 0 (x :: y :: z :: r)), Some (last (x :: y :: z :: r) 0)) :: reported (Some (last (x :: y :: z :: r) 0)) (Some (last (x :: y :: z :: r) 0)) rest).
        rewrite Exists_cons, IH by assumption. rewrite no_end_cons. cbn [length]. split.
        -- intros [[H|H]|[(H & _)|(H & _)]]; discriminate.
        -- intros [(_ & [(H & _)|(H & _)])|(_ & (_ & F))]; [lia|lia|inversion F; subst; discriminate].
Qed.
Lemma reported_in : forall rs start stop p, Forall (fun r => r <> []) rs -> In p (reported start stop rs) ->
  (fst p = start \/ exists a, fst p = Some a /\ In a (concat rs)) /\ (snd p = stop \/ exists b, snd p = Some b /\ In b (concat rs)).
Proof.
  assert (HD : forall r : list nat, r <> [] -> In (hd 0 r) r) by (intros [|a r]; [congruence|left; reflexivity]).
  assert (LA : forall r : list nat, r <> [] -> In (last r 0) r).
  { intros r H. destruct (exists_last H) as (r' & x & ->). rewrite last_last. apply in_or_app. right. left. reflexivity. }
  induction rs as [|r rest IH]; intros start stop p NE I; [destruct I|]. inversion NE as [|? ? NR NE']; subst. destruct rest as [|r' rest'].
  - cbn [reported] in I. destruct (3 <=? length r); [destruct I as [<-|[]]|destruct I]. cbn [fst snd concat]. rewrite app_nil_r. split; right; eauto.
  - set (rest := r' :: rest') in *.
    assert (W : forall start' stop', (start' = start \/ exists a, start' = Some a /\ In a r) -> (stop' = stop \/ exists b, stop' = Some b /\ In b r) ->
      In p (reported start' stop' rest) ->
      (fst p = start \/ exists a, fst p = Some a /\ In a (concat (r :: rest))) /\ (snd p = stop \/ exists b, snd p = Some b /\ In b (concat (r :: rest)))).
    { intros s' e' Hs He J. destruct (IH s' e' p NE' J) as (A & B). cbn [concat]. split.
      - destruct A as [->|(a & -> & Ia)]; [destruct Hs as [->|(a & -> & Ia)]; [auto|right; exists a; split; [reflexivity|apply in_or_app; auto]]|right; exists a; split; [reflexivity|apply in_or_app; auto]].
      - destruct B as [->|(b & -> & Ib)]; [destruct He as [->|(b & -> & Ib)]; [auto|right; exists b; split; [reflexivity|apply in_or_app; auto]]|right; exists b; split; [reflexivity|apply in_or_app; auto]]. }
    destruct r as [|x [|y [|z r]]]; [congruence| | |].
    + assert (C : (exists y, rest = [[y]]) \/ reported start stop ([x] :: rest) = reported start stop rest).
      { unfold rest. destruct r' as [|y [|y2 r2]]; [right; reflexivity| |right; reflexivity]. destruct rest'; [left; eauto|right; reflexivity]. }
      destruct C as [(y & Q)|C].
      * rewrite Q in *. cbn [reported] in I. destruct I as [<-|[]]. cbn [fst snd]. split; [auto|]. right. exists y. split; [reflexivity|]. cbn. auto.
      * rewrite C in I. apply (W start stop); auto.
    + change (reported start stop ([x; y] :: rest)) with ((Some x, stop) :: reported (Some y) stop rest) in I. destruct I as [<-|I].
      * cbn [fst snd]. split; [|auto]. right. exists x. split; [reflexivity|]. cbn. auto.
      * apply (W (Some y) stop); auto. right. exists y. cbn. auto.
    + change (reported start stop ((x :: y :: z :: r) :: rest)) with
        ((Some (hd 0 (x :: y :: z :: r)), Some (last (x :: y :: z :: r) 0)) :: reported (Some (last (x :: y :: z :: r) 0)) (Some (last (x :: y :: z :: r) 0)) rest) in I.
      destruct I as [<-|I].
      * cbn [fst snd]. cbn [concat]. split; right; eexists; (split; [reflexivity|]); apply in_or_app; left; auto.
      * apply (W (Some (last (x :: y :: z :: r) 0)) (Some (last (x :: y :: z :: r) 0))); auto; right; eauto.
Qed.

Lemma sections_all_at ts (topo : list num) nodes : (forall t v, In t ts -> has_vertex v t -> v < length topo) ->
  boundary_nodes ts = Ok nodes -> boundary_loop ts nodes ->
  forall t m rs, max_runs m rs -> deep_positions topo t nodes (concat rs) ->
    (no_end_yet rs \/ all_single rs -> identify_ocean_boundary_sections ts topo t m = Raise TypeError) /\
    (~ (no_end_yet rs \/ all_single rs) -> exists secs, identify_ocean_boundary_sections ts topo t m = Ok secs /\
      Forall2 (fun p s => exists a b, p = (Some a, Some b) /\ nth_error nodes a = Some (fst s) /\ nth_error nodes b = Some (snd s)) (reported None None rs) secs) /\
    (identify_ocean_boundary_sections ts topo t m =
      Ok (map (fun r => (nth (hd 0 r) nodes 0, nth (last r 0) nodes 0)) (filter (fun r => 3 <=? length r) rs)) <->
      ~ pair_inside rs /\ ~ singles_last rs).
Proof.
  intros H4 E Hl.
  intros t m rs Hm Hp. unfold identify_ocean_boundary_sections. rewrite E. cbn [bind].
  destruct (find_stops_spec topo nodes t (nodes_lt ts topo nodes H4 Hl)) as (ps & Ep & Hp'). rewrite Ep. cbn [bind].
  assert (ps = concat rs) as -> by (eapply deep_positions_unique; eauto). rewrite scan_sections_from, scan_reported by (auto || reflexivity).
  cbn [ss_sections ss_start ss_end scan_init app].
  assert (NE : Forall (fun r => r <> []) rs).
  { apply Forall_forall. intros r Hr. apply (run_nonempty m). now apply (max_runs_run m rs). }
  assert (IN : forall p, In p (reported None None rs) -> (forall a, fst p = Some a -> a < length nodes) /\ (forall b, snd p = Some b -> b < length nodes)).
  { intros p I. destruct (reported_in rs None None p NE I) as (A & B). split.
    - intros a Ea. destruct A as [A|(a' & A & Ia)]; [congruence|]. replace a with a' by congruence. eapply deep_positions_lt; eauto.
    - intros b Eb. destruct B as [B|(b' & B & Ib)]; [congruence|]. replace b with b' by congruence. eapply deep_positions_lt; eauto. }
  assert (MS := reported_missing rs None None NE).
  assert (MI : no_end_yet rs \/ all_single rs <-> Exists missing (reported None None rs)) by (rewrite MS; tauto). clear MS.
  assert (RES : forall l, (forall p, In p l -> (forall a, fst p = Some a -> a < length nodes) /\ (forall b, snd p = Some b -> b < length nodes)) ->
    (Exists missing l -> mapM (map_section nodes) l = Raise TypeError) /\
    (~ Exists missing l -> exists secs, mapM (map_section nodes) l = Ok secs /\
      Forall2 (fun p s => exists a b, p = (Some a, Some b) /\ nth_error nodes a = Some (fst s) /\ nth_error nodes b = Some (snd s)) l secs)).
  { induction l as [|(oa, ob) l IHl]; intros HI.
    - split; [intros X; inversion X|]. intros _. exists []. split; [reflexivity|constructor].
    - destruct IHl as (I1 & I2); [intros p Ip; apply HI; right; exact Ip|]. destruct (HI (oa, ob) (or_introl eq_refl)) as (HA & HB). cbn [fst snd] in HA, HB.
      destruct oa as [a|].
      + destruct (nth_error nodes a) as [u|] eqn:U; [|apply nth_error_None in U; specialize (HA a eq_refl); lia]. destruct ob as [b|].
        * destruct (nth_error nodes b) as [v|] eqn:V; [|apply nth_error_None in V; specialize (HB b eq_refl); lia].
          assert (EM : map_section nodes (Some a, Some b) = Ok (u, v)).
          { unfold map_section, node_at, get. cbn [fst snd]. rewrite U. cbn [bind]. rewrite V. reflexivity. }
          cbn [mapM]. rewrite EM. cbn [bind]. split.
          -- intros X. rewrite I1; [reflexivity|]. inversion X as [? ? Y|? ? Y]; subst; [destruct Y; discriminate|exact Y].
          -- intros X. destruct I2 as (secs & -> & F); [intros Y; apply X; right; exact Y|]. exists ((u, v) :: secs). split; [reflexivity|].
             constructor; [exists a, b; auto|exact F].
        * assert (EM : map_section nodes (Some a, None) = Raise TypeError).
          { unfold map_section, node_at, get. cbn [fst snd]. rewrite U. reflexivity. }
          cbn [mapM]. rewrite EM. cbn [bind]. split; [reflexivity|]. intros X. exfalso. apply X. left. right. reflexivity.
      + cbn. split; [reflexivity|]. intros X. exfalso. apply X. left. left. reflexivity. }
  destruct (RES _ IN) as (R1 & R2). split; [rewrite MI; exact R1|]. split; [rewrite MI; exact R2|]. split.
  - intros X. destruct (reported_more rs None None) as (_ & C). apply C.
    assert (ND : ~ Exists missing (reported None None rs)) by (intros Y; rewrite (R1 Y) in X; discriminate).
    destruct (R2 ND) as (secs & Y & F). rewrite Y in X. injection X as ->. assert (LEN : forall A B (R : A -> B -> Prop) l l', Forall2 R l l' -> length l = length l') by (induction 1; cbn; congruence).
    rewrite (LEN _ _ _ _ _ F), map_length. reflexivity.
  - intros (P & S). rewrite (reported_good rs None None NE P S). apply sections_nodes.
    + intros r Hr. apply filter_In in Hr. destruct Hr as [Hr _]. rewrite Forall_forall in NE. apply NE. exact Hr.
    + intros i Hi. apply (deep_positions_lt topo t nodes (concat rs)); auto. apply in_concat in Hi. destruct Hi as (r & Hr & Hi). apply filter_In in Hr. apply in_concat. exists r. tauto.
Qed.
Lemma sections_all ts (topo : list num) : Forall nondegenerate ts -> (exists u v, on_boundary ts u v) ->
  (forall v, boundary_degree ts v = 0 \/ boundary_degree ts v = 2) -> (forall t v, In t ts -> has_vertex v t -> v < length topo) ->
  exists nodes, nodes <> [] /\ boundary_loop ts nodes /\
  forall t m rs, max_runs m rs -> deep_positions topo t nodes (concat rs) ->
    (no_end_yet rs \/ all_single rs -> identify_ocean_boundary_sections ts topo t m = Raise TypeError) /\
    (~ (no_end_yet rs \/ all_single rs) -> exists secs, identify_ocean_boundary_sections ts topo t m = Ok secs /\
      Forall2 (fun p s => exists a b, p = (Some a, Some b) /\ nth_error nodes a = Some (fst s) /\ nth_error nodes b = Some (snd s)) (reported None None rs) secs) /\
    (identify_ocean_boundary_sections ts topo t m =
      Ok (map (fun r => (nth (hd 0 r) nodes 0, nth (last r 0) nodes 0)) (filter (fun r => 3 <=? length r) rs)) <->
      ~ pair_inside rs /\ ~ singles_last rs).
Proof.
  intros H1 H2 H3 H4. destruct (nodes_loop ts H1 H2 H3) as (nodes & E & Hne & Hl). exists nodes. split; auto. split; auto.
  intros. now apply sections_all_at.
Qed.
Lemma all_case : let rs := [[0; 1; 2]; [4; 5]; [7]; [9]] in
  reported None None rs = [(Some 0, Some 2); (Some 4, Some 2); (Some 5, Some 9)] /\ ~ (no_end_yet rs \/ all_single rs) /\ pair_inside rs /\ singles_last rs /\
  identify_ocean_boundary_sections fan (topo_of 12 [0; 1; 2; 4; 5; 7; 9]) (-50) 2 = Ok [(0, 2); (4, 2); (5, 9)].
Proof.
  cbn zeta. split; [reflexivity|]. split.
  - intros [H|(_ & H)]; [|inversion H; discriminate]. apply no_end_cons in H. destruct H as [(H & _)|(H & _)]; cbn in H; lia.
  - split; [exists [[0; 1; 2]], 4, 5, [[7]; [9]]; split; [reflexivity|discriminate]|]. split; [exists [[0; 1; 2]; [4; 5]], 7, 9; reflexivity|].
    vm_compute. reflexivity.
Qed.
