(** Proofs about the checks and options of multiscale meshing. *)
From Coq Require Import List Arith Bool ZArith QArith Qreals Reals String Lia Lqa.
From Verif Require Import M_Base M_Sdf P_Sdf M_Grid M_Region M_Stereo M_Dem M_Validate S_Grid S_Region S_Validate P_Grid P_Region P_Dem.
Import ListNotations.
Open Scope Q_scope.

Lemma app_nil_iff {A} : forall l l' : list A, l ++ l' = [] <-> l = [] /\ l' = [].
Proof. intros l l'. split; [apply app_eq_nil|intros [-> ->]; reflexivity]. Qed.

Section Validate.
  Context {user crs : Type} (parse : user -> option crs) (is4326 geographic : crs -> bool) (equals : crs -> crs -> bool) (st : Q * Q -> option (Q * Q)) {F : Type}.
  Notation dom := (vdomain user F).
  Local Notation v_stereo := (v_stereo user F).
  Local Notation v_crs := (v_crs user F).
  Local Notation v_bbox := (v_bbox user F).

  Lemma stereo_nil : forall (ds : list dom) i, stereo_indices user F i ds = [] <-> forall d, In d ds -> v_stereo d = false.
  Proof.
    induction ds as [|d r IH]; intro i; cbn [stereo_indices]; [split; [intros _ d []|reflexivity]|]. destruct (v_stereo d) eqn:E.
    - split; [discriminate|]. intro H. rewrite (H d) in E by (left; reflexivity). discriminate.
    - rewrite IH. split; [intros H x [<-|X]; [exact E|auto]|intros H x X; apply H; right; exact X].
  Qed.
  Lemma stereo_ge : forall (ds : list dom) i j, In j (stereo_indices user F i ds) -> (i <= j)%nat.
  Proof.
    induction ds as [|d r IH]; intros i j; cbn [stereo_indices]; [intros []|]. destruct (v_stereo d).
    - intros [<-|H]; [lia|]. apply IH in H. lia.
    - intro H. apply IH in H. lia.
  Qed.
  Lemma only_first_cons : forall (d : dom) r, stereo_only_first (d :: r) <-> forall e, In e r -> v_stereo e = false.
  Proof.
    intros d r. split.
    - intros H e I. destruct (v_stereo e) eqn:E; [|reflexivity]. apply In_nth_error in I. destruct I as (n & N). specialize (H (S n) e N E). discriminate.
    - intros H [|i] e I E; [reflexivity|]. unfold at_index in I. cbn [nth_error] in I. apply nth_error_In in I. rewrite (H e I) in E. discriminate.
  Qed.
  Lemma find_global_spec : forall ds : list dom, (snd (find_global_domain user F ds) = [] <-> stereo_only_first ds) /\
    (stereo_only_first ds -> forall g, fst (find_global_domain user F ds) = Some g <-> at_index ds 0 g /\ v_stereo g = true).
  Proof.
    intros [|d r].
    - split; [split; [intros _ i d I; destruct i; discriminate|reflexivity]|]. intros _ g. split; [discriminate|intros [H _]; discriminate].
    - rewrite only_first_cons. unfold find_global_domain. cbn [stereo_indices]. pose proof (stereo_nil r 1) as N. pose proof (stereo_ge r 1) as G.
      destruct (v_stereo d) eqn:E.
      + destruct (stereo_indices user F 1 r) as [|j s]; cbn [fst snd nth_error Nat.eqb].
        * split; [split; [intros _; apply N; reflexivity|reflexivity]|]. intros _ g. split; [intro H; injection H as <-; split; [reflexivity|exact E]|intros [H _]; exact H].
        * split; [split; [discriminate|intro H; apply N in H; discriminate]|intro H; apply N in H; discriminate].
      + destruct (stereo_indices user F 1 r) as [|j s]; cbn [fst snd].
        * split; [split; [intros _; apply N; reflexivity|reflexivity]|]. intros _ g. split; [discriminate|]. intros [H H']. injection H as <-. congruence.
        * assert (J : (1 <= j)%nat) by (apply G; left; reflexivity).
          split; [split|]; try (intro H; apply N in H; discriminate). intro H. exfalso. destruct s; [|discriminate]. destruct j; [lia|discriminate].
  Qed.
  Lemma global_like_iff : forall d : dom, global_like user crs parse is4326 F d = true <-> covers_world parse is4326 d.
  Proof.
    intro d. unfold global_like, covers_world, is_wgs84. destruct (v_crs d) as [u|]; [|split; [discriminate|intros (? & ? & H & _); discriminate]].
    destruct (parse u) as [c|] eqn:P.
    - rewrite andb_true_iff. destruct (v_bbox d) as [b|].
      + rewrite global_iff. split; [intros [H W]; exists u, b; repeat split; eauto|]. intros (u' & b' & E & (c' & C & D) & B & W). injection E as <-. injection B as <-. split; [congruence|exact W].
      + split; [intros [_ H]; discriminate|]. intros (? & ? & _ & _ & B & _). discriminate.
    - split; [discriminate|]. intros (u' & b & E & (c & C & _) & _). injection E as <-. congruence.
  Qed.
  Lemma detect_spec : forall (ds : list dom) i, match detect_implicit user crs parse is4326 F i ds with
    | Some k => exists j d, k = (i + j)%nat /\ first_world parse is4326 ds j d
    | None => forall d, In d ds -> ~ covers_world parse is4326 d end.
  Proof.
    induction ds as [|d r IH]; intro i; cbn [detect_implicit]; [intros d []|]. destruct (global_like user crs parse is4326 F d) eqn:E.
    - apply global_like_iff in E. exists 0%nat, d. split; [lia|]. split; [reflexivity|]. split; [exact E|]. intros j e J; lia.
    - assert (NE : ~ covers_world parse is4326 d) by (rewrite <- global_like_iff; congruence). specialize (IH (S i)). destruct (detect_implicit _ _ _ _ _ _ r) as [k|].
      + destruct IH as (j & e & -> & A & B & C). exists (S j), e. split; [lia|]. split; [exact A|]. split; [exact B|].
        intros [|j'] e' J I; [injection I as <-; exact NE|]. apply (C j'); [lia|exact I].
      + intros x [<-|X]; [exact NE|exact (IH x X)].
  Qed.
  Lemma first_world_unique : forall (ds : list dom) k d k' d', first_world parse is4326 ds k d -> first_world parse is4326 ds k' d' -> k = k' /\ d = d'.
  Proof.
    intros ds k d k' d' (A & B & C) (A' & B' & C'). assert (k = k').
    { destruct (Nat.lt_trichotomy k k') as [L|[L|L]]; [exfalso; exact (C' k d L A B)|exact L|exfalso; exact (C k' d' L A' B')]. }
    subst k'. split; [reflexivity|]. unfold at_index in *. congruence.
  Qed.
  Lemma presence_iff : forall (ds : list dom) i, crs_presence user F i ds = [] <-> forall d, In d ds -> v_crs d <> None.
  Proof.
    induction ds as [|d r IH]; intro i; cbn [crs_presence]; [split; [intros _ d []|reflexivity]|]. rewrite app_nil_iff, IH. split.
    - intros [H1 H2] x [<-|X]; [destruct (v_crs d); [discriminate|discriminate H1]|auto].
    - intro H. split; [|intros x X; apply H; right; exact X]. specialize (H d (or_introl eq_refl)). destruct (v_crs d); [reflexivity|contradiction].
  Qed.
  Lemma any_iff : forall (ds : list dom) els, has_any_crs user F ds els = true <-> (exists d, In d ds /\ v_crs d <> None) \/ (exists e, In e els /\ el_crs user e <> None).
  Proof.
    intros ds els. unfold has_any_crs. rewrite orb_true_iff, !existsb_exists.
    assert (G : forall o : option user, has user o = true <-> o <> None) by (intros [u|]; cbn; split; congruence).
    split; (intros [(x & X & H)|(x & X & H)]; [left|right]; exists x; (split; [exact X|apply G; exact H])).
  Qed.
  Lemma has_iff : forall (e : vsizing user) u, sizing_has e u <-> el_crs user e = Some u.
  Proof. unfold sizing_has. intros [[c|]|] u; cbn; split; congruence. Qed.
  Lemma has_none : forall e : vsizing user, (forall u, ~ sizing_has e u) <-> el_crs user e = None.
  Proof. intro e. split; [intro H; destruct (el_crs user e) as [u|] eqn:E; [exfalso; exact (H u (proj2 (has_iff e u) E))|reflexivity]|intros H u I; apply has_iff in I; congruence]. Qed.
  Lemma e2_iff : forall (ds : list dom) els, List.length ds = List.length els ->
    (if has_any_crs user F ds els || match detect_implicit user crs parse is4326 F 0 ds with Some _ => true | None => false end then crs_presence user F 0 ds else []) = [] <-> crs_everywhere_or_nowhere ds els.
  Proof.
    intros ds els L. pose proof (any_iff ds els) as A. pose proof (detect_spec ds 0) as D. unfold crs_everywhere_or_nowhere.
    destruct (has_any_crs user F ds els) eqn:E; cbn [orb].
    - rewrite presence_iff. split; [left; assumption|]. intros [H|[H1 H2]]; [exact H|]. destruct (proj1 A eq_refl) as [(d & I & N)|(e & I & N)]; [rewrite (H1 d I) in N|rewrite (proj1 (has_none e) (fun u => H2 e u I)) in N]; congruence.
    - assert (N1 : forall d : dom, In d ds -> v_crs d = None). { intros d I. destruct (v_crs d) eqn:C; [|reflexivity]. enough (false = true) by discriminate. apply A. left. exists d. split; [exact I|congruence]. }
      assert (N2 : forall e, In e els -> el_crs user e = None). { intros e I. destruct (el_crs user e) eqn:C; [|reflexivity]. enough (false = true) by discriminate. apply A. right. exists e. split; [exact I|congruence]. }
      destruct (detect_implicit _ _ _ _ _ 0 ds) as [k|].
      + destruct D as (j & d & _ & I & (u & b & U & _) & _). apply nth_error_In in I. rewrite (N1 d I) in U. discriminate.
      + split; [intros _; right; split; [exact N1|intros e u I; exact (proj2 (has_none e) (N2 e I) u)]|reflexivity].
  Qed.
  Lemma compatible_iff : forall g r, compatible user crs parse is4326 geographic g r = true <->
    forall u v, g = Some u -> r = Some v -> (exists c, parse u = Some c /\ geographic c = true /\ is4326 c = true) /\ parse v <> None.
  Proof.
    intros [u|] [v|]; cbn [compatible]; try (split; [intros _ ? ? A B; discriminate|reflexivity]). split.
    - intros H u' v' A B. injection A as <-. injection B as <-. destruct (parse u) as [c|]; [|discriminate]. destruct (parse v); [|discriminate]. apply andb_true_iff in H. split; [exists c; tauto|discriminate].
    - intro H. destruct (H u v eq_refl eq_refl) as [(c & C & G & E) N]. rewrite C. destruct (parse v); [|congruence]. rewrite G, E. reflexivity.
  Qed.
  Lemma min4 : forall a b c d lo, lo <= pmin (pmin (pmin a b) c) d <-> lo <= a /\ lo <= b /\ lo <= c /\ lo <= d.
  Proof.
    intros a b c d lo. destruct (pmin_spec a b) as (A1 & A2 & A3). set (x := pmin a b) in *. destruct (pmin_spec x c) as (B1 & B2 & B3). set (y := pmin x c) in *. destruct (pmin_spec y d) as (C1 & C2 & C3).
    split; [lra|]. intros (H1 & H2 & H3 & H4). destruct C3 as [-> | ->]; [|exact H4]. destruct B3 as [-> | ->]; [|exact H3]. destruct A3 as [-> | ->]; assumption.
  Qed.
  Lemma max4 : forall a b c d hi, pmax (pmax (pmax a b) c) d <= hi <-> a <= hi /\ b <= hi /\ c <= hi /\ d <= hi.
  Proof.
    intros a b c d hi. destruct (pmax_spec a b) as (A1 & A2 & A3). set (x := pmax a b) in *. destruct (pmax_spec x c) as (B1 & B2 & B3). set (y := pmax x c) in *. destruct (pmax_spec y d) as (C1 & C2 & C3).
    split; [lra|]. intros (H1 & H2 & H3 & H4). destruct C3 as [-> | ->]; [|exact H4]. destruct B3 as [-> | ->]; [|exact H3]. destruct A3 as [-> | ->]; assumption.
  Qed.
  Lemma corners_iff : forall gb db, (exists sb, corner_box st db = Some sb /\ within gb sb) <-> corners_in st gb db.
  Proof.
    intros [[[g0 g1] g2] g3] [[[x0 x1] y0] y1]. unfold corner_box, corners_in. cbn [b0 b1 b2 b3]. split.
    - intros (sb & E & W). destruct (st (x0, y0)) as [p|] eqn:E1; [|discriminate]. destruct (st (x1, y0)) as [q|] eqn:E2; [|discriminate]. destruct (st (x1, y1)) as [r|] eqn:E3; [|discriminate]. destruct (st (x0, y1)) as [s|] eqn:E4; [|discriminate].
      injection E as <-. unfold within in W. rewrite !min4, !max4 in W.
      intros x y [-> | ->] [-> | ->]; eexists; (split; [eassumption|]); unfold in_box; lra.
    - intro H. destruct (H x0 y0 ltac:(auto) ltac:(auto)) as (p & -> & P). destruct (H x1 y0 ltac:(auto) ltac:(auto)) as (q & -> & Q0). destruct (H x1 y1 ltac:(auto) ltac:(auto)) as (r & -> & R). destruct (H x0 y1 ltac:(auto) ltac:(auto)) as (s & -> & S0).
      eexists. split; [reflexivity|]. unfold within, in_box in *. rewrite !min4, !max4. lra.
  Qed.
  Lemma contained_iff : forall g d : dom, v_stereo g = true -> contained user st F g d = Some true <-> region_in_global st g d.
  Proof.
    intros g d S0. unfold contained, region_in_global. rewrite S0. destruct (v_bbox g) as [gb|]; [|split; [discriminate|intros (? & ? & H & _); discriminate]].
    destruct (v_bbox d) as [db|]; [|split; [discriminate|intros (? & ? & _ & H & _); discriminate]]. pose proof (corners_iff gb db) as C.
    transitivity (world_like gb \/ corners_in st gb db).
    - rewrite <- C. destruct (corner_box st db) as [sb|].
      + split.
        * intro H. assert (X : bbox_contains gb sb = true) by congruence. apply contains_iff in X. destruct X as [X|X]; [left; exact X|right; exists sb; auto].
        * intro H. f_equal. apply contains_iff. destruct H as [H|(sb' & E & W)]; [left; exact H|right; congruence].
      + split.
        * intro H. left. apply global_iff. congruence.
        * intros [H|(sb & E & _)]; [f_equal; apply global_iff; exact H|discriminate].
    - split; [intro H; exists gb, db; auto|]. intros (gb' & db' & E & E' & H). injection E as <-. injection E' as <-. exact H.
  Qed.
  Lemma regions_iff : forall (g : dom) ds i, v_stereo g = true -> regions_errors user crs parse is4326 geographic st F g i ds = [] <->
    forall d, In d ds -> region_in_global st g d /\ v_stereo d = false /\ compatible user crs parse is4326 geographic (v_crs g) (v_crs d) = true.
  Proof.
    intros g ds i S0. revert i. induction ds as [|d r IH]; intro i; cbn [regions_errors]; [split; [intros _ d []|reflexivity]|].
    rewrite app_nil_iff, IH. unfold region_errors at 1. rewrite !app_nil_iff.
    assert (A : region_in_global st g d <-> contained user st F g d = Some true) by (symmetry; apply contained_iff; exact S0). split.
    - intros [(H1 & H2 & H3) H] x [<-|X]; [|auto]. split; [|split].
      + apply A. destruct (contained _ _ _ g d) as [[]|]; [reflexivity|discriminate|discriminate].
      + destruct (v_stereo d); [discriminate|reflexivity].
      + destruct (compatible _ _ _ _ _ _ _); [reflexivity|discriminate].
    - intro H. split; [|intros x X; apply H; right; exact X]. destruct (H d (or_introl eq_refl)) as (H1 & H2 & H3). apply A in H1. rewrite H1, H2, H3. auto.
  Qed.
  Lemma mixing_cases : forall (ds : list dom) c k j, mixing_loop user crs parse equals F c k j ds = [] \/ mixing_loop user crs parse equals F c k j ds = [EImplicitMix].
  Proof.
    induction ds as [|d r IH]; intros c k j; cbn [mixing_loop]; [auto|]. destruct (j =? k)%nat; [apply IH|]. destruct (v_crs d); [|apply IH]. destruct (parse u); [|auto]. destruct (equals c c0); [apply IH|auto].
  Qed.
  Lemma mixing_iff : forall (ds : list dom) c k j, mixing_loop user crs parse equals F c k j ds = [EImplicitMix] <->
    exists i e r p, (j + i)%nat <> k /\ at_index ds i e /\ v_crs e = Some r /\ parse r = Some p /\ equals c p = false /\
      forall i' e' r', (i' < i)%nat -> (j + i')%nat <> k -> at_index ds i' e' -> v_crs e' = Some r' -> parse r' <> None.
  Proof.
    induction ds as [|d r IH]; intros c k j; cbn [mixing_loop]; [split; [discriminate|intros (i & ? & ? & ? & _ & I & _); destruct i; discriminate]|].
    assert (T : ((j = k) \/ v_crs d = None \/ (exists u p, v_crs d = Some u /\ parse u = Some p /\ equals c p = true)) -> mixing_loop user crs parse equals F c k (S j) r = [EImplicitMix] <->
      exists i e r0 p, (j + i)%nat <> k /\ at_index (d :: r) i e /\ v_crs e = Some r0 /\ parse r0 = Some p /\ equals c p = false /\
      forall i' e' r', (i' < i)%nat -> (j + i')%nat <> k -> at_index (d :: r) i' e' -> v_crs e' = Some r' -> parse r' <> None).
    { intro C. rewrite IH. split.
      - intros (i & e & u & p & A1 & A2 & A3 & A4 & A5 & A6). exists (S i), e, u, p. split; [lia|]. split; [exact A2|]. split; [exact A3|]. split; [exact A4|]. split; [exact A5|].
        intros [|i'] e' r' I J K L.
        + injection K as <-. destruct C as [C|[C|(u' & p' & C1 & C2 & _)]]; [lia|congruence|congruence].
        + apply (A6 i' e' r'); [lia|lia|exact K|exact L].
      - intros (i & e & u & p & A1 & A2 & A3 & A4 & A5 & A6). destruct i as [|i].
        + exfalso. injection A2 as <-. destruct C as [C|[C|(u' & p' & C1 & C2 & C3)]]; [lia|congruence|]. assert (u' = u) by congruence. subst u'. congruence.
        + exists i, e, u, p. split; [lia|]. split; [exact A2|]. split; [exact A3|]. split; [exact A4|]. split; [exact A5|].
          intros i' e' r' I J K L. apply (A6 (S i') e' r'); [lia|lia|exact K|exact L]. }
    destruct (Nat.eqb_spec j k) as [E|E]; [apply T; auto|]. destruct (v_crs d) as [u|] eqn:U; [|apply T; auto]. destruct (parse u) as [p|] eqn:P.
    - destruct (equals c p) eqn:Q0; [apply T; right; right; exists u, p; auto|]. split; [|reflexivity]. intros _. exists 0%nat, d, u, p. split; [lia|]. repeat split; auto. intros i' ? ? I; lia.
    - split; [discriminate|]. intros ([|i] & e & r0 & p & A1 & A2 & A3 & A4 & A5 & A6).
      + injection A2 as <-. congruence.
      + exfalso. apply (A6 0%nat d u); [lia|lia|reflexivity|exact U|exact P].
  Qed.
  Lemma implicit_iff : forall (ds : list dom) k d, first_world parse is4326 ds k d -> implicit_mixing user crs parse equals F ds k = [] <-> (v_stereo d = false -> ~ mixed parse equals ds k d).
  Proof.
    intros ds k d (I & (u & b & U & (c & P & _) & _) & _). unfold implicit_mixing. unfold at_index in I. rewrite I. destruct (v_stereo d); [split; [discriminate|reflexivity]|].
    rewrite U, P. destruct (mixing_cases ds c k 0) as [M|M]; rewrite M.
    - split; [|reflexivity]. intros _ _ (j & e & u' & c' & r & p & A1 & A2 & A3 & A4 & A5 & A6 & A7 & A8). assert (u' = u) by congruence. subst u'. assert (c' = c) by congruence. subst c'.
      enough (X : mixing_loop user crs parse equals F c k 0 ds = [EImplicitMix]) by congruence. apply mixing_iff. exists j, e, r, p. cbn [Nat.add]. auto 10.
    - split; [discriminate|]. intro H. exfalso. apply (H eq_refl). apply mixing_iff in M. destruct M as (i & e & r & p & A1 & A2 & A3 & A4 & A5 & A6). exists i, e, u, c, r, p. cbn [Nat.add] in *. auto 10.
  Qed.
  Lemma edge_iff : forall (ds : list dom) els i, edge_errors user crs parse equals F i ds els = [] <-> sizing_crs_match parse equals ds els.
  Proof.
    unfold sizing_crs_match. induction ds as [|d r IH]; intros [|e er] i; cbn [edge_errors].
    - split; [|reflexivity]. intros _ j ? ? ? ? I. destruct j; discriminate.
    - split; [|reflexivity]. intros _ j ? ? ? ? I. destruct j; discriminate.
    - split; [|reflexivity]. intros _ j ? ? ? ? _ I. destruct j; discriminate.
    - rewrite app_nil_iff, IH. split.
      + intros [H1 H2] [|j] d' e' eu du I J A B; [|exact (H2 j d' e' eu du I J A B)]. injection I as <-. injection J as <-. apply has_iff in A. rewrite A, B in H1.
        destruct (parse eu) as [ec|]; [|discriminate]. destruct (parse du) as [dc|]; [|discriminate]. destruct (equals ec dc) eqn:E; [|discriminate]. exists ec, dc; auto.
      + intro H. split; [|intros j d' e' eu du I J A B; exact (H (S j) d' e' eu du I J A B)].
        destruct (el_crs user e) as [eu|] eqn:A; [|reflexivity]. destruct (v_crs d) as [du|] eqn:B; [|reflexivity].
        destruct (H 0%nat d e eu du eq_refl eq_refl (proj2 (has_iff e eu) A) B) as (ec & dc & -> & -> & ->). reflexivity.
  Qed.
  Lemma validate_iff : forall (ds : list dom) els, fst (validate user crs parse is4326 geographic equals st F ds els) = true <-> accepts parse is4326 geographic equals st ds els.
  Proof.
    intros ds els. unfold validate, accepts. destruct (Nat.eqb_spec (List.length ds) (List.length els)) as [L|L]; cbn [negb]; [|split; [discriminate|intros [H _]; contradiction]].
    destruct (find_global_domain user F ds) as [g e1] eqn:FG. destruct (find_global_spec ds) as [G1 G2]. rewrite FG in G1, G2. cbn [fst snd] in G1, G2.
    match goal with |- fst (match ?l with _ => _ end, _) = true <-> _ => transitivity (l = []) end.
    { cbn [fst]. match goal with |- (match ?l with _ => _ end) = true <-> _ => destruct l end; split; try reflexivity; discriminate. }
    rewrite !app_nil_iff, (e2_iff ds els L), edge_iff, G1.
    assert (E4 : match detect_implicit user crs parse is4326 F 0 ds with Some i => implicit_mixing user crs parse equals F ds i | None => [] end = [] <-> no_hidden_global parse is4326 equals ds).
    { pose proof (detect_spec ds 0) as D. destruct (detect_implicit _ _ _ _ _ 0 ds) as [k|].
      - destruct D as (j & d & -> & W). cbn [Nat.add]. rewrite (implicit_iff _ _ _ W). unfold no_hidden_global. split.
        + intros H k' d' W'. destruct (first_world_unique _ _ _ _ _ W W') as [<- <-]. exact H.
        + intros H. apply H. exact W.
      - split; [|reflexivity]. intros _ k d (I & W & _). exfalso. apply (D d); [eapply nth_error_In; exact I|exact W]. }
    rewrite E4.
    assert (E3 : stereo_only_first ds -> match g with Some d => global_and_regions user crs parse is4326 geographic st F d ds | None => [] end = [] <-> forall g, at_index ds 0 g -> v_stereo g = true -> global_rules parse is4326 geographic st g ds).
    { intro SF. specialize (G2 SF). destruct g as [g|].
      - destruct (proj1 (G2 g) eq_refl) as [I S0]. transitivity (global_rules parse is4326 geographic st g ds).
        + unfold global_and_regions, global_rules. rewrite app_nil_iff, (regions_iff g _ _ S0). destruct ds as [|d0 r]; [discriminate|]. injection I as ->. cbn [tl].
          assert (C1 : global_crs_errors user crs parse is4326 F g = [] <-> forall u, v_crs g = Some u -> is_wgs84 parse is4326 u).
          { unfold global_crs_errors, is_wgs84. destruct (v_crs g) as [u|]; [|split; [intros _ u H; discriminate|reflexivity]]. destruct (parse u) as [c|] eqn:P.
            - destruct (is4326 c) eqn:E; split; try reflexivity; try discriminate.
              + intros _ u' H. injection H as <-. exists c. auto.
              + intro H. destruct (H u eq_refl) as (c' & X & Y). congruence.
            - split; [discriminate|]. intro H. destruct (H u eq_refl) as (c' & X & Y). congruence. }
          rewrite C1. split.
          * intros [H1 H2]. split; [exact H1|]. intros i d A. unfold at_index in A. cbn [nth_error] in A. apply nth_error_In in A. destruct (H2 d A) as (B1 & B2 & B3). split; [exact B1|].
            intros u v U V. destruct (proj1 (compatible_iff _ _) B3 u v U V) as [(c & X1 & X2 & X3) Y]. split; [exists c; auto|exact Y].
          * intros [H1 H2]. split; [exact H1|]. intros d A. pose proof A as A'. apply In_nth_error in A. destruct A as (i & A). destruct (H2 i d A) as [B1 B2]. split; [exact B1|]. split.
            -- rewrite only_first_cons in SF. apply SF. exact A'.
            -- apply compatible_iff. intros u v U V. destruct (B2 u v U V) as [(c & X1 & X2) Y]. split; [|exact Y]. exists c. split; [exact X1|]. split; [exact X2|]. destruct (H1 u U) as (c' & Z1 & Z2). congruence.
        + split; [intros H g' I' S'|intro H; exact (H g I S0)]. unfold at_index in *. assert (g' = g) by congruence. subst. exact H.
      - split; [|reflexivity]. intros _ g I S0. exfalso. enough (@None (vdomain user F) = Some g) by discriminate. apply G2. auto. }
    tauto.
  Qed.
End Validate.

(** The verdict and the messages do not depend on the evaluation functions. *)
Section Independence.
  Context {user crs : Type} (parse : user -> option crs) (is4326 geographic : crs -> bool) (equals : crs -> crs -> bool) (st : Q * Q -> option (Q * Q)) {F G : Type}.
  Notation rel := (Forall2 (@same_metadata user F G)).
  Lemma rel_nth : forall ds es k, rel ds es -> match nth_error ds k, nth_error es k with Some d, Some e => same_metadata d e | None, None => True | _, _ => False end.
  Proof. intros ds es k H. revert k. induction H as [|d e ds es A H IH]; intros [|k]; cbn [nth_error]; [exact I|exact I|exact A|apply IH]. Qed.
  Lemma validate_metadata : forall ds es els, rel ds es -> validate user crs parse is4326 geographic equals st F ds els = validate user crs parse is4326 geographic equals st G es els.
  Proof.
    intros ds es els H. unfold validate.
    assert (L : List.length ds = List.length es) by (induction H; cbn; congruence). rewrite L. destruct (negb _); [reflexivity|].
    assert (S1 : forall i, stereo_indices user F i ds = stereo_indices user G i es).
    { clear L. induction H as [|d e ds es (A & _) H IH]; intro i; [reflexivity|]. cbn [stereo_indices]. rewrite A, IH. reflexivity. }
    assert (S2 : forall i, detect_implicit user crs parse is4326 F i ds = detect_implicit user crs parse is4326 G i es).
    { clear L S1. induction H as [|d e ds es (_ & A & B) H IH]; intro i; [reflexivity|]. cbn [detect_implicit]. unfold global_like. rewrite A, B, IH. reflexivity. }
    assert (S3 : has_any_crs user F ds els = has_any_crs user G es els).
    { unfold has_any_crs. f_equal. clear L S1 S2. induction H as [|d e ds es (_ & A & _) H IH]; [reflexivity|]. cbn [existsb]. rewrite A, IH. reflexivity. }
    assert (S4 : forall i, crs_presence user F i ds = crs_presence user G i es).
    { clear L S1 S2 S3. induction H as [|d e ds es (_ & A & _) H IH]; intro i; [reflexivity|]. cbn [crs_presence]. rewrite A, IH. reflexivity. }
    assert (S5 : forall i, edge_errors user crs parse equals F i ds els = edge_errors user crs parse equals G i es els).
    { clear L S1 S2 S3 S4. revert els. induction H as [|d e ds es (_ & A & _) H IH]; intros [|el els] i; [reflexivity|reflexivity|reflexivity|]. cbn [edge_errors]. rewrite A, IH. reflexivity. }
    assert (S6 : forall k, implicit_mixing user crs parse equals F ds k = implicit_mixing user crs parse equals G es k).
    { intro k. unfold implicit_mixing. pose proof (rel_nth ds es k H) as R. destruct (nth_error ds k) as [d|], (nth_error es k) as [e|]; try contradiction; [|reflexivity].
      destruct R as (A & B & _). rewrite A, B. destruct (v_stereo user G e); [reflexivity|]. destruct (v_crs user G e); [|reflexivity]. destruct (parse u) as [c|]; [|reflexivity].
      assert (M : forall j, mixing_loop user crs parse equals F c k j ds = mixing_loop user crs parse equals G c k j es); [|apply M].
      clear - H. induction H as [|x y ds' es' (_ & X & _) H IH]; intro j; [reflexivity|]. cbn [mixing_loop]. rewrite X. destruct (j =? k)%nat; [apply IH|]. destruct (v_crs user G y); [|apply IH]. destruct (parse u); [|reflexivity]. destruct (equals c c0); [apply IH|reflexivity]. }
    assert (S7 : forall d e, same_metadata d e -> global_and_regions user crs parse is4326 geographic st F d ds = global_and_regions user crs parse is4326 geographic st G e es).
    { intros d e (A & B & C). unfold global_and_regions, global_crs_errors. rewrite B. f_equal. assert (T : rel (tl ds) (tl es)) by (destruct H; [constructor|assumption]).
      generalize 1%nat. clear - A B C T. induction T as [|x y ds' es' (X & Y & Z) H IH]; intro i; [reflexivity|]. cbn [regions_errors]. rewrite IH. f_equal. unfold region_errors, contained. rewrite A, B, C, X, Y, Z. reflexivity. }
    unfold find_global_domain. rewrite S1, S2, S3, S4, S5. destruct (stereo_indices user G 0 es) as [|i [|]].
    - destruct (detect_implicit _ _ _ _ G 0 es); rewrite ?S6; reflexivity.
    - pose proof (rel_nth ds es i H) as R. destruct (nth_error ds i) as [d|], (nth_error es i) as [e|]; try contradiction; [rewrite (S7 d e R)|]; destruct (detect_implicit _ _ _ _ G 0 es); rewrite ?S6; reflexivity.
    - destruct (detect_implicit _ _ _ _ G 0 es); rewrite ?S6; reflexivity.
  Qed.
End Independence.

(** * Witnesses: CRS numbers stand for themselves, 0 cannot be parsed, 1 is EPSG:4326, 2 is a projected CRS. *)
Definition wparse (u : nat) : option nat := match u with O => None | _ => Some u end.
Definition wis4326 (c : nat) : bool := (c =? 1)%nat.
(** The stereographic images of the corners of the northern half of the hemisphere around Greenwich. *)
Definition wst (p : Q * Q) : option (Q * Q) := if Qeq_bool (snd p) 90 then Some (0, 0) else if Qeq_bool (fst p) 90 then Some (0, -1) else Some (0, 1).
Definition wdom (s : bool) (c : option nat) (b : Q * Q * Q * Q) : vdomain nat unit := {| v_stereo := s; v_crs := c; v_bbox := Some b; v_eval := tt |}.
Definition wvalidate := validate nat nat wparse wis4326 wis4326 Nat.eqb wst unit.
Definition wglobal := wdom true (Some 1%nat) (- (1 # 2), 1 # 2, -2, 2).
Definition wregion := wdom false (Some 1%nat) (-90, 90, 0, 90).
Lemma Q2R_Z : forall z, Q2R (inject_Z z) = IZR z.
Proof. intro z. unfold Q2R, inject_Z. cbn [Qnum Qden]. field. Qed.
Lemma containment_refuted : exists (st : Q * Q -> option (Q * Q)) g d gb db p,
  fst (validate nat nat wparse wis4326 wis4326 Nat.eqb st unit [g; d] [None; None]) = true /\ v_stereo _ _ g = true /\ v_bbox _ _ g = Some gb /\ v_bbox _ _ d = Some db /\
  (forall x y, (x = b0 db \/ x = b1 db) -> (y = b2 db \/ y = b3 db) -> exists q, st (x, y) = Some q /\ to_stereo 1 (Q2R x, Q2R y) = (Q2R (fst q), Q2R (snd q))) /\
  S_Region.in_box db p /\ ~ in_real_box gb (to_stereo 1 (Q2R (fst p), Q2R (snd p))).
Proof.
  exists wst, wglobal, wregion, (- (1 # 2), 1 # 2, -2, 2), (-90, 90, 0, 90), (0, 0).
  split; [vm_compute; reflexivity|]. split; [reflexivity|]. split; [reflexivity|]. split; [reflexivity|].
  assert (Z0 : Q2R 0 = 0%R) by exact (Q2R_Z 0). assert (Z1 : Q2R 90 = 90%R) by exact (Q2R_Z 90). assert (Z2 : Q2R (-90) = (-90)%R) by exact (Q2R_Z (-90)).
  assert (Z3 : Q2R 1 = 1%R) by exact (Q2R_Z 1). assert (Z4 : Q2R (-1) = (-1)%R) by exact (Q2R_Z (-1)).
  assert (A1 : (90 / 180 * PI = PI / 2)%R) by field. assert (A2 : (-90 / 180 * PI = - (PI / 2))%R) by field. assert (A3 : (0 / 180 * PI = 0)%R) by field.
  split.
  - cbn [b0 b1 b2 b3]. intros x y [-> | ->] [-> | ->]; eexists; (split; [reflexivity|]); unfold to_stereo, to_3d; cbn [fst snd]; rewrite ?Z0, ?Z1, ?Z2, ?Z3, ?Z4, ?A1, ?A2, ?A3, ?cos_neg, ?sin_neg, ?cos_PI2, ?sin_PI2, ?cos_0, ?sin_0; f_equal; field.
  - split; [unfold S_Region.in_box; cbn; lra|]. cbn [fst snd]. unfold in_real_box, to_stereo, to_3d. cbn [fst snd]. rewrite Z0, A3, cos_0, sin_0. intros [[H _] _].
    replace (Q2R (- (1 # 2))) with (- (1 / 2))%R in H by (unfold Q2R; cbn; field). Lra.lra.
Qed.

(** Documented requirements that are not checked. *)
Lemma regional_crs_refuted : exists ds els, fst (wvalidate ds els) = true /\ (forall d, In d ds -> v_stereo _ _ d = false) /\
  exists d e c r, In d ds /\ In e ds /\ v_crs _ _ d = Some c /\ v_crs _ _ e = Some r /\ c <> r.
Proof.
  exists [wdom false (Some 1%nat) (0, 10, 0, 10); wdom false (Some 2%nat) (0, 1000, 0, 1000)], [None; None]. split; [vm_compute; reflexivity|].
  split; [intros d [<-|[<-|[]]]; reflexivity|]. do 4 eexists. split; [left; reflexivity|]. split; [right; left; reflexivity|]. repeat split. discriminate.
Qed.
Lemma missing_crs_refuted : exists ds els, fst (wvalidate ds els) = true /\ (exists g, at_index ds 0 g /\ v_stereo _ _ g = true) /\ (forall d, In d ds -> v_crs _ _ d = None).
Proof.
  exists [wdom true None (-2, 2, -2, 2); wdom false None (-90, 90, 0, 90)], [None; None]. split; [vm_compute; reflexivity|].
  split; [eexists; split; reflexivity|]. intros d [<-|[<-|[]]]; reflexivity.
Qed.
Lemma sizing_without_crs_refuted : exists ds els, fst (wvalidate ds els) = true /\ (exists g, at_index ds 0 g /\ v_stereo _ _ g = true) /\ In (Some None) els.
Proof. exists [wglobal; wregion], [Some None; Some (Some 1%nat)]. split; [vm_compute; reflexivity|]. split; [eexists; split; reflexivity|]. left; reflexivity. Qed.

(** * Options *)
Lemma mem_iff : forall s l, mem s l = true <-> In s l.
Proof. intros s l. unfold mem. rewrite existsb_exists. split; [intros (x & I & E); apply String.eqb_eq in E; subst; exact I|intro I; exists s; split; [exact I|apply String.eqb_refl]]. Qed.
Lemma parse_iff : forall k, (parse_kwargs k = Ok tt <-> forall s, In s (names k) -> In s accepted) /\ (parse_kwargs k = Raise ValueError <-> exists s, In s (names k) /\ ~ In s accepted).
Proof.
  intro k. unfold parse_kwargs. destruct (forallb _ _) eqn:E.
  - rewrite forallb_forall in E. assert (A : forall s, In s (names k) -> In s accepted) by (intros s I; apply mem_iff; auto). split; split; auto; [discriminate|]. intros (s & I & N). exfalso. auto.
  - assert (A : exists s, In s (names k) /\ ~ In s accepted).
    { apply not_true_iff_false in E. rewrite forallb_forall in E. induction (names k) as [|s l IH]; [exfalso; apply E; intros x []|].
      destruct (mem s accepted) eqn:M.
      - destruct IH as (x & X & N); [|exists x; split; [right; exact X|exact N]]. intro H. apply E. intros x [<-|X]; auto.
      - exists s. split; [left; reflexivity|]. rewrite <- mem_iff. congruence. }
    split; split; auto; [discriminate|]. intro H. exfalso. destruct A as (s & I & N). auto.
Qed.
Lemma call_spec : forall taken ex kw, (forall s, In s (names kw) -> ~ In s (taken ++ names ex)) -> call_with taken ex kw = Ok (ex ++ kw).
Proof. intros taken ex kw H. unfold call_with. destruct (existsb _ _) eqn:E; [|reflexivity]. apply existsb_exists in E. destruct E as (s & I & M). apply mem_iff in M. exfalso. exact (H s I M). Qed.
Lemma call_collides : forall taken ex kw s, In s (names kw) -> In s (taken ++ names ex) -> call_with taken ex kw = Raise TypeError.
Proof. intros taken ex kw s I J. unfold call_with. assert (existsb (fun s => mem s (taken ++ names ex)) (names kw) = true) as ->; [|reflexivity]. apply existsb_exists. exists s. split; [exact I|apply mem_iff; exact J]. Qed.
Lemma lookup_cons : forall s t v k, lookup s ((t, v) :: k) = if String.eqb s t then Some v else lookup s k.
Proof. intros s t v k. unfold lookup. cbn [find fst]. destruct (String.eqb s t); reflexivity. Qed.
Lemma lookup_none : forall s k, lookup s k = None <-> ~ In s (names k).
Proof.
  intros s. induction k as [|[t v] k IH]; [split; [intros _ []|reflexivity]|]. rewrite lookup_cons. cbn [names map fst In]. fold (names k). destruct (String.eqb_spec s t) as [->|N].
  - split; [discriminate|]. intro H. exfalso. apply H. left; reflexivity.
  - rewrite IH. split; [intros H [E|I]; [congruence|contradiction]|intros H I; apply H; right; exact I].
Qed.
Lemma pop_lookup : forall s t k, lookup s (pop t k) = if String.eqb s t then None else lookup s k.
Proof.
  intros s t. induction k as [|[x v] k IH]; [destruct (String.eqb s t); reflexivity|]. unfold pop in *. cbn [filter fst]. destruct (String.eqb_spec t x) as [->|N]; cbn [negb].
  - rewrite IH, lookup_cons. destruct (String.eqb s x); reflexivity.
  - rewrite !lookup_cons, IH. destruct (String.eqb_spec s x) as [->|M]; [|reflexivity]. destruct (String.eqb_spec x t); [congruence|reflexivity].
Qed.
Lemma assign_lookup : forall s t v k, lookup s (assign t v k) = if String.eqb s t then Some v else lookup s k.
Proof.
  intros s t v. induction k as [|[x w] k IH]; [apply lookup_cons|]. cbn [assign fst]. destruct (String.eqb_spec t x) as [->|N].
  - rewrite !lookup_cons. destruct (String.eqb s x); reflexivity.
  - rewrite !lookup_cons, IH. destruct (String.eqb_spec s x) as [->|M]; [|reflexivity]. destruct (String.eqb_spec x t); [congruence|reflexivity].
Qed.
Section Multi.
  Context {dom siz cells : Type} (gen : dom -> siz -> kwargs -> res (list (Q * Q) * cells)) (hmin : siz -> option Q).
  Notation nest := (dom * bool * siz)%type.
  Lemma nest_call : forall kw s, (forall x, In x (names kw) -> ~ In x taken_in_nests) ->
    exists k, call_with ["domain"; "edge_length"]%string [("stereo"%string, VBool s)] kw = Ok k /\ nest_options kw s k.
  Proof.
    intros kw s H. exists (("stereo"%string, VBool s) :: kw). split.
    - apply call_spec. intros x I J. apply (H x I). cbn in *. intuition.
    - split; [apply lookup_cons|]. intros x N. rewrite lookup_cons. destruct (String.eqb_spec x "stereo"); [contradiction|reflexivity].
  Qed.
  Lemma least_step : forall l m h, least_of l m -> least_of (l ++ [h]) (if Qle_bool m h then m else h).
  Proof.
    intros l m h [I L]. destruct (Qle_bool m h) eqn:E.
    - apply Qle_bool_iff in E. split; [apply in_or_app; left; exact I|]. intros x X. apply in_app_or in X. destruct X as [X|[<-|[]]]; [exact (L x X)|exact E].
    - apply not_true_iff_false in E. rewrite Qle_bool_iff in E. split; [apply in_or_app; right; left; reflexivity|]. intros x X. apply in_app_or in X. destruct X as [X|[<-|[]]]; [specialize (L x X); lra|lra].
  Qed.
  Lemma build_spec : forall kw (nests : list nest) seen gm acc, (forall x, In x (names kw) -> ~ In x taken_in_nests) -> (forall n, In n nests -> hmin (snd n) <> None) ->
    least_of seen gm ->
    (exists ms gm', Forall2 (nest_meshed gen kw) nests ms /\ build_nests _ _ _ gen hmin nests kw gm acc = Ok (gm', acc ++ map fst ms) /\ least_of (seen ++ sizes_of hmin nests) gm') \/
    (exists n d s e k, In n nests /\ n = (d, s, e) /\ nest_options kw s k /\ (forall m, gen d e k <> Ok m) /\ (forall r, build_nests _ _ _ gen hmin nests kw gm acc <> Ok r)).
  Proof.
    intros kw. induction nests as [|[[d s] e] r IH]; intros seen gm acc H HM LO.
    - left. exists [], gm. split; [constructor|]. cbn. rewrite !app_nil_r. auto.
    - cbn [build_nests]. pose proof (HM (d, s, e) (or_introl eq_refl)) as HE. cbn [snd] in HE. destruct (hmin e) as [h|] eqn:EH; [|congruence].
      destruct (nest_call kw s H) as (k & -> & K). cbn [bind]. destruct (gen d e k) as [m|x|] eqn:G; cbn [bind].
      + destruct (IH (seen ++ [h]) (if Qle_bool gm h then gm else h) (acc ++ [fst m]) H ltac:(intros n N; apply HM; right; exact N) (least_step _ _ _ LO)) as [(ms & gm' & A & B & C)|(n & d' & s' & e' & k' & I & E & O & NG & NB)].
        * left. exists (m :: ms), gm'. split; [constructor; [exists k; auto|exact A]|]. rewrite B. cbn [map]. rewrite <- app_assoc. split; [reflexivity|].
          unfold sizes_of. cbn [flat_map snd]. rewrite EH. rewrite <- app_assoc in C. exact C.
        * right. exists n, d', s', e', k'. repeat split; auto; try apply O. right; exact I.
      + right. exists (d, s, e), d, s, e, k. split; [left; reflexivity|]. split; [reflexivity|]. split; [exact K|]. split; [intros m; congruence|discriminate].
      + right. exists (d, s, e), d, s, e, k. split; [left; reflexivity|]. split; [reflexivity|]. split; [exact K|]. split; [intros m; congruence|discriminate].
  Qed.
  Lemma multi_start : forall n m nests union us master kw, ok_lengths n m -> generate_multiscale_mesh _ _ _ gen hmin n m true nests union us master kw =
    (let! _ := parse_kwargs kw in generate_multiscale_mesh _ _ _ gen hmin n m true nests union us master kw).
  Proof. intros n m nests union us master kw [N E]. unfold generate_multiscale_mesh. destruct (parse_kwargs kw) eqn:P; cbn [bind]; [reflexivity| |]; subst m; (destruct (Nat.ltb_spec 1 n); [|lia]); cbn [andb negb]; rewrite Nat.eqb_refl; reflexivity. Qed.
  Lemma multi_unknown : forall n m nests union us master kw s, ok_lengths n m -> In s (names kw) -> ~ In s accepted ->
    generate_multiscale_mesh _ _ _ gen hmin n m true nests union us master kw = Raise ValueError.
  Proof. intros n m nests union us master kw s L I N. rewrite multi_start by exact L. assert (parse_kwargs kw = Raise ValueError) as ->; [|reflexivity]. apply parse_iff. eauto. Qed.
  (** What a successful run does. *)
  Lemma multi_usable : forall n m nests union us master kw, ok_lengths n m -> nests <> [] -> (forall x, In x nests -> hmin (snd x) <> None) ->
    (forall s, In s (names kw) -> In s accepted /\ ~ In s taken_in_nests /\ ~ In s taken_at_end) ->
    (exists ms gm k, Forall2 (nest_meshed gen kw) nests ms /\ least_of (9999 :: sizes_of hmin nests) gm /\
       generate_multiscale_mesh _ _ _ gen hmin n m true nests union us master kw = gen union master k /\
       lookup "min_edge_length" k = Some (VNum gm) /\ lookup "points" k = Some (VPoints (List.concat (map fst ms))) /\ lookup "lock_boundary" k = Some (VBool true) /\
       lookup "max_iter" k = Some (match lookup "blend_max_iter" kw with Some v => v | None => VNum 20 end) /\
       lookup "stereo" k = (if us then Some (VBool true) else None) /\
       forall x, ~ In x ["min_edge_length"; "points"; "lock_boundary"; "max_iter"; "stereo"]%string -> lookup x k = lookup x kw) \/
    (exists d s e k, In (d, s, e) nests /\ nest_options kw s k /\ (forall r, gen d e k <> Ok r) /\ forall r, generate_multiscale_mesh _ _ _ gen hmin n m true nests union us master kw <> Ok r).
  Proof.
    intros n m nests union us master kw L NE HM K.
    assert (P : parse_kwargs kw = Ok tt) by (apply parse_iff; intros s I; apply K; exact I).
    assert (K1 : forall x, In x (names kw) -> ~ In x taken_in_nests) by (intros x X; apply K; exact X).
    assert (LO : least_of [9999] 9999) by (split; [left; reflexivity|intros x [<-|[]]; lra]).
    assert (RUN : generate_multiscale_mesh _ _ _ gen hmin n m true nests union us master kw =
      (let! r := build_nests _ _ _ gen hmin nests kw 9999 [] in let '(gm, ps) := r in match ps with [] => Raise ValueError | _ =>
          let! k := call_with ["domain"; "edge_length"]%string [("min_edge_length"%string, VNum gm); ("points"%string, VPoints (List.concat ps)); ("max_iter"%string, match lookup "blend_max_iter" kw with Some v => v | None => VNum 20 end); ("lock_boundary"%string, VBool true)] (if us then assign "stereo" (VBool true) (pop "max_iter" kw) else pop "max_iter" kw) in
          gen union master k end)).
    { unfold generate_multiscale_mesh. destruct L as [L1 L2]. subst m. destruct (Nat.ltb_spec 1 n); [|lia]. cbn [andb negb]. rewrite Nat.eqb_refl. cbn [negb]. rewrite P. reflexivity. }
    destruct (build_spec kw nests [9999] 9999 [] K1 HM LO) as [(ms & gm & A & B & C)|(x & d & s & e & k & I & E & O & NG & NB)].
    - left. rewrite B in RUN. cbn [bind] in RUN.
      assert (PS : exists p q, [] ++ map fst ms = p :: q). { destruct A; [contradiction|]. cbn. eauto. }
      destruct PS as (p & q & PS). rewrite PS in RUN. rewrite <- PS in RUN. cbn [app] in RUN. clear p q PS.
      set (kk := if us then assign "stereo" (VBool true) (pop "max_iter" kw) else pop "max_iter" kw) in *.
      assert (LK : forall x, lookup x kk = if String.eqb x "stereo" then (if us then Some (VBool true) else None) else if String.eqb x "max_iter" then None else lookup x kw).
      { intro x. unfold kk. destruct us.
        - rewrite assign_lookup, pop_lookup. destruct (String.eqb x "stereo"); reflexivity.
        - rewrite pop_lookup. destruct (String.eqb_spec x "stereo") as [->|]; [|reflexivity]. cbn [String.eqb]. apply lookup_none. intro X. apply (K1 _ X). left; reflexivity. }
      rewrite call_spec in RUN.
      2:{ intros x I J. assert (X : lookup x kk <> None) by (rewrite lookup_none; auto). rewrite LK in X. cbn [names map fst app] in J.
          destruct (String.eqb_spec x "stereo") as [->|N1]; [cbn in J; intuition discriminate|]. destruct (String.eqb_spec x "max_iter") as [->|N2]; [congruence|].
          assert (Y : In x (names kw)). { destruct (in_dec string_dec x (names kw)) as [Y|Y]; [exact Y|]. exfalso. apply X. apply lookup_none. exact Y. }
          apply K in Y. apply Y. cbn in *. intuition congruence. }
      cbn [bind app] in RUN. eexists ms, gm, _. split; [exact A|]. split; [exact C|]. split; [exact RUN|]. rewrite !lookup_cons. cbn [String.eqb Ascii.eqb Bool.eqb]. 
      split; [reflexivity|]. split; [reflexivity|]. split; [reflexivity|]. split; [reflexivity|]. split; [rewrite LK; reflexivity|].
      intros x N. rewrite !lookup_cons. cbn [In] in N.
      destruct (String.eqb_spec x "min_edge_length"); [exfalso; intuition|]. destruct (String.eqb_spec x "points"); [exfalso; intuition|]. destruct (String.eqb_spec x "max_iter") as [E2|E2]; [exfalso; intuition|]. destruct (String.eqb_spec x "lock_boundary"); [exfalso; intuition|].
      rewrite LK. destruct (String.eqb_spec x "stereo"); [exfalso; intuition|]. destruct (String.eqb_spec x "max_iter"); [contradiction|reflexivity].
    - right. subst x. exists d, s, e, k. split; [exact I|]. split; [exact O|]. split; [exact NG|]. intros r R. rewrite RUN in R. destruct (build_nests _ _ _ gen hmin nests kw 9999 []) as [v| |] eqn:BN; [exact (NB v eq_refl)|discriminate|discriminate].
  Qed.
  (** Six accepted options make every run fail. *)
  Lemma multi_collision : forall n m nests union us master kw s, ok_lengths n m -> nests <> [] -> (forall x, In x nests -> hmin (snd x) <> None) -> (forall x, In x (names kw) -> In x accepted) ->
    (forall d e k, exists r, gen d e k = Ok r) -> In s (names kw) -> In s taken_in_nests \/ In s taken_at_end ->
    generate_multiscale_mesh _ _ _ gen hmin n m true nests union us master kw = Raise TypeError.
  Proof.
    intros n m nests union us master kw s [L1 L2] NE HM AC G I T. unfold generate_multiscale_mesh. subst m. destruct (Nat.ltb_spec 1 n); [|lia]. cbn [andb negb]. rewrite Nat.eqb_refl. cbn [negb].
    assert (parse_kwargs kw = Ok tt) as -> by (apply parse_iff; exact AC). cbn [bind].
    destruct (existsb (fun x => mem x taken_in_nests) (names kw)) eqn:X.
    - apply existsb_exists in X. destruct X as (x & X1 & X2). apply mem_iff in X2. destruct nests as [|[[d b] e] r]; [contradiction|]. cbn [build_nests].
      pose proof (HM (d, b, e) (or_introl eq_refl)) as HE. cbn [snd] in HE. destruct (hmin e); [|congruence].
      rewrite (call_collides _ _ kw x X1); [reflexivity|]. cbn in *. intuition.
    - assert (K1 : forall x, In x (names kw) -> ~ In x taken_in_nests).
      { intros x X1 X2. apply not_true_iff_false in X. apply X. apply existsb_exists. exists x. split; [exact X1|apply mem_iff; exact X2]. }
      assert (LO : least_of [9999] 9999) by (split; [left; reflexivity|intros x [<-|[]]; lra]).
      destruct (build_spec kw nests [9999] 9999 [] K1 HM LO) as [(ms & gm & A & -> & C)|(x & d & b & e & k & _ & _ & _ & NG & _)].
      + cbn [bind]. assert (PS : exists p q, [] ++ map fst ms = p :: q). { destruct A; [contradiction|]. cbn. eauto. } destruct PS as (p & q & ->).
        destruct T as [T|T]; [exfalso; exact (K1 s I T)|].
        rewrite (call_collides _ _ _ s); [reflexivity| |cbn in *; intuition].
        assert (Y : lookup s (pop "max_iter" kw) <> None).
        { rewrite pop_lookup. destruct (String.eqb_spec s "max_iter") as [->|]; [cbn in T; intuition discriminate|]. rewrite lookup_none. auto. }
        assert (Z : lookup s (if us then assign "stereo" (VBool true) (pop "max_iter" kw) else pop "max_iter" kw) <> None).
        { destruct us; [|exact Y]. rewrite assign_lookup. destruct (String.eqb s "stereo"); [discriminate|exact Y]. }
        match goal with |- In s (names ?l) => destruct (in_dec string_dec s (names l)) as [W|W]; [exact W|exfalso; apply Z; apply lookup_none; exact W] end.
      + exfalso. destruct (G d e k) as (r & R). exact (NG r R).
  Qed.
  (** The size limit of the blending step. *)
  Lemma least_partial : forall l gm, least_of (9999 :: l) gm -> (exists x, In x l /\ x <= 9999) -> exists x, least_of l x /\ x == gm.
  Proof.
    intros l gm [[<-|I] L] (x & X1 & X2).
    - exists x. assert (x == 9999) by (specialize (L x (or_intror X1)); lra). split; [|exact H]. split; [exact X1|]. intros y Y. specialize (L y (or_intror Y)). lra.
    - exists gm. split; [|reflexivity]. split; [exact I|]. intros y Y. exact (L y (or_intror Y)).
  Qed.
  Lemma multi_limit : forall n m nests union us master kw, ok_lengths n m -> nests <> [] -> (forall x, In x nests -> hmin (snd x) <> None) ->
    (forall s, In s (names kw) -> In s accepted /\ ~ In s taken_in_nests /\ ~ In s taken_at_end) -> (forall d e k, exists r, gen d e k = Ok r) ->
    exists gm k, least_of (9999 :: sizes_of hmin nests) gm /\ generate_multiscale_mesh _ _ _ gen hmin n m true nests union us master kw = gen union master k /\ lookup "min_edge_length" k = Some (VNum gm).
  Proof.
    intros n m nests union us master kw L NE HM K G. destruct (multi_usable n m nests union us master kw L NE HM K) as [(ms & gm & k & _ & A & B & C & _)|(d & s & e & k & _ & _ & N & _)].
    - exists gm, k. auto.
    - exfalso. destruct (G d e k) as (r & R). exact (N r R).
  Qed.
  Lemma multi_limit_least : forall n m nests union us master kw, ok_lengths n m -> nests <> [] -> (forall x, In x nests -> hmin (snd x) <> None) ->
    (forall s, In s (names kw) -> In s accepted /\ ~ In s taken_in_nests /\ ~ In s taken_at_end) -> (forall d e k, exists r, gen d e k = Ok r) -> (exists h, In h (sizes_of hmin nests) /\ h <= 9999) ->
    exists gm h k, least_of (sizes_of hmin nests) h /\ h == gm /\ generate_multiscale_mesh _ _ _ gen hmin n m true nests union us master kw = gen union master k /\ lookup "min_edge_length" k = Some (VNum gm).
  Proof.
    intros n m nests union us master kw L NE HM K G X. destruct (multi_limit n m nests union us master kw L NE HM K G) as (gm & k & A & B & C).
    destruct (least_partial _ _ A X) as (h & H1 & H2). exists gm, h, k. auto.
  Qed.
End Multi.
Lemma collision_refuted : exists s kw, In s accepted /\ In s (names kw) /\ forall (gen : unit -> unit -> kwargs -> res (list (Q * Q) * unit)) hm, (forall d e k, exists r, gen d e k = Ok r) -> hm tt <> None ->
  generate_multiscale_mesh _ _ _ gen hm 2 2 true [(tt, false, tt); (tt, false, tt)] tt false tt kw = Raise TypeError.
Proof.
  exists "lock_boundary"%string, [("lock_boundary"%string, VBool true)]. split; [cbn; intuition|]. split; [left; reflexivity|]. intros gen hm G H.
  apply multi_collision with (s := "lock_boundary"%string); [split; [lia|reflexivity]|discriminate|intros [[[] ?] []] _; exact H|intros x [<-|[]]; cbn; intuition|exact G|left; reflexivity|right; cbn; intuition].
Qed.
Lemma limit_refuted : exists nests k, (forall x, In x nests -> 9999 < x) /\
  generate_multiscale_mesh _ _ _ (fun (_ : unit) (_ : Q) (k : kwargs) => Ok ([], k)) Some 2 2 true (map (fun h => (tt, false, h)) nests) tt false 0 [] = Ok ([], k) /\
  lookup "min_edge_length" k = Some (VNum 9999).
Proof. exists [20000; 15000]. eexists. split; [intros x [<-|[<-|[]]]; lra|]. split; [vm_compute; reflexivity|reflexivity]. Qed.

(** * Repairing hmin *)
Lemma sanitize_spec : forall g n m, shape (g_values g) n m ->
  match sanitize g with
  | Ok g' => (exists h, g_hmin g' = Some (Fin h) /\ 0 < h) /\ g_values g' = g_values g /\
             ((exists h, g_hmin g = Some (Fin h) /\ 0 < h /\ g' = g) \/ ((forall h, g_hmin g = Some (Fin h) -> h <= 0) /\ exists h, g_hmin g' = Some (Fin h) /\ least_positive g n m h))
  | Raise e => e = ValueError /\ (forall h, g_hmin g = Some (Fin h) -> h <= 0) /\ none_positive (value_at g) n m
  | OutOfFuel => False
  end.
Proof.
  intros g n m SH. unfold sanitize.
  assert (FB : (forall h, g_hmin g = Some (Fin h) -> h <= 0) -> match (let! h := py_min (positive_finite (g_values g)) in Ok (set_hmin g (Some (Fin h)))) with
  | Ok g' => (exists h, g_hmin g' = Some (Fin h) /\ 0 < h) /\ g_values g' = g_values g /\
             ((exists h, g_hmin g = Some (Fin h) /\ 0 < h /\ g' = g) \/ ((forall h, g_hmin g = Some (Fin h) -> h <= 0) /\ exists h, g_hmin g' = Some (Fin h) /\ least_positive g n m h))
  | Raise e => e = ValueError /\ (forall h, g_hmin g = Some (Fin h) -> h <= 0) /\ none_positive (value_at g) n m
  | OutOfFuel => False
  end).
  { intro NP. destruct (py_min (positive_finite (g_values g))) as [h|e|] eqn:E; cbn [bind].
    - pose proof (py_min_In _ _ E) as I. apply positive_finite_In in I. destruct I as (H0 & I). apply (cells_In _ n m _ SH) in I.
      cbn [set_hmin g_hmin g_values]. split; [exists h; auto|]. split; [reflexivity|]. right. split; [exact NP|]. exists h. split; [reflexivity|]. split; [exact H0|]. split; [exact I|].
      intros i j w Hi Hj W P. apply (py_min_spec _ _ E). apply positive_finite_In. split; [exact P|]. apply (cells_In _ n m _ SH). exists i, j. auto.
    - unfold py_min in E. destruct (positive_finite (g_values g)) eqn:EL; [|discriminate]. split; [congruence|]. split; [exact NP|].
      intros i j w Hi Hj W. apply Qnot_lt_le. intro C. assert (I : In w (positive_finite (g_values g))); [|rewrite EL in I; destruct I]. apply positive_finite_In. split; [exact C|]. apply (cells_In _ n m _ SH). exists i, j. auto.
    - unfold py_min in E. destruct (positive_finite _); discriminate. }
  destruct (g_hmin g) as [[h|s|]|] eqn:EH; try (apply FB; intros h' H; discriminate).
  destruct (Qle_bool h 0) eqn:E; cbn [negb].
  - apply FB. intros h' H. injection H as <-. apply Qle_bool_iff. exact E.
  - apply not_true_iff_false in E. rewrite Qle_bool_iff in E. split; [exists h; split; [exact EH|lra]|]. split; [reflexivity|]. left. exists h. repeat split; auto. lra.
Qed.
