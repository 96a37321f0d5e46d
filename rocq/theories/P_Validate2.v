(** Which messages the checks on multiscale domains give (mesh_generator.py:313-526), and how often each option is stored. *)
From Coq Require Import List Arith Bool ZArith QArith String Lia.
From Verif Require Import M_Base M_Sdf M_Grid M_Region M_Dem M_Validate S_Grid S_Region S_Validate P_Validate.
Import ListNotations.
Open Scope Q_scope.

Section Messages.
  Context {user crs : Type} (parse : user -> option crs) (is4326 geographic : crs -> bool) (equals : crs -> crs -> bool) (st : Q * Q -> option (Q * Q)) {F : Type}.
  Notation dom := (vdomain user F).
  Local Notation v_stereo := (v_stereo user F).
  Local Notation v_crs := (v_crs user F).
  Local Notation v_bbox := (v_bbox user F).

  Lemma indices_in : forall (ds : list dom) i k, In k (stereo_indices user F i ds) <-> exists j d, k = (i + j)%nat /\ at_index ds j d /\ v_stereo d = true.
  Proof.
    unfold at_index. induction ds as [|d r IH]; intros i k; cbn [stereo_indices].
    - split; [intros []|]. intros (j & d & _ & H & _). destruct j; discriminate.
    - assert (G : In k (stereo_indices user F (S i) r) <-> exists j e, k = (i + S j)%nat /\ nth_error (d :: r) (S j) = Some e /\ v_stereo e = true).
      { rewrite IH. cbn [nth_error]. split; intros (j & e & -> & H); exists j, e; (split; [lia|exact H]). }
      destruct (v_stereo d) eqn:E; cbn [In]; rewrite G; clear G; split.
      + intros [<-|(j & e & H)]; [exists 0%nat, d; cbn; repeat split; [lia|exact E]|exists (S j), e; exact H].
      + intros ([|j] & e & -> & H & Q); [left; lia|right; exists j, e; auto].
      + intros (j & e & H); exists (S j), e; exact H.
      + intros ([|j] & e & -> & H & Q); [|exists j, e; auto]. cbn in H. injection H as ->. congruence.
  Qed.
  Lemma indices_nodup : forall (ds : list dom) i, NoDup (stereo_indices user F i ds).
  Proof.
    induction ds as [|d r IH]; intro i; cbn [stereo_indices]; [constructor|]. destruct (v_stereo d); [constructor; [|apply IH]|apply IH].
    intro I. apply stereo_ge in I. lia.
  Qed.
  Lemma only_unique : forall (ds : list dom) g h, only_stereo ds g -> only_stereo ds h -> g = h.
  Proof. intros ds g h (k & K & S & U) (j & J & T & _). rewrite (U j h J T) in J. unfold at_index in *. congruence. Qed.
  (** The three outcomes of the search for the global domain. *)
  Lemma found : forall ds : list dom, match find_global_domain user F ds with
    | (Some g, es) => only_stereo ds g /\ exists k, at_index ds k g /\ es = (if (k =? 0)%nat then [] else [EGlobalNotFirst])
    | (None, es) => (forall g, ~ only_stereo ds g) /\
        ((es = [] /\ forall d, In d ds -> v_stereo d = false) \/
         (es = [EManyGlobal] /\ exists i j d e, i <> j /\ at_index ds i d /\ at_index ds j e /\ v_stereo d = true /\ v_stereo e = true))
    end.
  Proof.
    intro ds. unfold find_global_domain. pose proof (indices_in ds 0) as I. pose proof (indices_nodup ds 0) as N.
    pose proof (stereo_nil ds 0) as Z.
    destruct (stereo_indices user F 0 ds) as [|a [|b l]] eqn:E.
    - split; [|left; split; [reflexivity|apply Z; reflexivity]].
      intros g (k & K & S & _). rewrite (proj1 Z eq_refl g (nth_error_In _ _ K)) in S. discriminate.
    - destruct (proj1 (I a) (or_introl eq_refl)) as (j & d & -> & J & D). unfold at_index in J. cbn [Nat.add]. rewrite J. split.
      + exists j. split; [exact J|]. split; [exact D|]. intros k e K S. destruct (proj2 (I k)) as [H|[]]; [|cbn in H; congruence]. exists k, e. cbn. auto.
      + exists j. auto.
    - destruct (proj1 (I a) (or_introl eq_refl)) as (j & d & A & J & D). destruct (proj1 (I b) (or_intror (or_introl eq_refl))) as (k & e & B & K & G). cbn in A, B. subst j k.
      assert (a <> b) by (inversion N as [|? ? H _]; subst; intro X; apply H; left; congruence). split; [|right; split; [reflexivity|exists a, b, d, e; auto]].
      intros g (m & _ & _ & U). rewrite (U a d J D), (U b e K G) in H. congruence.
  Qed.
  Lemma presence_in : forall (ds : list dom) i m, In m (crs_presence user F i ds) <-> exists j d, m = ENoCrs (i + j) /\ at_index ds j d /\ v_crs d = None.
  Proof.
    unfold at_index. induction ds as [|d r IH]; intros i m; cbn [crs_presence].
    - split; [intros []|]. intros (j & d & _ & H & _). destruct j; discriminate.
    - rewrite in_app_iff, IH. split.
      + intros [H|(j & e & -> & H & N)]; [|exists (S j), e; split; [f_equal; lia|auto]].
        destruct (v_crs d) eqn:C; cbn in H; [contradiction|]. destruct H as [<-|[]]. exists 0%nat, d. split; [f_equal; lia|auto].
      + intros ([|j] & e & -> & H & N); [left|right; exists j, e; split; [f_equal; lia|auto]]. cbn in H. injection H as ->. rewrite N. left. f_equal. lia.
  Qed.
  Lemma regions_in : forall (g : dom) ds i m, In m (regions_errors user crs parse is4326 geographic st F g i ds) <->
    exists j d, at_index ds j d /\ In m (region_errors user crs parse is4326 geographic st F g (i + j) d).
  Proof.
    unfold at_index. intro g. induction ds as [|d r IH]; intros i m; cbn [regions_errors].
    - split; [intros []|]. intros (j & d & H & _). destruct j; discriminate.
    - rewrite in_app_iff, IH. split.
      + intros [H|(j & e & H & M)]; [exists 0%nat, d; rewrite Nat.add_0_r; auto|exists (S j), e; rewrite Nat.add_succ_r; auto].
      + intros ([|j] & e & H & M); [left|right; exists j, e; rewrite Nat.add_succ_r in M; auto]. cbn in H. injection H as ->. rewrite Nat.add_0_r in M. exact M.
  Qed.
  Lemma edges_in : forall (ds : list dom) els i m, In m (edge_errors user crs parse equals F i ds els) <->
    exists j d e eu du, at_index ds j d /\ at_index els j e /\ sizing_has e eu /\ v_crs d = Some du /\
      ((m = EEdgeCrs (i + j) /\ exists ec dc, parse eu = Some ec /\ parse du = Some dc /\ equals ec dc = false) \/ (m = EEdgeCrsFailed (i + j) /\ (parse eu = None \/ parse du = None))).
  Proof.
    unfold at_index. induction ds as [|d r IH]; intros [|e er] i m; cbn [edge_errors].
    1-3: split; [intros []|]; intros (j & d' & e' & ? & ? & H & K & _); destruct j; discriminate.
    rewrite in_app_iff, IH. split.
    - intros [H|(j & d' & e' & eu & du & A & B & C & D & E)]; [|exists (S j), d', e', eu, du; rewrite Nat.add_succ_r; auto 7].
      destruct (el_crs user e) as [eu|] eqn:Ce; [|destruct H]. destruct (v_crs d) as [du|] eqn:Cd; [|destruct H].
      exists 0%nat, d, e, eu, du. rewrite Nat.add_0_r. do 2 (split; [reflexivity|]). split; [apply has_iff; exact Ce|]. split; [exact Cd|].
      destruct (parse eu) as [ec|]; [destruct (parse du) as [dc|]; [destruct (equals ec dc) eqn:Q; [destruct H|]|]|]; destruct H as [<-|[]]; [left|right|right]; split; auto. exists ec, dc. auto.
    - intros ([|j] & d' & e' & eu & du & A & B & C & D & E); [left|right; exists j, d', e', eu, du; rewrite Nat.add_succ_r in E; auto 7].
      cbn in A, B. injection A as ->. injection B as ->. apply has_iff in C. rewrite C, D, Nat.add_0_r in *.
      destruct E as [(-> & ec & dc & -> & -> & ->)|(-> & E)]; [left; reflexivity|]. destruct (parse eu); [destruct (parse du); [destruct E; discriminate|]|]; left; reflexivity.
  Qed.
  Lemma region_cases : forall (g d : dom) i m, v_stereo g = true -> In m (region_errors user crs parse is4326 geographic st F g i d) <->
    (m = ENotContained i /\ (exists gb db, v_bbox g = Some gb /\ v_bbox d = Some db) /\ ~ region_in_global st g d) \/
    (m = EContainFailed i /\ (v_bbox g = None \/ v_bbox d = None)) \/
    (m = ERegionStereo i /\ v_stereo d = true) \/ (m = EIncompatible i /\ incompatible parse is4326 geographic g d).
  Proof.
    intros g d i m G. unfold region_errors. rewrite !in_app_iff. pose proof (contained_iff st g d G) as C.
    assert (I : compatible user crs parse is4326 geographic (v_crs g) (v_crs d) = false <-> incompatible parse is4326 geographic g d).
    { pose proof (compatible_iff parse is4326 geographic equals st (v_crs g) (v_crs d)) as K. unfold incompatible. split.
      - intro H. destruct (v_crs g) as [u|]; [|discriminate]. destruct (v_crs d) as [r|]; [|discriminate]. exists u, r. do 2 (split; [reflexivity|]).
        intro Z. rewrite (proj2 K) in H; [discriminate|]. intros ? ? A B. injection A as <-. injection B as <-. exact Z.
      - intros (u & r & A & B & N). destruct (compatible _ _ _ _ _ _ _); [|reflexivity]. destruct N. apply (proj1 K eq_refl); assumption. }
    assert (X : In m (match contained user st F g d with Some true => [] | Some false => [ENotContained i] | None => [EContainFailed i] end) <->
      (m = ENotContained i /\ (exists gb db, v_bbox g = Some gb /\ v_bbox d = Some db) /\ ~ region_in_global st g d) \/ (m = EContainFailed i /\ (v_bbox g = None \/ v_bbox d = None))).
    { assert (NN : contained user st F g d = None <-> v_bbox g = None \/ v_bbox d = None).
      { unfold contained. destruct (v_bbox g); [destruct (v_bbox d)|]; [|tauto|tauto]. rewrite G. split; [destruct (corner_box st b0); discriminate|intros [?|?]; discriminate]. }
      destruct (contained user st F g d) as [[|]|] eqn:E.
      - split; [intros []|]. intros [(_ & _ & H)|(_ & H)]; [destruct H; apply C; reflexivity|apply NN in H; discriminate].
      - assert (B : exists gb db, v_bbox g = Some gb /\ v_bbox d = Some db).
        { destruct (v_bbox g) as [gb|]; [destruct (v_bbox d) as [db|]; [exists gb, db; auto|]|]; exfalso; enough (Some false = None) by discriminate; apply NN; auto. }
        split; [intros [<-|[]]; left; split; [reflexivity|split; [exact B|intro H; apply C in H; discriminate]]|]. intros [(-> & _)|(_ & H)]; [left; reflexivity|apply NN in H; discriminate].
      - split; [intros [<-|[]]; right; split; [reflexivity|apply NN; reflexivity]|]. intros [(_ & (gb & db & A & B) & _)|(-> & _)]; [|left; reflexivity]. destruct (proj1 NN eq_refl); congruence. }
    rewrite X, <- I. destruct (v_stereo d), (compatible _ _ _ _ _ _ _); cbn [In]; intuition (congruence || auto).
  Qed.
  Lemma tl_index : forall (ds : list dom) j d, at_index (tl ds) j d <-> at_index ds (S j) d.
  Proof. intros [|a r] j d; unfold at_index; cbn; [destruct j|]; split; auto. Qed.
  Lemma mix_in : forall (ds : list dom) m, In m (match detect_implicit user crs parse is4326 F 0 ds with Some i => implicit_mixing user crs parse equals F ds i | None => [] end) <->
    m = EImplicitMix /\ exists k d, first_world parse is4326 ds k d /\ v_stereo d = false /\ mixed parse equals ds k d.
  Proof.
    intros ds m. pose proof (detect_spec parse is4326 ds 0) as D. destruct (detect_implicit user crs parse is4326 F 0 ds) as [k|].
    - destruct D as (j & d & -> & W). cbn [Nat.add]. pose proof (implicit_iff parse is4326 equals ds j d W) as I.
      assert (Cs : implicit_mixing user crs parse equals F ds j = [] \/ implicit_mixing user crs parse equals F ds j = [EImplicitMix]).
      { unfold implicit_mixing. destruct (nth_error ds j) as [d'|]; [|auto]. destruct (v_stereo d'); [auto|]. destruct (v_crs d') as [u|]; [|auto]. destruct (parse u); [|auto]. apply mixing_cases. }
      split.
      + intro H. destruct Cs as [E|E]; rewrite E in H; [destruct H|]. destruct H as [<-|[]]. split; [reflexivity|]. exists j, d. split; [exact W|].
        destruct (v_stereo d) eqn:S. { rewrite (proj2 I) in E; [discriminate|intro; discriminate]. } split; [reflexivity|].
        (* the message is there, hence the domain is mixed *)
        destruct W as (A & (u & b & U & (c & Pc & Wc) & _) & _). unfold implicit_mixing in E. unfold at_index in A. rewrite A, S, U, Pc in E.
        apply mixing_iff in E. destruct E as (i & e & r & p & N & Ai & R & Pr & Q & B). cbn [Nat.add] in N, B. exists i, e, u, c, r, p. repeat (split; [assumption|]). exact B.
      + intros (-> & k & d' & W' & S & M). destruct (first_world_unique parse is4326 _ _ _ _ _ W W') as [<- <-]. destruct Cs as [E|E]; rewrite E; [|left; reflexivity].
        exfalso. exact (proj1 I E S M).
    - split; [intros []|]. intros (_ & k & d & (A & W & _) & _). destruct (D d (nth_error_In _ _ A) W).
  Qed.
  Lemma presence_when : forall (ds : list dom) els, (has_any_crs user F ds els || match detect_implicit user crs parse is4326 F 0 ds with Some _ => true | None => false end = true)%bool <-> some_crs ds els.
  Proof.
    intros ds els. assert (A : has_any_crs user F ds els = true <-> some_crs ds els).
    { rewrite any_iff. unfold some_crs. split.
      - intros [(d & I & N)|(e & I & N)]; [left; destruct (v_crs d) as [u|] eqn:E; [exists d, u; auto|congruence]|right; destruct (el_crs user e) as [u|] eqn:E; [exists e, u; rewrite has_iff; auto|congruence]].
      - intros [(d & u & I & N)|(e & u & I & N)]; [left; exists d; split; [exact I|congruence]|right; exists e; split; [exact I|apply has_iff in N; congruence]]. }
    rewrite orb_true_iff, A. split; [|tauto]. intros [H|H]; [exact H|]. pose proof (detect_spec parse is4326 ds 0) as D. destruct (detect_implicit user crs parse is4326 F 0 ds); [|discriminate].
    destruct D as (j & d & _ & I & (u & b & U & _) & _). left. exists d, u. split; [exact (nth_error_In _ _ I)|exact U].
  Qed.
  Lemma messages : forall (ds : list dom) els m, List.length ds = List.length els ->
    In m (snd (validate user crs parse is4326 geographic equals st F ds els)) <-> has_defect parse is4326 geographic equals st ds els m.
  Proof.
    intros ds els m L. unfold validate. rewrite (proj2 (Nat.eqb_eq _ _) L). cbn [negb].
    pose proof (found ds) as FG. destruct (find_global_domain user F ds) as [g e1]. cbn [snd]. rewrite !in_app_iff, mix_in, edges_in.
    assert (E2 : In m (if has_any_crs user F ds els || match detect_implicit user crs parse is4326 F 0 ds with Some _ => true | None => false end then crs_presence user F 0 ds else []) <->
      some_crs ds els /\ exists j d, m = ENoCrs j /\ at_index ds j d /\ v_crs d = None).
    { pose proof (presence_when ds els) as P. destruct (has_any_crs user F ds els || _)%bool.
      - rewrite presence_in. cbn [Nat.add]. split; [intro H; split; [apply P; reflexivity|exact H]|tauto].
      - split; [intros []|]. intros [H _]. apply P in H. discriminate. }
    rewrite E2. clear E2.
    assert (E1 : In m e1 <-> (m = EGlobalNotFirst /\ exists g k, only_stereo ds g /\ at_index ds (S k) g) \/
      (m = EManyGlobal /\ exists i j d e, i <> j /\ at_index ds i d /\ at_index ds j e /\ v_stereo d = true /\ v_stereo e = true)).
    { destruct g as [g|].
      - destruct FG as (O & k & K & ->). pose proof O as (k' & K' & S & U). assert (k = k') by (apply (U k g K S)). subst k'. destruct k as [|k]; cbn [Nat.eqb In]; split.
        + intros [].
        + intros [(_ & h & k & O' & H)|(_ & i & j & d & e & N & A & B & C & D)]; [rewrite (only_unique _ _ _ O' O) in H; specialize (U _ _ H S); discriminate|]. rewrite (U i d A C), (U j e B D) in N. congruence.
        + intros [<-|[]]. left. split; [reflexivity|]. exists g, k. auto.
        + intros [(-> & _)|(_ & i & j & d & e & N & A & B & C & D)]; [left; reflexivity|]. rewrite (U i d A C), (U j e B D) in N. congruence.
      - destruct FG as (O & [(-> & N)|(-> & M)]); cbn [In]; split.
        + intros [].
        + intros [(_ & g & k & O' & _)|(_ & i & j & d & e & _ & A & _ & C & _)]; [destruct (O g O')|rewrite (N d (nth_error_In _ _ A)) in C; discriminate].
        + intros [<-|[]]. right. auto.
        + intros [(_ & g & k & O' & _)|(-> & _)]; [destruct (O g O')|left; reflexivity]. }
    assert (E3 : In m (match g with Some d => global_and_regions user crs parse is4326 geographic st F d ds | None => [] end) <->
      exists h, only_stereo ds h /\ ((m = EGlobalCrs /\ exists u c, v_crs h = Some u /\ parse u = Some c /\ is4326 c = false) \/ (m = EGlobalCrsUnparsed /\ exists u, v_crs h = Some u /\ parse u = None) \/
        exists j d, at_index ds (S j) d /\ In m (region_errors user crs parse is4326 geographic st F h (S j) d))).
    { destruct g as [g|]; [|destruct FG as [O _]; split; [intros []|intros (h & H & _); destruct (O h H)]]. destruct FG as [O _].
      unfold global_and_regions. rewrite in_app_iff, regions_in. transitivity ((m = EGlobalCrs /\ exists u c, v_crs g = Some u /\ parse u = Some c /\ is4326 c = false) \/ (m = EGlobalCrsUnparsed /\ exists u, v_crs g = Some u /\ parse u = None) \/
        exists j d, at_index ds (S j) d /\ In m (region_errors user crs parse is4326 geographic st F g (S j) d)).
      2: { split; [intro H; exists g; auto|]. intros (h & O' & H). rewrite (only_unique _ _ _ O' O) in H. exact H. }
      assert (GC : In m (global_crs_errors user crs parse is4326 F g) <-> (m = EGlobalCrs /\ exists u c, v_crs g = Some u /\ parse u = Some c /\ is4326 c = false) \/ (m = EGlobalCrsUnparsed /\ exists u, v_crs g = Some u /\ parse u = None)).
      { unfold global_crs_errors. destruct (v_crs g) as [u|]; [|split; [intros []|intros [(_ & u & c & H & _)|(_ & u & H & _)]; discriminate]].
        destruct (parse u) as [c|] eqn:Pu; [destruct (is4326 c) eqn:Ic|]; cbn [In]; split.
        - intros [].
        - intros [(_ & u' & c' & H & K & I)|(_ & u' & H & K)]; injection H as <-; congruence.
        - intros [<-|[]]. left. split; [reflexivity|]. exists u, c. auto.
        - intros [(-> & _)|(_ & u' & H & K)]; [left; reflexivity|injection H as <-; congruence].
        - intros [<-|[]]. right. split; [reflexivity|]. exists u. auto.
        - intros [(_ & u' & c' & H & K & I)|(-> & _)]; [injection H as <-; congruence|left; reflexivity]. }
      rewrite GC. assert (T : (exists j d, at_index (tl ds) j d /\ In m (region_errors user crs parse is4326 geographic st F g (1 + j) d)) <-> exists j d, at_index ds (S j) d /\ In m (region_errors user crs parse is4326 geographic st F g (S j) d)).
      { split; intros (j & d & H & K); exists j, d; apply tl_index in H || (rewrite tl_index); auto. }
      rewrite T. tauto. }
    rewrite E1, E3. clear E1 E3 FG g e1.
    assert (R : forall h, only_stereo ds h -> forall j d, In m (region_errors user crs parse is4326 geographic st F h j d) <-> _) by (intros h (k & _ & S & _) j d; exact (region_cases h d j m S)).
    destruct m; cbn [has_defect]; split.
    all: try (intros [[(E & H)|(E & H)]|[(A & j & d & E & H)|[(h & O & [(E & H)|[(E & H)|(j & d & A & H)]])|[(E & H)|(j & d & e & eu & du & A & B & C & D & [(E & H)|(E & H)])]]]]; try discriminate; try exact H).
    all: try (apply (R h O) in H; destruct H as [(E & H)|[(E & H)|[(E & H)|(E & H)]]]; try discriminate; injection E as ->).
    all: try (injection E as ->).
    - intros [].
    - intro H. left. right. auto.
    - intro H. left. left. auto.
    - split; [exact A|]. exists d. exact H.
    - intros (A & d & H). right. left. split; [exact A|]. exists i, d. auto.
    - destruct H as (u & c & H). exists h, u, c. auto.
    - intros (h & u & c & O & H). do 2 right. left. exists h. split; [exact O|]. left. split; [reflexivity|]. exists u, c. exact H.
    - destruct H as (u & H). exists h, u. auto.
    - intros (h & u & O & H). do 2 right. left. exists h. split; [exact O|]. right. left. split; [reflexivity|]. exists u. exact H.
    - split; [lia|]. destruct H as ((gb & db & H1 & H2) & H3). exists h, d, gb, db. auto.
    - intros (G & h & d & gb & db & O & A & B & C & D). destruct i as [|j]; [lia|]. do 2 right. left. exists h. split; [exact O|]. do 2 right. exists j, d. split; [exact A|]. apply (R h O). left. split; [reflexivity|]. split; [exists gb, db; auto|exact D].
    - split; [lia|]. exists h, d. auto.
    - intros (G & h & d & O & A & B). destruct i as [|j]; [lia|]. do 2 right. left. exists h. split; [exact O|]. do 2 right. exists j, d. split; [exact A|]. apply (R h O). right. left. auto.
    - split; [lia|]. exists h. split; [exact O|]. destruct O as (k & K & S & U). rewrite (U _ d A H) in *. exact K.
    - intros (G & h & O & A). destruct i as [|j]; [lia|]. do 2 right. left. exists h. split; [exact O|]. do 2 right. exists j, h. split; [exact A|]. apply (R h O). do 2 right. left. split; [reflexivity|]. destruct O as (k & K & S & U). exact S.
    - split; [lia|]. exists h, d. auto.
    - intros (G & h & d & O & A & B). destruct i as [|j]; [lia|]. do 2 right. left. exists h. split; [exact O|]. do 2 right. exists j, d. split; [exact A|]. apply (R h O). do 3 right. auto.
    - intro H. do 3 right. left. auto.
    - destruct H as (ec & dc & H). exists d, e, eu, du, ec, dc. auto.
    - intros (d & e & eu & du & ec & dc & A & B & C & D & H). do 4 right. exists i, d, e, eu, du. do 4 (split; [assumption|]). left. split; [reflexivity|]. exists ec, dc. exact H.
    - exists d, e, eu, du. auto.
    - intros (d & e & eu & du & A & B & C & D & H). do 4 right. exists i, d, e, eu, du. do 4 (split; [assumption|]). right. auto.
  Qed.
  Lemma length_message : forall (ds : list dom) els, List.length ds <> List.length els -> validate user crs parse is4326 geographic equals st F ds els = (false, [ELength]).
  Proof. intros ds els L. unfold validate. rewrite (proj2 (Nat.eqb_neq _ _) L). reflexivity. Qed.
End Messages.
