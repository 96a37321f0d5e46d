(** Proofs about clipping, simplifying and classifying shorelines. *)
From Coq Require Import String List Arith Bool ZArith QArith Qabs Qround Lia Lqa.
From Verif Require Import M_Base M_Shore M_Dem S_Shore P_Shore M_Clip S_Clip S_Cells.
Import ListNotations.
Open Scope nat_scope.

(** * Sublists *)
Lemma sub_refl {A} (l : list A) : sub l l.
Proof. induction l; constructor; assumption. Qed.
Lemma sub_app_l {A} (m : list A) l l' : sub l l' -> sub (m ++ l) (m ++ l').
Proof. intros H. induction m; cbn; [exact H|constructor; assumption]. Qed.
Lemma sub_skips {A} (m l l' : list A) : sub l l' -> sub l (m ++ l').
Proof. intros H. induction m; cbn; [exact H|constructor; assumption]. Qed.
Lemma sub_In {A} (l l' : list A) x : sub l l' -> In x l -> In x l'.
Proof. induction 1 as [| |]; cbn; [tauto|intuition|intuition]. Qed.
Lemma sub_length {A} (l l' : list A) : sub l l' -> length l <= length l'.
Proof. induction 1; cbn; lia. Qed.
Lemma sub_filter {A} (f : A -> bool) l : sub (filter f l) l.
Proof. induction l as [|x l IH]; cbn; [constructor|]. destruct (f x); constructor; exact IH. Qed.

(** * Ends of lists *)
Lemma destruct_last {A} (l : list A) : l = [] \/ exists x m, l = m ++ [x].
Proof. induction l as [|x m IH] using rev_ind; [left; reflexivity|right; exists x, m; reflexivity]. Qed.

(** * _nth_simplify *)
Section Simplify.
  Variable contains : point -> bool.
  Lemma skipn_skipn {A} n m (l : list A) : skipn n (skipn m l) = skipn (n + m) l.
  Proof. revert l. induction m as [|m IH]; intros l; [rewrite Nat.add_0_r; reflexivity|]. rewrite Nat.add_succ_r. destruct l; [destruct n; reflexivity|]. cbn [skipn]. apply IH. Qed.
  Lemma skipn_cons {A} (l : list A) j x : nth_error l j = Some x -> skipn j l = x :: skipn (S j) l.
  Proof. revert j. induction l as [|y l IH]; intros [|j] H; try discriminate; cbn in *; [congruence|]. apply IH, H. Qed.
  Lemma slice_false (pts : list point) j bd : bd <= length pts -> existsb (fun b => b) (slice (map contains pts) j bd) = false ->
    forall x, In x (slice pts j bd) -> contains x = false.
  Proof.
    intros _ H x I. destruct (contains x) eqn:C; [|reflexivity]. exfalso.
    assert (existsb (fun b => b) (slice (map contains pts) j bd) = true); [|congruence].
    apply existsb_exists. exists true. split; [|reflexivity]. unfold slice in *. rewrite skipn_map, firstn_map. rewrite <- C. apply in_map, I.
  Qed.
  Lemma get_nth {A} (l : list A) i : i < length l -> exists x, get l i = Ok x /\ nth_error l i = Some x.
  Proof. intros H. unfold get. destruct (nth_error l i) as [x|] eqn:E; [exists x; tauto|]. apply nth_error_None in E. lia. Qed.
  Lemma loop_thinned : forall fuel pts j line, length pts <= j + fuel -> j <= length pts ->
    exists l, simplify_loop fuel pts (map contains pts) j line = Ok (line ++ l) /\ thinned contains (skipn j pts) l.
  Proof.
    induction fuel as [|fuel IH]; intros pts j line F J.
    - exists []. cbn [simplify_loop]. destruct (Nat.ltb_spec j (length pts)); [lia|]. rewrite app_nil_r. split; [reflexivity|].
      rewrite skipn_all2 by lia. constructor.
    - cbn [simplify_loop]. destruct (Nat.ltb_spec j (length pts)) as [L|L].
      2:{ exists []. rewrite app_nil_r. split; [reflexivity|]. rewrite skipn_all2 by lia. constructor. }
      destruct (get_nth pts j L) as (p & Gp & Np).
      assert (Gi : get (map contains pts) j = Ok (contains p)) by (unfold get; rewrite nth_error_map, Np; reflexivity).
      rewrite Gi, Gp. cbn [bind]. rewrite (skipn_cons _ _ _ Np).
      assert (Keep : exists l, simplify_loop fuel pts (map contains pts) (j + 1) (line ++ [p]) = Ok (line ++ p :: l) /\ thinned contains (skipn (S j) pts) l).
      { destruct (IH pts (j + 1) (line ++ [p])) as (l & E & T); [lia|lia|]. exists l. rewrite E, <- app_assoc. split; [reflexivity|]. rewrite <- Nat.add_1_r. exact T. }
      destruct (contains p) eqn:C.
      + destruct Keep as (l & E & T). exists (p :: l). split; [exact E|]. apply th_keep; [left; exact C|exact T].
      + destruct (existsb _ _) eqn:X.
        * destruct Keep as (l & E & T). exists (p :: l). split; [exact E|]. apply th_keep; [right|exact T].
          rewrite map_length in X. unfold slice in X. rewrite skipn_map, firstn_map, (skipn_cons _ _ _ Np) in X. apply existsb_exists in X. destruct X as (b & I & B). apply in_map_iff in I.
          destruct I as (x & Cx & I). exists x. split; [|congruence]. assert (EQ : Nat.min (j + 50) (length pts - 1) - j = Nat.min 50 (length (skipn (S j) pts))) by (rewrite skipn_length; lia). rewrite EQ in I. exact I.
        * clear Keep. rewrite map_length in *. remember (Nat.min (j + 50) (length pts - 1)) as bd eqn:Hbd. remember (Nat.min 50 (bd - j)) as e eqn:He.
          assert (B : bd < length pts) by lia. assert (E : j + e = bd) by lia. rewrite E. destruct (get_nth pts bd B) as (q & Gq & Nq). rewrite Gq. cbn [bind].
          destruct (IH pts (bd + 1) (line ++ [p; q])) as (l & EL & T); [lia|lia|]. exists (p :: q :: l). rewrite EL, <- app_assoc. split; [reflexivity|].
          destruct (Nat.eq_dec e 0) as [Z|Z].
          -- assert (Hj : bd = j) by lia. rewrite Hj in *. assert (j = length pts - 1) by lia. assert (q = p) by congruence. subst q.
             rewrite skipn_all2 in T by lia. rewrite skipn_all2 by lia. inversion T; subst. apply th_last. exact C.
          -- assert (Sk : skipn (S j) pts = slice pts (S j) bd ++ q :: skipn (bd + 1) pts).
             { unfold slice. rewrite <- (firstn_skipn (bd - S j) (skipn (S j) pts)) at 1. f_equal. rewrite skipn_skipn. replace (bd - S j + S j) with bd by lia.
               rewrite (skipn_cons _ _ _ Nq), Nat.add_1_r. reflexivity. }
             rewrite Sk. apply th_jump; [exact C| | |exact T].
             ++ intros x I. apply (slice_false pts j bd); [lia|exact X|]. unfold slice in *. rewrite (skipn_cons _ _ _ Np).
                replace (bd - j) with (S (bd - S j)) by lia. cbn. right. exact I.
             ++ unfold slice. rewrite app_length. cbn [length]. rewrite firstn_length, !skipn_length. lia.
  Qed.
  Lemma filter_none {A} (f : A -> bool) l : (forall x, In x l -> f x = false) -> filter f l = [].
  Proof. induction l as [|x l IH]; intros H; [reflexivity|]. cbn. rewrite (H x (or_introl eq_refl)). apply IH. intros y I. apply H. right. exact I. Qed.
  Lemma thinned_filter r l : thinned contains r l -> filter contains l = filter contains r.
  Proof.
    induction 1 as [|p r l _ T IH|p C|p m q r l C M _ T IH]; [reflexivity| |cbn; rewrite C; reflexivity|].
    - cbn. destruct (contains p); congruence.
    - cbn [filter]. rewrite C, filter_app, (filter_none _ m M). cbn. rewrite <- IH. destruct (contains q); reflexivity.
  Qed.
  Lemma last_app_cons {A} (a : list A) x b d : last (a ++ x :: b) d = last (x :: b) d.
  Proof. induction a as [|z a IH]; [reflexivity|]. cbn [app]. rewrite <- IH. cbn [last]. destruct (a ++ x :: b) eqn:E; [destruct a; discriminate|reflexivity]. Qed.
  Lemma thinned_sub r l : thinned contains r l -> exists s, sub s r /\ (l = s \/ exists p, l = s ++ [p] /\ last r p = p /\ r <> [] /\ contains p = false).
  Proof.
    induction 1 as [|p r l _ T (s & S & E)|p C|p m q r l C M _ T (s & S & E)].
    - exists []. split; [constructor|left; reflexivity].
    - exists (p :: s). split; [constructor; exact S|]. destruct E as [->|(x & -> & L & N & C)]; [left; reflexivity|right]. exists x. split; [reflexivity|].
      split; [|split; [discriminate|exact C]]. destruct r; [congruence|exact L].
    - exists [p]. split; [repeat constructor|]. right. exists p. repeat split; [discriminate|exact C].
    - exists (p :: q :: s). split; [constructor; apply sub_skips; constructor; exact S|]. destruct E as [->|(x & -> & L & N & C')]; [left; reflexivity|right]. exists x.
      split; [reflexivity|]. split; [|split; [discriminate|exact C']]. destruct r as [|y r]; [congruence|].
      change (p :: m ++ q :: y :: r) with ((p :: m) ++ q :: y :: r). rewrite last_app_cons. exact L.
  Qed.
  Lemma last_indep {A} (l : list A) d d' : l <> [] -> last l d = last l d'.
  Proof. induction l as [|x [|y l] IH]; intros N; [congruence|reflexivity|]. apply IH. discriminate. Qed.
  Lemma thinned_ends r l : thinned contains r l -> forall d, (r = [] <-> l = []) /\ hd d l = hd d r /\ last l d = last r d.
  Proof.
    induction 1 as [|p r l _ T IH|p C|p m q r l C M _ T IH]; intros d.
    - tauto.
    - destruct (IH d) as (A & _ & B). split; [split; discriminate|]. split; [reflexivity|]. cbn [last]. destruct r as [|x r], l as [|y l]; try reflexivity; try exact B; destruct A; intuition discriminate.
    - split; [split; discriminate|]. split; reflexivity.
    - destruct (IH d) as (A & _ & B). split; [split; discriminate|]. split; [reflexivity|]. change (p :: m ++ q :: r) with ((p :: m) ++ q :: r). rewrite last_app_cons.
      change (p :: q :: l) with ([p] ++ q :: l). rewrite last_app_cons. cbn [last]. destruct r as [|x r], l as [|y l]; try reflexivity; try exact B; destruct A; intuition discriminate.
  Qed.
  Lemma simplify_spec pts : exists line, simplify_part contains pts = Ok line /\ thinned contains pts line /\ filter contains line = filter contains pts /\
    (exists s, sub s pts /\ (line = s \/ exists p, line = s ++ [p] /\ contains p = false /\ pts <> [] /\ last pts p = p)) /\
    (forall d, hd d line = hd d pts /\ last line d = last pts d).
  Proof.
    destruct (loop_thinned (length pts) pts 0 [] (le_n _) (Nat.le_0_l _)) as (l & E & T). cbn [app skipn] in *. exists l. split; [exact E|]. split; [exact T|].
    split; [apply thinned_filter, T|]. split.
    - destruct (thinned_sub _ _ T) as (s & S & H). exists s. split; [exact S|]. destruct H as [H|(p & H & A & B & C)]; [left; exact H|right]. exists p. tauto.
    - intros d. apply (thinned_ends _ _ T).
  Qed.
End Simplify.

(** * Parts *)
Lemma points_of_some l : points_of (map Some l) = l.
Proof. unfold points_of. induction l as [|x l IH]; [reflexivity|]. cbn. f_equal. exact IH. Qed.
Lemma but_two_term (ps : list point) : but_two (term ps) = removelast ps.
Proof.
  unfold but_two, term. rewrite app_length, map_length. cbn [length].
  destruct (destruct_last ps) as [->|(q & qs & ->)]; [reflexivity|]. rewrite app_length. cbn [length]. replace (length qs + 1 + 1 - 2) with (length qs) by lia.
  rewrite map_app, <- app_assoc. rewrite firstn_app, map_length, Nat.sub_diag, firstn_O, app_nil_r. rewrite <- (map_length Some qs) at 1. rewrite firstn_all, points_of_some.
  rewrite removelast_app by discriminate. cbn. rewrite app_nil_r. reflexivity.
Qed.
Lemma but_one_term ps : but_one (term ps) = ps.
Proof. unfold but_one, term. rewrite removelast_app by discriminate. cbn. rewrite app_nil_r. apply points_of_some. Qed.
Lemma term_part ps : ps <> [] -> part (term ps).
Proof. destruct ps as [|q qs]; [congruence|]. intros _. exists q, qs. reflexivity. Qed.
Lemma terms_parts rings : Forall (fun r => r <> []) rings -> Forall part (map term rings).
Proof. induction 1; cbn; constructor; [apply term_part; assumption|assumption]. Qed.
Lemma to_list_parts parts : Forall part parts -> convert_to_list (concat parts) = parts.
Proof.
  intros H. destruct parts as [|p ps]; [reflexivity|]. destruct (to_list_to_array (p :: ps)) as (arr & E & L); [discriminate|exact H|].
  cbn [convert_to_array] in E. injection E as <-. exact L.
Qed.
Lemma to_list_terms rings : Forall (fun r => r <> []) rings -> convert_to_list (concat (map term rings)) = map term rings.
Proof. intros H. apply to_list_parts, terms_parts, H. Qed.
Lemma to_list_term ring : ring <> [] -> convert_to_list (term ring) = [term ring].
Proof. intros N. pose proof (to_list_parts [term ring]) as H. cbn [concat] in H. rewrite app_nil_r in H. apply H. constructor; [apply term_part, N|constructor]. Qed.
Lemma mapM_map {A B C} (f : A -> B) (g : B -> res C) l : mapM g (map f l) = mapM (fun x => g (f x)) l.
Proof. induction l as [|x l IH]; [reflexivity|]. cbn. destruct (g (f x)); cbn; [rewrite IH; reflexivity|reflexivity|reflexivity]. Qed.
Lemma simplify_all contains (rings : list (list point)) : rings <> [] -> Forall (fun r => r <> []) rings ->
  exists lines, nth_simplify contains (concat (map term rings)) = Ok (concat (map term lines)) /\
    Forall2 (fun r line => simplified contains (removelast r) line) rings lines.
Proof.
  intros N H. unfold nth_simplify. rewrite to_list_terms by exact H.
  assert (X : exists lines, mapM (fun poly => let! line := simplify_part contains (but_two poly) in Ok (map Some line ++ [None])) (map term rings) = Ok (map term lines) /\
     Forall2 (fun r line => simplified contains (removelast r) line) rings lines).
  { clear N H. induction rings as [|r rings (lines & E & F)].
    - exists []. split; [reflexivity|constructor].
    - destruct (simplify_spec contains (removelast r)) as (line & E1 & P). exists (line :: lines). split; [|constructor; [exact P|exact F]].
      cbn [map mapM]. rewrite but_two_term, E1. cbn [bind]. rewrite E. reflexivity. }
  destruct X as (lines & E & F). exists lines. split; [|exact F]. rewrite E. cbn [bind]. destruct lines as [|l lines]; [inversion F; subst; exfalso; apply N; reflexivity|reflexivity].
Qed.
(** A ring loses its closing point; the last point outside stands twice. *)
Lemma simplify_open : exists r, hd (0, 0)%Q r = last r (0, 0)%Q /\ nth_simplify (fun _ => true) (term r) = Ok (term (removelast r)) /\
  hd (0, 0)%Q (removelast r) <> last (removelast r) (0, 0)%Q.
Proof. exists [(0, 0); (1, 0); (1, 1); (0, 0)]%Q. split; [reflexivity|]. split; [vm_compute; reflexivity|]. cbn. discriminate. Qed.
Lemma simplify_twice : exists contains r, NoDup (removelast r) /\ nth_simplify contains (term r) = Ok (term [(0, 0); (1, 0); (2, 0); (2, 0)]%Q).
Proof.
  exists (fun p => Qle_bool (fst p) 1), [(0, 0); (1, 0); (2, 0); (0, 0)]%Q. split; [|vm_compute; reflexivity].
  cbn. repeat (constructor; [cbn; intuition discriminate|]). constructor.
Qed.

(** * _clip_polys_2 *)
Lemma ltQ_iff a b : ltQ a b = true <-> (a < b)%Q.
Proof.
  unfold ltQ. rewrite negb_true_iff. destruct (Qle_bool b a) eqn:E; split; intros H; try discriminate; try reflexivity.
  - apply Qle_bool_iff in E. lra.
  - destruct (Qlt_le_dec a b) as [X|X]; [exact X|]. apply Qle_bool_iff in X. congruence.
Qed.
Definition kept (k : keep) : nat := (if kLL k then 1 else 0) + (if kUL k then 1 else 0) + (if kLR k then 1 else 0) + (if kUR k then 1 else 0).
Lemma snap_spec b k p o k' : snap b k p = (o, k') ->
  (strictly_in_box b p /\ o = Some p /\ k' = k) \/ (~ strictly_in_box b p /\ ((o = None /\ k' = k) \/ (exists c, o = Some c /\ corner b c /\ kept k' + 1 = kept k))).
Proof.
  unfold snap. destruct b as [[[x0 x1] y0] y1]. unfold xmin_of, xmax_of, ymin_of, ymax_of. cbn [fst snd].
  destruct (negb _ || negb _) eqn:X.
  - intros H. right. split.
    + intros (A & B). apply orb_true_iff in X. rewrite !negb_true_iff, !andb_false_iff in X.
      assert (L : forall a c, ltQ a c = false -> ~ (a < c)%Q) by (intros a c E F; apply ltQ_iff in F; congruence).
      destruct X as [[X|X]|[X|X]]; apply L in X; tauto.
    + destruct k as [ll ul lr ur]. cbn [kLL kUL kLR kUR] in H.
      destruct (ll && _ && _) eqn:E1; [apply andb_true_iff in E1; destruct E1 as (E1 & _); apply andb_true_iff in E1; destruct E1 as (E1 & _); subst; injection H as <- <-; right; eexists; split; [reflexivity|]; split; [cbn; tauto|cbn; lia]|].
      destruct (ul && _ && _) eqn:E2; [apply andb_true_iff in E2; destruct E2 as (E2 & _); apply andb_true_iff in E2; destruct E2 as (E2 & _); subst; injection H as <- <-; right; eexists; split; [reflexivity|]; split; [cbn; tauto|cbn; lia]|].
      destruct (lr && _ && _) eqn:E3; [apply andb_true_iff in E3; destruct E3 as (E3 & _); apply andb_true_iff in E3; destruct E3 as (E3 & _); subst; injection H as <- <-; right; eexists; split; [reflexivity|]; split; [cbn; tauto|cbn; lia]|].
      destruct (ur && _ && _) eqn:E4; [apply andb_true_iff in E4; destruct E4 as (E4 & _); apply andb_true_iff in E4; destruct E4 as (E4 & _); subst; injection H as <- <-; right; eexists; split; [reflexivity|]; split; [cbn; tauto|cbn; lia]|].
      injection H as <- <-. left. tauto.
  - intros H. injection H as <- <-. left. apply orb_false_iff in X. rewrite !negb_false_iff, !andb_true_iff, !ltQ_iff in X. cbn. tauto.
Qed.
Lemma snap_all_spec (contains : point -> bool) b : (forall p, strictly_in_box b p -> contains p = true) -> forall p k,
  let out := snap_all contains b k p in
  sub (filter contains p) out /\ (forall x, In x out -> (In x p /\ contains x = true) \/ corner b x) /\ length out <= length (filter contains p) + kept k.
Proof.
  intros Cm. induction p as [|q p IH]; intros k; [cbn; split; [constructor|]; split; [tauto|lia]|]. cbn [snap_all filter].
  destruct (contains q) eqn:C.
  - destruct (IH k) as (A & B & L). split; [constructor; exact A|]. split; [|cbn; lia]. intros x [<-|I]; [left; split; [left; reflexivity|exact C]|]. destruct (B x I) as [(X & Y)|X]; [left; split; [right; exact X|exact Y]|right; exact X].
  - destruct (snap b k q) as [o k'] eqn:S. apply snap_spec in S. destruct S as [(S & _)|(_ & [(-> & ->)|(c & -> & Co & K)])].
    + rewrite (Cm q S) in C. discriminate.
    + destruct (IH k) as (A & B & L). split; [exact A|]. split; [|exact L]. intros x I. destruct (B x I) as [(X & Y)|X]; [left; split; [right; exact X|exact Y]|right; exact X].
    + destruct (IH k') as (A & B & L). split; [constructor; exact A|]. split; [|cbn; lia]. intros x [<-|I]; [right; exact Co|]. destruct (B x I) as [(X & Y)|X]; [left; split; [right; exact X|exact Y]|right; exact X].
Qed.
Definition beyondb (b : box4) (c : bool * bool) (p : point) : bool :=
  (if fst c then ltQ (xmax_of b) (fst p) else ltQ (fst p) (xmin_of b)) && (if snd c then ltQ (ymax_of b) (snd p) else ltQ (snd p) (ymin_of b)).
Lemma beyondb_iff b c p : beyondb b c p = true <-> beyond b c p.
Proof. destruct b as [[[x0 x1] y0] y1]. unfold beyondb, beyond, xmin_of, xmax_of, ymin_of, ymax_of. cbn. rewrite andb_true_iff. destruct c as [[|] [|]]; cbn; rewrite !ltQ_iff; reflexivity. Qed.
(** Exactly which point takes which corner. *)
Definition flag (k : keep) (c : bool * bool) : bool :=
  match c with (false, false) => kLL k | (false, true) => kUL k | (true, false) => kLR k | (true, true) => kUR k end.
Definition flags_for (contains : point -> bool) (b : box4) (k : keep) (before : list point) : Prop :=
  forall c, flag k c = true <-> forall q, In q before -> contains q = false -> ~ beyond b c q.
Lemma beyond_one b c c' p : (xmin_of b < xmax_of b)%Q -> (ymin_of b < ymax_of b)%Q -> beyond b c p -> beyond b c' p -> c = c'.
Proof.
  destruct b as [[[x0 x1] y0] y1]. unfold xmin_of, xmax_of, ymin_of, ymax_of, beyond. cbn. intros A B. destruct c as [[|] [|]], c' as [[|] [|]]; cbn; intros (C & D) (E & F); try reflexivity; exfalso; lra.
Qed.
Lemma snap_corner b k p : (xmin_of b < xmax_of b)%Q -> (ymin_of b < ymax_of b)%Q -> ~ strictly_in_box b p ->
  (exists c, beyond b c p /\ flag k c = true /\ fst (snap b k p) = Some (corner_at b c) /\
     forall c', flag (snd (snap b k p)) c' = if Bool.eqb (fst c) (fst c') && Bool.eqb (snd c) (snd c') then false else flag k c') \/
  ((forall c, beyond b c p -> flag k c = false) /\ snap b k p = (None, k)).
Proof.
  destruct b as [[[x0 x1] y0] y1]. unfold snap, xmin_of, xmax_of, ymin_of, ymax_of. cbn [fst snd]. intros Hx Hy NI.
  assert (L : forall a c, ltQ a c = false -> ~ (a < c)%Q) by (intros a c E F; apply ltQ_iff in F; congruence).
  destruct (negb _ || negb _) eqn:X.
  2:{ exfalso. apply NI. apply orb_false_iff in X. rewrite !negb_false_iff, !andb_true_iff, !ltQ_iff in X. cbn. tauto. }
  destruct k as [ll ul lr ur]. cbn [kLL kUL kLR kUR].
  assert (T : forall f u v, f && u && v = true -> f = true /\ u = true /\ v = true) by (intros f u v E; apply andb_true_iff in E; rewrite andb_true_iff in E; tauto).
  destruct (ll && _ && _) eqn:E1; [apply T in E1; rewrite !ltQ_iff in E1; left; exists (false, false); split; [cbn; tauto|]; split; [cbn; tauto|]; split; [reflexivity|intros [[|] [|]]; reflexivity]|].
  destruct (ul && _ && _) eqn:E2; [apply T in E2; rewrite !ltQ_iff in E2; left; exists (false, true); split; [cbn; tauto|]; split; [cbn; tauto|]; split; [reflexivity|intros [[|] [|]]; reflexivity]|].
  destruct (lr && _ && _) eqn:E3; [apply T in E3; rewrite !ltQ_iff in E3; left; exists (true, false); split; [cbn; tauto|]; split; [cbn; tauto|]; split; [reflexivity|intros [[|] [|]]; reflexivity]|].
  destruct (ur && _ && _) eqn:E4; [apply T in E4; rewrite !ltQ_iff in E4; left; exists (true, true); split; [cbn; tauto|]; split; [cbn; tauto|]; split; [reflexivity|intros [[|] [|]]; reflexivity]|].
  right. split; [|reflexivity]. intros [[|] [|]] (A & B); cbn in A, B |- *; apply ltQ_iff in A, B.
  - rewrite A, B in E4. destruct ur; [discriminate|reflexivity].
  - rewrite A, B in E3. destruct lr; [discriminate|reflexivity].
  - rewrite A, B in E2. destruct ul; [discriminate|reflexivity].
  - rewrite A, B in E1. destruct ll; [discriminate|reflexivity].
Qed.
Lemma snap_all_snapped (contains : point -> bool) b : (xmin_of b < xmax_of b)%Q -> (ymin_of b < ymax_of b)%Q -> (forall p, strictly_in_box b p -> contains p = true) ->
  forall p before k, flags_for contains b k before -> snapped contains b before p (snap_all contains b k p).
Proof.
  intros Hx Hy Cm. induction p as [|q p IH]; intros before k F; [constructor|]. cbn [snap_all]. destruct (contains q) eqn:C.
  - constructor; [exact C|]. apply IH. intros c. rewrite (F c). split; intros H x I Cx; [apply in_app_iff in I; destruct I as [I|[<-|[]]]; [apply H; assumption|congruence]|apply H; [apply in_app_iff; left; exact I|exact Cx]].
  - destruct (snap_corner b k q Hx Hy) as [(c & By & Fl & E & U)|(Nb & E)]; [intros S; rewrite (Cm q S) in C; discriminate| |].
    + destruct (snap b k q) as [o k'] eqn:S. cbn [fst snd] in E, U. subst o. apply sn_corner; [exact C|exact By|apply (F c), Fl|]. apply IH. intros c'. rewrite (U c').
      destruct (Bool.eqb (fst c) (fst c') && Bool.eqb (snd c) (snd c')) eqn:Q.
      * apply andb_true_iff in Q. rewrite !Bool.eqb_true_iff in Q. assert (c = c') as <- by (destruct c, c'; cbn in Q; destruct Q; congruence).
        split; [discriminate|]. intros H. exfalso. apply (H q); [apply in_app_iff; right; left; reflexivity|exact C|exact By].
      * rewrite (F c'). split; intros H x I Cx.
        -- apply in_app_iff in I. destruct I as [I|[<-|[]]]; [apply H; assumption|]. intros B'. rewrite (beyond_one b c c' q Hx Hy By B'), !Bool.eqb_reflx in Q. discriminate.
        -- apply H; [apply in_app_iff; left; exact I|exact Cx].
    + rewrite E. apply sn_drop; [exact C| |].
      * intros c By. specialize (Nb c By). destruct (existsb (fun x => negb (contains x) && beyondb b c x) before) eqn:X.
        -- apply existsb_exists in X. destruct X as (x & I & X). apply andb_true_iff in X. rewrite negb_true_iff, beyondb_iff in X. exists x. tauto.
        -- exfalso. assert (flag k c = true); [|congruence]. apply F. intros x I Cx B. assert (existsb (fun x => negb (contains x) && beyondb b c x) before = true); [|congruence].
           apply existsb_exists. exists x. split; [exact I|]. rewrite Cx. apply beyondb_iff, B.
      * apply IH. intros c. rewrite (F c). split; intros H x I Cx.
        -- apply in_app_iff in I. destruct I as [I|[<-|[]]]; [apply H; assumption|]. intros B. specialize (Nb c B). apply F in H. congruence.
        -- apply H; [apply in_app_iff; left; exact I|exact Cx].
Qed.
Lemma isclose_near a c : isclose a c = true <-> near a c.
Proof. apply Qle_bool_iff. Qed.
Lemma all_close_near p q : all_close p q = true <-> near_points p q.
Proof. unfold all_close. rewrite andb_true_iff, !isclose_near. reflexivity. Qed.
Lemma near_refl a : near a a.
Proof. unfold near. setoid_replace (a - a)%Q with 0%Q by ring. change (Qabs 0) with 0%Q. pose proof (Qabs_nonneg a). lra. Qed.
Lemma inflate_wider b d : inflate b d = wider b d.
Proof. destruct b as [[[x0 x1] y0] y1]. reflexivity. Qed.
Lemma corner_in b c : corner b c -> (xmin_of b <= xmax_of b)%Q -> (ymin_of b <= ymax_of b)%Q -> in_box b c.
Proof. destruct b as [[[x0 x1] y0] y1]. unfold xmin_of, xmax_of, ymin_of, ymax_of. cbn. intros ([->| ->] & [->| ->]) A B; repeat split; try apply Qle_refl; assumption. Qed.
Lemma clip2_part (contains : point -> bool) bbox delta ring : let b := wider bbox delta in
  (forall p, strictly_in_box b p -> contains p = true) -> (forall p, contains p = true -> in_box b p) -> (xmin_of b < xmax_of b)%Q -> (ymin_of b < ymax_of b)%Q -> ring <> [] ->
  (forallb contains ring = true -> clip_part2 contains (inflate bbox delta) (term ring) = Ok [term ring]) /\
  (existsb contains ring = false -> clip_part2 contains (inflate bbox delta) (term ring) = Ok []) /\
  (forallb contains ring = false -> existsb contains ring = true ->
     exists line p0 r, clip_part2 contains (inflate bbox delta) (term ring) = Ok [term (p0 :: r)] /\
       snapped contains b [] ring line /\ line <> [] /\ hd_error line = Some p0 /\ (p0 :: r = line \/ p0 :: r = line ++ [p0]) /\ near_points p0 (last (p0 :: r) p0) /\
       sub (filter contains ring) line /\ (forall x, In x line -> (In x ring /\ contains x = true) \/ corner b x) /\
       length line <= length (filter contains ring) + 4 /\ (forall x, In x (p0 :: r) -> in_box b x)).
Proof.
  intros b Cm So Wx Wy N. unfold clip_part2. rewrite but_one_term. split; [intros ->; reflexivity|]. split.
  - intros E. assert (F : forallb contains ring = false).
    { destruct ring as [|p ring]; [congruence|]. cbn in *. apply orb_false_iff in E. destruct E as (-> & _). reflexivity. }
    rewrite F, E. reflexivity.
  - intros F E. rewrite F, E. rewrite inflate_wider. fold b.
    set (k0 := {| kLL := true; kUL := true; kLR := true; kUR := true |}). destruct (snap_all_spec contains b Cm ring k0) as (A & B & L).
    set (line := snap_all contains b k0 ring) in *.
    assert (NF : filter contains ring <> []).
    { apply existsb_exists in E. destruct E as (x & I & C). intros Z. assert (X : In x (filter contains ring)) by (apply filter_In; tauto). rewrite Z in X. destruct X. }
    assert (SN : (xmin_of b < xmax_of b)%Q -> (ymin_of b < ymax_of b)%Q -> snapped contains b [] ring line).
    { intros Hx Hy. apply snap_all_snapped; [exact Hx|exact Hy|exact Cm|]. intros [[|] [|]]; cbn; split; auto; intros _ q []. }
    destruct line as [|p0 rest] eqn:EL; [destruct (filter contains ring); [congruence|inversion A]|].
    assert (BV : (xmin_of b <= xmax_of b)%Q /\ (ymin_of b <= ymax_of b)%Q).
    { apply existsb_exists in E. destruct E as (x & _ & C). apply So in C. unfold in_box in C. destruct b as [[[x0 x1] y0] y1]. unfold xmin_of, xmax_of, ymin_of, ymax_of. cbn in *. lra. }
    assert (IB : forall x, In x (p0 :: rest) -> in_box b x).
    { intros x I. destruct (B x I) as [(_ & C)|C]; [apply So, C|apply corner_in; tauto]. }
    cbn [close_line bind]. destruct (all_close p0 (last (p0 :: rest) p0)) eqn:AC.
    + exists (p0 :: rest), p0, rest. split; [reflexivity|]. split; [apply SN; assumption|]. split; [discriminate|]. split; [reflexivity|]. split; [left; reflexivity|].
      split; [apply all_close_near, AC|]. repeat (split; [assumption|]). exact IB.
    + exists (p0 :: rest), p0, (rest ++ [p0]). split; [reflexivity|]. split; [apply SN; assumption|]. split; [discriminate|]. split; [reflexivity|]. split; [right; reflexivity|].
      split; [change (p0 :: rest ++ [p0]) with ((p0 :: rest) ++ [p0]); rewrite last_last; split; apply near_refl|].
      repeat (split; [assumption|]). intros x I. change (p0 :: rest ++ [p0]) with ((p0 :: rest) ++ [p0]) in I. apply in_app_iff in I. destruct I as [I|[<-|[]]]; apply IB; [exact I|left; reflexivity].
Qed.
Lemma clip2_refused contains rings bbox delta : Forall (fun r => r <> []) rings ->
  (forall r p, In r rings -> In p r -> contains p = false) -> clip_polys_2 contains (concat (map term rings)) bbox delta = Raise ValueError.
Proof.
  intros H O. unfold clip_polys_2. rewrite to_list_terms by exact H.
  assert (X : mapM (clip_part2 contains (inflate bbox delta)) (map term rings) = Ok (map (fun _ => []) rings)).
  { induction H as [|r rings N _ IH]; [reflexivity|]. cbn [map mapM].
    assert (E : existsb contains r = false). { destruct (existsb contains r) eqn:E; [|reflexivity]. apply existsb_exists in E. destruct E as (p & I & C). rewrite (O r p (or_introl eq_refl) I) in C. discriminate. }
    unfold clip_part2 at 1. rewrite but_one_term, E. destruct (forallb contains r) eqn:F.
    - destruct r as [|p r]; [congruence|]. cbn in E, F. destruct (contains p); discriminate.
    - cbn [bind]. rewrite IH by (intros r' p I J; apply (O r' p); [right; exact I|exact J]). reflexivity. }
  rewrite X. cbn [bind]. replace (List.concat (map (fun _ => []) rings)) with (@nil (list row)); [reflexivity|]. clear. induction rings; [reflexivity|exact IHrings].
Qed.
Lemma clip2_open : exists contains ring out, (forall p, contains p = true <-> strictly_in_box (wider (0, 100, 0, 10)%Q (1 # 10)) p) /\
  clip_polys_2 contains (term ring) (0, 100, 0, 10)%Q (1 # 10) = Ok (term out) /\ hd_error out = Some (99, 1)%Q /\ last out (0, 0)%Q = (99, 1000009 # 1000000)%Q.
Proof.
  exists (fun p => (ltQ (-1 # 10) (fst p) && ltQ (fst p) (1001 # 10)) && (ltQ (-1 # 10) (snd p) && ltQ (snd p) (101 # 10))),
         [(99, 1); (120, 5); (90, 5); (99, 1000009 # 1000000)]%Q, [(99, 1); (90, 5); (99, 1000009 # 1000000)]%Q. split.
  - intros p. rewrite !andb_true_iff, !ltQ_iff. cbn. lra.
  - split; [vm_compute; reflexivity|split; reflexivity].
Qed.

(** * _clip_polys *)
Lemma ring_rows_part xy : xy <> [] -> ring_rows xy = Ok (ring_part xy).
Proof. destruct xy as [|p xy]; [congruence|reflexivity]. Qed.
Lemma ring_part_term xy : ring_part xy = term (xy ++ firstn 1 xy).
Proof. reflexivity. Qed.
Lemma but_two_ring_part xy : xy <> [] -> but_two (ring_part xy) = xy.
Proof. destruct xy as [|p xy]; [congruence|]. intros _. rewrite ring_part_term, but_two_term. cbn [firstn]. rewrite removelast_app by discriminate. cbn. rewrite app_nil_r. reflexivity. Qed.
Lemma ring_part_part xy : xy <> [] -> part (ring_part xy).
Proof. destruct xy as [|p xy]; [congruence|]. intros _. exists p, (xy ++ [p]). reflexivity. Qed.
Lemma mapM_ok {A B} (f : A -> res B) (g : A -> B) l : (forall x, In x l -> f x = Ok (g x)) -> mapM f l = Ok (map g l).
Proof. induction l as [|x l IH]; intros H; [reflexivity|]. cbn. rewrite (H x (or_introl eq_refl)). cbn. rewrite IH by (intros y I; apply H; right; exact I). reflexivity. Qed.
Section ClipPolys.
  Variable G : Type.
  Variable make : list point -> res G.
  Variable valid : G -> bool.
  Variable buffered : G -> list G.
  Variable contains : G -> G -> bool.
  Variable intersection : G -> G -> list (option (list point)).
  Lemma clip_one_ok b ring g : Forall (fun o => exists xy, o = Some xy /\ xy <> []) (intersection g b) ->
    clip_one G contains intersection b (term ring) g = Ok (concat (clip_outcome contains intersection b ring g)).
  Proof.
    intros H. unfold clip_one, clip_outcome. destruct (contains b g); [cbn; rewrite app_nil_r; reflexivity|].
    assert (X : mapM (fun o => match o with Some xy => ring_rows xy | None => Raise AttributeError end) (intersection g b) = Ok (map ring_part (members_of (intersection g b)))).
    { induction H as [|o l (xy & -> & N) _ IH]; [reflexivity|]. cbn [mapM]. rewrite ring_rows_part by exact N. cbn [bind]. rewrite IH. reflexivity. }
    rewrite X. reflexivity.
  Qed.
  Lemma clip_part_ok b ring g : make (removelast ring) = Ok g -> valid g = true -> Forall (fun o => exists xy, o = Some xy /\ xy <> []) (intersection g b) ->
    clip_part G make valid buffered contains intersection b (term ring) = Ok (concat (clip_outcome contains intersection b ring g)).
  Proof.
    intros M V I. unfold clip_part. rewrite but_two_term, M. cbn [bind]. rewrite V. cbn [mapM]. rewrite clip_one_ok by exact I. cbn. rewrite app_nil_r. reflexivity.
  Qed.
  Lemma clip_outcome_parts b ring g : ring <> [] -> Forall (fun o => exists xy, o = Some xy /\ xy <> []) (intersection g b) -> Forall part (clip_outcome contains intersection b ring g).
  Proof.
    intros N H. unfold clip_outcome. destruct (contains b g); [constructor; [apply term_part, N|constructor]|].
    induction H as [|o l (xy & -> & M) _ IH]; [constructor|]. cbn. constructor; [apply ring_part_part, M|exact IH].
  Qed.
  Lemma clip_polys_ok bbox delta b rings gs : make (box_points (wider bbox delta)) = Ok b ->
    Forall2 (fun ring g => ring <> [] /\ make (removelast ring) = Ok g /\ valid g = true /\ Forall (fun o => exists xy, o = Some xy /\ xy <> []) (intersection g b)) rings gs ->
    exists out, clip_polys G make valid buffered contains intersection (concat (map term rings)) bbox delta = Ok out /\
      convert_to_list out = concat (map (fun q => clip_outcome contains intersection b (fst q) (snd q)) (combine rings gs)).
  Proof.
    intros B H. exists (concat (concat (map (fun q => clip_outcome contains intersection b (fst q) (snd q)) (combine rings gs)))). split.
    - unfold clip_polys. rewrite inflate_wider, B. cbn [bind]. rewrite to_list_terms.
      + assert (X : mapM (clip_part G make valid buffered contains intersection b) (map term rings) = Ok (map (fun q => concat (clip_outcome contains intersection b (fst q) (snd q))) (combine rings gs))).
        { induction H as [|ring g rings gs (N & M & V & I) _ IH]; [reflexivity|]. cbn [map mapM combine]. rewrite (clip_part_ok b ring g M V I). cbn [bind]. rewrite IH. reflexivity. }
        rewrite X. cbn [bind]. f_equal. clear. induction (combine rings gs) as [|q l IH]; [reflexivity|]. cbn. rewrite concat_app. f_equal. exact IH.
      + clear B. induction H as [|ring g rings gs (N & _) _ IH]; constructor; assumption.
    - apply to_list_parts. clear B. induction H as [|ring g rings gs (N & M & V & I) _ IH]; [constructor|]. cbn. apply Forall_app. split; [apply clip_outcome_parts; assumption|exact IH].
  Qed.
End ClipPolys.

(** * _classify_shoreline *)
Section Classify.
  Variables G X : Type.
  Variable make : list point -> res G.
  Variable contains overlaps : G -> G -> bool.
  Variable difference : G -> G -> G.
  Variable area : G -> Q.
  Variable exteriors : G -> list (list point).
  Variable stereo_area : G -> Q.
  Variable mem : G -> X -> Prop.
  Hypothesis Set_ : set_like mem contains overlaps difference.
  Lemma kind_right_ext amin (left left' : X -> Prop) g k : (forall x, left x <-> left' x) -> kind_right mem area amin left g k -> kind_right mem area amin left' g k.
  Proof.
    intros E. assert (E1 : forall x, left x -> left' x) by (intros x; apply E). assert (E2 : forall x, left' x -> left x) by (intros x; apply E).
    assert (A : (exists x, mem g x /\ left x) <-> (exists x, mem g x /\ left' x)) by (split; intros (x & U & V); exists x; split; auto).
    assert (B : (exists x, mem g x /\ ~ left x) <-> (exists x, mem g x /\ ~ left' x)) by (split; intros (x & U & V); exists x; split; auto).
    assert (C : (exists x, left x /\ ~ mem g x) <-> (exists x, left' x /\ ~ mem g x)) by (split; intros (x & U & V); exists x; split; auto).
    assert (D : (forall x, mem g x -> left x) <-> (forall x, mem g x -> left' x)) by (split; intros F x M; auto).
    destruct k; cbn; tauto.
  Qed.
  Lemma remaining_S R k ks g gs i x : remaining mem R (k :: ks) (g :: gs) (S i) x <->
    remaining mem (match k with Shore => difference R g | _ => R end) ks gs i x.
  Proof.
    destruct Set_ as (_ & _ & D). unfold remaining. split.
    - intros (M & F). split.
      + destruct k; try exact M. apply D. split; [exact M|]. apply (F 0 g); [lia|reflexivity|reflexivity].
      + intros j h L A B. apply (F (S j) h); [lia|exact A|exact B].
    - intros (M & F). split.
      + destruct k; try exact M. apply D in M. tauto.
      + intros j h L A B. destruct j as [|j]; cbn in A, B; [|apply (F j h); [lia|exact A|exact B]]. injection A as ->. injection B as ->. apply D in M. tauto.
  Qed.
  Lemma remaining_0 R ks gs x : remaining mem R ks gs 0 x <-> mem R x.
  Proof. unfold remaining. split; [tauto|]. intros M. split; [exact M|]. intros j g L. lia. Qed.
  Lemma classify_fold amin parts gs : Forall2 (fun part g => make (but_two part) = Ok g) parts gs -> forall st,
    exists ks st', foldM (classify_part G make contains overlaps difference area stereo_area amin false) parts st = Ok st' /\ length ks = length gs /\
      c_inner G st' = c_inner G st ++ concat (of_kind Island ks parts) /\ c_mainland G st' = c_mainland G st ++ concat (of_kind Shore ks parts) /\
      (forall x, mem (c_region G st') x <-> remaining mem (c_region G st) ks gs (length gs) x) /\
      forall i g k, nth_error gs i = Some g -> nth_error ks i = Some k -> kind_right mem area amin (remaining mem (c_region G st) ks gs i) g k.
  Proof.
    pose proof Set_ as (Co & Ov & Di). induction 1 as [|p g parts gs M _ IH]; intros st.
    - exists [], st. split; [reflexivity|]. split; [reflexivity|]. rewrite !app_nil_r. split; [reflexivity|]. split; [reflexivity|]. split; [intros x; symmetry; apply remaining_0|]. intros [|i] g k A; discriminate.
    - assert (S0 : exists k st1, classify_part G make contains overlaps difference area stereo_area amin false st p = Ok st1 /\
          c_inner G st1 = c_inner G st ++ (if kind_eqb Island k then p else []) /\ c_mainland G st1 = c_mainland G st ++ (if kind_eqb Shore k then p else []) /\
          c_region G st1 = (match k with Shore => difference (c_region G st) g | _ => c_region G st end) /\ kind_right mem area amin (mem (c_region G st)) g k).
      { unfold classify_part. rewrite M. cbn [bind]. destruct (contains (c_region G st) g) eqn:C.
        - pose proof C as C'. apply Co in C'. destruct (Qle_bool amin (area g)) eqn:A.
          + exists Island. eexists. split; [reflexivity|]. cbn. rewrite app_nil_r. apply Qle_bool_iff in A. tauto.
          + exists Small, st. split; [reflexivity|]. cbn. rewrite !app_nil_r. split; [reflexivity|]. split; [reflexivity|]. split; [reflexivity|]. split; [tauto|]. split; [tauto|].
            destruct (Qlt_le_dec (area g) amin) as [L|L]; [exact L|]. apply Qle_bool_iff in L. congruence.
        - assert (NC : ~ ((exists x, mem g x) /\ forall x, mem g x -> mem (c_region G st) x)) by (intros Z; apply Co in Z; congruence).
          destruct (overlaps g (c_region G st)) eqn:O.
          + pose proof O as O'. apply Ov in O'. exists Shore. eexists. split; [reflexivity|]. cbn. rewrite app_nil_r. tauto.
          + exists Other, st. split; [reflexivity|]. cbn. rewrite !app_nil_r. split; [reflexivity|]. split; [reflexivity|]. split; [reflexivity|]. split; [exact NC|].
            intros Z. apply Ov in Z. congruence. }
      destruct S0 as (k & st1 & E1 & I1 & M1 & R1 & K1). destruct (IH st1) as (ks & st' & E & L & I & Ma & R & K). exists (k :: ks), st'.
      split; [cbn [foldM]; rewrite E1; exact E|]. split; [cbn; rewrite L; reflexivity|].
      split; [rewrite I, I1, <- app_assoc; f_equal; destruct k; reflexivity|]. split; [rewrite Ma, M1, <- app_assoc; f_equal; destruct k; reflexivity|].
      split; [intros x; rewrite R; cbn [length]; rewrite remaining_S, <- R1; reflexivity|].
      intros [|i] h k' A B; cbn in A, B.
      + injection A as <-. injection B as <-. apply (kind_right_ext amin (mem (c_region G st))); [intros x; symmetry; apply remaining_0|exact K1].
      + apply (kind_right_ext amin (remaining mem (c_region G st1) ks gs i)); [intros x; rewrite remaining_S, <- R1; reflexivity|]. apply K; assumption.
  Qed.
  Lemma classify_ok bbox boubox polys h0 mult boxmask bb b gs : outline bbox boubox h0 boxmask = Ok bb -> make bb = Ok b ->
    Forall2 (fun part g => make (but_two part) = Ok g) (convert_to_list polys) gs -> (forall g xy, In xy (exteriors g) -> xy <> []) ->
    exists ks region, length ks = length gs /\
      classify_shoreline G make contains overlaps difference area exteriors stereo_area bbox boubox polys h0 mult false boxmask =
        Ok (concat (of_kind Island ks (convert_to_list polys)), concat (of_kind Shore ks (convert_to_list polys)), concat (map ring_part (exteriors region))) /\
      (forall x, mem region x <-> remaining mem b ks gs (length gs) x) /\
      forall i g k, nth_error gs i = Some g -> nth_error ks i = Some k -> kind_right mem area (mult * (h0 * h0)) (remaining mem b ks gs i) g k.
  Proof.
    intros O B F N. destruct (classify_fold (mult * (h0 * h0)) _ _ F {| c_inner := []; c_mainland := []; c_region := b |}) as (ks & st' & E & L & I & M & R & K).
    exists ks, (c_region G st'). split; [exact L|]. split; [|split; [exact R|exact K]].
    unfold classify_shoreline. rewrite O. cbn [bind]. rewrite B. cbn [bind]. rewrite E. cbn [bind].
    rewrite (mapM_ok ring_rows ring_part) by (intros xy Y; apply ring_rows_part, (N _ _ Y)). cbn [bind]. rewrite I, M. reflexivity.
  Qed.
  (** Islands stay in the ocean when the polygons are disjoint. *)
  Lemma islands_stay amin b ks gs : length ks = length gs ->
    (forall i g k, nth_error gs i = Some g -> nth_error ks i = Some k -> kind_right mem area amin (remaining mem b ks gs i) g k) ->
    (forall i j g h x, i <> j -> nth_error gs i = Some g -> nth_error gs j = Some h -> mem g x -> ~ mem h x) ->
    forall i g x, nth_error ks i = Some Island -> nth_error gs i = Some g -> mem g x -> remaining mem b ks gs (length gs) x.
  Proof.
    intros L K D i g x A B M. pose proof (K i g Island B A) as (_ & In_ & _). destruct (In_ x M) as (Mb & _). split; [exact Mb|].
    intros j h J S H. assert (i <> j) by (intros ->; rewrite A in S; discriminate). apply (D i j g h x); assumption.
  Qed.
End Classify.

(** * Whatever classification gives, the polygons were made *)
Section Inverse.
  Variables G X : Type.
  Variable make : list point -> res G.
  Variable valid : G -> bool.
  Variable buffered : G -> list G.
  Variable contains overlaps : G -> G -> bool.
  Variable intersection : G -> G -> list (option (list point)).
  Variable difference : G -> G -> G.
  Variable area : G -> Q.
  Variable exteriors : G -> list (list point).
  Variable stereo_area : G -> Q.
  Variable mem : G -> X -> Prop.
  Hypothesis Set_ : set_like mem contains overlaps difference.
  Lemma foldM_made amin stereo parts : forall st st', foldM (classify_part G make contains overlaps difference area stereo_area amin stereo) parts st = Ok st' ->
    exists gs, Forall2 (fun part g => make (but_two part) = Ok g) parts gs.
  Proof.
    induction parts as [|p parts IH]; intros st st' E; [exists []; constructor|]. cbn [foldM] in E.
    destruct (classify_part _ _ _ _ _ _ _ _ _ _ p) as [st1| |] eqn:E1; cbn [bind] in E; try discriminate. destruct (IH st1 st' E) as (gs & F).
    unfold classify_part in E1. destruct (make (but_two p)) as [g| |] eqn:M; cbn [bind] in E1; try discriminate. exists (g :: gs). constructor; [exact M|exact F].
  Qed.
  Lemma build_threshold bbox boubox h0 n mult smooth read mask boxmask inner mainland out bb :
    build G make valid buffered contains overlaps intersection difference area exteriors stereo_area bbox boubox h0 n mult smooth false read mask boxmask = Ok (inner, mainland, out, bb) ->
    (0 < h0)%Q /\ (0 <= n)%Z /\ (0 < mult)%Q /\ bb = bbox /\
    exists b parts gs ks, Forall2 (fun part g => make (but_two part) = Ok g) parts gs /\ length ks = length gs /\
      inner = concat (of_kind Island ks parts) /\ mainland = concat (of_kind Shore ks parts) /\
      (forall i g k, nth_error gs i = Some g -> nth_error ks i = Some k -> kind_right mem area (mult * (h0 * h0) / 4) (remaining mem b ks gs i) g k).
  Proof.
    unfold build, set_h0, set_refinements, set_minimum_area_mult. destruct (Qle_bool h0 0) eqn:H; [discriminate|]. cbn [bind]. destruct (Z.ltb_spec n 0) as [|N]; [discriminate|]. cbn [bind].
    destruct (Qle_bool mult 0) eqn:M; [discriminate|]. cbn [bind]. destruct read as [polys| |]; cbn [bind]; try discriminate.
    destruct (if smooth then _ else _) as [polys1| |]; cbn [bind]; try discriminate. destruct (clip_polys _ _ _ _ _ _ _ _ _) as [polys2| |]; cbn [bind]; try discriminate.
    destruct (classify_shoreline _ _ _ _ _ _ _ _ _ _ _ _ _ _ _) as [r| |] eqn:C; cbn [bind]; try discriminate. intros R. injection R as R1 R2 R3 R4. subst.
    assert (P : forall q, Qle_bool q 0 = false -> (0 < q)%Q).
    { intros q E. destruct (Qlt_le_dec 0 q) as [L|L]; [exact L|]. apply Qle_bool_iff in L. congruence. }
    split; [apply P, H|]. split; [exact N|]. split; [apply P, M|]. split; [reflexivity|].
    unfold classify_shoreline in C. destruct (outline _ _ _ _) as [o| |]; cbn [bind] in C; try discriminate. destruct (make o) as [b| |]; cbn [bind] in C; try discriminate.
    destruct (foldM _ _ _) as [st'| |] eqn:F; cbn [bind] in C; try discriminate. destruct (mapM _ _) as [rows| |]; cbn [bind] in C; try discriminate. injection C as <-. cbn [fst snd].
    destruct (foldM_made _ _ _ _ _ F) as (gs & Gs). destruct (classify_fold G X make contains overlaps difference area exteriors stereo_area mem Set_ (mult * (h0 / 2 * (h0 / 2))) _ gs Gs {| c_inner := []; c_mainland := []; c_region := b |}) as (ks & st1 & E & L & I & Ma & _ & K).
    assert (st1 = st') as -> by congruence. exists b, (convert_to_list polys2), gs, ks. split; [exact Gs|]. split; [exact L|]. split; [exact I|]. split; [exact Ma|].
    intros i g k A B. specialize (K i g k A B).
    assert (Q : (mult * (h0 * h0) / 4 == mult * (h0 / 2 * (h0 / 2)))%Q) by field. destruct k; cbn in K |- *; try exact K; rewrite Q; exact K.
  Qed.
  Lemma build_refused bbox boubox h0 n mult smooth stereo read mask boxmask : (h0 <= 0)%Q \/ (n < 0)%Z \/ (mult <= 0)%Q ->
    build G make valid buffered contains overlaps intersection difference area exteriors stereo_area bbox boubox h0 n mult smooth stereo read mask boxmask = Raise ValueError.
  Proof.
    intros H. unfold build, set_h0, set_refinements, set_minimum_area_mult. destruct (Qle_bool h0 0) eqn:E1; [reflexivity|]. cbn [bind]. destruct (Z.ltb_spec n 0) as [|L]; [reflexivity|]. cbn [bind].
    destruct (Qle_bool mult 0) eqn:E2; [reflexivity|]. exfalso. destruct H as [H|[H|H]]; [apply Qle_bool_iff in H; congruence|lia|apply Qle_bool_iff in H; congruence].
  Qed.
End Inverse.

(** * The engine of unit cells *)
Lemma has_In a x : has a x = true <-> In x a.
Proof.
  unfold has. rewrite existsb_exists. split.
  - intros (y & I & E). unfold cell_eqb in E. apply andb_true_iff in E. rewrite !Z.eqb_eq in E. destruct x, y. cbn in E. destruct E as (-> & ->). exact I.
  - intros I. exists x. split; [exact I|]. unfold cell_eqb. rewrite !Z.eqb_refl. reflexivity.
Qed.
Lemma hasn_In a x : negb (has a x) = true <-> ~ In x a.
Proof. rewrite negb_true_iff, <- has_In. destruct (has a x); split; intros; congruence. Qed.
Lemma cells_set_like : set_like (fun a x => In x a) cells_contains cells_overlaps cells_difference.
Proof.
  split; [|split].
  - intros a b. unfold cells_contains. rewrite andb_true_iff, forallb_forall. split.
    + intros (N & F). split; [destruct b as [|x b]; [discriminate|exists x; left; reflexivity]|]. intros x I. apply has_In, F, I.
    + intros ((x & I) & F). split; [destruct b; [destruct I|reflexivity]|]. intros y J. apply has_In, F, J.
  - intros a b. unfold cells_overlaps. rewrite !andb_true_iff, !existsb_exists. split.
    + intros (((x & A & B) & (y & C & D)) & (z & E & F)). apply has_In in B. apply hasn_In in D. apply hasn_In in F. split; [exists x; tauto|split; [exists y; tauto|exists z; tauto]].
    + intros ((x & A & B) & (y & C & D) & (z & E & F)). apply has_In in B. apply hasn_In in D. apply hasn_In in F. split; [split; [exists x; tauto|exists y; tauto]|exists z; tauto].
  - intros a b x. unfold cells_difference. rewrite filter_In, hasn_In. tauto.
Qed.

(** * Cases that go wrong *)
Section Wrong.
  Variables G X : Type.
  Variable make : list point -> res G.
  Variable valid : G -> bool.
  Variable buffered : G -> list G.
  Variable contains overlaps : G -> G -> bool.
  Variable intersection : G -> G -> list (option (list point)).
  Variable difference : G -> G -> G.
  Variable area : G -> Q.
  Variable exteriors : G -> list (list point).
  Variable stereo_area : G -> Q.
  Variable mem : G -> X -> Prop.
  Lemma clip_touching bbox delta b ring g l : make (box_points (wider bbox delta)) = Ok b -> ring <> [] -> make (removelast ring) = Ok g -> valid g = true ->
    contains b g = false -> intersection g b = None :: l -> clip_polys G make valid buffered contains intersection (term ring) bbox delta = Raise AttributeError.
  Proof.
    intros B N M V C I. unfold clip_polys. rewrite inflate_wider, B. cbn [bind]. rewrite (to_list_term ring N). cbn [mapM]. unfold clip_part at 1. rewrite but_two_term, M. cbn [bind]. rewrite V. cbn [mapM]. unfold clip_one at 1. rewrite C, I. reflexivity.
  Qed.
  Lemma clip_repeats bbox delta b ring g g1 g2 : make (box_points (wider bbox delta)) = Ok b -> ring <> [] -> make (removelast ring) = Ok g -> valid g = false ->
    buffered g = [g1; g2] -> contains b g1 = true -> contains b g2 = true ->
    clip_polys G make valid buffered contains intersection (term ring) bbox delta = Ok (term ring ++ term ring).
  Proof.
    intros B N M V F C1 C2. unfold clip_polys. rewrite inflate_wider, B. cbn [bind].
    rewrite (to_list_term ring N). cbn [mapM]. unfold clip_part. rewrite but_two_term, M. cbn [bind]. rewrite V, F. unfold clip_one. cbn [mapM]. rewrite C1, C2. cbn. rewrite !app_nil_r. reflexivity.
  Qed.
  Lemma landlocked bbox boubox ring h0 mult boxmask bb b g : set_like mem contains overlaps difference ->
    outline bbox boubox h0 boxmask = Ok bb -> make bb = Ok b -> ring <> [] -> make (removelast ring) = Ok g -> (forall e xy, In xy (exteriors e) -> xy <> []) ->
    (forall x, mem b x -> mem g x) -> (exists x, mem g x /\ ~ mem b x) ->
    classify_shoreline G make contains overlaps difference area exteriors stereo_area bbox boubox (term ring) h0 mult false boxmask = Ok ([], [], concat (map ring_part (exteriors b))).
  Proof.
    intros (Co & Ov & _) O B N M E Cov (x & A & NB). unfold classify_shoreline. rewrite O. cbn [bind]. rewrite B. cbn [bind].
    rewrite (to_list_term ring N). cbn [foldM]. unfold classify_part. rewrite but_two_term, M. cbn [bind c_region].
    destruct (contains b g) eqn:C; [exfalso; apply Co in C; destruct C as (_ & C); apply NB, C, A|].
    destruct (overlaps g b) eqn:V; [exfalso; apply Ov in V; destruct V as (_ & _ & y & Y & NY); apply NY, Cov, Y|]. cbn [bind c_region c_inner c_mainland].
    rewrite (mapM_ok ring_rows ring_part) by (intros xy Y; apply ring_rows_part, (E _ _ Y)). reflexivity.
  Qed.
End Wrong.

(** * Boxes *)
Lemma fold_min_le l : forall a, (fold_left (fun a b => if Qle_bool a b then a else b) l a <= a)%Q /\
  (forall x, In x l -> (fold_left (fun a b => if Qle_bool a b then a else b) l a <= x)%Q) /\
  (fold_left (fun a b => if Qle_bool a b then a else b) l a = a \/ In (fold_left (fun a b => if Qle_bool a b then a else b) l a) l).
Proof.
  induction l as [|y l IH]; intros a; cbn [fold_left]; [split; [apply Qle_refl|split; [intros x []|left; reflexivity]]|].
  destruct (IH (if Qle_bool a y then a else y)) as (A & B & C). destruct (Qle_bool a y) eqn:E.
  - apply Qle_bool_iff in E. split; [exact A|]. split; [|destruct C; [left; assumption|right; right; assumption]].
    intros x [<-|I]; [eapply Qle_trans; eassumption|apply B, I].
  - assert (L : (y <= a)%Q). { destruct (Qlt_le_dec a y) as [Z|Z]; [|exact Z]. apply Qlt_le_weak, Qle_bool_iff in Z. congruence. }
    split; [eapply Qle_trans; eassumption|]. split; [intros x [<-|I]; [exact A|apply B, I]|]. destruct C as [->|C]; right; [left; reflexivity|right; exact C].
Qed.
Lemma fold_max_le l : forall a, (a <= fold_left (fun a b => if Qle_bool b a then a else b) l a)%Q /\
  (forall x, In x l -> (x <= fold_left (fun a b => if Qle_bool b a then a else b) l a)%Q) /\
  (fold_left (fun a b => if Qle_bool b a then a else b) l a = a \/ In (fold_left (fun a b => if Qle_bool b a then a else b) l a) l).
Proof.
  induction l as [|y l IH]; intros a; cbn [fold_left]; [split; [apply Qle_refl|split; [intros x []|left; reflexivity]]|].
  destruct (IH (if Qle_bool y a then a else y)) as (A & B & C). destruct (Qle_bool y a) eqn:E.
  - apply Qle_bool_iff in E. split; [exact A|]. split; [|destruct C; [left; assumption|right; right; assumption]].
    intros x [<-|I]; [eapply Qle_trans; eassumption|apply B, I].
  - assert (L : (a <= y)%Q). { destruct (Qlt_le_dec y a) as [Z|Z]; [|exact Z]. apply Qlt_le_weak, Qle_bool_iff in Z. congruence. }
    split; [eapply Qle_trans; eassumption|]. split; [intros x [<-|I]; [exact A|apply B, I]|]. destruct C as [->|C]; right; [left; reflexivity|right; exact C].
Qed.
Lemma minQ_spec l : l <> [] -> In (minQ l) l /\ forall x, In x l -> (minQ l <= x)%Q.
Proof.
  destruct l as [|a l]; [congruence|]. intros _. cbn [minQ]. destruct (fold_min_le l a) as (A & B & C). split; [destruct C as [->|C]; [left; reflexivity|right; exact C]|]. intros x [<-|I]; [exact A|apply B, I].
Qed.
Lemma maxQ_spec l : l <> [] -> In (maxQ l) l /\ forall x, In x l -> (x <= maxQ l)%Q.
Proof.
  destruct l as [|a l]; [congruence|]. intros _. cbn [maxQ]. destruct (fold_max_le l a) as (A & B & C). split; [destruct C as [->|C]; [left; reflexivity|right; exact C]|]. intros x [<-|I]; [exact A|apply B, I].
Qed.
Lemma box_around_spec (ps : list point) : ps <> [] -> box_around ps (minQ (map fst ps), maxQ (map fst ps), minQ (map snd ps), maxQ (map snd ps)).
Proof.
  intros N. assert (N1 : map fst ps <> []) by (destruct ps; [congruence|discriminate]). assert (N2 : map snd ps <> []) by (destruct ps; [congruence|discriminate]).
  destruct (minQ_spec _ N1) as (A1 & B1), (maxQ_spec _ N1) as (A2 & B2), (minQ_spec _ N2) as (A3 & B3), (maxQ_spec _ N2) as (A4 & B4).
  apply in_map_iff in A1, A2, A3, A4. destruct A1 as (p1 & E1 & I1), A2 as (p2 & E2 & I2), A3 as (p3 & E3 & I3), A4 as (p4 & E4 & I4).
  split; [intros p I; cbn; repeat split; auto using in_map|]. split; [exists p1; auto|]. split; [exists p2; auto|]. split; [exists p3; auto|exists p4; auto].
Qed.
Lemma ring_and_box_array {crs : Type} ring r b : ring_and_box crs (AArray crs ring) = Ok (r, b) -> (r = ring \/ r = rev ring) /\ (ring <> [] -> box_around ring b) /\
  (convex_ccw ring \/ convex_cw ring -> 0 < area2 r)%Q.
Proof.
  unfold ring_and_box. destruct (is_path_ccw ring) as [c| |] eqn:CC; cbn [bind]; try discriminate. intros E. injection E as E1 <-.
  assert (R : r = ring \/ r = rev ring) by (destruct c; auto). split; [exact R|].
  split; [|intros V; pose proof (ccw_convex ring c V CC) as A; destruct c; subst r; [exact A|rewrite area_rev; lra]]. intros N. rewrite E1.
  assert (Nr : r <> []). { destruct R as [->| ->]; [exact N|]. intros Z. apply N. rewrite <- (rev_involutive ring), Z. reflexivity. }
  pose proof (box_around_spec r Nr) as H. destruct R as [->| ->]; [exact H|]. unfold box_around in *. setoid_rewrite <- in_rev in H. exact H.
Qed.
Lemma stereo_scaled polys : points_of polys <> [] ->
  exists e, box_around (points_of polys) e /\ let '(x0, x1, y0, y1) := e in
    let '(a0, a1, b0, b1) := stereo_box polys in (a0 == x0 * (99 # 100) /\ a1 == x1 * (99 # 100) /\ b0 == y0 * (99 # 100) /\ b1 == y1 * (99 # 100))%Q.
Proof.
  intros N. set (ps := points_of polys) in *. eexists. split; [apply box_around_spec, N|]. unfold stereo_box. fold ps.
  assert (S : forall (f : point -> Q), (minQ (map (fun p => f p * (99 # 100)) ps) == minQ (map f ps) * (99 # 100) /\ maxQ (map (fun p => f p * (99 # 100)) ps) == maxQ (map f ps) * (99 # 100))%Q).
  { intros f. assert (N1 : map f ps <> []) by (destruct ps; [congruence|discriminate]). assert (N2 : map (fun p => f p * (99 # 100))%Q ps <> []) by (destruct ps; [congruence|discriminate]).
    destruct (minQ_spec _ N1) as (A1 & B1), (maxQ_spec _ N1) as (A2 & B2), (minQ_spec _ N2) as (A3 & B3), (maxQ_spec _ N2) as (A4 & B4).
    apply in_map_iff in A1, A2, A3, A4. destruct A1 as (p1 & E1 & I1), A2 as (p2 & E2 & I2), A3 as (p3 & E3 & I3), A4 as (p4 & E4 & I4). rewrite <- E1, <- E2, <- E3, <- E4.
    pose proof (B1 _ (in_map f _ _ I3)) as H1. pose proof (B2 _ (in_map f _ _ I4)) as H2. pose proof (B3 _ (in_map (fun p => f p * (99 # 100))%Q _ _ I1)) as H3.
    pose proof (B4 _ (in_map (fun p => f p * (99 # 100))%Q _ _ I2)) as H4. rewrite <- E1 in H1. rewrite <- E2 in H2. rewrite <- E3 in H3. rewrite <- E4 in H4. cbv beta in *. lra. }
  destruct (S fst), (S snd). tauto.
Qed.
Lemma stereo_inside polys p q r s : In p (points_of polys) -> In q (points_of polys) -> In r (points_of polys) -> In s (points_of polys) ->
  (fst p <= 0 <= fst q)%Q -> (snd r <= 0 <= snd s)%Q -> exists e, box_around (points_of polys) e /\ forall c, corner (stereo_box polys) c -> in_box e c.
Proof.
  intros Ip Iq Ir Is X Y. assert (N : points_of polys <> []) by (intros Z; rewrite Z in Ip; destruct Ip).
  destruct (stereo_scaled polys N) as (e & B & S). exists e. split; [exact B|]. intros c C. destruct e as [[[x0 x1] y0] y1]. destruct (stereo_box polys) as [[[a0 a1] b0] b1].
  destruct B as (B & _). pose proof (B p Ip) as Bp. pose proof (B q Iq) as Bq. pose proof (B r Ir) as Br. pose proof (B s Is) as Bs. cbn in *.
  destruct C as ([E1|E1] & [E2|E2]); rewrite E1, E2; lra.
Qed.
Lemma stereo_outside : exists polys e c, box_around (points_of polys) e /\ corner (stereo_box polys) c /\ ~ in_box e c.
Proof.
  exists (term [(100, 10); (120, 10); (120, 30); (100, 10)]%Q), (100, 120, 10, 30)%Q, (9900 # 100, 2970 # 100)%Q. split; [apply (box_around_spec (points_of (term [(100, 10); (120, 10); (120, 30); (100, 10)]%Q))); discriminate|].
  split; [vm_compute; split; [left; reflexivity|right; reflexivity]|]. cbn. lra.
Qed.

(** * The threshold and the CRS *)
Lemma area_kept : exists bbox h0 mult ring mainland out g, cells_build bbox h0 mult (term ring) = Ok (term ring, mainland, out, bbox) /\
  cells_make (removelast ring) = Ok g /\ (cells_area g < mult * (h0 * h0))%Q /\ (cells_area g < mult * h0)%Q.
Proof.
  exists (0, 3, 0, 3)%Q, 2%Q, 1%Q, (sq 1 1 2 2), []. eexists _, [(1, 1)%Z]. split; [|split; [vm_compute; reflexivity|split; reflexivity]].
  vm_compute. reflexivity.
Qed.
Lemma area_removed : exists bbox h0 mult ring mainland out g, cells_build bbox h0 mult (term ring) = Ok ([], mainland, out, bbox) /\
  cells_make (removelast ring) = Ok g /\ (mult * h0 <= cells_area g)%Q.
Proof.
  exists (0, 5, 0, 5)%Q, 8%Q, 1%Q, (sq 1 1 4 4), []. eexists _, [(1, 1); (1, 2); (1, 3); (2, 1); (2, 2); (2, 3); (3, 1); (3, 2); (3, 3)]%Z. split; [|split; [vm_compute; reflexivity|discriminate]].
  vm_compute. reflexivity.
Qed.
Lemma crs_used {crs : Type} (given_is_default same_as_wgs84 : crs -> bool) a c native :
  (given_is_default c = false \/ (exists ring, a = AArray crs ring) \/ exists b, a = ATuple crs b /\ infer_crs_from_coordinates b = true) ->
  (forall b rc, a <> ARegion crs b rc) -> crs_to_use crs given_is_default same_as_wgs84 a c native = c.
Proof.
  intros H NR. destruct a as [b rc|b|ring]; [destruct (NR b rc eq_refl)| |reflexivity]. cbn. destruct H as [->|[(r & E)|(b' & E & I)]]; [reflexivity|discriminate|]. injection E as <-. rewrite I. destruct (given_is_default c); reflexivity.
Qed.
Lemma crs_overridden : exists (given_is_default same_as_wgs84 : string -> bool) b c n, given_is_default c = true /\ c <> n /\ crs_to_use string given_is_default same_as_wgs84 (ATuple string b) c (Some n) = n.
Proof.
  exists (String.eqb "EPSG:4326"), (String.eqb "EPSG:4326"), (500000, 510000, 4000000, 4010000)%Q, "EPSG:4326"%string, "EPSG:32619"%string. split; [reflexivity|]. split; [discriminate|]. vm_compute. reflexivity.
Qed.
Lemma crs_region {crs : Type} (given_is_default same_as_wgs84 : crs -> bool) b rc c native : crs_to_use crs given_is_default same_as_wgs84 (ARegion crs b rc) c native = rc.
Proof. reflexivity. Qed.

(** * The outline *)
Lemma no_nan_some (l : list row) : length (filter is_nan l) = 0 -> l = map Some (points_of l).
Proof. induction l as [|[p|] l IH]; cbn; intros H; [reflexivity|f_equal; apply IH, H|discriminate]. Qed.
Lemma filter_some (l : list point) : filter is_nan (map Some l) = [].
Proof. induction l as [|p l IH]; [reflexivity|exact IH]. Qed.
Lemma outline_ring bbox (ps : list point) h0 boxmask bb : (0 < h0)%Q -> (forall l, length (boxmask l) = length l) -> (convex_ccw ps \/ convex_cw ps) -> ps <> [] ->
  outline bbox (map Some ps) h0 boxmask = Ok bb ->
  exists ring, (ring = ps \/ ring = rev ps) /\ (0 < area2 ring)%Q /\ densified (h0 / 2) (map Some ring) (boxmask (map Some ring)) (map Some bb).
Proof.
  intros P L V N. unfold outline. destruct (map Some ps) as [|r0 rs] eqn:M; [destruct ps; [congruence|discriminate]|]. rewrite <- M. rewrite points_of_some.
  destruct (is_path_ccw ps) as [c| |] eqn:CC; cbn [bind]; try discriminate. intros E. injection E as <-.
  exists (if c then ps else rev ps). split; [destruct c; auto|]. split; [pose proof (ccw_convex ps c V CC) as A; destruct c; [exact A|rewrite area_rev; lra]|].
  assert (R : forall ring : list point, densified (h0 / 2) (map Some ring) (boxmask (map Some ring)) (map Some (points_of (densify (map Some ring) (h0 / 2) (boxmask (map Some ring)))))).
  { intros ring. destruct (densify_total (h0 / 2) (map Some ring) (boxmask (map Some ring))) as (D & _ & Z & _); [apply Qmult_lt_0_compat; [exact P|reflexivity]|apply L|].
    rewrite filter_some in Z. apply no_nan_some in Z. rewrite <- Z. exact D. }
  destruct c; [apply R|]. rewrite <- map_rev. apply R.
Qed.
Lemma outline_box bbox h0 boxmask : (0 < h0)%Q -> (forall l, length (boxmask l) = length l) ->
  exists bb, outline bbox [] h0 boxmask = Ok bb /\ densified (h0 / 2) (map Some (box_points bbox)) (boxmask (map Some (box_points bbox))) (map Some bb).
Proof.
  intros P L. eexists. split; [reflexivity|]. destruct (densify_total (h0 / 2) (map Some (box_points bbox)) (boxmask (map Some (box_points bbox)))) as (D & _ & Z & _); [apply Qmult_lt_0_compat; [exact P|reflexivity]|apply L|].
  rewrite filter_some in Z. apply no_nan_some in Z. rewrite <- Z. exact D.
Qed.

(** * File names *)
Lemma ends_with_iff suffix s : ends_with suffix s = true <-> exists pre, s = (pre ++ suffix)%string.
Proof.
  induction s as [|a s IH]; cbn [ends_with].
  - destruct (String.eqb_spec suffix ""); split; intros H; try discriminate; try reflexivity; [exists ""%string; subst; reflexivity|].
    destruct H as (pre & E). destruct pre; [symmetry in E; destruct (n E)|discriminate].
  - destruct (String.eqb_spec suffix (String a s)) as [E|N]; [split; [intros _; exists ""%string; rewrite E; reflexivity|reflexivity]|]. rewrite IH. split.
    + intros (pre & ->). exists (String a pre). reflexivity.
    + intros (pre & E). destruct pre as [|c pre]; [destruct N; rewrite E; reflexivity|]. injection E as -> ->. exists pre. reflexivity.
Qed.
Lemma readers {A} (vector csv : string -> res A) f :
  ((exists pre, f = (pre ++ ".shp")%string \/ f = (pre ++ ".geojson")%string \/ f = (pre ++ ".gpkg")%string) -> get_polygon_coordinates vector csv f = vector f) /\
  ((exists pre, f = (pre ++ ".csv")%string) -> (forall pre, f <> (pre ++ ".shp")%string /\ f <> (pre ++ ".geojson")%string /\ f <> (pre ++ ".gpkg")%string) -> get_polygon_coordinates vector csv f = csv f) /\
  ((forall pre, f <> (pre ++ ".shp")%string /\ f <> (pre ++ ".geojson")%string /\ f <> (pre ++ ".gpkg")%string /\ f <> (pre ++ ".csv")%string) -> get_polygon_coordinates vector csv f = Raise RuntimeError).
Proof.
  unfold get_polygon_coordinates.
  assert (X : forall suf, (forall pre, f <> (pre ++ suf)%string) -> ends_with suf f = false).
  { intros suf H. destruct (ends_with suf f) eqn:E; [|reflexivity]. apply ends_with_iff in E. destruct E as (pre & E). destruct (H pre E). }
  split; [|split].
  - intros (pre & [E|[E|E]]); [rewrite (proj2 (ends_with_iff ".shp" f)) by (exists pre; exact E); reflexivity| |].
    + rewrite (proj2 (ends_with_iff ".geojson" f)) by (exists pre; exact E). rewrite orb_true_r. reflexivity.
    + rewrite (proj2 (ends_with_iff ".gpkg" f)) by (exists pre; exact E). rewrite !orb_true_r. reflexivity.
  - intros H N. rewrite (X ".shp"%string), (X ".geojson"%string), (X ".gpkg"%string) by (intros pre; apply N). rewrite (proj2 (ends_with_iff ".csv" f)) by exact H. reflexivity.
  - intros N. rewrite (X ".shp"%string), (X ".geojson"%string), (X ".gpkg"%string), (X ".csv"%string) by (intros pre; apply N). reflexivity.
Qed.

(** * Cases *)
Lemma clip2_case : let contains := fun p : point => (ltQ (-1 # 10) (fst p) && ltQ (fst p) (41 # 10)) && (ltQ (-1 # 10) (snd p) && ltQ (snd p) (41 # 10)) in
  (forall p, strictly_in_box (wider (0, 4, 0, 4)%Q (1 # 10)) p -> contains p = true) /\ (forall p, contains p = true -> in_box (wider (0, 4, 0, 4)%Q (1 # 10)) p) /\
  clip_polys_2 contains (term (sq 2 2 9 9)) (0, 4, 0, 4)%Q (1 # 10) = Ok (term [(2, 2); (41 # 10, 41 # 10); (2, 2)]%Q).
Proof.
  split; [|split].
  - intros p. rewrite !andb_true_iff, !ltQ_iff. cbn. lra.
  - intros p. rewrite !andb_true_iff, !ltQ_iff. cbn. lra.
  - vm_compute. reflexivity.
Qed.
Lemma classify_case : set_like (fun a x => In x a) cells_contains cells_overlaps cells_difference /\
  (forall g xy, In xy (cells_exteriors g) -> xy <> []) /\
  cells_classify (0, 2, 0, 2)%Q (term (sq 0 0 1 1) ++ term (sq 1 (-1) 3 3)) 1 1 =
    Ok (term (sq 0 0 1 1), term (sq 1 (-1) 3 3), concat (map ring_part (cells_exteriors [(0, 0); (0, 1)]%Z))).
Proof.
  split; [exact cells_set_like|]. split; [|vm_compute; reflexivity]. intros g xy I. unfold cells_exteriors in I. apply in_map_iff in I. destruct I as (c & <- & _). discriminate.
Qed.
Lemma landlocked_case : cells_classify (0, 2, 0, 2)%Q (term (sq (-1) (-1) 3 3)) 1 1 = Ok ([], [], concat (map ring_part (cells_exteriors [(0, 0); (0, 1); (1, 0); (1, 1)]%Z))).
Proof. vm_compute. reflexivity. Qed.
Lemma clip_case : clip_polys (list cell) cells_make (fun _ => true) (fun g => [g]) cells_contains cells_intersection (term (sq 0 0 1 1) ++ term (sq 1 1 3 2) ++ term (sq 5 5 6 6)) (0, 2, 0, 2)%Q (1 # 10) =
  Ok (term (sq 0 0 1 1) ++ ring_part (sq 1 1 2 2)).
Proof. vm_compute. reflexivity. Qed.
Lemma simplify_case : nth_simplify (fun p => Qle_bool (fst p) 1) (term [(0, 0); (2, 0); (3, 0); (4, 0); (5, 0); (6, 0); (7, 0); (8, 0); (9, 0); (10, 0); (11, 0); (12, 0); (1, 1); (0, 0)]%Q) =
  Ok (term [(0, 0); (2, 0); (1, 1)]%Q).
Proof. vm_compute. reflexivity. Qed.
