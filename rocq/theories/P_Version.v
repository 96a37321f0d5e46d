(** Proofs about the version lookup. *)
From Coq Require Import List Ascii String ZArith NArith Bool Lia Arith.
From Verif Require Import M_Base M_Writers S_Writers P_Writers M_Version S_Version.
Import ListNotations.

Lemma after_prefix_app p s : after_prefix p (p ++ s) = Some s.
Proof. induction p as [|c p IH]; cbn; [reflexivity|]. rewrite Ascii.eqb_refl. exact IH. Qed.
Lemma after_prefix_inv p : forall s r, after_prefix p s = Some r -> s = p ++ r.
Proof.
  induction p as [|c p IH]; cbn; intros s r H. { congruence. }
  destruct s as [|d s]; [discriminate|]. destruct (Ascii.eqb c d) eqn:E; [|discriminate]. apply Ascii.eqb_eq in E. subst. f_equal. now apply IH.
Qed.
Lemma after_prefix_none p s : (forall r, s <> p ++ r) -> after_prefix p s = None.
Proof. intros H. destruct (after_prefix p s) eqn:E; [|reflexivity]. exfalso. apply (H t). now apply after_prefix_inv. Qed.
Lemma before_suffix_app p s : before_suffix p (s ++ p) = Some s.
Proof. unfold before_suffix. rewrite rev_app_distr, after_prefix_app. cbn. now rewrite rev_involutive. Qed.
Lemma before_suffix_inv p s r : before_suffix p s = Some r -> s = r ++ p.
Proof.
  unfold before_suffix. destruct (after_prefix (rev p) (rev s)) eqn:E; cbn; [|discriminate]. intros [= <-]. apply after_prefix_inv in E.
  apply (f_equal (@rev ascii)) in E. rewrite rev_involutive, rev_app_distr, rev_involutive in E. exact E.
Qed.
Lemma has_char_in c s : has_char c s = true <-> In c s.
Proof.
  unfold has_char. rewrite existsb_exists. split. { intros (x & Hx & E). apply Ascii.eqb_eq in E. now subst. }
  intros H. exists c. split; [exact H|]. apply Ascii.eqb_refl.
Qed.
Lemma has_char_free c s : has_char c s = false <-> ~ In c s.
Proof. rewrite <- has_char_in. destruct (has_char c s); split; intros H; try congruence; try tauto. Qed.
Lemma rsplit_none c s : ~ In c s -> rsplit c s = None.
Proof.
  induction s as [|x r IH]; cbn; intros H; [reflexivity|]. rewrite IH by tauto. destruct (Ascii.eqb x c) eqn:E; [|reflexivity].
  apply Ascii.eqb_eq in E. tauto.
Qed.
Lemma rsplit_app c a b : ~ In c b -> rsplit c (a ++ c :: b) = Some (a, b).
Proof.
  intros H. induction a as [|x a IH]; cbn. { rewrite rsplit_none by exact H. now rewrite Ascii.eqb_refl. }
  now rewrite IH.
Qed.
Lemma nonempty_ne s : s <> [] -> nonempty s = true.
Proof. destruct s; [congruence|reflexivity]. Qed.
Lemma drop_id f s : (forall c, hd_error s = Some c -> f c = false) -> drop_while f s = s.
Proof. intros H. destruct s as [|c r]; cbn; [reflexivity|]. now rewrite (H c eq_refl). Qed.
Lemma strip_by_id f s : (forall c, hd_error s = Some c -> f c = false) -> (forall c, hd_error (rev s) = Some c -> f c = false) -> strip_by f s = s.
Proof. intros H1 H2. unfold strip_by. rewrite (drop_id f s H1), (drop_id f (rev s) H2). apply rev_involutive. Qed.
Lemma printable_not_space c : printable c -> is_space c = false.
Proof.
  unfold printable, is_space, cN. intros H. apply orb_false_iff. rewrite !andb_false_iff, !N.leb_gt. split; right; lia.
Qed.
Lemma hd_forall {A} (P : A -> Prop) s c : Forall P s -> hd_error s = Some c -> P c.
Proof. intros H. destruct s; cbn; [discriminate|]. intros [= ->]. now inversion H. Qed.
Lemma strip_printable s : Forall printable s -> strip s = s.
Proof.
  intros H. apply strip_by_id; intros c Hc; apply printable_not_space. { exact (hd_forall _ _ _ H Hc). }
  exact (hd_forall _ _ _ (Forall_rev H) Hc).
Qed.
Lemma hd_app_ne {A} (a b : list A) : a <> [] -> hd_error (a ++ b) = hd_error a.
Proof. destruct a; [congruence|reflexivity]. Qed.
(** Ends printable. *)
Lemma strip_ends s : (forall c, hd_error s = Some c -> printable c) -> (forall c, hd_error (rev s) = Some c -> printable c) -> strip s = s.
Proof. intros H1 H2. apply strip_by_id; intros c Hc; apply printable_not_space; auto. Qed.

(** *** Characters *)
Lemma hex_cases c : hex_digit c -> is_hex c = true /\ printable c /\ c <> "-"%char /\ c <> "y"%char /\ c <> "."%char /\ c <> "+"%char /\ label_char c.
Proof.
  unfold hex_digit, label_char. cbn. intros H.
  repeat (destruct H as [<-|H]; [vm_compute; repeat split; try discriminate; tauto|]). contradiction.
Qed.
Lemma digit_cases c : is_digit c = true <-> In c (word "0123456789").
Proof.
  split.
  - destruct c as [[] [] [] [] [] [] [] []]; cbn; intros H; try discriminate; tauto.
  - cbn. intros H. repeat (destruct H as [<-|H]; [reflexivity|]). contradiction.
Qed.
Lemma is_dec_digit c : is_dec c = is_digit c. Proof. reflexivity. Qed.
Lemma digit_printable c : is_digit c = true -> printable c /\ c <> "-"%char /\ c <> "."%char /\ label_char c /\ c <> "+"%char.
Proof.
  rewrite digit_cases. unfold label_char. cbn. intros H. repeat (destruct H as [<-|H]; [vm_compute; repeat split; try discriminate; tauto|]). contradiction.
Qed.
Lemma hex_all h : hex h -> forallb is_hex h = true /\ Forall printable h /\ ~ In "-"%char h /\ ~ In "."%char h /\ Forall label_char h.
Proof.
  intros [_ H]. repeat split.
  - apply forallb_forall. intros c Hc. rewrite Forall_forall in H. now apply hex_cases, H.
  - eapply Forall_impl; [|exact H]. intros c Hc. now apply hex_cases.
  - intros Hc. rewrite Forall_forall in H. now apply H, hex_cases in Hc as (_ & _ & Hc & _).
  - intros Hc. rewrite Forall_forall in H. now apply H, hex_cases in Hc as (_ & _ & _ & _ & Hc & _).
  - eapply Forall_impl; [|exact H]. intros c Hc. now apply hex_cases.
Qed.
Lemma read_int_digits d n : read_int d = Some n -> d <> [] /\ forallb is_digit d = true.
Proof. unfold read_int. destruct d; [discriminate|]. destruct (forallb is_digit (a :: d)) eqn:E; [|discriminate]. intros _. now split. Qed.
Lemma digits_all d : forallb is_digit d = true -> Forall printable d /\ ~ In "-"%char d /\ ~ In "."%char d /\ Forall label_char d /\ ~ In "+"%char d.
Proof.
  intros H. rewrite forallb_forall in H. repeat split.
  - apply Forall_forall. intros c Hc. now apply digit_printable, H.
  - intros Hc. apply H, digit_printable in Hc. tauto.
  - intros Hc. apply H, digit_printable in Hc. tauto.
  - apply Forall_forall. intros c Hc. now apply digit_printable, H.
  - intros Hc. apply H, digit_printable in Hc. tauto.
Qed.
Lemma int_of_read d n : read_int d = Some n -> int_of d = Ok n.
Proof.
  intros H. destruct (read_int_digits d n H) as [H1 H2]. unfold int_of. rewrite strip_printable by now apply digits_all. rewrite (nonempty_ne d H1).
  change (forallb is_dec d) with (forallb is_digit d). rewrite H2. cbn [andb]. unfold read_int in H. destruct d; [congruence|]. rewrite H2 in H. inversion H. reflexivity.
Qed.
(** Decimal notation is unique. *)
Definition dval (d : list ascii) : N := fold_left (fun a c => 10 * a + (N_of_ascii c - 48))%N d 0%N.
Lemma dval_snoc d c : dval (d ++ [c]) = (10 * dval d + (N_of_ascii c - 48))%N.
Proof. unfold dval. now rewrite fold_left_app. Qed.
Lemma digit_val c : is_digit c = true -> (48 <= N_of_ascii c <= 57)%N.
Proof. unfold is_digit. cbn zeta. rewrite andb_true_iff, !N.leb_le. tauto. Qed.
Lemma dval_pos : forall d, forallb is_digit d = true -> d <> [] -> hd_error d <> Some "0"%char -> (0 < dval d)%N.
Proof.
  induction d as [|c d IH] using rev_ind; intros H Hn Hz; [congruence|]. rewrite dval_snoc. rewrite forallb_app in H. apply andb_true_iff in H as [H1 H2].
  cbn in H2. rewrite andb_true_r in H2. apply digit_val in H2. destruct d as [|x d].
  - cbn in Hz |- *. assert (N_of_ascii c <> 48%N). { intros E. apply Hz. f_equal. rewrite <- (ascii_N_embedding c), E. reflexivity. } lia.
  - assert (0 < dval (x :: d))%N by (apply IH; [exact H1|discriminate|exact Hz]). lia.
Qed.
Lemma dval_inj : forall d e, forallb is_digit d = true -> forallb is_digit e = true -> hd_error d <> Some "0"%char -> hd_error e <> Some "0"%char -> dval d = dval e -> d = e.
Proof.
  induction d as [|c d IH] using rev_ind; intros e Hd He Zd Ze E.
  - destruct e as [|x e]; [reflexivity|]. assert (0 < dval (x :: e))%N by (apply dval_pos; [exact He|discriminate|exact Ze]). rewrite <- E in H. cbn in H. lia.
  - destruct e as [|y e _] using rev_ind.
    { assert (0 < dval (d ++ [c]))%N by (apply dval_pos; [exact Hd|now destruct d|exact Zd]). rewrite E in H. cbn in H. lia. }
    rewrite !dval_snoc in E. rewrite forallb_app in Hd, He. apply andb_true_iff in Hd as [Hd1 Hd2]. apply andb_true_iff in He as [He1 He2].
    cbn in Hd2, He2. rewrite andb_true_r in Hd2, He2. apply digit_val in Hd2. apply digit_val in He2.
    assert (dval d = dval e) by lia. assert (N_of_ascii c = N_of_ascii y) by lia. f_equal.
    + apply IH; auto. { destruct d; [discriminate|exact Zd]. } destruct e; [discriminate|exact Ze].
    + f_equal. rewrite <- (ascii_N_embedding c), <- (ascii_N_embedding y). now f_equal.
Qed.
Lemma decimal_unique n d e : decimal n d -> decimal n e -> d = e.
Proof.
  intros [H1 Z1] [H2 Z2]. destruct (read_int_digits _ _ H1) as [N1 D1]. destruct (read_int_digits _ _ H2) as [N2 D2].
  assert (V1 : dval d = n). { unfold read_int in H1. destruct d; [congruence|]. rewrite D1 in H1. now inversion H1. }
  assert (V2 : dval e = n). { unfold read_int in H2. destruct e; [congruence|]. rewrite D2 in H2. now inversion H2. }
  destruct Z1 as [->|Z1]; destruct Z2 as [->|Z2].
  - reflexivity.
  - assert (0 < dval e)%N by now apply dval_pos. cbn in V1. lia.
  - assert (0 < dval d)%N by now apply dval_pos. cbn in V2. lia.
  - apply dval_inj; congruence.
Qed.
Lemma fixed_digits_hd : forall k n, (10 ^ N.of_nat k <= n < 10 ^ N.of_nat (S k))%N -> hd_error (fixed_digits (S k) n) <> Some "0"%char.
Proof.
  induction k as [|k IH]; intros n H.
  - change (10 ^ N.of_nat 0)%N with 1%N in H. change (10 ^ N.of_nat 1)%N with 10%N in H. cbn [fixed_digits app hd_error]. rewrite N.mod_small by lia. intros E.
    assert (Hn : (n = 1 \/ n = 2 \/ n = 3 \/ n = 4 \/ n = 5 \/ n = 6 \/ n = 7 \/ n = 8 \/ n = 9)%N) by lia.
    repeat (destruct Hn as [->|Hn]; [discriminate E|]). subst n. discriminate E.
  - change (fixed_digits (S (S k)) n) with (fixed_digits (S k) (n / 10)%N ++ [digit (n mod 10)%N]).
    rewrite hd_app_ne. { apply IH. rewrite !Nat2N.inj_succ in *. rewrite !N.pow_succ_r' in *. split.
      - apply N.div_le_lower_bound; lia. - apply N.div_lt_upper_bound; lia. }
    cbn. intros E. now apply app_eq_nil in E as [_ E].
Qed.
Lemma num_digits_low f : forall n, num_digits f n = 1%nat \/ exists k, num_digits f n = S k /\ (10 ^ N.of_nat k <= n)%N.
Proof.
  induction f as [|f IH]; intros n; [now left|]. cbn [num_digits]. destruct (N.ltb_spec n 10) as [L|L]; [now left|]. right.
  exists (num_digits f (n / 10)%N). split; [reflexivity|]. destruct (IH (n / 10)%N) as [E|(k & E & Hk)].
  - rewrite E. exact L.
  - rewrite E. rewrite Nat2N.inj_succ, N.pow_succ_r'. pose proof (N.mul_div_le n 10 ltac:(lia)). lia.
Qed.
Lemma decimal_fmt n : decimal n (fmt_i n).
Proof.
  split; [apply read_fmt_i|]. destruct (N.eq_dec n 0) as [->|Hn]; [now left|]. right. unfold fmt_i.
  assert (B : (n < 10 ^ N.of_nat (num_digits (N.size_nat n) n))%N) by apply num_digits_bound, size_nat_bound.
  destruct (num_digits_low (N.size_nat n) n) as [E|(k & E & Hk)]; rewrite E in *.
  - apply fixed_digits_hd. cbn in B |- *. lia.
  - apply fixed_digits_hd. split; [exact Hk|exact B].
Qed.
Lemma decimal_is n d : decimal n d -> d = fmt_i n.
Proof. intros H. eapply decimal_unique; [exact H|apply decimal_fmt]. Qed.

(** *** Dates *)
Lemma lines_one : forall s cur, Forall (fun c => is_break c = false) s -> rev cur ++ s <> [] -> splitlines s cur = [rev cur ++ s].
Proof.
  induction s as [|c r IH]; intros cur H Hn.
  - cbn. rewrite app_nil_r in *. destruct cur; [cbn in Hn; congruence|reflexivity].
  - inversion H as [|? ? Hc Hr]. subst. cbn [splitlines]. rewrite Hc. destruct (Ascii.eqb c (chr 13)) eqn:E.
    + apply Ascii.eqb_eq in E. subst c. discriminate Hc.
    + rewrite IH; [cbn [rev]; now rewrite <- app_assoc|exact Hr|]. cbn [rev]. rewrite <- app_assoc. cbn. intros E'. now apply app_eq_nil in E' as [_ E'].
Qed.
Lemma printable_no_break c : printable c -> is_break c = false.
Proof. unfold printable, is_break, cN. cbn zeta. intros H. apply orb_false_iff. rewrite !andb_false_iff, !N.leb_gt. split; right; lia. Qed.
Lemma printable_not c d : printable c -> (N_of_ascii d <= 32)%N -> Ascii.eqb c d = false.
Proof. intros H Hd. apply Ascii.eqb_neq. intros ->. unfold printable in H. lia. Qed.
Lemma replace_app c by_ a b : ~ In c a -> replace_first c by_ (a ++ c :: b) = a ++ by_ ++ b.
Proof.
  induction a as [|x a IH]; cbn; intros H. { now rewrite Ascii.eqb_refl. }
  destruct (Ascii.eqb x c) eqn:E; [apply Ascii.eqb_eq in E; tauto|]. rewrite IH by tauto. reflexivity.
Qed.
Lemma printable_no_space s : Forall printable s -> ~ In " "%char s.
Proof. intros H Hc. rewrite Forall_forall in H. apply H in Hc. unfold printable in Hc. cbn in Hc. lia. Qed.
Lemma rev_ne {A} (l : list A) : l <> [] -> rev l <> [].
Proof. intros H E. apply H. rewrite <- (rev_involutive l), E. reflexivity. Qed.
Lemma strip_date day time zone : solid day -> solid time -> solid zone -> strip (git_date day time zone) = git_date day time zone.
Proof.
  intros [D1 D2] _ [Z1 Z2]. apply strip_ends; intros c; unfold git_date.
  - rewrite hd_app_ne by exact D1. apply hd_forall, D2.
  - rewrite !rev_app_distr. rewrite <- !app_assoc. rewrite hd_app_ne by now apply rev_ne. apply hd_forall. now apply Forall_rev.
Qed.
Lemma iso_date_ok day time zone : solid day -> solid time -> solid zone -> iso_date (git_date day time zone) = Ok (iso_text day time zone).
Proof.
  intros D T Z. pose proof (strip_date day time zone D T Z) as Es. destruct D as [D1 D2], T as [T1 T2], Z as [Z1 Z2]. unfold iso_date.
  rewrite lines_one.
  - cbn [rev app]. rewrite Es. unfold git_date, iso_text. change (word " ") with [" "%char]. cbn [app].
    rewrite replace_app by now apply printable_no_space. f_equal.
    change (word "T" ++ time ++ zone) with ("T"%char :: time ++ zone). change (txt "T" ++ time ++ " "%char :: zone) with ("T"%char :: time ++ " "%char :: zone).
    assert (E : day ++ "T"%char :: time ++ " "%char :: zone = (day ++ "T"%char :: time) ++ " "%char :: zone) by (now rewrite <- app_assoc). rewrite E.
    rewrite replace_app. { rewrite <- app_assoc. reflexivity. }
    rewrite in_app_iff. cbn. intros [H|[H|H]]; [|discriminate|]; revert H; now apply printable_no_space.
  - unfold git_date. rewrite !Forall_app. repeat split; try (constructor; [reflexivity|constructor]); eapply Forall_impl; try exact printable_no_break; assumption.
  - cbn [rev app]. unfold git_date. intros E. apply app_eq_nil in E as [E _]. contradiction.
Qed.

(** *** git describe *)
Lemma match_describe_ok t d h : t <> [] -> ~ In nl t -> read_int d <> None -> hex h -> match_describe (t ++ word "-" ++ d ++ word "-g" ++ h) = Some (t, d, h).
Proof.
  intros Ht Hnl Hd Hh. pose proof (hex_all h Hh) as (H1 & _ & H2 & _). destruct (read_int d) as [n|] eqn:Ed; [|congruence].
  destruct (read_int_digits _ _ Ed) as [D1 D2]. pose proof (digits_all d D2) as (_ & D3 & _).
  unfold match_describe. assert (E : t ++ word "-" ++ d ++ word "-g" ++ h = (t ++ "-"%char :: d) ++ "-"%char :: "g"%char :: h) by (rewrite <- app_assoc; reflexivity).
  rewrite E, rsplit_app. 2: { cbn. intros [H|H]; [discriminate|contradiction]. }
  rewrite Ascii.eqb_refl, (nonempty_ne h (proj1 Hh)), H1. cbn [andb]. rewrite rsplit_app by exact D3. rewrite (nonempty_ne t Ht), (nonempty_ne d D1).
  rewrite (proj2 (has_char_free nl t) Hnl). change (forallb is_dec d) with (forallb is_digit d). now rewrite D2.
Qed.
Lemma last_hex_not_dirty s h : hex h -> before_suffix (txt "-dirty") (s ++ h) = None.
Proof.
  intros [H1 H2]. destruct (before_suffix (txt "-dirty") (s ++ h)) eqn:E; [|reflexivity]. exfalso. apply before_suffix_inv in E.
  apply (f_equal (fun l => hd_error (rev l))) in E. rewrite !rev_app_distr in E. rewrite hd_app_ne in E by now apply rev_ne. cbn in E.
  apply (hd_forall _ _ _ (Forall_rev H2)) in E. now apply hex_cases in E as (_ & _ & _ & E & _).
Qed.
Lemma describe_dirty tag d h dirty : hex h ->
  before_suffix (txt "-dirty") (describe_text tag d h dirty) = if dirty then Some (tag ++ word "-" ++ d ++ word "-g" ++ h) else None.
Proof.
  intros Hh. unfold describe_text. destruct dirty; cbn [mark].
  - rewrite <- (before_suffix_app (txt "-dirty") (tag ++ word "-" ++ d ++ word "-g" ++ h)). f_equal. change (txt "-dirty") with (word "-dirty"). now rewrite <- !app_assoc.
  - rewrite app_nil_r. assert (E : tag ++ word "-" ++ d ++ word "-g" ++ h = (tag ++ word "-" ++ d ++ word "-g") ++ h) by now rewrite <- !app_assoc.
    rewrite E. now apply last_hex_not_dirty.
Qed.
Lemma strip_describe tag d h dirty : (forall c, hd_error tag = Some c -> printable c) -> tag <> [] -> hex h -> strip (describe_text tag d h dirty) = describe_text tag d h dirty.
Proof.
  intros Ht Hn [H1 H2]. apply strip_ends; intros c; unfold describe_text.
  - rewrite hd_app_ne by exact Hn. apply Ht.
  - rewrite !rev_app_distr, <- !app_assoc. destruct dirty; cbn [mark].
    + cbn. intros [= <-]. reflexivity.
    + cbn [rev app]. rewrite hd_app_ne by now apply rev_ne. intros E. apply (hd_forall _ _ _ (Forall_rev H2)) in E. now apply hex_cases.
Qed.
(** *** A checkout *)
Lemma branch_some run b bs : run AbbrevRef = (Some b, Some 0%Z) -> run BranchContains = (Some bs, Some 0%Z) -> exists br, branch_of run = Ok (Some br).
Proof.
  intros H1 H2. unfold branch_of. rewrite H1. destruct (list_eq_dec ascii_dec (strip b) (txt "HEAD")); [|eauto]. rewrite H2. cbn zeta.
  destruct (existsb _ _); [eauto|]. destruct (map _ _); eauto.
Qed.
Lemma hex_strip f : hex f -> strip f = f.
Proof. intros H. apply strip_printable. now apply hex_all. Qed.
Lemma hyphen_in a b : has_char "-" (a ++ word "-" ++ b) = true.
Proof. apply has_char_in. rewrite in_app_iff. right. now left. Qed.
Lemma pieces_tagged run prefix tag n d h f br day time zone dirty o r1 r2 r3 :
  run GitDir = (o, Some 0%Z) -> run Describe = (Some (describe_text (prefix ++ tag) d h dirty), r1) -> run RevParse = (Some f, r2) ->
  branch_of run = Ok (Some br) -> run ShowDate = (Some (git_date day time zone), r3) ->
  prefix ++ tag <> [] -> (forall c, hd_error (prefix ++ tag) = Some c -> printable c) -> ~ In nl (prefix ++ tag) -> read_int d = Some n -> hex h -> hex f -> solid day -> solid time -> solid zone ->
  pieces_from_vcs prefix run = Ok (Some (Parts {| p_long := f; p_short := h; p_branch := br; p_dirty := dirty; p_tag := Some tag; p_distance := n; p_date := iso_text day time zone |})).
Proof.
  intros G D F B S Hn Hp Hl Hd Hh Hf Hday Htime Hzone. unfold pieces_from_vcs. rewrite G, D, F, B. cbn [fst bind]. rewrite (hex_strip f Hf).
  rewrite strip_describe by assumption. rewrite describe_dirty by exact Hh. cbn zeta.
  assert (E : describe_text (prefix ++ tag) d h false = (prefix ++ tag) ++ word "-" ++ d ++ word "-g" ++ h).
  { unfold describe_text. cbn [mark]. now rewrite app_nil_r. }
  destruct dirty; rewrite ?E, hyphen_in, match_describe_ok by (try assumption; congruence); rewrite after_prefix_app, (int_of_read d n Hd); cbn [bind]; rewrite S; cbn [fst];
    rewrite strip_date by assumption; rewrite iso_date_ok by assumption; reflexivity.
Qed.
Lemma render_tagged p t : p_tag p = Some t -> t <> [] -> tagged_version t (p_distance p) (p_short p) (p_dirty p) (render_pep440 p).
Proof.
  intros E Hn. unfold render_pep440, tag_of. rewrite E. destruct t as [|c t]; [congruence|]. unfold moved, dist_hash, plus_or_dot.
  destruct (p_distance p =? 0)%N eqn:En.
  - apply N.eqb_eq in En. destruct (p_dirty p) eqn:Ed; cbn [negb orb if_].
    + rewrite En. rewrite <- !app_assoc. apply (past_tag (c :: t) 0%N (p_short p) true (fmt_i 0)); [now right|apply decimal_fmt| |]; intros Hi.
      * now rewrite (proj2 (has_char_in _ _) Hi). * now rewrite (proj2 (has_char_free _ _) Hi).
    + rewrite app_nil_r. now apply at_tag.
  - apply N.eqb_neq in En. cbn [negb orb if_]. rewrite <- !app_assoc.
    assert (H : forall b, p_dirty p = b -> tagged_version (c :: t) (p_distance p) (p_short p) b
      ((c :: t) ++ (if has_char "+" (c :: t) then txt "." else txt "+") ++ fmt_i (p_distance p) ++ txt ".g" ++ p_short p ++ mark b ".dirty")).
    { intros b _. apply past_tag; [now left|apply decimal_fmt| |]; intros Hi.
      - now rewrite (proj2 (has_char_in _ _) Hi). - now rewrite (proj2 (has_char_free _ _) Hi). }
    exact (H (p_dirty p) eq_refl).
Qed.
Lemma unexpanded_none : versions_from_keywords unexpanded (txt "v") = Ok None.
Proof. vm_compute. reflexivity. Qed.
Lemma printable_v tag c : hd_error (txt "v" ++ tag) = Some c -> printable c.
Proof. cbn. intros [= <-]. reflexivity. Qed.
Lemma version_tagged run file tag n d h f b bs day time zone dirty o r1 r2 r3 :
  run GitDir = (o, Some 0%Z) -> run Describe = (Some (describe_text (word "v" ++ tag) d h dirty), r1) -> run RevParse = (Some f, r2) ->
  run AbbrevRef = (Some b, Some 0%Z) -> run BranchContains = (Some bs, Some 0%Z) -> run ShowDate = (Some (git_date day time zone), r3) ->
  tag <> [] -> ~ In nl tag -> read_int d = Some n -> hex h -> hex f -> solid day -> solid time -> solid zone ->
  exists ver, tagged_version tag n h dirty ver /\
    get_versions unexpanded run file = Ok {| v_version := ver; v_full := Some f; v_dirty := Some dirty; v_error := None; v_date := Some (iso_text day time zone) |}.
Proof.
  intros G D F B1 B2 S Hn Hl Hd Hh Hf Hday Htime Hzone. destruct (branch_some run b bs B1 B2) as [br B].
  pose proof (pieces_tagged run (txt "v") tag n d h f br day time zone dirty o r1 r2 r3 G D F B S) as P. eexists. split.
  2: { unfold get_versions. rewrite unexpanded_none. cbn [bind]. rewrite P; try assumption; [reflexivity|discriminate|apply printable_v|].
       rewrite in_app_iff. cbn. intros [[H|[]]|H]; [discriminate|contradiction]. }
  refine (render_tagged {| p_long := f; p_short := h; p_branch := br; p_dirty := dirty; p_tag := Some tag; p_distance := n; p_date := _ |} tag eq_refl Hn).
Qed.
(** No tag: the hash alone. *)
Lemma version_untagged run file n c h f b bs day time zone dirty o r1 r2 r3 r4 :
  run GitDir = (o, Some 0%Z) -> run Describe = (Some (h ++ mark dirty "-dirty"), r1) -> run RevParse = (Some f, r2) ->
  run AbbrevRef = (Some b, Some 0%Z) -> run BranchContains = (Some bs, Some 0%Z) -> run RevCount = (Some c, r4) -> run ShowDate = (Some (git_date day time zone), r3) ->
  decimal n c -> hex h -> hex f -> solid day -> solid time -> solid zone ->
  get_versions unexpanded run file = Ok {| v_version := word "0+untagged." ++ c ++ word ".g" ++ firstn 7 f ++ mark dirty ".dirty";
    v_full := Some f; v_dirty := Some dirty; v_error := None; v_date := Some (iso_text day time zone) |}.
Proof.
  intros G D F B1 B2 C S Hc Hh Hf Hday Htime Hzone. destruct (branch_some run b bs B1 B2) as [br B]. unfold get_versions. rewrite unexpanded_none. cbn [bind].
  assert (P : pieces_from_vcs (txt "v") run = Ok (Some (Parts {| p_long := f; p_short := firstn 7 f; p_branch := br; p_dirty := dirty; p_tag := None; p_distance := n; p_date := iso_text day time zone |}))).
  { unfold pieces_from_vcs. rewrite G, D, F, B. cbn [fst bind]. rewrite (hex_strip f Hf). destruct (hex_all h Hh) as (_ & Hp & Hm & _). destruct Hh as [Hh1 Hh2].
    assert (E : strip (h ++ mark dirty "-dirty") = h ++ mark dirty "-dirty").
    { apply strip_printable. apply Forall_app. split; [exact Hp|]. destruct dirty; [|constructor]. cbn. repeat constructor; reflexivity. }
    rewrite E. assert (E2 : before_suffix (txt "-dirty") (h ++ mark dirty "-dirty") = if dirty then Some h else None).
    { destruct dirty; cbn [mark]. - apply before_suffix_app. - rewrite app_nil_r. apply (last_hex_not_dirty [] h). now split. }
    rewrite E2. cbn zeta. assert (E3 : h ++ mark false "-dirty" = h) by apply app_nil_r.
    destruct dirty; rewrite ?E3, (proj2 (has_char_free _ _) Hm), C; cbn [fst]; rewrite (int_of_read c n (proj1 Hc)); cbn [bind]; rewrite S; cbn [fst];
    rewrite strip_date, iso_date_ok by assumption; reflexivity. }
  rewrite P. rewrite (decimal_is n c Hc). clear.
  transitivity (Ok {| v_version := render_pep440 {| p_long := f; p_short := firstn 7 f; p_branch := br; p_dirty := dirty; p_tag := None; p_distance := n; p_date := iso_text day time zone |};
    v_full := Some f; v_dirty := Some dirty; v_error := None; v_date := Some (iso_text day time zone) |}); [reflexivity|].
  do 2 f_equal. unfold render_pep440, dist_hash. cbn [tag_of p_tag p_distance p_short p_dirty]. destruct dirty; cbn [if_ mark]; rewrite <- ?app_assoc; reflexivity.
Qed.
(** Not under git, or git absent. *)
Lemma version_no_git run a b rest : snd (run GitDir) <> Some 0%Z -> (forall x d, In d (firstn 3 rest) -> d <> word "None" ++ x) ->
  get_versions unexpanded run (a :: b :: rest) = Ok {| v_version := word "0+unknown"; v_full := None; v_dirty := None; v_error := Some (word "unable to compute version"); v_date := None |}.
Proof.
  intros G H. unfold get_versions. rewrite unexpanded_none. cbn [bind].
  assert (P : pieces_from_vcs (txt "v") run = Ok None). { unfold pieces_from_vcs. destruct (run GitDir) as [o [[| |]|]]; cbn in G; try reflexivity. congruence. }
  rewrite P. cbn [bind tl].
  assert (F : forall k path, (forall x d, In d (firstn k path) -> d <> word "None" ++ x) -> from_parentdir k (txt "None") path = None).
  { induction k as [|k IH]; intros path Hp; [reflexivity|]. cbn [from_parentdir]. destruct path as [|d r].
    - cbn [after_prefix txt list_ascii_of_string]. apply IH. intros x d Hd. cbn [tl] in Hd. rewrite firstn_nil in Hd. destruct Hd.
    - rewrite after_prefix_none. { apply IH. intros x e He. apply Hp. now right. } intros x. apply Hp. now left. }
  now rewrite F.
Qed.
Lemma version_parent run a b pre d post x : snd (run GitDir) <> Some 0%Z -> (List.length pre < 3)%nat -> (forall y e, In e pre -> e <> word "None" ++ y) -> d = word "None" ++ x ->
  get_versions unexpanded run (a :: b :: pre ++ d :: post) = Ok {| v_version := x; v_full := None; v_dirty := Some false; v_error := None; v_date := None |}.
Proof.
  intros G Hk H ->. unfold get_versions. rewrite unexpanded_none. cbn [bind].
  assert (P : pieces_from_vcs (txt "v") run = Ok None). { unfold pieces_from_vcs. destruct (run GitDir) as [o [[| |]|]]; cbn in G; try reflexivity. congruence. }
  rewrite P. cbn [bind tl].
  assert (F : forall pre k, (List.length pre < k)%nat -> (forall y e, In e pre -> e <> word "None" ++ y) ->
    from_parentdir k (txt "None") (pre ++ (word "None" ++ x) :: post) = Some {| v_version := x; v_full := None; v_dirty := Some false; v_error := None; v_date := None |}).
  { clear. induction pre as [|e r IH]; intros k Hl Hp; (destruct k as [|k]; [cbn in Hl; lia|]); cbn [from_parentdir app].
    - change (word "None") with (txt "None"). now rewrite after_prefix_app.
    - rewrite after_prefix_none. { cbn [tl]. apply IH; [cbn in Hl; lia|]. intros y e' He. apply Hp. now right. } intros y. apply Hp. now left. }
  now rewrite F.
Qed.
(** A tag of another name. *)
Lemma version_foreign run file tag n d h f b bs dirty o r1 r2 :
  run GitDir = (o, Some 0%Z) -> run Describe = (Some (describe_text tag d h dirty), r1) -> run RevParse = (Some f, r2) ->
  run AbbrevRef = (Some b, Some 0%Z) -> run BranchContains = (Some bs, Some 0%Z) ->
  solid tag -> (forall x, tag <> word "v" ++ x) -> read_int d = Some n -> hex h -> hex f ->
  exists err, err <> [] /\ get_versions unexpanded run file = Ok {| v_version := word "unknown"; v_full := Some f; v_dirty := None; v_error := Some err; v_date := None |}.
Proof.
  intros G D F B1 B2 [T1 T2] Ht Hd Hh Hf. destruct (branch_some run b bs B1 B2) as [br B]. unfold get_versions. rewrite unexpanded_none. cbn [bind].
  unfold pieces_from_vcs. rewrite G, D, F, B. cbn [fst bind]. rewrite (hex_strip f Hf).
  rewrite strip_describe; [|intros c; now apply hd_forall|exact T1|exact Hh]. rewrite describe_dirty by exact Hh. cbn zeta.
  assert (E : describe_text tag d h false = tag ++ word "-" ++ d ++ word "-g" ++ h).
  { unfold describe_text. cbn [mark]. now rewrite app_nil_r. }
  assert (Hl : ~ In nl tag). { intros Hi. rewrite Forall_forall in T2. apply T2 in Hi. unfold printable in Hi. cbn in Hi. lia. }
  destruct dirty; rewrite ?E, hyphen_in, match_describe_ok by (try assumption; congruence); rewrite after_prefix_none by exact Ht; cbn [bind]; eexists; (split; [|reflexivity]); discriminate.
Qed.
(** The long style gives git's text back. *)
Lemma describe_long run tag n d h f b bs day time zone dirty o r1 r2 r3 :
  run GitDir = (o, Some 0%Z) -> run Describe = (Some (describe_text (word "v" ++ tag) d h dirty), r1) -> run RevParse = (Some f, r2) ->
  run AbbrevRef = (Some b, Some 0%Z) -> run BranchContains = (Some bs, Some 0%Z) -> run ShowDate = (Some (git_date day time zone), r3) ->
  tag <> [] -> ~ In nl tag -> decimal n d -> hex h -> hex f -> solid day -> solid time -> solid zone ->
  exists ps i, pieces_from_vcs (word "v") run = Ok (Some ps) /\ render ps "git-describe-long" = Ok i /\ word "v" ++ v_version i = describe_text (word "v" ++ tag) d h dirty.
Proof.
  intros G D F B1 B2 S Hn Hl Hd Hh Hf Hday Htime Hzone. destruct (branch_some run b bs B1 B2) as [br B].
  eexists. eexists. split; [|split].
  - eapply (pieces_tagged run (txt "v") tag n d h f br day time zone dirty o r1 r2 r3); try eassumption; [discriminate|apply printable_v| |apply Hd].
    rewrite in_app_iff. cbn. intros [[H|[]]|H]; [discriminate|contradiction].
  - reflexivity.
  - cbn [v_version]. rewrite (decimal_is n d Hd). unfold render_git_describe_long, tag_of, describe_text. cbn [p_tag p_distance p_short p_dirty].
    destruct tag as [|c t]; [congruence|]. rewrite <- !app_assoc. destruct dirty; reflexivity.
Qed.

(** *** What the text identifies *)
Lemma cut_unique (c : ascii) : forall a a' b b', ~ In c a -> ~ In c a' -> a ++ c :: b = a' ++ c :: b' -> a = a' /\ b = b'.
Proof.
  induction a as [|x a IH]; intros a' b b' H H' E.
  - destruct a' as [|y a']; cbn in E; inversion E; subst; [now split|]. exfalso. apply H'. now left.
  - destruct a' as [|y a']; cbn in E; inversion E; subst. { exfalso. apply H. now left. }
    destruct (IH a' b b') as [-> ->]; [intros ?; apply H; now right|intros ?; apply H'; now right|assumption|now split].
Qed.
Lemma hex_tail h h' (e e' : bool) : hex h -> hex h' -> h ++ mark e ".dirty" = h' ++ mark e' ".dirty" -> h = h' /\ e = e'.
Proof.
  intros H H' E. pose proof (hex_all h H) as (_ & _ & _ & D & _). pose proof (hex_all h' H') as (_ & _ & _ & D' & _).
  destruct e, e'; cbn [mark] in E.
  - apply (cut_unique ".") in E; [|assumption|assumption]. now destruct E.
  - exfalso. rewrite app_nil_r in E. apply D'. rewrite <- E. rewrite in_app_iff. right. now left.
  - exfalso. rewrite app_nil_r in E. apply D. rewrite E. rewrite in_app_iff. right. now left.
  - rewrite !app_nil_r in E. now split.
Qed.
Lemma tail_unique n n' h h' (e e' : bool) : hex h -> hex h' -> fmt_i n ++ word ".g" ++ h ++ mark e ".dirty" = fmt_i n' ++ word ".g" ++ h' ++ mark e' ".dirty" ->
  n = n' /\ h = h' /\ e = e'.
Proof.
  intros H H' E. change (word ".g" ++ h ++ mark e ".dirty") with ("."%char :: "g"%char :: h ++ mark e ".dirty") in E.
  change (word ".g" ++ h' ++ mark e' ".dirty") with ("."%char :: "g"%char :: h' ++ mark e' ".dirty") in E.
  apply cut_unique in E; [|now apply digits_all, fmt_i_digits|now apply digits_all, fmt_i_digits]. destruct E as [E1 E2].
  inversion E2 as [E3]. apply hex_tail in E3; try assumption. destruct E3 as [-> ->]. repeat split.
  pose proof (read_fmt_i n) as R. rewrite E1, read_fmt_i in R. congruence.
Qed.
Lemma if_mark (b : bool) s : if_ b (txt s) = mark b s. Proof. reflexivity. Qed.
Lemma render_form p : (forall t, p_tag p = Some t -> t <> [] /\ ~ In "+"%char t) ->
  render_pep440 p = match p_tag p with
                    | Some t => if moved p then t ++ "+"%char :: fmt_i (p_distance p) ++ word ".g" ++ p_short p ++ mark (p_dirty p) ".dirty" else t
                    | None => word "0" ++ "+"%char :: word "untagged." ++ fmt_i (p_distance p) ++ word ".g" ++ p_short p ++ mark (p_dirty p) ".dirty"
                    end.
Proof.
  intros H. unfold render_pep440, tag_of, dist_hash, plus_or_dot. destruct (p_tag p) as [t|].
  - destruct (H t eq_refl) as [Hn Hp]. destruct t as [|c t]; [congruence|]. rewrite (proj2 (has_char_free _ _) Hp).
    destruct (moved p); cbn [if_]; [|apply app_nil_r]. rewrite if_mark, <- !app_assoc. reflexivity.
  - rewrite if_mark, <- !app_assoc. reflexivity.
Qed.
Lemma fmt_not_untagged n x y : fmt_i n ++ x <> word "untagged." ++ y.
Proof.
  intros E. pose proof (fmt_i_nonempty n). pose proof (fmt_i_digits n) as D. destruct (fmt_i n) as [|c r]; [congruence|]. cbn in E. inversion E. subst c. discriminate D.
Qed.
Lemma render_identifies p q :
  (forall t, p_tag p = Some t -> t <> [] /\ ~ In "+"%char t) -> (forall t, p_tag q = Some t -> t <> [] /\ ~ In "+"%char t) ->
  hex (p_short p) -> hex (p_short q) -> render_pep440 p = render_pep440 q ->
  p_tag p = p_tag q /\ p_distance p = p_distance q /\ p_dirty p = p_dirty q /\
  (p_tag p = None \/ p_distance p <> 0%N \/ p_dirty p = true -> p_short p = p_short q).
Proof.
  intros Hp Hq Sp Sq E. rewrite (render_form p Hp), (render_form q Hq) in E.
  assert (M : forall r, moved r = false -> p_distance r = 0%N /\ p_dirty r = false).
  { intros r. unfold moved. rewrite orb_false_iff, negb_false_iff, N.eqb_eq. tauto. }
  destruct (p_tag p) as [t|]; destruct (p_tag q) as [t'|].
  - destruct (Hp t eq_refl) as [_ P1]. destruct (Hq t' eq_refl) as [_ Q1]. destruct (moved p) eqn:Mp; destruct (moved q) eqn:Mq.
    + apply cut_unique in E; try assumption. destruct E as [-> E]. apply tail_unique in E; try assumption. destruct E as (-> & -> & ->). repeat split; auto.
    + exfalso. apply Q1. rewrite <- E, in_app_iff. right. now left.
    + exfalso. apply P1. rewrite E, in_app_iff. right. now left.
    + destruct (M p Mp) as [-> ->]. destruct (M q Mq) as [-> ->]. subst. repeat split. intros [H|[H|H]]; congruence.
  - exfalso. destruct (Hp t eq_refl) as [_ P1]. destruct (moved p).
    + apply cut_unique in E; [|assumption|intros [H|[]]; discriminate]. destruct E as [_ E]. now apply fmt_not_untagged in E.
    + apply P1. rewrite E, in_app_iff. right. now left.
  - exfalso. destruct (Hq t' eq_refl) as [_ P1]. destruct (moved q).
    + symmetry in E. apply cut_unique in E; [|assumption|intros [H|[]]; discriminate]. destruct E as [_ E]. now apply fmt_not_untagged in E.
    + apply P1. rewrite <- E, in_app_iff. right. now left.
  - apply app_inv_head in E. injection E as E. apply tail_unique in E; try assumption. destruct E as (-> & -> & ->). repeat split; auto.
Qed.

(** *** PEP 440 *)
Lemma number_no_plus a : number a -> ~ In "+"%char a.
Proof. intros [_ H] Hi. rewrite Forall_forall in H. apply H, digit_cases in Hi. discriminate. Qed.
Lemma release_no_plus r : release r -> ~ In "+"%char r.
Proof.
  induction 1 as [a Ha|r a Hr IH Ha]; [now apply number_no_plus|]. rewrite !in_app_iff. intros [H|[H|H]]; [contradiction| |now apply number_no_plus in H].
  destruct H as [H|[]]; discriminate.
Qed.
Lemma opt_no_plus m a : ~ In "+"%char (word m) -> optional_number m a -> ~ In "+"%char a.
Proof. intros Hm [|x Hx]; [auto|]. rewrite in_app_iff. intros [H|H]; [contradiction|]. now apply number_no_plus in H. Qed.
Lemma public_no_plus a : public_part a -> ~ In "+"%char a.
Proof.
  intros (r & p1 & p2 & p3 & -> & Hr & H1 & H2 & H3). rewrite !in_app_iff. intros [H|[H|[H|H]]].
  - now apply release_no_plus in H.
  - destruct H1 as [H1|[H1|H1]]; eapply opt_no_plus; try exact H1; try exact H; cbn; intuition discriminate.
  - eapply opt_no_plus; [|exact H2|exact H]. cbn. intuition discriminate.
  - eapply opt_no_plus; [|exact H3|exact H]. cbn. intuition discriminate.
Qed.
Lemma hash_label h : hex h -> label ("g"%char :: h).
Proof. intros H. split; [discriminate|]. constructor; [vm_compute; tauto|]. now apply hex_all. Qed.
Lemma decimal_label n d : decimal n d -> label d.
Proof. intros [H _]. destruct (read_int_digits _ _ H) as [H1 H2]. split; [exact H1|]. now apply digits_all. Qed.
Lemma dirty_label : label (word "dirty").
Proof. split; [discriminate|]. cbn. repeat (constructor; [vm_compute; tauto|]). constructor. Qed.
Lemma local_tail x n d h (e : bool) : local_part (x ++ d) -> decimal n d -> hex h -> local_part (x ++ d ++ word ".g" ++ h ++ mark e ".dirty").
Proof.
  intros Hx Hd Hh. pose proof (local_more _ _ Hx (hash_label h Hh)) as L.
  destruct e; cbn [mark].
  - pose proof (local_more _ _ L dirty_label) as L2. rewrite <- !app_assoc in L2. exact L2.
  - rewrite app_nil_r. rewrite <- !app_assoc in L. exact L.
Qed.
Lemma tagged_pep440 tag n h e v : pep440_version tag -> hex h -> tagged_version tag n h e v -> pep440_version v.
Proof.
  intros Ht Hh [Hn|dirty d sep Hm Hd S1 S2]; [exact Ht|]. destruct Ht as [Hp|(a & b & -> & Hp & Hl)].
  - right. exists tag, (d ++ word ".g" ++ h ++ mark dirty ".dirty"). split; [|split; [exact Hp|]].
    + now rewrite (S2 (public_no_plus tag Hp)).
    + apply (local_tail [] n d h dirty); [|exact Hd|exact Hh]. apply local_one. now apply decimal_label in Hd.
  - right. exists a, ((b ++ word ".") ++ d ++ word ".g" ++ h ++ mark dirty ".dirty"). split; [|split; [exact Hp|]].
    + rewrite S1. { now rewrite <- !app_assoc. } rewrite in_app_iff. right. now left.
    + apply (local_tail (b ++ word ".") n d h dirty); [|exact Hd|exact Hh]. rewrite <- app_assoc. apply local_more; [exact Hl|]. now apply decimal_label in Hd.
Qed.
Lemma render_pep440_ok p : (forall t, p_tag p = Some t -> pep440_version t) -> hex (p_short p) -> pep440_version (render_pep440 p).
Proof.
  intros Ht Hh. destruct (p_tag p) as [t|] eqn:E.
  - assert (Hn : t <> []).
    { intros ->. destruct (Ht [] eq_refl) as [H|(a & b & H & _)]; [|now destruct a]. destruct H as (r & p1 & p2 & p3 & H & Hr & _). symmetry in H. apply app_eq_nil in H as [-> _].
      inversion Hr as [x [Hx _]|x y _ _ Hy]; [congruence|]. destruct x; discriminate. }
    eapply tagged_pep440; [now apply Ht|exact Hh|]. now apply render_tagged.
  - unfold render_pep440, tag_of. rewrite E. right. exists (word "0"), (word "untagged." ++ fmt_i (p_distance p) ++ word ".g" ++ p_short p ++ mark (p_dirty p) ".dirty").
    split; [|split].
    + unfold dist_hash. rewrite if_mark, <- !app_assoc. reflexivity.
    + exists (word "0"), [], [], []. split; [reflexivity|]. split; [|split; [left; constructor|split; constructor]].
      apply release_one. split; [discriminate|]. constructor; [vm_compute; tauto|constructor].
    + apply (local_tail (word "untagged.") (p_distance p)); [|apply decimal_fmt|exact Hh].
      change (word "untagged." ++ fmt_i (p_distance p)) with (word "untagged" ++ word "." ++ fmt_i (p_distance p)). apply local_more.
      * apply local_one. split; [discriminate|]. cbn. repeat (constructor; [vm_compute; tauto|]). constructor.
      * eapply decimal_label, decimal_fmt.
Qed.

(** *** Keywords *)
Lemma ltb_before a : forall b, text_ltb a b = true <-> before a b.
Proof.
  induction a as [|x a IH]; intros [|y b]; cbn [text_ltb]; unfold cN.
  - split; [discriminate|inversion 1].
  - split; [constructor|reflexivity].
  - split; [discriminate|inversion 1].
  - destruct (N.ltb_spec (N_of_ascii x) (N_of_ascii y)) as [L|L].
    { split; [now constructor|reflexivity]. }
    destruct (N.ltb_spec (N_of_ascii y) (N_of_ascii x)) as [L'|L'].
    { split; [discriminate|]. inversion 1; subst; lia. }
    assert (E : x = y) by (rewrite <- (ascii_N_embedding x), <- (ascii_N_embedding y); f_equal; lia). subst y. rewrite IH. split; [now constructor|].
    inversion 1; subst; [lia|assumption].
Qed.
Lemma before_trans a b : before a b -> forall c, before b c -> before a c.
Proof.
  induction 1 as [c r|x y r s H|x r s H IH]; intros t Ht.
  - inversion Ht; constructor.
  - inversion Ht; subst; constructor; lia.
  - inversion Ht; subst; [now constructor|]. apply before_rest. now apply IH.
Qed.
Lemma before_total a : forall b, before a b \/ a = b \/ before b a.
Proof.
  induction a as [|x a IH]; intros [|y b]; [now right; left|left; constructor|right; right; constructor|].
  destruct (N.lt_trichotomy (N_of_ascii x) (N_of_ascii y)) as [L|[L|L]]; [left; now constructor| |right; right; now constructor].
  assert (E : x = y) by (rewrite <- (ascii_N_embedding x), <- (ascii_N_embedding y); now f_equal). subst y.
  destruct (IH b) as [H|[->|H]]; [left; now constructor|right; left; reflexivity|right; right; now constructor].
Qed.
Fixpoint ordered (l : list text) : Prop := match l with [] => True | x :: r => (forall y, In y r -> before x y) /\ ordered r end.
Lemma insert_in x l : forall y, In y (insert_text x l) <-> y = x \/ In y l.
Proof.
  induction l as [|z r IH]; intros y; cbn [insert_text]. { cbn. intuition. }
  destruct (text_ltb z x) eqn:E1. { cbn [In]. rewrite IH. intuition. }
  destruct (text_ltb x z) eqn:E2. { cbn [In]. intuition. }
  assert (x = z). { destruct (before_total x z) as [H|[H|H]]; [|exact H|]; apply ltb_before in H; congruence. }
  subst. cbn [In]. intuition.
Qed.
Lemma insert_ordered x l : ordered l -> ordered (insert_text x l).
Proof.
  induction l as [|z r IH]; intros H; cbn [insert_text]. { cbn. intuition. }
  destruct H as [H1 H2]. destruct (text_ltb z x) eqn:E1.
  - cbn [ordered]. split; [|now apply IH]. intros y Hy. apply insert_in in Hy as [->|Hy]; [now apply ltb_before|now apply H1].
  - destruct (text_ltb x z) eqn:E2; [|now split]. apply ltb_before in E2. cbn [ordered]. split; [|now split].
    intros y [<-|Hy]; [exact E2|]. eapply before_trans; [exact E2|now apply H1].
Qed.
Lemma sorted_in l y : In y (sorted_set l) <-> In y l.
Proof. unfold sorted_set. induction l as [|x r IH]; cbn; [reflexivity|]. rewrite insert_in, IH. intuition. Qed.
Lemma sorted_ordered l : ordered (sorted_set l).
Proof. unfold sorted_set. induction l as [|x r IH]; cbn; [exact I|]. now apply insert_ordered. Qed.
Lemma before_app p a b : before (p ++ a) (p ++ b) -> before a b.
Proof. induction p as [|c p IH]; cbn; [auto|]. intros H. inversion H; subst; [lia|auto]. Qed.
Lemma digit_start v : starts_with_digit v <-> exists c r, v = c :: r /\ is_dec c = true.
Proof. unfold starts_with_digit. split; intros (c & r & -> & H); exists c, r; (split; [reflexivity|]); apply digit_cases; exact H. Qed.
Lemma pick_none p l : pick_tag p l = None <-> forall v, starts_with_digit v -> ~ In (p ++ v) l.
Proof.
  induction l as [|t r IH]; cbn [pick_tag]. { split; [intros _ v _ []|reflexivity]. }
  split.
  - intros H v Hv [->|Hi].
    + rewrite after_prefix_app in H. apply digit_start in Hv as (c & s & -> & Hc). rewrite Hc in H. discriminate.
    + assert (Hr : pick_tag p r = None). { destruct (after_prefix p t) as [[|c s]|]; try exact H. destruct (is_dec c); [discriminate|exact H]. }
      now apply (proj1 IH Hr v Hv).
  - intros H. assert (Hr : pick_tag p r = None) by (apply IH; intros v Hv Hi; apply (H v Hv); now right).
    destruct (after_prefix p t) as [[|c s]|] eqn:E; [exact Hr| |exact Hr]. destruct (is_dec c) eqn:Ec; [|exact Hr]. exfalso.
    apply (H (c :: s)); [apply digit_start; eauto|]. left. now apply after_prefix_inv.
Qed.
Lemma pick_some p l v : ordered l -> pick_tag p l = Some v -> In (p ++ v) l /\ starts_with_digit v /\ (forall w, starts_with_digit w -> In (p ++ w) l -> w = v \/ before v w).
Proof.
  induction l as [|t r IH]; cbn [pick_tag]; intros Ho H; [discriminate|]. destruct Ho as [H1 H2].
  assert (Hr : pick_tag p r = Some v -> (forall w, starts_with_digit w -> p ++ w <> t) ->
    In (p ++ v) (t :: r) /\ starts_with_digit v /\ (forall w, starts_with_digit w -> In (p ++ w) (t :: r) -> w = v \/ before v w)).
  { intros Hp Ht. destruct (IH H2 Hp) as (A & B & C). split; [now right|]. split; [exact B|]. intros w Hw [E|Hi]; [exfalso; apply (Ht w Hw); congruence|now apply C]. }
  destruct (after_prefix p t) as [[|c s]|] eqn:E.
  - apply Hr; [exact H|]. intros w (x & y & -> & _) E'. subst t. rewrite after_prefix_app in E. discriminate.
  - destruct (is_dec c) eqn:Ec.
    + inversion H. subst v. apply after_prefix_inv in E. subst t. split; [now left|]. split; [apply digit_start; eauto|].
      intros w Hw [E'|Hi]; [left; now apply app_inv_head in E'|]. right. apply (before_app p). now apply H1.
    + apply Hr; [exact H|]. intros w Hw E'. subst t. rewrite after_prefix_app in E. inversion E. subst w. apply digit_start in Hw as (x & y & E' & Hx). inversion E'. subst. congruence.
  - apply Hr; [exact H|]. intros w Hw E'. subst t. rewrite after_prefix_app in E. discriminate.
Qed.
Lemma keep_in p refs v : In v (keep_some (after_prefix p) refs) <-> In (p ++ v) refs.
Proof.
  induction refs as [|r rs IH]; cbn; [reflexivity|]. destruct (after_prefix p r) eqn:E.
  - apply after_prefix_inv in E. subst r. cbn. rewrite IH. split; intros [H|H]; auto; left; [now subst|now apply app_inv_head in H].
  - rewrite IH. split; [now right|]. intros [->|H]; [|exact H]. rewrite after_prefix_app in E. discriminate.
Qed.
Lemma tags_some refs : (exists v, In (word "tag: " ++ v) refs) -> tags_of refs = keep_some (after_prefix (txt "tag: ")) refs.
Proof. intros [v H]. apply (keep_in (txt "tag: ")) in H. unfold tags_of. destruct (keep_some (after_prefix (txt "tag: ")) refs); [destruct H|reflexivity]. Qed.
Lemma tags_none refs : (forall v, ~ In (word "tag: " ++ v) refs) -> tags_of refs = filter (existsb is_dec) refs.
Proof.
  intros H. unfold tags_of. destruct (keep_some (after_prefix (txt "tag: ")) refs) as [|x l] eqn:E; [reflexivity|]. exfalso. apply (H x). apply (keep_in (txt "tag: ")). rewrite E. now left.
Qed.
Lemma split_char_free c s : ~ In c s -> split_char c s = [s].
Proof.
  induction s as [|x r IH]; cbn; intros H; [reflexivity|]. destruct (Ascii.eqb x c) eqn:E; [apply Ascii.eqb_eq in E; tauto|]. now rewrite IH by tauto.
Qed.
Lemma split_char_app c a b : ~ In c a -> split_char c (a ++ c :: b) = a :: split_char c b.
Proof.
  induction a as [|x a IH]; cbn; intros H; [now rewrite Ascii.eqb_refl|]. destruct (Ascii.eqb x c) eqn:E; [apply Ascii.eqb_eq in E; tauto|]. now rewrite IH by tauto.
Qed.
Lemma plain_ends r : plain_ref r -> strip r = r /\ strip (" "%char :: r) = r.
Proof.
  intros (H1 & _ & H3 & H4). split; [now apply strip_ends|]. unfold strip, strip_by. cbn [drop_while]. change (is_space " ") with true. cbn match.
  exact (strip_ends r H3 H4).
Qed.
Lemma split_listed : forall refs, refs <> [] -> Forall plain_ref refs -> forall pre, (pre = [] \/ pre = [" "%char]) -> map strip (split_char "," (pre ++ listed refs)) = refs.
Proof.
  induction refs as [|r rs IH]; intros Hn H pre Hp; [congruence|]. inversion H as [|? ? Hr Hrs]. subst. destruct (plain_ends r Hr) as [E1 E2].
  assert (Es : strip (pre ++ r) = r) by (destruct Hp as [->| ->]; assumption).
  assert (Hc : ~ In ","%char (pre ++ r)).
  { rewrite in_app_iff. intros [Hi|Hi]; [destruct Hp as [->| ->]; [destruct Hi|destruct Hi as [Hi|[]]; discriminate]|]. destruct Hr as (_ & Hr & _). now destruct (Hr _ Hi). }
  destruct rs as [|r2 rs].
  - cbn [listed]. rewrite split_char_free by exact Hc. cbn [map]. now rewrite Es.
  - change (listed (r :: r2 :: rs)) with (r ++ ","%char :: [" "%char] ++ listed (r2 :: rs)). rewrite app_assoc, split_char_app by exact Hc. cbn [map]. rewrite Es. f_equal.
    apply IH; [discriminate|exact Hrs|now right].
Qed.
Lemma listed_ends refs : refs <> [] -> Forall plain_ref refs -> listed refs <> [] /\ (forall c, hd_error (listed refs) = Some c -> is_paren c = false) /\ (forall c, hd_error (rev (listed refs)) = Some c -> is_paren c = false).
Proof.
  assert (Q : forall r c, plain_ref r -> In c r -> is_paren c = false).
  { intros r c (_ & H & _) Hc. apply H in Hc as (_ & A & B). unfold is_paren. apply orb_false_iff. split; now apply Ascii.eqb_neq. }
  assert (Hd : forall (s : list ascii) c, hd_error s = Some c -> In c s) by (intros [|x s] c; cbn; [discriminate|intros [= ->]; now left]).
  induction refs as [|r rs IH]; intros Hn H; [congruence|]. inversion H as [|? ? Hr Hrs]. subst. destruct rs as [|r2 rs].
  - cbn [listed]. split; [apply Hr|]. split; intros c Hc; apply (Q r c Hr); [now apply Hd|]. apply Hd in Hc. now apply in_rev.
  - destruct (IH ltac:(discriminate) Hrs) as (A & B & C). change (listed (r :: r2 :: rs)) with (r ++ word ", " ++ listed (r2 :: rs)).
    assert (Hr0 : r <> []) by apply Hr. split; [destruct r; [congruence|discriminate]|]. split; intros c.
    + rewrite hd_app_ne by exact Hr0. intros Hc. apply (Q r c Hr). now apply Hd.
    + rewrite !rev_app_distr, <- !app_assoc. rewrite hd_app_ne by now apply rev_ne. apply C.
Qed.
Lemma drop_paren s : (forall c, hd_error s = Some c -> is_paren c = false) -> s <> [] -> drop_while is_paren ("("%char :: s) = s /\ drop_while is_paren (")"%char :: s) = s.
Proof. intros H _. cbn [drop_while]. split; now apply drop_id. Qed.
Lemma refs_back refs : refs <> [] -> Forall plain_ref refs -> strip (ref_names refs) = "("%char :: listed refs ++ word ")" /\ refs_of ("("%char :: listed refs ++ word ")") = refs.
Proof.
  intros Hn H. destruct (listed_ends refs Hn H) as (A & B & C). split.
  - unfold ref_names, strip. unfold strip_by. change (word " (" ++ listed refs ++ word ")") with (" "%char :: "("%char :: listed refs ++ [")"%char]).
    cbn [drop_while]. change (is_space " ") with true. change (is_space "(") with false. cbn match.
    change ("("%char :: listed refs ++ [")"%char]) with (("("%char :: listed refs) ++ [")"%char]). rewrite rev_app_distr. cbn [rev app].
    cbn [drop_while]. change (is_space ")") with false. cbn match. cbn [rev]. rewrite rev_app_distr. cbn. now rewrite rev_involutive.
  - unfold refs_of. assert (E : strip_by is_paren ("("%char :: listed refs ++ word ")") = listed refs).
    { unfold strip_by. assert (E1 : drop_while is_paren ("("%char :: listed refs ++ word ")") = listed refs ++ word ")").
      { cbn [drop_while]. change (is_paren "(") with true. cbn match. apply drop_id. intros c. rewrite hd_app_ne by exact A. apply B. }
      rewrite E1, rev_app_distr. cbn [rev word list_ascii_of_string app drop_while]. change (is_paren ")") with true. cbn match. rewrite (drop_id _ _ C). apply rev_involutive. }
    rewrite E. apply (split_listed refs Hn H []). now left.
Qed.
Lemma not_format s : after_prefix (txt "$Format") ("("%char :: s) = None. Proof. reflexivity. Qed.
Lemma keywords_run refs full day time zone : refs <> [] -> Forall plain_ref refs -> hex full -> solid day -> solid time -> solid zone ->
  versions_from_keywords {| k_refnames := Some (ref_names refs); k_full := Some full; k_date := Some (git_date day time zone) |} (txt "v") =
  Ok (Some match pick_tag (txt "v") (sorted_set (tags_of refs)) with
           | Some r => {| v_version := r; v_full := Some full; v_dirty := Some false; v_error := None; v_date := Some (iso_text day time zone) |}
           | None => {| v_version := word "0+unknown"; v_full := Some full; v_dirty := Some false; v_error := Some (word "no suitable tags"); v_date := None |}
           end).
Proof.
  intros Hn H Hf D T Z. destruct (refs_back refs Hn H) as [E1 E2]. unfold versions_from_keywords. cbn [k_refnames k_full k_date]. rewrite iso_date_ok by assumption. cbn [bind].
  rewrite E1, not_format, E2, (hex_strip full Hf). destruct (pick_tag _ _); reflexivity.
Qed.
Lemma sorted_pick refs tags : tags_of refs = tags ->
  match pick_tag (txt "v") (sorted_set (tags_of refs)) with
  | Some v => In (word "v" ++ v) tags /\ starts_with_digit v /\ (forall w, starts_with_digit w -> In (word "v" ++ w) tags -> w = v \/ before v w)
  | None => forall v, starts_with_digit v -> ~ In (word "v" ++ v) tags
  end.
Proof.
  intros ->. destruct (pick_tag (txt "v") (sorted_set tags)) as [v|] eqn:E.
  - apply pick_some in E; [|apply sorted_ordered]. destruct E as (A & B & C). split; [apply sorted_in; exact A|]. split; [exact B|]. intros w Hw Hi. apply C; [exact Hw|]. now apply sorted_in.
  - intros v Hv Hi. apply (proj1 (pick_none _ _) E v Hv). now apply sorted_in.
Qed.
Lemma archive_tagged run file refs full day time zone v0 : Forall plain_ref refs -> hex full -> solid day -> solid time -> solid zone -> tagged_release refs v0 ->
  exists v, tagged_release refs v /\ (forall w, tagged_release refs w -> w = v \/ before v w) /\
    get_versions {| k_refnames := Some (ref_names refs); k_full := Some full; k_date := Some (git_date day time zone) |} run file =
      Ok {| v_version := v; v_full := Some full; v_dirty := Some false; v_error := None; v_date := Some (iso_text day time zone) |}.
Proof.
  intros H Hf D T Z H0. assert (Hn : refs <> []) by (intros ->; destruct H0 as [[] _]). pose proof (keywords_run refs full day time zone Hn H Hf D T Z) as K.
  assert (Et : tags_of refs = keep_some (after_prefix (txt "tag: ")) refs) by (apply tags_some; exists (word "v" ++ v0); apply H0).
  pose proof (sorted_pick refs _ Et) as S.
  assert (In_ : forall w, In (word "v" ++ w) (keep_some (after_prefix (txt "tag: ")) refs) <-> In (word "tag: v" ++ w) refs) by (intros w; rewrite keep_in; reflexivity).
  destruct (pick_tag (txt "v") (sorted_set (tags_of refs))) as [v|].
  - destruct S as (A & B & C). exists v. split; [split; [now apply In_|exact B]|]. split; [intros w [W1 W2]; apply C; [exact W2|now apply In_]|].
    unfold get_versions. rewrite K. reflexivity.
  - exfalso. destruct H0 as [A B]. apply (S v0 B). now apply In_.
Qed.
Lemma archive_unsuitable run file refs full day time zone : refs <> [] -> Forall plain_ref refs -> hex full -> solid day -> solid time -> solid zone ->
  (exists t, In (word "tag: " ++ t) refs) -> (forall v, ~ tagged_release refs v) ->
    get_versions {| k_refnames := Some (ref_names refs); k_full := Some full; k_date := Some (git_date day time zone) |} run file =
      Ok {| v_version := word "0+unknown"; v_full := Some full; v_dirty := Some false; v_error := Some (word "no suitable tags"); v_date := None |}.
Proof.
  intros Hn H Hf D T Z Ht H0. pose proof (keywords_run refs full day time zone Hn H Hf D T Z) as K. pose proof (sorted_pick refs _ (tags_some refs Ht)) as S.
  destruct (pick_tag (txt "v") (sorted_set (tags_of refs))) as [v|].
  - exfalso. destruct S as (A & B & _). apply (H0 v). split; [|exact B]. exact (proj1 (keep_in (txt "tag: ") refs _) A).
  - unfold get_versions. rewrite K. reflexivity.
Qed.
(** No tag at all: any reference named as a version, a branch too. *)
Lemma archive_branch run file refs full day time zone v0 : Forall plain_ref refs -> hex full -> solid day -> solid time -> solid zone ->
  (forall t, ~ In (word "tag: " ++ t) refs) -> In (word "v" ++ v0) refs -> starts_with_digit v0 ->
  exists v, In (word "v" ++ v) refs /\ starts_with_digit v /\
    get_versions {| k_refnames := Some (ref_names refs); k_full := Some full; k_date := Some (git_date day time zone) |} run file =
      Ok {| v_version := v; v_full := Some full; v_dirty := Some false; v_error := None; v_date := Some (iso_text day time zone) |}.
Proof.
  intros H Hf D T Z Ht H0 Hv0. assert (Hn : refs <> []) by (intros ->; destruct H0). pose proof (keywords_run refs full day time zone Hn H Hf D T Z) as K.
  pose proof (sorted_pick refs _ (tags_none refs Ht)) as S. destruct (pick_tag (txt "v") (sorted_set (tags_of refs))) as [v|].
  - destruct S as (A & B & _). apply filter_In in A as [A _]. exists v. split; [exact A|]. split; [exact B|]. unfold get_versions. rewrite K. reflexivity.
  - exfalso. apply (S v0 Hv0). apply filter_In. split; [exact H0|]. apply digit_start in Hv0 as (c & r & -> & Hc). cbn. now rewrite Hc.
Qed.
Lemma archive_nothing run file refs full day time zone : refs <> [] -> Forall plain_ref refs -> hex full -> solid day -> solid time -> solid zone ->
  (forall t, ~ In (word "tag: " ++ t) refs) -> (forall v, starts_with_digit v -> ~ In (word "v" ++ v) refs) ->
    get_versions {| k_refnames := Some (ref_names refs); k_full := Some full; k_date := Some (git_date day time zone) |} run file =
      Ok {| v_version := word "0+unknown"; v_full := Some full; v_dirty := Some false; v_error := Some (word "no suitable tags"); v_date := None |}.
Proof.
  intros Hn H Hf D T Z Ht H0. pose proof (keywords_run refs full day time zone Hn H Hf D T Z) as K. pose proof (sorted_pick refs _ (tags_none refs Ht)) as S.
  destruct (pick_tag (txt "v") (sorted_set (tags_of refs))) as [v|].
  - exfalso. destruct S as (A & B & _). apply filter_In in A as [A _]. now apply (H0 v).
  - unfold get_versions. rewrite K. reflexivity.
Qed.

(** *** The branch *)
Lemma branch_attached run b : run AbbrevRef = (Some b, Some 0%Z) -> solid b -> b <> word "HEAD" -> branch_of run = Ok (Some (Some b)).
Proof.
  intros H [_ Hb] Hn. unfold branch_of. rewrite H, (strip_printable b Hb). destruct (list_eq_dec ascii_dec b (txt "HEAD")) as [E|E]; [contradiction|reflexivity].
Qed.
Lemma split_branch_lines first : ~ In nl first -> forall names, Forall (fun n => ~ In nl n) names -> split_char nl (first ++ branch_lines names) = first :: map (fun n => word "  " ++ n) names.
Proof.
  intros Hf names. revert first Hf. induction names as [|n r IH]; intros first Hf H.
  - cbn. rewrite app_nil_r. now apply split_char_free.
  - inversion H. subst. change (branch_lines (n :: r)) with (nl :: (word "  " ++ n) ++ branch_lines r). rewrite split_char_app by exact Hf. cbn [map]. f_equal. apply IH; [|assumption].
    cbn. intros [E|[E|E]]; [discriminate|discriminate|contradiction].
Qed.
Lemma branch_detached run bs here names : run AbbrevRef = (Some (word "HEAD"), Some 0%Z) -> run BranchContains = (Some bs, Some 0%Z) ->
  bs = word "* (" ++ here ++ branch_lines names -> ~ In nl here -> Forall (fun n => ~ In nl n) names ->
  branch_of run = Ok (Some (if in_dec (list_eq_dec ascii_dec) (word "master") names then Some (word "master") else hd_error names)).
Proof.
  intros H1 H2 -> Hh Hn. unfold branch_of. rewrite H1, H2. change (strip (word "HEAD")) with (word "HEAD"). destruct (list_eq_dec ascii_dec (word "HEAD") (txt "HEAD")) as [_|E]; [|now contradiction E].
  rewrite app_assoc, split_branch_lines; [|rewrite in_app_iff; intros [Hi|Hi]; [cbn in Hi; intuition discriminate|contradiction]|exact Hn]. cbn zeta.
  change (has_char "(" (word "* (" ++ here)) with true. cbn match. rewrite map_map. change (map (fun x => skipn 2 (word "  " ++ x)) names) with (map (fun x => x) names). rewrite map_id.
  destruct (in_dec (list_eq_dec ascii_dec) (word "master") names) as [Hi|Hi].
  - match goal with |- context [existsb ?f names] => destruct (existsb f names) eqn:E end; [reflexivity|]. exfalso. rewrite <- not_true_iff_false in E. apply E. apply existsb_exists. exists (word "master"). split; [exact Hi|].
    destruct (list_eq_dec ascii_dec (word "master") (txt "master")) as [_|E']; [reflexivity|now contradiction E'].
  - match goal with |- context [existsb ?f names] => destruct (existsb f names) eqn:E end.
    { exfalso. apply existsb_exists in E as (x & Hx & E). destruct (list_eq_dec ascii_dec x (txt "master")) as [->|]; [contradiction|discriminate]. }
    destruct names; reflexivity.
Qed.

(** *** The other styles *)
Lemma styles_at_tag p t : p_tag p = Some t -> t <> [] -> p_distance p = 0%N -> p_dirty p = false -> forall style, In style ["pep440"; "pep440-branch"; "pep440-pre"; "pep440-post"; "pep440-post-branch"; "pep440-old"; "git-describe"]%string ->
  render (Parts p) style = Ok {| v_version := t; v_full := Some (p_long p); v_dirty := Some false; v_error := None; v_date := Some (p_date p) |}.
Proof.
  intros Ht Hn Hd Hc style Hs. destruct t as [|c t]; [congruence|]. destruct p as [l s b e tg n dt]. cbn in Ht, Hd, Hc. subst.
  cbn in Hs. repeat (destruct Hs as [<-|Hs]; [cbn; rewrite ?app_nil_r; reflexivity|]). destruct Hs.
Qed.
Lemma styles_unknown p style : ~ In style [""; "default"; "pep440"; "pep440-branch"; "pep440-pre"; "pep440-post"; "pep440-post-branch"; "pep440-old"; "git-describe"; "git-describe-long"]%string ->
  render (Parts p) style = Raise ValueError.
Proof.
  intros H. unfold render. cbn zeta. assert (E : forall s, In s [""; "default"; "pep440"; "pep440-branch"; "pep440-pre"; "pep440-post"; "pep440-post-branch"; "pep440-old"; "git-describe"; "git-describe-long"]%string -> String.eqb style s = false).
  { intros s Hs. apply String.eqb_neq. intros ->. contradiction. }
  rewrite !E by (cbn; tauto). reflexivity.
Qed.

(** *** Witnesses *)
Definition repo (desc : string) (date : option text) : runner := fun c =>
  match c with
  | GitDir => (Some (txt ".git"), Some 0%Z) | Describe => (Some (txt desc), Some 0%Z) | RevParse => (Some (txt "0123abcd4567"), Some 0%Z)
  | AbbrevRef => (Some (txt "master"), Some 0%Z) | BranchContains => (Some (txt "* master"), Some 0%Z) | RevCount => (Some (txt "17"), Some 0%Z) | ShowDate => (date, if date then Some 0%Z else Some 128%Z)
  end.
Lemma version_import : exists run file, (forall c, snd (run c) <> Some 0%Z -> fst (run c) = None) /\ get_versions unexpanded run file = Raise AttributeError.
Proof.
  exists (repo "v1.0-3-gab" None), []. split; [|vm_compute; reflexivity]. intros []; cbn; intros H; try reflexivity; now contradiction H.
Qed.
Lemma version_bare : exists run file d h v, fst (run Describe) = Some (describe_text (word "v") d h false) /\
  get_versions unexpanded run file = Ok v /\ v_version v = word "0+untagged.3.g" ++ h.
Proof. exists (repo "v-3-gab12" (Some (txt "2024-05-06 07:08:09 +0200"))), [], (word "3"), (word "ab12"). eexists. split; [reflexivity|]. split; [vm_compute; reflexivity|reflexivity]. Qed.
Lemma render_collides : exists p q, p_tag p = Some (word "1.0") /\ p_tag q = Some (word "1.0+3.gab") /\ p_distance p <> p_distance q /\
  hex (p_short p) /\ hex (p_short q) /\ render_pep440 p = render_pep440 q.
Proof.
  exists {| p_long := []; p_short := word "ab"; p_branch := None; p_dirty := false; p_tag := Some (word "1.0"); p_distance := 3; p_date := [] |},
    {| p_long := []; p_short := word "cd"; p_branch := None; p_dirty := false; p_tag := Some (word "1.0+3.gab"); p_distance := 0; p_date := [] |}.
  cbn [p_tag p_distance p_short]. repeat split; try discriminate; cbn; repeat (constructor; [vm_compute; tauto|]); constructor.
Qed.
Lemma release_start r : release r -> starts_with_digit r.
Proof.
  induction 1 as [a [H1 H2]|r a _ (c & s & -> & Hc) _]; [|now exists c, (s ++ word "." ++ a)]. destruct a as [|c a]; [congruence|]. inversion H2. now exists c, a.
Qed.
Lemma pep440_start v : pep440_version v -> starts_with_digit v.
Proof.
  assert (P : forall a, public_part a -> starts_with_digit a).
  { intros a (r & p1 & p2 & p3 & -> & Hr & _). apply release_start in Hr as (c & s & -> & Hc). now exists c, (s ++ p1 ++ p2 ++ p3). }
  intros [H|(a & b & -> & H & _)]; [now apply P|]. apply P in H as (c & s & -> & Hc). now exists c, (s ++ word "+" ++ b).
Qed.
Lemma version_not_pep440 : exists run file i, fst (run Describe) = Some (describe_text (word "verified") (word "0") (word "ab12") false) /\
  get_versions unexpanded run file = Ok i /\ v_version i = word "erified" /\ ~ pep440_version (v_version i).
Proof.
  exists (repo "verified-0-gab12" (Some (txt "2024-05-06 07:08:09 +0200"))), []. eexists. split; [reflexivity|]. split; [vm_compute; reflexivity|]. split; [reflexivity|].
  intros H. apply pep440_start in H as (c & s & E & Hc). cbn in E. injection E as <- _. cbn in Hc. intuition discriminate.
Qed.
Lemma pep440_case : pep440_version (word "1.2rc3+4.gab.dirty") /\
  render_pep440 {| p_long := []; p_short := txt "ab"; p_branch := None; p_dirty := true; p_tag := Some (txt "1.2rc3"); p_distance := 4; p_date := [] |} = word "1.2rc3+4.gab.dirty".
Proof.
  split; [|vm_compute; reflexivity]. right. exists (word "1.2rc3"), (word "4.gab.dirty"). split; [reflexivity|].
  assert (N1 : forall c, In c (word "0123456789") -> number [c]) by (intros c Hc; split; [discriminate|now constructor]). split.
  - exists (word "1.2"), (word "rc3"), [], []. split; [reflexivity|]. split; [|split; [right; right; apply (opt_some "rc" (word "3")), N1; vm_compute; tauto|split; constructor]].
    apply (release_more (word "1") (word "2")); [apply release_one|]; apply N1; vm_compute; tauto.
  - apply (local_more (word "4.gab") (word "dirty")); [apply (local_more (word "4") (word "gab")); [apply local_one|]|];
      (split; [discriminate|]; cbn; repeat (constructor; [vm_compute; tauto|]); constructor).
Qed.
Lemma archive_newest : exists run file k i, k_refnames k = Some (ref_names [word "HEAD -> master"; word "tag: v2.0"; word "tag: v1.0"]) /\
  get_versions k run file = Ok i /\ v_version i = word "1.0".
Proof.
  exists (repo "ab" None), [], {| k_refnames := Some (ref_names [word "HEAD -> master"; word "tag: v2.0"; word "tag: v1.0"]); k_full := Some (word "ab12"); k_date := Some (word "2024-05-06 07:08:09 +0200") |}.
  eexists. split; [reflexivity|]. split; [vm_compute; reflexivity|reflexivity].
Qed.
Lemma archive_by_branch : exists run file k i, k_refnames k = Some (ref_names [word "origin/v2-work"; word "v2-work"]) /\
  get_versions k run file = Ok i /\ v_version i = word "2-work" /\ v_error i = None.
Proof.
  exists (repo "ab" None), [], {| k_refnames := Some (ref_names [word "origin/v2-work"; word "v2-work"]); k_full := Some (word "ab12"); k_date := Some (word "2024-05-06 07:08:09 +0200") |}.
  eexists. split; [reflexivity|]. split; [vm_compute; reflexivity|split; reflexivity].
Qed.
Lemma archive_no_date run file refs full : get_versions {| k_refnames := Some refs; k_full := full; k_date := Some [] |} run file = Raise IndexError.
Proof. reflexivity. Qed.
Lemma archive_case : plain_ref (word "HEAD -> master") /\ tagged_release [word "HEAD -> master"; word "tag: v2.0"; word "tag: v2.0rc1"] (word "2.0") /\ before (word "2.0") (word "2.0rc1").
Proof.
  split; [|split].
  - split; [discriminate|]. split; [|split; cbn; intros c [= <-]; reflexivity]. intros c Hc. cbn in Hc. repeat (destruct Hc as [<-|Hc]; [repeat split; discriminate|]). destruct Hc.
  - split; [cbn; tauto|]. exists "2"%char, (word ".0"). split; [reflexivity|vm_compute; tauto].
  - cbn. repeat apply before_rest. constructor.
Qed.
