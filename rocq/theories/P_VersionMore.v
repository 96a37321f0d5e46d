(** Proofs about the other styles and about dates in several lines (M_Version). *)
From Coq Require Import List Ascii String ZArith NArith Bool Lia.
From Verif Require Import M_Base M_Writers S_Writers M_Version S_Version P_Version.
Import ListNotations.
Local Open Scope string_scope.
Local Open Scope list_scope.

(** ** Splitting at ".post" *)
Lemma post_straddle x b r s : (x :: b) ++ word ".post" ++ r = word ".post" ++ s -> exists y, x :: b = word ".post" ++ y.
Proof.
  intros H. cbn in H. injection H as -> H.
  destruct b as [|b1 b]; [discriminate|]. cbn in H. injection H as -> H.
  destruct b as [|b2 b]; [discriminate|]. cbn in H. injection H as -> H.
  destruct b as [|b3 b]; [discriminate|]. cbn in H. injection H as -> H.
  destruct b as [|b4 b]; [discriminate|]. cbn in H. injection H as -> H. exists b. reflexivity.
Qed.
Lemma split_post_text : forall base fuel r cur, (List.length base < fuel)%nat -> (forall a b, base <> a ++ word ".post" ++ b) ->
  split_text fuel (txt ".post") (base ++ word ".post" ++ r) cur = (rev cur ++ base) :: split_text (fuel - S (List.length base)) (txt ".post") r [].
Proof.
  induction base as [|x base IH]; intros fuel r cur Hf Hb; (destruct fuel as [|fuel]; [cbn in Hf; lia|]).
  - cbn [split_text app List.length]. change (txt ".post") with (word ".post"). rewrite after_prefix_app, app_nil_r. cbn. now rewrite Nat.sub_0_r.
  - cbn [split_text]. rewrite after_prefix_none. 2: { intros s H. destruct (post_straddle _ _ _ _ H) as [y Hy]. exact (Hb [] y Hy). }
    cbn [app]. rewrite IH. + cbn [rev List.length]. rewrite <- app_assoc. reflexivity. + cbn in Hf. lia. + intros a b H. apply (Hb (x :: a) b). cbn. now rewrite H.
Qed.
Lemma split_post_free : forall s fuel cur, (List.length s < fuel)%nat -> (forall a b, s <> a ++ word ".post" ++ b) -> split_text fuel (txt ".post") s cur = [rev cur ++ s].
Proof.
  induction s as [|x s IH]; intros fuel cur Hf Hb; (destruct fuel as [|fuel]; [cbn in Hf; lia|]).
  - cbn. now rewrite app_nil_r.
  - cbn [split_text]. rewrite after_prefix_none by (intros r H; exact (Hb [] r H)). rewrite IH.
    + cbn [rev]. now rewrite <- app_assoc. + cbn in Hf. lia. + intros a b H. apply (Hb (x :: a) b). cbn. now rewrite H.
Qed.
Lemma digits_no_post d : forallb is_digit d = true -> forall a b, d <> a ++ word ".post" ++ b.
Proof. intros H a b E. destruct (digits_all d H) as (_ & _ & D & _). apply D. rewrite E. apply in_or_app. right. now left. Qed.
Lemma split_post_number base d n : (forall a b, base <> a ++ word ".post" ++ b) -> (d = [] /\ n = 0%N \/ read_int d = Some n) -> split_post (base ++ word ".post" ++ d) = Ok (base, Some n).
Proof.
  intros Hb Hd. unfold split_post. rewrite split_post_text by (rewrite ?app_length; cbn; try lia; exact Hb).
  rewrite split_post_free.
  - cbn [rev app]. destruct Hd as [[-> ->]|Hd]; [reflexivity|]. destruct (read_int_digits d n Hd) as [Hne _]. destruct d as [|c d]; [congruence|]. rewrite (int_of_read _ n Hd). reflexivity.
  - rewrite ?app_length. cbn. lia.
  - destruct Hd as [[-> _]|Hd]; [intros [|? ?] b H; discriminate|]. apply digits_no_post. now apply (read_int_digits d n).
Qed.
Lemma split_post_none base : (forall a b, base <> a ++ word ".post" ++ b) -> split_post base = Ok (base, None).
Proof. intros Hb. unfold split_post. rewrite split_post_free by (try lia; exact Hb). reflexivity. Qed.

(** ** The styles *)
Lemma tag_some p t : p_tag p = Some t -> t <> [] -> tag_of p = Some t.
Proof. intros E H. unfold tag_of. rewrite E. destruct t; [now destruct H|reflexivity]. Qed.
Definition styled (p : parts) (v : text) : info := {| v_version := v; v_full := Some (p_long p); v_dirty := Some (p_dirty p); v_error := None; v_date := Some (p_date p) |}.
Lemma pre_post p base d n : p_tag p = Some (base ++ word ".post" ++ d) -> (forall a b, base <> a ++ word ".post" ++ b) ->
  (d = [] /\ n = 0%N \/ read_int d = Some n) -> p_distance p <> 0%N ->
  exists m k, decimal (n + 1) m /\ decimal (p_distance p) k /\ render (Parts p) "pep440-pre" =
    Ok {| v_version := base ++ word ".post" ++ m ++ word ".dev" ++ k; v_full := Some (p_long p); v_dirty := Some (p_dirty p); v_error := None; v_date := Some (p_date p) |}.
Proof.
  intros E Hb Hd Hn. exists (fmt_i (n + 1)), (fmt_i (p_distance p)). repeat split; try apply decimal_fmt.
  assert (T : base ++ word ".post" ++ d <> []) by (destruct base; discriminate).
  cbn. unfold render_pep440_pre. rewrite (tag_some p _ E T), (proj2 (N.eqb_neq _ _) Hn), (split_post_number base d n Hb Hd). reflexivity.
Qed.
Lemma pre_plain p t : p_tag p = Some t -> t <> [] -> (forall a b, t <> a ++ word ".post" ++ b) -> p_distance p <> 0%N ->
  exists k, decimal (p_distance p) k /\ render (Parts p) "pep440-pre" =
    Ok {| v_version := t ++ word ".post0.dev" ++ k; v_full := Some (p_long p); v_dirty := Some (p_dirty p); v_error := None; v_date := Some (p_date p) |}.
Proof.
  intros E T Hb Hn. exists (fmt_i (p_distance p)). split; [apply decimal_fmt|].
  cbn. unfold render_pep440_pre. rewrite (tag_some p _ E T), (proj2 (N.eqb_neq _ _) Hn), (split_post_none t Hb). reflexivity.
Qed.
Lemma moved_true p : p_distance p <> 0%N \/ p_dirty p = true -> moved p = true.
Proof. intros [H|H]; unfold moved. - now rewrite (proj2 (N.eqb_neq _ _) H). - rewrite H. apply orb_true_r. Qed.
Lemma off_master_dec p dev : (p_branch p = Some (word "master") -> dev = []) -> (p_branch p <> Some (word "master") -> dev = word ".dev0") -> if_ (off_master p) (txt ".dev0") = dev.
Proof.
  intros A B. unfold off_master. destruct (p_branch p) as [b|]; [|symmetry; apply B; discriminate].
  destruct (list_eq_dec ascii_dec b (txt "master")) as [->|N]; [symmetry; apply A; reflexivity|]. symmetry. apply B. intros [= ->]. now apply N.
Qed.
Lemma sep_dec t sep : (In "+"%char t -> sep = word ".") -> (~ In "+"%char t -> sep = word "+") -> plus_or_dot t = sep.
Proof.
  intros A B. unfold plus_or_dot. destruct (has_char "+" t) eqn:E.
  - symmetry. apply A. now apply has_char_in. - symmetry. apply B. now apply has_char_free.
Qed.
Lemma all_styles p t sep dev : p_tag p = Some t -> t <> [] -> p_distance p <> 0%N \/ p_dirty p = true ->
  (In "+"%char t -> sep = word ".") -> (~ In "+"%char t -> sep = word "+") ->
  (p_branch p = Some (word "master") -> dev = []) -> (p_branch p <> Some (word "master") -> dev = word ".dev0") ->
  exists k, decimal (p_distance p) k /\
    let gives style v := render (Parts p) style = Ok {| v_version := v; v_full := Some (p_long p); v_dirty := Some (p_dirty p); v_error := None; v_date := Some (p_date p) |} in
    gives "pep440" (t ++ sep ++ k ++ word ".g" ++ p_short p ++ mark (p_dirty p) ".dirty") /\
    gives "pep440-branch" (t ++ dev ++ sep ++ k ++ word ".g" ++ p_short p ++ mark (p_dirty p) ".dirty") /\
    gives "pep440-post" (t ++ word ".post" ++ k ++ mark (p_dirty p) ".dev0" ++ sep ++ word "g" ++ p_short p) /\
    gives "pep440-post-branch" (t ++ word ".post" ++ k ++ dev ++ sep ++ word "g" ++ p_short p ++ mark (p_dirty p) ".dirty") /\
    gives "pep440-old" (t ++ word ".post" ++ k ++ mark (p_dirty p) ".dev0") /\
    (p_distance p <> 0%N -> gives "git-describe" (t ++ word "-" ++ k ++ word "-g" ++ p_short p ++ mark (p_dirty p) "-dirty")) /\
    gives "git-describe-long" (t ++ word "-" ++ k ++ word "-g" ++ p_short p ++ mark (p_dirty p) "-dirty").
Proof.
  intros E T M S1 S2 B1 B2. exists (fmt_i (p_distance p)). split; [apply decimal_fmt|]. cbn zeta.
  pose proof (tag_some p t E T) as ET. pose proof (moved_true p M) as EM. pose proof (sep_dec t sep S1 S2) as ES. pose proof (off_master_dec p dev B1 B2) as EB.
  repeat split.
  - cbn. unfold render_pep440, dist_hash. rewrite ET, EM, ES. cbn [if_]. rewrite <- ?app_assoc. reflexivity.
  - cbn. unfold render_pep440_branch, dist_hash. rewrite ET, EM, ES, EB. cbn [if_]. rewrite <- ?app_assoc. reflexivity.
  - cbn. unfold render_pep440_post. rewrite ET, EM, ES. reflexivity.
  - cbn. unfold render_pep440_post_branch. rewrite ET, EM, ES, EB. reflexivity.
  - cbn. unfold render_pep440_old. rewrite ET, EM. reflexivity.
  - intros D. cbn. unfold render_git_describe. rewrite ET, (proj2 (N.eqb_neq _ _) D). cbn [if_ negb]. rewrite <- ?app_assoc. reflexivity.
  - cbn. unfold render_git_describe_long. rewrite ET. rewrite <- ?app_assoc. reflexivity.
Qed.
Lemma all_untagged p dev : p_tag p = None ->
  (p_branch p = Some (word "master") -> dev = []) -> (p_branch p <> Some (word "master") -> dev = word ".dev0") ->
  exists k, decimal (p_distance p) k /\
    let gives style v := render (Parts p) style = Ok {| v_version := v; v_full := Some (p_long p); v_dirty := Some (p_dirty p); v_error := None; v_date := Some (p_date p) |} in
    gives "pep440" (word "0+untagged." ++ k ++ word ".g" ++ p_short p ++ mark (p_dirty p) ".dirty") /\
    gives "pep440-branch" (word "0" ++ dev ++ word "+untagged." ++ k ++ word ".g" ++ p_short p ++ mark (p_dirty p) ".dirty") /\
    gives "pep440-pre" (word "0.post0.dev" ++ k) /\
    gives "pep440-post" (word "0.post" ++ k ++ mark (p_dirty p) ".dev0" ++ word "+g" ++ p_short p) /\
    gives "pep440-post-branch" (word "0.post" ++ k ++ dev ++ word "+g" ++ p_short p ++ mark (p_dirty p) ".dirty") /\
    gives "pep440-old" (word "0.post" ++ k ++ mark (p_dirty p) ".dev0") /\
    gives "git-describe" (p_short p ++ mark (p_dirty p) "-dirty") /\
    gives "git-describe-long" (p_short p ++ mark (p_dirty p) "-dirty").
Proof.
  intros E B1 B2. exists (fmt_i (p_distance p)). split; [apply decimal_fmt|]. cbn zeta.
  assert (ET : tag_of p = None) by (unfold tag_of; now rewrite E). pose proof (off_master_dec p dev B1 B2) as EB.
  repeat split; cbn; unfold render_pep440, render_pep440_branch, render_pep440_pre, render_pep440_post, render_pep440_post_branch, render_pep440_old, render_git_describe, render_git_describe_long, dist_hash;
    rewrite ET, ?EB, <- ?app_assoc; reflexivity.
Qed.

(** ** Dates in several lines *)
Lemma lines_last : forall n p l cur, (List.length p <= n)%nat -> exists ls, splitlines (p ++ nl :: l) cur = ls ++ splitlines l [].
Proof.
  induction n as [|n IH]; intros p l cur Hn.
  - destruct p; [|cbn in Hn; lia]. exists [rev cur]. reflexivity.
  - destruct p as [|c p]; [exists [rev cur]; reflexivity|]. cbn [app splitlines]. destruct (Ascii.eqb c (chr 13)).
    + destruct p as [|d p]; [exists [rev cur]; reflexivity|]. cbn [app]. destruct (Ascii.eqb d (chr 10)).
      * destruct (IH p l []) as [ls E]; [cbn in Hn; lia|]. exists (rev cur :: ls). now rewrite E.
      * destruct (IH (d :: p) l []) as [ls E]; [cbn in *; lia|]. exists (rev cur :: ls). cbn [app] in E. now rewrite E.
    + destruct (is_break c).
      * destruct (IH p l []) as [ls E]; [cbn in Hn; lia|]. exists (rev cur :: ls). now rewrite E.
      * destruct (IH p l (c :: cur)) as [ls E]; [cbn in Hn; lia|]. exists ls. exact E.
Qed.
Definition eol (e : text) : Prop := e = [] \/ e = [nl] \/ e = [chr 13; nl].
Lemma lines_end : forall s cur e, Forall (fun c => is_break c = false) s -> rev cur ++ s <> [] -> eol e -> splitlines (s ++ e) cur = [rev cur ++ s].
Proof.
  induction s as [|c s IH]; intros cur e Hs Hc He.
  - rewrite app_nil_r in *. destruct He as [->|[->| ->]]; cbn [app]; [|reflexivity|reflexivity]. cbn. destruct cur; [cbn in Hc; congruence|reflexivity].
  - inversion Hs; subst. cbn [app splitlines].
    assert (E : Ascii.eqb c (chr 13) = false). { destruct (Ascii.eqb_spec c (chr 13)) as [->|]; [discriminate|reflexivity]. }
    rewrite E, H1, IH; auto; cbn [rev]; rewrite <- app_assoc; [reflexivity|exact Hc].
Qed.
Lemma date_no_break day time zone : solid day -> solid time -> solid zone -> Forall (fun c => is_break c = false) (git_date day time zone) /\ git_date day time zone <> [].
Proof.
  intros [A1 A] [B1 B] [C1 C]. split; [|destruct day; [congruence|discriminate]]. unfold git_date.
  repeat (apply Forall_app; split); try (eapply Forall_impl; [|eassumption]; apply printable_no_break); repeat constructor.
Qed.
Lemma iso_lines day time zone pre e : solid day -> solid time -> solid zone -> (pre = [] \/ exists q, pre = q ++ [nl]) -> eol e ->
  iso_date (pre ++ git_date day time zone ++ e) = Ok (iso_text day time zone).
Proof.
  intros A B C Hp He. rewrite <- (iso_date_ok day time zone A B C). destruct (date_no_break day time zone A B C) as [D N].
  assert (L : splitlines (git_date day time zone ++ e) [] = [git_date day time zone]) by (apply (lines_end _ []); auto).
  assert (L0 : splitlines (git_date day time zone) [] = [git_date day time zone]) by (apply (lines_one _ []); auto).
  unfold iso_date. rewrite L0. destruct Hp as [->|[q ->]].
  - cbn [app]. rewrite L. reflexivity.
  - rewrite <- app_assoc. cbn [app]. destruct (lines_last (List.length q) q (git_date day time zone ++ e) [] (Nat.le_refl _)) as [ls ->]. rewrite L, rev_app_distr. reflexivity.
Qed.
Lemma drop_app f : forall a b, drop_while f (a ++ b) = match drop_while f a with [] => drop_while f b | x => x ++ b end.
Proof. induction a as [|c a IH]; intros b; [reflexivity|]. cbn. destruct (f c); [apply IH|reflexivity]. Qed.
Lemma drop_nl : forall a, drop_while is_space (a ++ [nl]) = [] \/ exists q, drop_while is_space (a ++ [nl]) = q ++ [nl].
Proof. induction a as [|c a IH]; [left; reflexivity|]. cbn [app drop_while]. destruct (is_space c); [exact IH|]. right. exists (c :: a). reflexivity. Qed.
Lemma strip_signed day time zone sg : solid day -> solid time -> solid zone ->
  exists pre, strip (sg ++ nl :: git_date day time zone) = pre ++ git_date day time zone /\ (pre = [] \/ exists q, pre = q ++ [nl]).
Proof.
  intros A B C. pose proof (strip_date day time zone A B C) as S. unfold strip, strip_by in *.
  replace (sg ++ nl :: git_date day time zone) with ((sg ++ [nl]) ++ git_date day time zone) by (rewrite <- app_assoc; reflexivity). rewrite drop_app.
  destruct (drop_nl sg) as [E|[q E]]; rewrite E.
  - exists []. split; [exact S|now left].
  - exists (q ++ [nl]). split; [|right; now exists q].
    assert (G : rev ((q ++ [nl]) ++ git_date day time zone) = rev (git_date day time zone) ++ rev (q ++ [nl])) by apply rev_app_distr.
    assert (D : drop_while is_space (rev (git_date day time zone)) = rev (git_date day time zone)).
    { apply drop_id. intros c Hc. apply printable_not_space. unfold git_date in Hc. rewrite !rev_app_distr, <- !app_assoc in Hc. destruct C as [C1 C]. rewrite hd_app_ne in Hc by (now apply rev_ne).
      apply (hd_forall _ (rev zone) c); [|exact Hc]. apply Forall_rev. exact C. }
    destruct (q ++ [nl]) as [|x r] eqn:Q; [destruct q; discriminate|]. rewrite G, drop_app, D.
    destruct (rev (git_date day time zone)) as [|y s] eqn:R.
    { exfalso. destruct (date_no_break day time zone A B C) as [_ N]. apply N. rewrite <- (rev_involutive (git_date day time zone)), R. reflexivity. }
    rewrite <- R, <- rev_app_distr, rev_involutive. reflexivity.
Qed.
Lemma version_signed run run' file sg day time zone r r' : (forall c, c <> ShowDate -> run' c = run c) -> solid day -> solid time -> solid zone ->
  run ShowDate = (Some (git_date day time zone), r) -> run' ShowDate = (Some (sg ++ nl :: git_date day time zone), r') ->
  get_versions unexpanded run' file = get_versions unexpanded run file.
Proof.
  intros H A B C S S'. assert (P : pieces_from_vcs (txt "v") run' = pieces_from_vcs (txt "v") run); [|unfold get_versions; now rewrite P].
  destruct (strip_signed day time zone sg A B C) as (pre & E & Hp).
  assert (I : iso_date (strip (sg ++ nl :: git_date day time zone)) = iso_date (strip (git_date day time zone))).
  { rewrite E, strip_date, iso_date_ok by assumption. replace (pre ++ git_date day time zone) with (pre ++ git_date day time zone ++ []) by (now rewrite app_nil_r). apply iso_lines; auto. now left. }
  unfold pieces_from_vcs, branch_of. rewrite !(H GitDir), !(H Describe), !(H RevParse), !(H AbbrevRef), !(H BranchContains), !(H RevCount), S, S' by discriminate. cbn [fst]. rewrite I. reflexivity.
Qed.
Lemma archive_lines run file refs full day time zone pre e : solid day -> solid time -> solid zone -> (pre = [] \/ exists q, pre = q ++ [nl]) -> eol e ->
  get_versions {| k_refnames := refs; k_full := full; k_date := Some (pre ++ git_date day time zone ++ e) |} run file =
  get_versions {| k_refnames := refs; k_full := full; k_date := Some (git_date day time zone) |} run file.
Proof.
  intros A B C Hp He. unfold get_versions, versions_from_keywords. cbn [k_refnames k_full k_date]. rewrite iso_lines, iso_date_ok by assumption. reflexivity.
Qed.
