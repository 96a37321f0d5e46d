(** Proofs about the files written by versioneer's setup. *)
From Coq Require Import List Ascii String ZArith NArith Bool Arith Lia.
From Verif Require Import M_Base M_Writers M_Version M_Installer S_Version S_BuildVersion S_Installer P_Version P_BuildVersion P_BuildVersion2.
Import ListNotations.

Lemma nl_newline : nl = newline. Proof. reflexivity. Qed.
Lemma starts_spec p s : starts p s = true <-> exists r, s = p ++ r.
Proof. unfold starts. destruct (after_prefix p s) eqn:E; split; intros H; try discriminate; auto; [apply after_prefix_inv in E; eauto|]. destruct H as [r ->]. rewrite after_prefix_app in E. discriminate. Qed.
Lemma occurs_spec p s : occurs p s = true <-> contains p s.
Proof.
  split.
  - induction s as [|c s IH]; cbn [occurs]; intros H.
    + destruct (after_prefix p []) eqn:E; [|discriminate]. apply after_prefix_inv in E. exists [], t. exact E.
    + destruct (after_prefix p (c :: s)) eqn:E; [apply after_prefix_inv in E; exists [], t; exact E|]. destruct (IH H) as (a & b & ->). exists (c :: a), b. reflexivity.
  - intros (a & b & ->). induction a as [|c a IH]; cbn [app].
    + destruct (p ++ b) eqn:E; cbn [occurs]; rewrite <- E, after_prefix_app; reflexivity.
    + cbn [occurs]. destruct (after_prefix p _); [reflexivity|exact IH].
Qed.
Lemma occurs_false p s : occurs p s = false <-> ~ contains p s.
Proof. rewrite <- occurs_spec. destruct (occurs p s); split; intros; congruence || (exfalso; auto). Qed.
Lemma mem_spec t l : mem_text t l = true <-> In t l.
Proof.
  unfold mem_text. rewrite existsb_exists. split.
  - intros (x & I & H). destruct (list_eq_dec ascii_dec t x) as [->|]; [exact I|discriminate].
  - intros I. exists t. split; [exact I|]. destruct (list_eq_dec ascii_dec t t); congruence.
Qed.
Lemma space_white c : is_space c = true <-> white c.
Proof. unfold is_space, white, cN. cbn zeta. rewrite orb_true_iff, !andb_true_iff, !N.leb_le. tauto. Qed.
Lemma space_false c : is_space c = false <-> ~ white c.
Proof. rewrite <- space_white. destruct (is_space c); split; intros; congruence || (exfalso; auto). Qed.

(** * Words *)
Definition wordless (p : text) : Prop := Forall (fun c => ~ white c) p.
Lemma white_in p c : wordless p -> In c p -> white c -> False. Proof. intros W I. unfold wordless in W. rewrite Forall_forall in W. apply W, I. Qed.
Lemma word_whole x p : wordless p -> word_of x p <-> x = p /\ p <> [].
Proof.
  intros W. split.
  - intros (N & F & a & b & E & A & B). assert (a = []) as -> by (destruct A as [->|(a' & c & -> & C)]; [reflexivity|]; exfalso; apply (white_in p c W); [rewrite E; rewrite !in_app_iff; cbn; auto|exact C]).
    assert (b = []) as -> by (destruct B as [->|(c & b' & -> & C)]; [reflexivity|]; exfalso; apply (white_in p c W); [rewrite E; rewrite !in_app_iff; cbn; auto|exact C]). rewrite app_nil_r in E. cbn in E. subst. auto.
  - intros [-> N]. split; [exact N|]. split; [exact W|]. exists [], []. rewrite app_nil_r. auto.
Qed.
Lemma word_blank x p c r : wordless p -> white c -> word_of x (p ++ c :: r) <-> x = p /\ p <> [] \/ word_of x r.
Proof.
  intros W C. split.
  - intros (N & F & a & b & E & A & B). destruct A as [->|(a' & d & -> & D)].
    + left. cbn [app] in E. assert (x = p); [|subst; auto]. apply app_eq_app in E. destruct E as (l & [[-> E]|[-> E]]).
      * destruct l as [|e l]; [rewrite app_nil_r; reflexivity|]. exfalso. destruct B as [->|(g & b' & -> & G)]; [discriminate E|]. cbn in E. injection E as -> _. apply (white_in (x ++ e :: l) e W); [apply in_or_app; cbn; auto|exact G].
      * destruct l as [|e l]; [rewrite app_nil_r; reflexivity|]. exfalso. cbn in E. injection E as -> _. apply (white_in _ e F); [apply in_or_app; cbn; auto|exact C].
    + right. split; [exact N|]. split; [exact F|]. rewrite <- app_assoc in E. cbn [app] in E. apply app_eq_app in E. destruct E as (l & [[-> E]|[E1 E]]).
      * destruct l as [|e l].
        -- cbn in E. injection E as E2 E3. subst. exists [], b. split; [reflexivity|]. auto.
        -- exfalso. cbn in E. injection E as -> _. apply (white_in (a' ++ e :: l) e W); [apply in_or_app; cbn; auto|exact D].
      * destruct l as [|e l].
        -- rewrite app_nil_r in E1. subst. cbn in E. injection E as E2 E3. subst. exists [], b. split; [reflexivity|]. auto.
        -- cbn in E. injection E as E2 E3. subst. exists (l ++ [d]), b. split; [rewrite <- app_assoc; reflexivity|]. split; [right; exists l, d; auto|exact B].
  - intros [[-> N]|(N & F & a & b & -> & A & B)].
    + split; [exact N|]. split; [exact W|]. exists [], (c :: r). split; [reflexivity|]. split; [auto|]. right. exists c, r. auto.
    + split; [exact N|]. split; [exact F|]. exists (p ++ c :: a), b. rewrite <- app_assoc. split; [reflexivity|]. split; [|exact B]. right. destruct A as [->|(a' & d & -> & D)]; [exists p, c; auto|]. exists (p ++ c :: a'), d. rewrite <- app_assoc. auto.
Qed.
Lemma words_from_spec x : forall s cur, wordless cur -> In x (words_from s cur) <-> word_of x (rev cur ++ s).
Proof.
  assert (R : forall cur, wordless cur -> wordless (rev cur)) by (intros cur W; unfold wordless in *; rewrite Forall_forall in *; intros c I; apply W; apply in_rev; exact I).
  assert (RN : forall cur : text, rev cur <> [] <-> nonempty cur = true) by (intros [|c cur]; cbn [nonempty rev]; split; intros; try congruence; intros E; apply app_eq_nil in E; destruct E; discriminate).
  induction s as [|c s IH]; intros cur W; cbn [words_from].
  - rewrite app_nil_r, word_whole by (apply R, W). rewrite RN. destruct (nonempty cur); cbn [In]; split; intuition (congruence || auto).
  - destruct (is_space c) eqn:E.
    + rewrite word_blank by (auto; apply space_white, E). rewrite RN. specialize (IH [] (Forall_nil _)). cbn [rev app] in IH. destruct (nonempty cur); cbn [In]; rewrite IH; split; intuition (congruence || auto).
    + rewrite IH by (constructor; [apply space_false, E|exact W]). cbn [rev]. rewrite <- app_assoc. reflexivity.
Qed.
Lemma words_spec x s : In x (words s) <-> word_of x s. Proof. unfold words. rewrite words_from_spec by constructor. reflexivity. Qed.
Lemma words_first x p c r : wordless p -> p <> [] -> white c -> In x (tl (words (p ++ c :: r))) <-> word_of x r.
Proof.
  intros W N C. rewrite <- words_spec. unfold words. assert (G : forall p cur, wordless p -> words_from (p ++ c :: r) cur = if nonempty (rev p ++ cur) then (rev cur ++ p) :: words_from r [] else words_from r []).
  { induction p0 as [|d p0 IH]; intros cur W'; cbn [app words_from rev].
    - rewrite (proj2 (space_white c) C). rewrite app_nil_r. reflexivity.
    - inversion W'; subst. rewrite (proj2 (space_false d)) by assumption. rewrite IH by assumption. cbn [rev]. rewrite <- !app_assoc. reflexivity. }
  rewrite G by exact W. rewrite app_nil_r. cbn [rev app]. destruct (nonempty (rev p)) eqn:E; [reflexivity|]. destruct (rev p) eqn:E2; [|discriminate]. exfalso. apply N. rewrite <- (rev_involutive p), E2. reflexivity.
Qed.

(** * Lines *)
Lemma split_glue c a b : split_char c (a ++ c :: b) = split_char c a ++ split_char c b.
Proof.
  induction a as [|x a IH]; cbn [app split_char].
  - rewrite Ascii.eqb_refl. reflexivity.
  - rewrite IH. destruct (Ascii.eqb x c); [reflexivity|]. destruct (split_char c a) as [|w ws] eqn:E; [|reflexivity]. exfalso. destruct a as [|y a]; cbn in E; [discriminate|]. destruct (Ascii.eqb y c); [discriminate|]. destruct (split_char c a); discriminate.
Qed.
Lemma flat_whole {A} (g : text -> list A) s t : whole s -> g [] = [] -> flat_map g (split_char nl (s ++ t)) = flat_map g (split_char nl s) ++ flat_map g (split_char nl t).
Proof.
  intros [->|(s0 & ->)] G.
  - cbn [app]. change (split_char nl []) with [@nil ascii]. cbn [flat_map]. rewrite G. reflexivity.
  - rewrite <- app_assoc. cbn [app]. rewrite <- nl_newline, !split_glue. change (split_char nl []) with [@nil ascii]. rewrite !flat_map_app. cbn [flat_map]. rewrite G, !app_nil_r. reflexivity.
Qed.
Lemma lines_spec s l : In l (split_char nl s) <-> line_of l s.
Proof.
  split.
  - revert l. assert (G : forall n s l, (List.length s <= n)%nat -> In l (split_char nl s) -> line_of l s).
    { induction n as [|n IH]; intros s0 l L I.
      - destruct s0; [|cbn in L; lia]. cbn in I. destruct I as [<-|[]]. split; [intros []|]. exists [], []. repeat split; left; reflexivity.
      - destruct (in_dec ascii_dec nl s0) as [H|H].
        + apply in_split in H. destruct H as (a & b & ->). rewrite split_glue in I. apply in_app_or in I. rewrite app_length in L. cbn in L. destruct I as [I|I].
          * destruct (IH a l ltac:(lia) I) as (O & a' & b' & -> & WA & WB). split; [exact O|]. exists a', (b' ++ nl :: b). rewrite <- !app_assoc. split; [reflexivity|]. split; [exact WA|]. right. destruct WB as [->|(b2 & ->)]; [exists b; reflexivity|]. eexists. reflexivity.
          * destruct (IH b l ltac:(lia) I) as (O & a' & b' & -> & WA & WB). split; [exact O|]. exists (a ++ nl :: a'), b'. rewrite <- !app_assoc. split; [reflexivity|]. split; [|exact WB]. right. destruct WA as [->|(t & ->)]; [exists a; reflexivity|]. exists (a ++ nl :: t). rewrite <- app_assoc. reflexivity.
        + rewrite split_char_free in I by exact H. destruct I as [<-|[]]. split; [exact H|]. exists [], []. rewrite app_nil_r. repeat split; left; reflexivity. }
    intros l. apply (G (List.length s)). lia.
  - intros (O & a & b & -> & WA & WB). assert (B : In l (split_char nl (l ++ b))). { destruct WB as [->|(b' & ->)]; [rewrite app_nil_r, split_char_free by exact O; left; reflexivity|]. rewrite <- nl_newline, split_char_app by exact O. left. reflexivity. }
    destruct WA as [->|(t & ->)]; [exact B|]. rewrite <- app_assoc. cbn [app]. rewrite <- nl_newline, split_glue. apply in_or_app. right. exact B.
Qed.

(** * MANIFEST.in *)
Lemma include_word : wordless (txt "include") /\ white " "%char.
Proof. split; [|right; cbn; lia]. unfold wordless. rewrite Forall_forall. intros c H. apply space_false. revert c H. apply Forall_forall. vm_compute. repeat constructor. Qed.
Lemma includes_spec x o : In x (includes_of o) <-> includes x o.
Proof.
  unfold includes_of. split.
  - destruct o as [s|]; [|intros []]. rewrite in_flat_map. intros (l & L & I). destruct (starts (txt "include ") l) eqn:S; [|destruct I]. apply starts_spec in S. destruct S as (rest & ->). exists s, rest. split; [reflexivity|]. split; [apply lines_spec, L|].
    change (txt "include " ++ rest) with (txt "include" ++ " "%char :: rest) in I. apply words_first in I; [exact I|apply include_word|discriminate|apply include_word].
  - intros (s & rest & -> & L & W). apply in_flat_map. exists (word "include " ++ rest). split; [apply lines_spec, L|]. replace (starts (txt "include ") (word "include " ++ rest)) with true by (symmetry; apply starts_spec; exists rest; reflexivity).
    change (word "include " ++ rest) with (txt "include" ++ " "%char :: rest). apply words_first; [apply include_word|discriminate|apply include_word|exact W].
Qed.
Lemma solid_wordless s : solid s -> wordless s /\ s <> [] /\ one_line s.
Proof.
  intros [N F]. unfold S_Version.printable in F. split; [|split; [exact N|]].
  - unfold wordless. rewrite Forall_forall in *. intros c I W. specialize (F c I). destruct W as [W|W]; lia.
  - intros I. rewrite Forall_forall in F. specialize (F _ I). cbn in F. lia.
Qed.
Lemma append_whole o s : whole_lines o -> whole s -> s <> [] -> whole_lines (append_to o s).
Proof. intros _ [->|(t & ->)] N; [congruence|]. cbn. right. destruct o as [u|]; [exists (u ++ t); rewrite app_assoc; reflexivity|exists t; reflexivity]. Qed.
Lemma append_includes o x line : whole_lines o -> wordless x -> x <> [] -> line = txt "include " ++ x ++ [nl] -> forall y, In y (includes_of (append_to o line)) <-> In y (includes_of o) \/ y = x.
Proof.
  intros W Wx Nx -> y. assert (One : includes_of (Some (txt "include " ++ x ++ [nl])) = [x]).
  { cbn [includes_of]. rewrite app_assoc. assert (O : ~ In nl (txt "include " ++ x)). { intros I. apply in_app_or in I. destruct I as [I|I]; [cbn in I; intuition discriminate|]. apply (white_in x nl Wx I). left. cbn. lia. }
    rewrite split_char_app by exact O. change (split_char nl []) with [@nil ascii]. cbn [flat_map]. replace (starts (txt "include ") (txt "include " ++ x)) with true by (symmetry; apply starts_spec; exists x; reflexivity). cbn [app].
    change (starts (txt "include ") []) with false. cbv iota. rewrite app_nil_r. change (txt "include " ++ x) with (txt "include" ++ " "%char :: x). unfold words.
    assert (G : forall p cur, wordless p -> p <> [] \/ cur <> [] -> words_from p cur = [rev cur ++ p]). { clear. induction p as [|d p IH]; intros cur W N; cbn [words_from]; [destruct cur; [destruct N; congruence|]; cbn [nonempty]; rewrite app_nil_r; reflexivity|]. inversion W; subst. rewrite (proj2 (space_false d)) by assumption. rewrite IH by (auto; right; discriminate). cbn [rev]. rewrite <- app_assoc. reflexivity. }
    change (words_from (txt "include" ++ " "%char :: x) []) with (txt "include" :: words_from x []). cbn [tl]. rewrite G by auto. reflexivity. }
  destruct o as [s|]; unfold append_to.
  - cbn [includes_of] in *. rewrite flat_whole by (exact W || reflexivity). rewrite One. rewrite in_app_iff. cbn [In]. intuition.
  - cbn [app]. rewrite One. cbn [includes_of In]. intuition.
Qed.
Lemma manifest_entries (source : text) (o : option text) : solid source -> whole_lines o -> (forall y, In y (includes_of (new_manifest source o)) <-> In y (includes_of o) \/ y = txt "versioneer.py" \/ y = source) /\ whole_lines (new_manifest source o).
Proof.
  intros S W. destruct (solid_wordless _ S) as (Ws & Ns & Os). unfold new_manifest. cbv zeta. set (inc := includes_of o).
  assert (V : solid (txt "versioneer.py")) by (split; [discriminate|vm_compute; repeat constructor]). destruct (solid_wordless _ V) as (Wv & Nv & _).
  set (m1 := if mem_text (txt "versioneer.py") inc then o else append_to o (txt "include versioneer.py" ++ [nl])).
  assert (M1 : (forall y, In y (includes_of m1) <-> In y inc \/ y = txt "versioneer.py") /\ whole_lines m1).
  { unfold m1. destruct (mem_text (txt "versioneer.py") inc) eqn:E; [split; [|exact W]|split].
    - apply mem_spec in E. intros y. split; [auto|]. intros [H| ->]; assumption.
    - intros y. apply (append_includes o (txt "versioneer.py")); auto.
    - apply append_whole; [exact W|right; exists (txt "include versioneer.py"); reflexivity|discriminate]. }
  destruct M1 as [M1 W1]. destruct (mem_text source inc) eqn:E.
  - apply mem_spec in E. split; [|exact W1]. intros y. rewrite M1. split; [tauto|]. intros [H|[H| ->]]; auto.
  - split.
    + intros y. rewrite (append_includes m1 source) by (auto; reflexivity). rewrite M1. tauto.
    + apply append_whole; [exact W1|right; exists (txt "include " ++ source); rewrite <- app_assoc; reflexivity|discriminate].
Qed.
Lemma manifest_again source o : solid source -> whole_lines o -> new_manifest source (new_manifest source o) = new_manifest source o.
Proof.
  intros S W. destruct (manifest_entries source o S W) as [M _]. set (m := new_manifest source o) in *. unfold new_manifest.
  rewrite (proj2 (mem_spec (txt "versioneer.py") (includes_of m))) by (apply M; auto). rewrite (proj2 (mem_spec source (includes_of m))) by (apply M; auto). reflexivity.
Qed.

(** * .gitattributes *)
Lemma exists_whole (g : text -> bool) s t : whole s -> g [] = false -> existsb g (split_char nl (s ++ t)) = existsb g (split_char nl s) || existsb g (split_char nl t).
Proof.
  intros [->|(s0 & ->)] G.
  - cbn [app]. change (split_char nl []) with [@nil ascii]. cbn [existsb]. rewrite G. reflexivity.
  - rewrite <- app_assoc. cbn [app]. rewrite <- nl_newline, !split_glue. change (split_char nl []) with [@nil ascii]. rewrite !existsb_app. cbn [existsb]. rewrite G, !orb_false_r. reflexivity.
Qed.
Lemma strip_mark source : solid source -> strip (source ++ txt " export-subst") = source ++ txt " export-subst".
Proof.
  intros [N F]. apply strip_ends.
  - destruct source as [|c s]; [congruence|]. cbn. intros d E. injection E as <-. inversion F; assumption.
  - rewrite rev_app_distr. cbn. intros d E. injection E as <-. vm_compute. reflexivity.
Qed.
Lemma marked_own source : solid source -> marked source (source ++ txt " export-subst") = true.
Proof.
  intros S. destruct (solid_wordless _ S) as (W & N & _). unfold marked. rewrite strip_mark by exact S. rewrite (proj2 (starts_spec _ _)) by (eexists; reflexivity). cbn [andb]. apply mem_spec.
  change (txt " export-subst") with (" "%char :: txt "export-subst"). apply words_first; [exact W|exact N|apply include_word|]. apply words_spec. vm_compute. left. reflexivity.
Qed.
Lemma present_own source o : solid source -> whole_lines o -> present source (append_to o (source ++ txt " export-subst" ++ [nl])) = true.
Proof.
  intros S W. destruct (solid_wordless _ S) as (Ws & N & O). assert (E : existsb (marked source) (split_char nl (source ++ txt " export-subst" ++ [nl])) = true).
  { rewrite app_assoc. rewrite split_char_app by (intros I; apply in_app_or in I; destruct I as [I|I]; [exact (O I)|cbn in I; intuition discriminate]). cbn [existsb]. rewrite marked_own by exact S. reflexivity. }
  assert (G : marked source [] = false). { unfold marked. change (strip []) with (@nil ascii). destruct source; [congruence|]. reflexivity. }
  destruct o as [s|]; unfold append_to; cbn [present app]; [rewrite exists_whole by (exact W || exact G); rewrite E; apply orb_true_r|exact E].
Qed.
Lemma attributes_again source o : solid source -> whole_lines o -> present source (new_attributes source o) = true /\ new_attributes source (new_attributes source o) = new_attributes source o /\ whole_lines (new_attributes source o).
Proof.
  intros S W. assert (P : present source (new_attributes source o) = true) by (unfold new_attributes; destruct (present source o) eqn:E; [exact E|apply present_own; assumption]).
  split; [exact P|]. split; [unfold new_attributes at 1; rewrite P; reflexivity|]. unfold new_attributes. destruct (present source o); [exact W|]. apply append_whole; [exact W|right; exists (source ++ txt " export-subst"); rewrite <- app_assoc; reflexivity|]. destruct source; discriminate.
Qed.
Lemma strip_split s : exists k t, s = k ++ strip s ++ t /\ Forall white k /\ Forall white t.
Proof.
  unfold strip, strip_by. destruct (drop_split is_space s) as (k & E & K). set (d := drop_while is_space s) in *. destruct (drop_split is_space (rev d)) as (t & E2 & T). exists k, (rev t).
  assert (D : d = rev (drop_while is_space (rev d)) ++ rev t) by (rewrite <- rev_app_distr, <- E2, rev_involutive; reflexivity). split; [rewrite <- D; exact E|]. split; [eapply Forall_impl; [|exact K]; intros c; apply space_white|].
  rewrite Forall_forall in *. intros c I. apply space_white, T. apply in_rev. exact I.
Qed.
Lemma word_extend x r t : word_of x r -> Forall white t -> word_of x (r ++ t).
Proof.
  intros (N & F & a & b & -> & A & B) T. split; [exact N|]. split; [exact F|]. exists a, (b ++ t). rewrite <- !app_assoc. split; [reflexivity|]. split; [exact A|]. destruct B as [->|(c & b' & -> & C)]; [|right; exists c, (b' ++ t); auto].
  destruct t as [|c t]; [left; reflexivity|]. inversion T; subst. right. exists c, t. auto.
Qed.
(** A line that counts as present is one for the file, unless it is for a longer name. *)
Lemma present_attributed source s : solid source -> present source (Some s) = true -> (forall k c r, line_of (k ++ source ++ c :: r) s -> Forall white k -> white c) -> attributed source (txt "export-subst") (Some s).
Proof.
  intros S P H. destruct (solid_wordless _ S) as (W & N & _). cbn [present] in P. apply existsb_exists in P. destruct P as (l & L & M). apply lines_spec in L. unfold marked in M. apply andb_true_iff in M. destruct M as [M1 M2]. apply starts_spec in M1. destruct M1 as (r & R). apply mem_spec in M2. rewrite R in M2.
  destruct (strip_split l) as (k & t & E & K & T). rewrite R, <- app_assoc in E. destruct r as [|c r].
  - exfalso. rewrite app_nil_r in M2. assert (X : words source = [source]). { unfold words. clear -W N. assert (G : forall p cur, wordless p -> p <> [] \/ cur <> [] -> words_from p cur = [rev cur ++ p]). { induction p as [|d p IH]; intros cur W' N'; cbn [words_from]; [destruct cur; [destruct N'; congruence|]; cbn [nonempty]; rewrite app_nil_r; reflexivity|]. inversion W'; subst. rewrite (proj2 (space_false d)) by assumption. rewrite IH by (auto; right; discriminate). cbn [rev]. rewrite <- app_assoc. reflexivity. } apply G; auto. }
    rewrite X in M2. exact M2.
  - cbn [app] in E. assert (C : white c) by (apply (H k c (r ++ t)); [rewrite <- E; exact L|exact K]). apply words_first in M2; auto. exists s, k, (c :: r ++ t). split; [reflexivity|]. split; [exact K|]. split; [rewrite <- E; exact L|]. split; [eauto|].
    change (c :: r ++ t) with ([] ++ c :: (r ++ t)). apply word_blank; [constructor|exact C|]. right. apply word_extend; assumption.
Qed.
