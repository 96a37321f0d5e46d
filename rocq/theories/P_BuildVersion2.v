(** The version file: its characters, and keys that occur twice. *)
From Coq Require Import List Ascii String ZArith NArith Bool Arith Lia.
From Verif Require Import Util M_Base M_Writers M_Version M_BuildVersion S_Version S_BuildVersion P_BuildVersion.
Import ListNotations.

Definition printable_b (c : ascii) : bool := ((32 <=? N_of_ascii c) && (N_of_ascii c <=? 126))%N.
Lemma printable_ok c : printable_b c = true -> printable c.
Proof. unfold printable_b, printable. intros H. apply andb_prop in H. destruct H as [A B]. apply N.leb_le in A, B. split; assumption. Qed.
Lemma forall_b P (Q : ascii -> Prop) l : (forall c : ascii, P c = true -> Q c) -> forallb P l = true -> Forall Q l.
Proof. intros PQ H. rewrite forallb_forall in H. apply Forall_forall. intros c I. apply PQ, H, I. Qed.
Lemma char_printable c : Forall printable (json_char c).
Proof. apply (forall_b printable_b); [exact printable_ok|]. revert c. apply all_chars. vm_compute. reflexivity. Qed.
Definition letters_b (c d : ascii) : bool := Ascii.eqb d c || existsb (Ascii.eqb d) escape_letters.
Lemma char_letters c : Forall (fun d => d = c \/ In d escape_letters) (json_char c).
Proof.
  apply (forall_b (letters_b c)).
  - intros d H. unfold letters_b in H. apply orb_prop in H. destruct H as [H|H]; [left; apply Ascii.eqb_eq; exact H|right]. apply existsb_exists in H. destruct H as (x & I & E). apply Ascii.eqb_eq in E. subst x. exact I.
  - revert c. apply (all_chars (fun c => forallb (letters_b c) (json_char c))). vm_compute. reflexivity.
Qed.
Lemma text_printable t : Forall printable (json_text t).
Proof.
  unfold json_text. apply Forall_cons; [apply printable_ok; reflexivity|]. apply Forall_app. split; [|apply Forall_cons; [apply printable_ok; reflexivity|apply Forall_nil]].
  apply Forall_flat_map. apply Forall_forall. intros c _. apply char_printable.
Qed.
Theorem text_letters t d : In d (json_text t) -> In d t \/ In d escape_letters.
Proof.
  unfold json_text. cbn [In]. rewrite in_app_iff. intros [H|[H|[H|[]]]]; [right; subst d; left; reflexivity| |right; subst d; left; reflexivity].
  apply in_flat_map in H. destruct H as (c & I & H). pose proof (char_letters c) as L. rewrite Forall_forall in L. destruct (L d H) as [E|E]; [left; subst d; exact I|right; exact E].
Qed.
Definition line_char (c : ascii) : Prop := printable c \/ c = ascii_of_N 10.
Definition line_b (c : ascii) : bool := printable_b c || Ascii.eqb c nl.
Lemma line_ok c : line_b c = true -> line_char c.
Proof. unfold line_b. intros H. apply orb_prop in H. destruct H as [H|H]; [left; apply printable_ok; exact H|right; apply Ascii.eqb_eq in H; exact H]. Qed.
Lemma weaken l : Forall printable l -> Forall line_char l. Proof. apply Forall_impl. intros c H. left. exact H. Qed.
Lemma member_line m : Forall line_char (json_member m).
Proof.
  unfold json_member. repeat (apply Forall_app; split).
  - apply (forall_b line_b); [exact line_ok|reflexivity].
  - apply weaken, text_printable.
  - apply (forall_b line_b); [exact line_ok|reflexivity].
  - destruct (snd m) as [|[]|t]; cbn [json_value]; try (apply (forall_b line_b); [exact line_ok|reflexivity]). apply weaken, text_printable.
Qed.
Lemma members_line o : Forall line_char (json_members o).
Proof.
  induction o as [|m [|m' o] IH]; [apply Forall_nil|apply member_line|]. change (json_members (m :: m' :: o)) with (json_member m ++ ","%char :: nl :: json_members (m' :: o)).
  apply Forall_app. split; [apply member_line|]. apply Forall_cons; [apply line_ok; reflexivity|]. apply Forall_cons; [apply line_ok; reflexivity|exact IH].
Qed.
Theorem file_ascii old o v : write_to_version_file old o = Ok v -> Forall line_char v.
Proof.
  destruct old; cbn [write_to_version_file]; [|discriminate]. intros [= <-]. unfold short_version_py, json_dumps. apply Forall_app; split; [|apply Forall_app; split; [|apply Forall_app; split]].
  - apply (forall_b line_b); [exact line_ok|vm_compute; reflexivity].
  - apply (forall_b line_b); [exact line_ok|vm_compute; reflexivity].
  - apply Forall_cons; [apply line_ok; reflexivity|]. apply Forall_cons; [apply line_ok; reflexivity|]. apply Forall_app. split; [apply members_line|]. apply (forall_b line_b); [exact line_ok|reflexivity].
  - apply (forall_b line_b); [exact line_ok|vm_compute; reflexivity].
Qed.

(** * Keys that occur twice *)
Definition puts (o acc : obj) : obj := fold_left (fun a m => put (fst m) (snd m) a) o acc.
Lemma read_puts enc o : obj_chars (encoding enc) o -> forall f acc s, o <> [] -> (List.length o <= f)%nat -> read_members f acc (enc_members enc o ++ nl :: "}"%char :: s) = Ok (puts o acc, s).
Proof.
  intros OC. induction OC as [|[k v] o [KC VC] OC IH]; cbn [fst snd] in *; intros f acc s NE L; [elim NE; reflexivity|]. destruct f as [|f]; [cbn in L; lia|].
  assert (ST : forall rest, read_members (S f) acc (enc_member enc (k, v) ++ rest) =
    match drop_while is_ws rest with
    | c3 :: r3 => if Ascii.eqb c3 "," then read_members f (put k v acc) r3 else if Ascii.eqb c3 "}" then Ok (put k v acc, r3) else Raise ValueError
    | [] => Raise ValueError end).
  { intros rest. unfold enc_member. cbn [fst snd]. rewrite <- !app_assoc. change (txt " ") with [" "%char]. change (txt ": ") with [":"%char; " "%char]. cbn [app].
    cbn [read_members]. unfold enc_text. cbn [app]. rewrite (dw_yes " "), (dw_no quote) by reflexivity.
    change (Ascii.eqb quote quote) with true. cbn match. rewrite <- app_assoc. cbn [app]. rewrite read_enc by exact KC. cbn [bind fst snd]. rewrite (dw_no ":") by reflexivity. change (Ascii.eqb ":" ":") with true. cbn match.
    rewrite (dw_yes " ") by reflexivity. rewrite (drop_not_ws (enc_value enc v ++ rest)) by apply value_not_ws. rewrite read_val by exact VC. reflexivity. }
  destruct o as [|m o].
  - cbn [enc_members]. rewrite ST, (dw_yes nl), (dw_no "}") by reflexivity. reflexivity.
  - cbn [enc_members]. rewrite <- app_assoc, ST. cbn [app]. rewrite (dw_no ",") by reflexivity. change (Ascii.eqb "," ",") with true. cbn match.
    assert (SK : forall f a x, read_members f a (nl :: x) = read_members f a x) by (intros [|f'] a x; reflexivity). rewrite SK.
    rewrite IH; [reflexivity|discriminate|cbn in L |- *; lia].
Qed.
Lemma loads_puts o : o <> [] -> json_loads (json_dumps o) = Ok (puts o []).
Proof.
  intros NE. rewrite dumps_enc. assert (OC : obj_chars (encoding json_char) o) by (apply any_chars; intros c s; apply read_char).
  unfold json_loads, enc_dumps. rewrite (dw_no "{") by reflexivity. change (Ascii.eqb "{" "{") with true. cbn match.
  set (body := enc_members json_char o ++ [nl; "}"%char]).
  assert (DB : exists x, drop_while is_ws (nl :: body) = quote :: x). { destruct (members_start json_char o NE) as [x E]. unfold body. rewrite E. eexists. reflexivity. }
  destruct DB as [x DB]. rewrite DB. change (Ascii.eqb quote "}") with false. cbn match.
  assert (SK : forall f a y, read_members f a (nl :: y) = read_members f a y) by (intros [|f'] a y; reflexivity). rewrite SK. unfold body.
  rewrite (read_puts json_char o OC _ [] []); [reflexivity|exact NE|]. cbn [List.length]. rewrite app_length. pose proof (members_length json_char o). lia.
Qed.
Lemma put_keys k v o x : In x (map fst (put k v o)) <-> x = k \/ In x (map fst o).
Proof.
  induction o as [|[k' v'] o IH]; cbn [put map fst In]; [intuition auto|]. destruct (list_eq_dec ascii_dec k k') as [<-|N]; cbn [map fst In]; [intuition auto|rewrite IH; intuition auto].
Qed.
Lemma put_nodup k v o : NoDup (map fst o) -> NoDup (map fst (put k v o)).
Proof.
  induction o as [|[k' v'] o IH]; cbn [put map fst]; intros ND; [constructor; [intros []|constructor]|]. inversion_clear ND as [|? ? NI ND'].
  destruct (list_eq_dec ascii_dec k k') as [<-|N]; cbn [map fst]; constructor; auto. rewrite put_keys. intros [E|I]; auto.
Qed.
Lemma put_in k v o x w : In (x, w) (put k v o) -> NoDup (map fst o) -> (x = k /\ w = v) \/ (x <> k /\ In (x, w) o).
Proof.
  induction o as [|[k' v'] o IH]; cbn [put map fst In]; intros I ND; [destruct I as [[= <- <-]|[]]; auto|]. inversion_clear ND as [|? ? NI ND'].
  destruct (list_eq_dec ascii_dec k k') as [<-|N]; cbn [In] in I.
  - destruct I as [[= <- <-]|I]; [auto|right]. split; [|right; exact I]. intros ->. apply NI. exact (in_map fst _ _ I).
  - destruct I as [[= <- <-]|I]; [right; split; [congruence|left; reflexivity]|]. destruct (IH I ND') as [H|[A B]]; [left; exact H|right; split; [exact A|right; exact B]].
Qed.
Lemma puts_ok o : forall acc, NoDup (map fst acc) -> NoDup (map fst (puts o acc)) /\ (forall x, In x (map fst (puts o acc)) <-> In x (map fst o) \/ In x (map fst acc)) /\
  forall x w, In (x, w) (puts o acc) -> last_value o x w \/ (~ In x (map fst o) /\ In (x, w) acc).
Proof.
  induction o as [|[k v] o IH]; intros acc ND; cbn [puts fold_left fst snd]; [split; [exact ND|]; split; [intros x; cbn [map In]; tauto|intros x w I; right; split; [intros []|exact I]]|].
  destruct (IH (put k v acc) (put_nodup k v acc ND)) as (A & B & C). split; [exact A|]. split.
  - intros x. rewrite (B x), put_keys. cbn [map fst In]. intuition auto.
  - intros x w I. destruct (C x w I) as [(o1 & o2 & E & NI)|(NI & I2)].
    + left. exists ((k, v) :: o1), o2. split; [rewrite E; reflexivity|exact NI].
    + destruct (put_in _ _ _ _ _ I2 ND) as [(-> & ->)|(N & I3)]; [left; exists [], o; split; [reflexivity|exact NI]|right]. split; [cbn [map fst In]; intros [E|E]; [congruence|contradiction]|exact I3].
Qed.
Theorem last_wins o : o <> [] -> exists o', json_loads (json_dumps o) = Ok o' /\ NoDup (map fst o') /\ (forall k, In k (map fst o') <-> In k (map fst o)) /\ forall k v, In (k, v) o' -> last_value o k v.
Proof.
  intros NE. exists (puts o []). destruct (puts_ok o [] (NoDup_nil _)) as (A & B & C). split; [apply loads_puts; exact NE|]. split; [exact A|]. split; [intros k; rewrite (B k); cbn [map In]; tauto|].
  intros k v I. destruct (C k v I) as [H|[_ []]]. exact H.
Qed.
Lemma twice_case : json_loads (json_dumps [(word "a", JBool true); (word "b", JNull); (word "a", JText [ascii_of_N 127])]) = Ok [(word "a", JText [ascii_of_N 127]); (word "b", JNull)] /\
  json_text [ascii_of_N 127; ascii_of_N 27] = word """\u007f\u001b""".
Proof. split; vm_compute; reflexivity. Qed.

(** * Code in a tag *)
Lemma tag_runs : exists tag v value rest other o, tag = word "1""}''';f()or'''" /\ build_py None (P_tag tag) (Some []) = Ok v /\
  v = file_head ++ word "version_json = '''" ++ rest /\ literal rest = Ok (value, word ";f()or'''" ++ other) /\ (exists w, literal other = Ok (w, file_tail)) /\
  json_loads value = Ok o /\ In (word "version", JText (word "1")) o /\ import_versions v = Raise RuntimeError.
Proof.
  exists (word "1""}''';f()or'''"). assert (H : exists v, build_py None (P_tag (word "1""}''';f()or'''")) (Some []) = Ok v) by (eexists; vm_compute; reflexivity).
  destruct H as [v H]. exists v. assert (I : import_versions v = Raise RuntimeError) by (vm_compute in H; injection H as <-; vm_compute; reflexivity).
  assert (L : exists value other, literal (skipn (List.length (file_head ++ word "version_json = '''")) v) = Ok (value, word ";f()or'''" ++ other) /\ (exists w, literal other = Ok (w, file_tail)) /\ exists o, json_loads value = Ok o /\ In (word "version", JText (word "1")) o).
  { clear I. vm_compute in H. injection H as <-. eexists. exists (quote :: nl :: "}"%char :: nl :: [apos; apos; apos] ++ file_tail). split; [vm_compute; reflexivity|]. split; [eexists; vm_compute; reflexivity|].
    eexists. split; [vm_compute; reflexivity|]. do 4 right. left. vm_compute. reflexivity. }
  destruct L as (value & other & L & W & o & J & V). exists value, (skipn (List.length (file_head ++ word "version_json = '''")) v), other, o.
  split; [reflexivity|]. split; [exact H|]. split.
  - rewrite app_assoc. rewrite <- (firstn_skipn (List.length (file_head ++ word "version_json = '''")) v) at 1. f_equal. vm_compute in H. injection H as <-. vm_compute. reflexivity.
  - split; [exact L|]. split; [exact W|]. split; [exact J|]. split; [exact V|exact I].
Qed.
Lemma before_quote_spec s : forall v, before_quote s = Some v <-> exists b, s = v ++ ascii_of_N 34 :: b /\ ~ In (ascii_of_N 34) b.
Proof.
  unfold before_quote. induction s as [|c s IH]; intros v.
  - cbn. split; [discriminate|]. intros (b & E & _). destruct v; discriminate.
  - cbn [before_last]. destruct (before_last [quote] s) as [t|] eqn:B.
    + destruct (proj1 (IH t) eq_refl) as (b & E & NB). split.
      * intros [= <-]. exists b. subst s. split; [reflexivity|exact NB].
      * intros (b' & E' & NB'). destruct v as [|d v]; [injection E' as -> E'; elim NB'; rewrite <- E', E; apply in_or_app; right; left; reflexivity|].
        injection E' as -> E'. assert (X : Some t = Some v) by (apply (proj2 (IH v)); exists b'; split; assumption). injection X as ->. reflexivity.
    + assert (NQ : ~ In quote s).
      { intros I. clear - IH I. assert (K : forall s, In quote s -> exists a b, s = a ++ quote :: b /\ ~ In quote b).
        { clear. intros s. induction s as [|x s IH]; [intros []|]. intros I. destruct (in_dec ascii_dec quote s) as [J|J].
          - destruct (IH J) as (a & b & E & N). exists (x :: a), b. subst s. split; [reflexivity|exact N].
          - exists [], s. destruct I as [->|I]; [split; [reflexivity|exact J]|contradiction]. }
        destruct (K s I) as (a & b & E & N). assert (H : None = Some a) by (apply (proj2 (IH a)); exists b; split; assumption). discriminate H. }
      cbn [after_prefix]. destruct (Ascii.eqb quote c) eqn:Q.
      * apply Ascii.eqb_eq in Q. subst c. split; [intros [= <-]; exists s; split; [reflexivity|exact NQ]|]. intros (b & E & NB). destruct v as [|d v]; [reflexivity|]. injection E as _ E. elim NQ. rewrite E. apply in_or_app. right. left. reflexivity.
      * split; [discriminate|]. intros (b & E & NB). destruct v as [|d v]; injection E as E1 E; [rewrite E1 in Q; discriminate|]. elim NQ. rewrite E. apply in_or_app. right. left. reflexivity.
Qed.

Theorem quoted_value_spec s v : quoted_value s = Some v -> exists a w b, s = a ++ word "=" ++ w ++ ascii_of_N 34 :: v ++ ascii_of_N 34 :: b /\ Forall (fun c => is_space c = true) w /\ ~ In (ascii_of_N 34) b.
Proof.
  induction s as [|c s IH]; cbn [quoted_value]; [discriminate|].
  destruct (if Ascii.eqb c "=" then match drop_while is_space s with d :: r2 => if Ascii.eqb d quote then before_quote r2 else None | [] => None end else None) as [v'|] eqn:E.
  - intros [= <-]. destruct (Ascii.eqb c "=") eqn:C; [|discriminate]. apply Ascii.eqb_eq in C. subst c. destruct (drop_split is_space s) as (w & S & W).
    destruct (drop_while is_space s) as [|d r2]; [discriminate|]. destruct (Ascii.eqb d quote) eqn:D; [|discriminate]. apply Ascii.eqb_eq in D. subst d.
    apply before_quote_spec in E. destruct E as (b & E & N). exists [], w, b. split; [rewrite S, E; reflexivity|]. split; [exact W|exact N].
  - intros H. destruct (IH H) as (a & w & b & S & W & N). exists (c :: a), w, b. split; [rewrite S at 1; reflexivity|]. split; assumption.
Qed.
Lemma split_in c s : (exists w ws, split_char c s = w :: ws /\ exists b, s = w ++ b) /\ forall l, In l (split_char c s) -> ~ In c l /\ contains l s.
Proof.
  induction s as [|x s ((w & ws & E & b & S) & IH)]; cbn [split_char].
  - split; [exists [], []; split; [reflexivity|exists []; reflexivity]|]. intros l [<-|[]]. split; [intros []|]. exists [], []. reflexivity.
  - destruct (Ascii.eqb x c) eqn:X.
    + split; [exists [], (split_char c s); split; [reflexivity|exists (x :: s); reflexivity]|]. intros l [<-|I]; [split; [intros []|exists [], (x :: s); reflexivity]|].
      destruct (IH l I) as (N & p & q & H). split; [exact N|]. exists (x :: p), q. rewrite H. reflexivity.
    + rewrite E in *. split; [exists (x :: w), ws; split; [reflexivity|exists b; rewrite S at 1; reflexivity]|]. intros l [<-|I].
      * destruct (IH w (or_introl eq_refl)) as (N & _). split; [intros [->|I]; [rewrite Ascii.eqb_refl in X; discriminate|contradiction]|]. exists [], b. rewrite S at 1. reflexivity.
      * destruct (IH l (or_intror I)) as (N & p & q & H). split; [exact N|]. exists (x :: p), q. rewrite H. reflexivity.
Qed.
Lemma keyword_from name line v : keyword_line name line = Some v -> assigns name v line.
Proof.
  unfold keyword_line. destruct (after_prefix (txt name ++ txt " =") (strip line)) as [r|] eqn:E; [|discriminate]. intros H. split.
  - apply after_Some in E. destruct (strip_lead line) as (k & t & S & K). exists k, (r ++ t). split; [rewrite S, E; rewrite <- !app_assoc; reflexivity|]. revert K. apply Forall_impl. exact space_code.
  - apply quoted_value_spec in H. destruct H as (a & w & b & S & W & N). exists a, w, b. split; [exact S|]. split; [revert W; apply Forall_impl; exact space_code|exact N].
Qed.
Lemma kfold_from (L : text -> Prop) : forall l k, (forall x, In x l -> L x) -> forall pr name, In (pr, name) [(k_refnames, "git_refnames"); (k_full, "git_full"); (k_date, "git_date")]%string ->
  forall v, pr (fold_left kfold l k) = Some v -> (exists line, L line /\ assigns name v line) \/ pr k = Some v.
Proof.
  intros l. induction l as [|x l IH]; intros k HL pr name I v H; cbn [fold_left] in H; [right; exact H|].
  destruct (IH (kfold k x) (fun y J => HL y (or_intror J)) pr name I v H) as [G|G]; [left; exact G|].
  cbn [In] in I. destruct I as [[= <- <-]|[[= <- <-]|[[= <- <-]|[]]]]; unfold kfold in G; cbn [k_refnames k_full k_date] in G;
    match type of G with or_else ?a _ = _ => destruct a as [v'|] eqn:E end; cbn [or_else] in G; try (right; exact G); injection G as ->; left; exists x; (split; [apply HL; left; reflexivity|apply keyword_from; exact E]).
Qed.
Theorem keywords_from f pr name v : In (pr, name) [(k_refnames, "git_refnames"); (k_full, "git_full"); (k_date, "git_date")]%string -> pr (read_keywords (Some f)) = Some v ->
  exists line, one_line line /\ contains line f /\ assigns name v line.
Proof.
  intros I H. rewrite fold_is in H.
  destruct (kfold_from (fun x => In x (split_char nl f)) (split_char nl f) _ (fun x J => J) pr name I v H) as [(line & J & A)|G].
  - destruct (split_in nl f) as [_ K]. destruct (K line J) as [N C]. exists line. split; [exact N|]. split; [exact C|exact A].
  - exfalso. cbn [In] in I. destruct I as [[= <- <-]|[[= <- <-]|[[= <- <-]|[]]]]; discriminate.
Qed.
Lemma ext_inplace file run c x : build_ext true file run c = Ok x -> x = c.
Proof. unfold build_ext. destruct (build_versions file run); cbn [bind]; congruence. Qed.
Lemma ext_same file run c t : build_ext false file run c = Ok (Some t) <-> build_py file run c = Ok t.
Proof. unfold build_ext, build_py. destruct (build_versions file run) as [v| |]; cbn [bind]; try (split; discriminate). destruct (write_to_version_file c v); cbn [bind]; split; congruence. Qed.
Lemma read_unexpanded l1 l2 l3 l4 n : Forall other_line (l1 ++ l2 ++ l3 ++ l4) -> read_keywords (Some (declares l1 l2 l3 l4 n (word "$Format:%d$") (word "$Format:%H$") (word "$Format:%ci$"))) = unexpanded.
Proof. intros H. rewrite read_declared by (try exact H; unfold one_line; cbn; intuition discriminate). reflexivity. Qed.
