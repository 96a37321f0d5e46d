(** The version file: what is written is read back. *)
From Coq Require Import List Ascii String ZArith NArith Bool Arith Lia.
From Verif Require Import Util M_Base M_Writers M_Version M_BuildVersion S_Version S_BuildVersion.
Import ListNotations.

Lemma all_chars (P : ascii -> bool) : forallb (fun n => P (ascii_of_nat n)) (seq 0 256) = true -> forall c, P c = true.
Proof.
  intros H c. rewrite forallb_forall in H. specialize (H (nat_of_ascii c)). rewrite ascii_nat_embedding in H. apply H. apply in_seq. split; [lia|]. apply nat_ascii_bounded.
Qed.

(** * One character *)
Definition starts_with_escape (c : ascii) : bool := match json_char c with [] => false | d :: _ => Ascii.eqb d bslash end.
Lemma json_char_cases c : json_char c = [c] /\ (Ascii.eqb c quote = false /\ Ascii.eqb c bslash = false /\ (cN c <? 32)%N = false) \/
  (exists e, json_char c = [bslash; e] /\ Ascii.eqb e "u" = false /\ json_escape e = Some c) \/
  (exists h1 h2 h3 h4 n, json_char c = [bslash; "u"%char; h1; h2; h3; h4] /\ hex4 h1 h2 h3 h4 = Some n /\ (n <? 256)%N = true /\ chr n = c).
Proof.
  set (P := fun c => match json_char c with
    | [d] => Ascii.eqb d c && negb (Ascii.eqb c quote) && negb (Ascii.eqb c bslash) && negb (cN c <? 32)%N
    | [b; e] => Ascii.eqb b bslash && negb (Ascii.eqb e "u") && match json_escape e with Some d => Ascii.eqb d c | None => false end
    | [b; u; h1; h2; h3; h4] => Ascii.eqb b bslash && Ascii.eqb u "u" && match hex4 h1 h2 h3 h4 with Some n => (n <? 256)%N && Ascii.eqb (chr n) c | None => false end
    | _ => false end).
  assert (H : P c = true) by (revert c; apply all_chars; vm_compute; reflexivity). unfold P in H.
  destruct (json_char c) as [|a [|b [|h1 [|h2 [|h3 [|h4 [|]]]]]]]; try discriminate.
  - left. repeat (apply andb_true_iff in H; destruct H as [H ?]). apply Ascii.eqb_eq in H. subst a. rewrite !negb_true_iff in *. repeat split; assumption.
  - right. left. repeat (apply andb_true_iff in H; destruct H as [H ?]). apply Ascii.eqb_eq in H. subst a. rewrite negb_true_iff in *. exists b. destruct (json_escape b) as [d|]; [|discriminate]. match goal with E : Ascii.eqb d c = true |- _ => apply Ascii.eqb_eq in E; subst d end. repeat split; assumption.
  - right. right. repeat (apply andb_true_iff in H; destruct H as [H ?]). apply Ascii.eqb_eq in H. subst a. match goal with E : Ascii.eqb b "u" = true |- _ => apply Ascii.eqb_eq in E; subst b end.
    destruct (hex4 h1 h2 h3 h4) as [n|] eqn:E4; [|discriminate]. match goal with E : _ && _ = true |- _ => apply andb_true_iff in E; destruct E as [E1 E2] end. apply Ascii.eqb_eq in E2. exists h1, h2, h3, h4, n. repeat split; assumption.
Qed.
Lemma read_char c s : read_text (json_char c ++ s) = let! q := read_text s in Ok (c :: fst q, snd q).
Proof.
  destruct (json_char_cases c) as [(E & A & B & C) | [(e & E & A & B) | (h1 & h2 & h3 & h4 & n & E & A & B & C)]]; rewrite E; cbn [app read_text].
  - rewrite A, B, C. reflexivity.
  - change (Ascii.eqb bslash quote) with false. change (Ascii.eqb bslash bslash) with true. cbn match. rewrite A, B. reflexivity.
  - change (Ascii.eqb bslash quote) with false. change (Ascii.eqb bslash bslash) with true. change (Ascii.eqb "u" "u") with true. cbn match. rewrite A, B, C. reflexivity.
Qed.
(** Encodings of characters within a JSON text. *)
Definition encoding (enc : ascii -> text) (c : ascii) : Prop := forall s, read_text (enc c ++ s) = let! q := read_text s in Ok (c :: fst q, snd q).
Lemma read_enc enc t s : Forall (encoding enc) t -> read_text (flat_map enc t ++ quote :: s) = Ok (t, s).
Proof. induction 1 as [|c t C T IH]; cbn [flat_map]; [cbn [app read_text]; change (Ascii.eqb quote quote) with true; reflexivity|]. rewrite <- app_assoc, C, IH. reflexivity. Qed.
Definition enc_text (enc : ascii -> text) (t : text) : text := quote :: flat_map enc t ++ [quote].
Definition enc_value enc (v : jval) : text := match v with JNull => txt "null" | JBool true => txt "true" | JBool false => txt "false" | JText t => enc_text enc t end.
Definition enc_member enc (m : text * jval) : text := txt " " ++ enc_text enc (fst m) ++ txt ": " ++ enc_value enc (snd m).
Fixpoint enc_members enc (o : obj) : text :=
  match o with [] => [] | [m] => enc_member enc m | m :: r => enc_member enc m ++ "," %char :: nl :: enc_members enc r end.
Definition enc_dumps enc (o : obj) : text := "{"%char :: nl :: enc_members enc o ++ [nl; "}"%char].
Lemma members_enc o : json_members o = enc_members json_char o.
Proof. induction o as [|m o IH]; [reflexivity|]. cbn [json_members enc_members]. rewrite IH. reflexivity. Qed.
Lemma dumps_enc o : json_dumps o = enc_dumps json_char o. Proof. unfold json_dumps, enc_dumps. rewrite members_enc. reflexivity. Qed.
Definition val_chars (P : ascii -> Prop) (v : jval) : Prop := match v with JText t => Forall P t | _ => True end.
Definition obj_chars (P : ascii -> Prop) (o : obj) : Prop := Forall (fun m => Forall P (fst m) /\ val_chars P (snd m)) o.
Lemma after_app p s : after_prefix p (p ++ s) = Some s.
Proof. induction p as [|c p IH]; [reflexivity|]. cbn [app after_prefix]. rewrite Ascii.eqb_refl. exact IH. Qed.
Lemma after_Some p : forall s r, after_prefix p s = Some r -> s = p ++ r.
Proof. induction p as [|c p IH]; cbn [after_prefix]; intros s r H; [injection H as <-; reflexivity|]. destruct s as [|d s]; [discriminate|]. destruct (Ascii.eqb c d) eqn:E; [|discriminate]. apply Ascii.eqb_eq in E. subst d. cbn [app]. f_equal. apply IH, H. Qed.
Lemma read_val enc v s : val_chars (encoding enc) v -> read_value (enc_value enc v ++ s) = Ok (v, s).
Proof.
  intros V. destruct v as [|[]|t]; try reflexivity. cbn [enc_value app]. unfold enc_text. cbn [app read_value]. change (Ascii.eqb quote quote) with true. cbn match. rewrite <- app_assoc. cbn [app]. rewrite read_enc by exact V. reflexivity.
Qed.

(** * Dictionaries *)
Definition not_ws (s : text) : Prop := match s with [] => True | c :: _ => is_ws c = false end.
Lemma drop_not_ws s : not_ws s -> drop_while is_ws s = s. Proof. destruct s as [|c s]; cbn [not_ws drop_while]; [reflexivity|]. intros ->. reflexivity. Qed.
Lemma dw_yes c s : is_ws c = true -> drop_while is_ws (c :: s) = drop_while is_ws s. Proof. intros H. cbn [drop_while]. rewrite H. reflexivity. Qed.
Lemma dw_no c s : is_ws c = false -> drop_while is_ws (c :: s) = c :: s. Proof. intros H. cbn [drop_while]. rewrite H. reflexivity. Qed.
Lemma value_not_ws enc v s : not_ws (enc_value enc v ++ s). Proof. destruct v as [|[]|t]; reflexivity. Qed.
Lemma put_new k v o : ~ In k (map fst o) -> put k v o = o ++ [(k, v)].
Proof. induction o as [|[k' v'] o IH]; cbn [put map fst app]; [reflexivity|]. intros H. destruct (list_eq_dec ascii_dec k k') as [E|E]; [elim H; left; congruence|]. f_equal. apply IH. intros I. apply H. right. exact I. Qed.
Lemma read_obj enc o : obj_chars (encoding enc) o -> forall f acc s, NoDup (map fst (acc ++ o)) -> o <> [] -> (List.length o <= f)%nat -> read_members f acc (enc_members enc o ++ nl :: "}"%char :: s) = Ok (acc ++ o, s).
Proof.
  intros OC. induction OC as [|[k v] o [KC VC] OC IH]; cbn [fst snd] in *; intros f acc s ND NE L; [elim NE; reflexivity|]. destruct f as [|f]; [cbn in L; lia|].
  assert (NI : ~ In k (map fst acc)). { rewrite map_app in ND. cbn [map fst] in ND. apply NoDup_remove_2 in ND. intros I. apply ND, in_or_app. left. exact I. }
  assert (ST : forall rest, read_members (S f) acc (enc_member enc (k, v) ++ rest) =
    match drop_while is_ws rest with
    | c3 :: r3 => if Ascii.eqb c3 "," then read_members f (put k v acc) r3 else if Ascii.eqb c3 "}" then Ok (put k v acc, r3) else Raise ValueError
    | [] => Raise ValueError end).
  { intros rest. unfold enc_member. cbn [fst snd]. rewrite <- !app_assoc. change (txt " ") with [" "%char]. change (txt ": ") with [":"%char; " "%char]. cbn [app].
    cbn [read_members]. unfold enc_text. cbn [app]. rewrite (dw_yes " "), (dw_no quote) by reflexivity.
    change (Ascii.eqb quote quote) with true. cbn match. rewrite <- app_assoc. cbn [app]. rewrite read_enc by exact KC. cbn [bind fst snd]. rewrite (dw_no ":") by reflexivity. change (Ascii.eqb ":" ":") with true. cbn match.
    rewrite (dw_yes " ") by reflexivity. rewrite (drop_not_ws (enc_value enc v ++ rest)) by apply value_not_ws. rewrite read_val by exact VC. reflexivity. }
  destruct o as [|m o].
  - cbn [enc_members]. rewrite ST, (dw_yes nl), (dw_no "}") by reflexivity. change (Ascii.eqb "}" ",") with false. change (Ascii.eqb "}" "}") with true. cbn match. rewrite put_new by exact NI. reflexivity.
  - cbn [enc_members]. rewrite <- app_assoc, ST. cbn [app]. rewrite (dw_no ",") by reflexivity. change (Ascii.eqb "," ",") with true. cbn match.
    rewrite put_new by exact NI.
    assert (SK : forall f a x, read_members f a (nl :: x) = read_members f a x) by (intros [|f'] a x; reflexivity). rewrite SK.
    rewrite IH; [rewrite <- app_assoc; reflexivity|rewrite <- app_assoc; exact ND|discriminate|cbn in L |- *; lia].
Qed.
Lemma members_length enc o : (List.length o <= List.length (enc_members enc o))%nat.
Proof. induction o as [|m o IH]; [reflexivity|]. destruct o as [|m' o]; [destruct m; cbn; lia|]. cbn [enc_members]. cbn [List.length] in *. rewrite app_length. cbn [List.length]. cbn [enc_members] in IH. lia. Qed.
Lemma members_start enc o : o <> [] -> exists x, enc_members enc o = " "%char :: quote :: x.
Proof. destruct o as [|m [|m' o]]; [congruence| |]; intros _; eexists; cbn [enc_members]; unfold enc_member; cbn [txt]; unfold enc_text; reflexivity. Qed.
Theorem loads_enc enc o : obj_chars (encoding enc) o -> NoDup (map fst o) -> o <> [] -> forall pre post, Forall (fun c => is_ws c = true) pre -> Forall (fun c => is_ws c = true) post -> json_loads (pre ++ enc_dumps enc o ++ post) = Ok o.
Proof.
  intros OC ND NE pre post Wa Wb.
  assert (D1 : forall x, drop_while is_ws (pre ++ "{"%char :: x) = "{"%char :: x). { intros x. induction Wa as [|c l C Wa IH]; [reflexivity|]. cbn [app drop_while]. rewrite C. exact IH. }
  assert (D2 : drop_while is_ws post = []). { clear - Wb. induction Wb as [|c l C Wb IH]; [reflexivity|]. cbn [drop_while]. rewrite C. exact IH. }
  unfold json_loads, enc_dumps. cbn [app]. rewrite D1. change (Ascii.eqb "{" "{") with true. cbn match. rewrite <- app_assoc. cbn [app].
  set (body := enc_members enc o ++ nl :: "}"%char :: post).
  assert (DB : exists x, drop_while is_ws (nl :: body) = quote :: x). { destruct (members_start enc o NE) as [x E]. unfold body. rewrite E. eexists. reflexivity. }
  destruct DB as [x DB]. rewrite DB. change (Ascii.eqb quote "}") with false. cbn match.
  assert (SK : forall f a y, read_members f a (nl :: y) = read_members f a y) by (intros [|f'] a y; reflexivity). rewrite SK. unfold body.
  rewrite (read_obj enc o OC _ [] post); [cbn [bind snd app fst]; rewrite D2; reflexivity|exact ND|exact NE|]. cbn [List.length]. rewrite app_length. pose proof (members_length enc o). lia.
Qed.
Lemma any_chars (P : ascii -> Prop) o : (forall c, P c) -> obj_chars P o.
Proof. intros H. apply Forall_forall. intros [k v] _. split; [apply Forall_forall; intros c _; apply H|]. destruct v; cbn; try exact I. apply Forall_forall. intros c _. apply H. Qed.
Lemma info_keys i : NoDup (map fst (info_obj i)).
Proof. cbn [info_obj map fst]. repeat constructor; cbn [In]; intuition discriminate. Qed.
Lemma loads_info i pre post : Forall (fun c => is_ws c = true) pre -> Forall (fun c => is_ws c = true) post -> json_loads (pre ++ json_dumps (info_obj i) ++ post) = Ok (info_obj i).
Proof. intros A B. rewrite dumps_enc. apply loads_enc; [apply any_chars; intros c; unfold encoding; apply read_char|apply info_keys|discriminate|exact A|exact B]. Qed.

(** * The search in the file *)
Lemma before_last_app close a t : (exists c r, close = c :: r) -> before_last close (tl close ++ t) = None -> before_last close (a ++ close ++ t) = Some a.
Proof.
  intros (c & r & E) N. subst close. cbn [tl] in N. induction a as [|x a IH].
  - cbn [app]. cbn [before_last]. rewrite N. change (c :: r ++ t) with ((c :: r) ++ t). rewrite after_app. reflexivity.
  - cbn [app before_last]. cbn [app] in IH. rewrite IH. reflexivity.
Qed.
Fixpoint clash (p h : text) : bool := match p, h with c :: p', d :: h' => negb (Ascii.eqb c d) || clash p' h' | _, _ => false end.
Lemma clash_none p : forall h s, clash p h = true -> after_prefix p (h ++ s) = None.
Proof. induction p as [|c p IH]; intros [|d h] s; cbn [clash app after_prefix]; try discriminate. destruct (Ascii.eqb c d); cbn [negb orb]; [apply IH|reflexivity]. Qed.
Fixpoint clashes (p h : text) : bool := match h with [] => true | _ :: r => clash p h && clashes p r end.
Lemma search_skip open close h s : clashes open h = true -> search_between open close (h ++ s) = search_between open close s.
Proof. induction h as [|c h IH]; [reflexivity|]. cbn [clashes]. intros H. apply andb_true_iff in H. destruct H as [A B]. apply (clash_none _ _ s) in A. cbn [app] in A |- *. cbn [search_between]. rewrite A. apply IH, B. Qed.
Lemma search_file contents : search_between version_open version_close (short_version_py contents) = Some (contents ++ [nl]).
Proof.
  unfold short_version_py. rewrite search_skip by (vm_compute; reflexivity).
  set (rest := contents ++ nl :: [apos; apos; apos] ++ file_tail).
  assert (E : before_last version_close rest = Some (contents ++ [nl])).
  { unfold rest. assert (F : contents ++ nl :: [apos; apos; apos] ++ file_tail = (contents ++ [nl]) ++ version_close ++ skipn 20 file_tail) by (rewrite <- app_assoc; reflexivity). rewrite F.
    apply before_last_app; [do 2 eexists; reflexivity|vm_compute; reflexivity]. }
  destruct version_open as [|v vo] eqn:V; [discriminate|]. cbn [app search_between]. change (v :: vo ++ rest) with ((v :: vo) ++ rest). rewrite after_app, E. reflexivity.
Qed.
Theorem build_reads i : versions_from_file (Some (short_version_py (json_dumps (info_obj i)))) = Ok (Some (info_obj i)).
Proof. unfold versions_from_file. rewrite search_file. pose proof (loads_info i [] [nl] (Forall_nil _)) as H. cbn [app] in H. rewrite H by (repeat constructor). reflexivity. Qed.

(** * Lines *)
Lemma split_line c a s : ~ In c a -> split_char c (a ++ c :: s) = a :: split_char c s.
Proof. induction a as [|x a IH]; intros N; cbn [app split_char]; [rewrite Ascii.eqb_refl; reflexivity|]. destruct (Ascii.eqb x c) eqn:E; [apply Ascii.eqb_eq in E; elim N; left; exact E|]. rewrite IH; [reflexivity|]. intros I. apply N. right. exact I. Qed.
Lemma split_lines l : Forall one_line l -> forall s, split_char nl (code_lines l ++ s) = l ++ split_char nl s.
Proof. induction 1 as [|a l A L IH]; intros s; [reflexivity|]. cbn [code_lines flat_map]. rewrite <- !app_assoc. cbn [app]. change (ascii_of_N 10) with nl. rewrite split_line by exact A. fold (code_lines l). rewrite IH. reflexivity. Qed.
Lemma space_code c : is_space c = true -> (N_of_ascii c <= 32)%N.
Proof. unfold is_space, cN. intros H. apply orb_true_iff in H. destruct H as [H|H]; apply andb_true_iff in H; destruct H as [A B]; apply N.leb_le in B; lia. Qed.
Lemma drop_split f s : exists k, s = k ++ drop_while f s /\ Forall (fun c => f c = true) k.
Proof. induction s as [|c s (k & E & F)]; [exists []; split; [reflexivity|constructor]|]. cbn [drop_while]. destruct (f c) eqn:C; [exists (c :: k); split; [cbn [app]; congruence|constructor; assumption]|exists []; split; [reflexivity|constructor]]. Qed.
Lemma strip_lead s : exists k t, s = k ++ strip s ++ t /\ Forall (fun c => is_space c = true) k.
Proof.
  unfold strip, strip_by. destruct (drop_split is_space s) as (k & E & F). set (d := drop_while is_space s) in *. destruct (drop_split is_space (rev d)) as (k2 & E2 & F2). exists k, (rev k2). split; [|exact F].
  rewrite E at 1. f_equal. rewrite <- rev_app_distr, <- E2. symmetry. apply rev_involutive.
Qed.
Lemma other_keyword n s : In n names -> other_line s -> keyword_line n s = None.
Proof.
  intros I [_ O]. unfold keyword_line. destruct (after_prefix (txt n ++ txt " =") (strip s)) as [r|] eqn:E; [|reflexivity].
  apply after_Some in E. destruct (strip_lead s) as (k & t & D & F). elim (O n k (r ++ t) I).
  - eapply Forall_impl; [|exact F]. apply space_code.
  - rewrite D at 1. rewrite E, <- !app_assoc. reflexivity.
Qed.
Definition kfold (k : keywords) (line : text) : keywords :=
  {| k_refnames := or_else (keyword_line "git_refnames" line) (k_refnames k); k_full := or_else (keyword_line "git_full" line) (k_full k); k_date := or_else (keyword_line "git_date" line) (k_date k) |}.
Lemma kfold_other l : Forall other_line l -> forall k, fold_left kfold l k = k.
Proof.
  induction 1 as [|s l O L IH]; intros k; [reflexivity|]. cbn [fold_left]. rewrite IH. unfold kfold. rewrite !(other_keyword _ s) by (try exact O; cbn; tauto). destruct k; reflexivity.
Qed.
Definition lead (s : text) : text := drop_while (fun c => (cN c <=? 32)%N) s.
Lemma lead_app k s : Forall (fun c => (N_of_ascii c <= 32)%N) k -> lead (k ++ s) = lead s.
Proof. induction 1 as [|c k C K IH]; [reflexivity|]. unfold lead in *. cbn [app drop_while]. unfold cN at 1. apply N.leb_le in C. rewrite C. exact IH. Qed.
Lemma other_lead s : one_line s -> hd_error (lead s) <> Some "g"%char -> other_line s.
Proof. intros O H. split; [exact O|]. intros n k r I K E. apply H. rewrite E, lead_app by exact K. cbn in I. destruct I as [<-|[<-|[<-|[]]]]; reflexivity. Qed.
Definition plain_line (s : text) : bool := negb (has_char nl s) && match lead s with c :: _ => negb (Ascii.eqb c "g") | [] => true end.
Lemma plain_other s : plain_line s = true -> other_line s.
Proof.
  unfold plain_line. intros H. apply andb_true_iff in H. destruct H as [A B]. rewrite negb_true_iff in A. apply other_lead.
  - intros I. unfold has_char in A. assert (existsb (Ascii.eqb nl) s = true) by (apply existsb_exists; exists nl; split; [exact I|apply Ascii.eqb_refl]). congruence.
  - destruct (lead s) as [|c r]; [discriminate|]. cbn [hd_error]. intros E. injection E as ->. discriminate.
Qed.
Lemma char_no_nl c : ~ In nl (json_char c).
Proof. intros I. assert (H : forall c, negb (has_char nl (json_char c)) = true) by (apply all_chars; vm_compute; reflexivity). specialize (H c). rewrite negb_true_iff in H. unfold has_char in H. assert (existsb (Ascii.eqb nl) (json_char c) = true) by (apply existsb_exists; exists nl; split; [exact I|apply Ascii.eqb_refl]). congruence. Qed.
Lemma text_no_nl t : ~ In nl (json_text t).
Proof. unfold json_text. intros [I|I]; [discriminate|]. apply in_app_or in I. destruct I as [I|[I|[]]]; [|discriminate]. apply in_flat_map in I. destruct I as (c & _ & I). exact (char_no_nl c I). Qed.
Lemma value_no_nl v : ~ In nl (json_value v).
Proof. destruct v as [|[]|t]; cbn [json_value]; [| | |apply text_no_nl]; cbn; intuition discriminate. Qed.
Lemma member_line m t : ~ In nl t -> other_line (json_member m ++ t).
Proof.
  intros T. apply other_lead.
  - unfold json_member. intros I. repeat (apply in_app_or in I; destruct I as [I|I]); [destruct I as [I|[]]; discriminate|exact (text_no_nl _ I)|destruct I as [I|[I|[]]]; discriminate|exact (value_no_nl _ I)|exact (T I)].
  - unfold json_member, json_text. cbn. discriminate.
Qed.
Lemma file_lines m1 m2 m3 m4 m5 : short_version_py (json_dumps [m1; m2; m3; m4; m5]) =
  code_lines (map txt [""; "# This file was generated by 'versioneer.py' (0.21) from"; "# revision-control system data, or from the parent directory name of an";
     "# unpacked source archive. Distribution tarballs contain a pre-generated copy"; "# of this file."; ""; "import json"; ""; "version_json = '''"; "{"]%string
   ++ [json_member m1 ++ [","%char]; json_member m2 ++ [","%char]; json_member m3 ++ [","%char]; json_member m4 ++ [","%char]; json_member m5 ++ []]
   ++ map txt ["}"; "'''  # END VERSION_JSON"; ""; ""; "def get_versions():"; "    return json.loads(version_json)"]%string).
Proof.
  unfold short_version_py, json_dumps. cbn [json_members]. unfold code_lines. rewrite !flat_map_app.
  change (flat_map (fun s : list ascii => s ++ [ascii_of_N 10]) (map txt [""; "# This file was generated by 'versioneer.py' (0.21) from"; "# revision-control system data, or from the parent directory name of an";
     "# unpacked source archive. Distribution tarballs contain a pre-generated copy"; "# of this file."; ""; "import json"; ""; "version_json = '''"; "{"]%string)) with (file_head ++ version_open ++ ["{"%char; nl]).
  change (flat_map (fun s : list ascii => s ++ [ascii_of_N 10]) (map txt ["}"; "'''  # END VERSION_JSON"; ""; ""; "def get_versions():"; "    return json.loads(version_json)"]%string)) with ("}"%char :: nl :: [apos; apos; apos] ++ file_tail).
  cbn [flat_map]. change (ascii_of_N 10) with nl. repeat (rewrite <- ?app_assoc; cbn [app]). reflexivity.
Qed.
Lemma fold_is s : read_keywords (Some s) = fold_left kfold (split_char nl s) {| k_refnames := None; k_full := None; k_date := None |}.
Proof. reflexivity. Qed.
Lemma file_keywords m1 m2 m3 m4 m5 : read_keywords (Some (short_version_py (json_dumps [m1; m2; m3; m4; m5]))) = {| k_refnames := None; k_full := None; k_date := None |}.
Proof.
  rewrite fold_is, file_lines. match goal with |- context [code_lines ?l] => set (L := l) end.
  assert (O : Forall other_line L).
  { unfold L. apply Forall_app. split; [|apply Forall_app; split].
    - apply Forall_forall. intros s I. apply plain_other. apply (proj1 (forallb_forall plain_line (map txt [""; "# This file was generated by 'versioneer.py' (0.21) from"; "# revision-control system data, or from the parent directory name of an";
     "# unpacked source archive. Distribution tarballs contain a pre-generated copy"; "# of this file."; ""; "import json"; ""; "version_json = '''"; "{"]%string))); [vm_compute; reflexivity|exact I].
    - repeat (apply Forall_cons; [apply member_line; cbn; intuition discriminate|]). constructor.
    - apply Forall_forall. intros s I. apply plain_other. apply (proj1 (forallb_forall plain_line (map txt ["}"; "'''  # END VERSION_JSON"; ""; ""; "def get_versions():"; "    return json.loads(version_json)"]%string))); [vm_compute; reflexivity|exact I]. }
  rewrite <- (app_nil_r (code_lines L)), split_lines by (eapply Forall_impl; [|exact O]; intros s [A _]; exact A).
  rewrite kfold_other; [reflexivity|]. apply Forall_app. split; [exact O|]. repeat constructor; [intros []|]. intros n k r I K E. destruct k; [|discriminate]. destruct n; [|discriminate]. cbn in I. intuition discriminate.
Qed.
Theorem rebuild i run : build_versions (Some (short_version_py (json_dumps (info_obj i)))) run = Ok (info_obj i).
Proof. unfold build_versions. unfold info_obj at 1. rewrite file_keywords. cbn [versions_from_keywords k_refnames bind]. rewrite build_reads. reflexivity. Qed.

(** * Declared keywords *)
Lemma qv_skip a s : Forall (fun c => Ascii.eqb c "=" = false) a -> quoted_value (a ++ s) = quoted_value s.
Proof. induction 1 as [|c a C A IH]; [reflexivity|]. cbn [app quoted_value]. rewrite C. exact IH. Qed.
Lemma drop_spaces n s : drop_while is_space (repeat " "%char n ++ s) = drop_while is_space s. Proof. induction n as [|n IH]; [reflexivity|exact IH]. Qed.
Lemma strip_decl name c r n v : word name = c :: r -> is_space c = false -> strip (indented n (assignment name v)) = assignment name v.
Proof.
  intros E C. unfold strip, strip_by, indented. rewrite drop_spaces. assert (D : drop_while is_space (assignment name v) = assignment name v). { unfold assignment. rewrite E. cbn [app drop_while]. rewrite C. reflexivity. }
  rewrite D. assert (F : assignment name v = (word name ++ word " = """ ++ v) ++ [quote]) by (unfold assignment; rewrite <- !app_assoc; reflexivity).
  rewrite F, rev_app_distr. cbn [rev app drop_while]. change (is_space quote) with false. cbn match. cbn [rev]. rewrite rev_involutive. reflexivity.
Qed.
Lemma decl_value name c r n v : word name = c :: r -> is_space c = false -> forallb (fun c => negb (Ascii.eqb c "=")) (word name) = true -> keyword_line name (indented n (assignment name v)) = Some v.
Proof.
  intros E C NE. unfold keyword_line. rewrite (strip_decl name c r) by assumption.
  assert (P : assignment name v = (txt name ++ txt " =") ++ (word " """ ++ v ++ word """")) by (unfold assignment; rewrite <- app_assoc; reflexivity). rewrite P at 1. rewrite after_app.
  unfold indented, assignment. rewrite qv_skip; [|clear; induction n; constructor; [reflexivity|assumption]]. rewrite qv_skip; [|apply Forall_forall; intros x I; rewrite forallb_forall in NE; specialize (NE x I); rewrite negb_true_iff in NE; exact NE].
  change (word " = """) with [" "%char; "="%char; " "%char; quote]. change (word """") with [quote]. cbn [app quoted_value]. change (Ascii.eqb " " "=") with false. change (Ascii.eqb "=" "=") with true. cbn match.
  cbn [drop_while]. change (is_space " ") with true. change (is_space quote) with false. cbn match. change (Ascii.eqb quote quote) with true. cbn match.
  unfold before_quote. pose proof (before_last_app [quote] v []) as B. cbn [tl app] in B. rewrite B; [reflexivity|do 2 eexists; reflexivity|reflexivity].
Qed.
Lemma decl_other m name c r n v : word name = c :: r -> is_space c = false -> clash (txt m ++ txt " =") (word name ++ word " = """) = true -> keyword_line m (indented n (assignment name v)) = None.
Proof. intros E C H. unfold keyword_line. rewrite (strip_decl name c r) by assumption. unfold assignment. rewrite app_assoc, clash_none by exact H. reflexivity. Qed.
Lemma decl_line name n v : ~ In nl (word name) -> one_line v -> one_line (indented n (assignment name v)).
Proof. intros N V I. unfold indented, assignment in I. repeat (apply in_app_or in I; destruct I as [I|I]); [apply repeat_spec in I; discriminate|exact (N I)|cbn in I; intuition discriminate|exact (V I)|cbn in I; intuition discriminate]. Qed.
Theorem read_declared l1 l2 l3 l4 n a b c : Forall other_line (l1 ++ l2 ++ l3 ++ l4) -> one_line a -> one_line b -> one_line c ->
  read_keywords (Some (declares l1 l2 l3 l4 n a b c)) = {| k_refnames := Some a; k_full := Some b; k_date := Some c |}.
Proof.
  intros O A B C. rewrite fold_is. unfold declares. apply Forall_app in O. destruct O as [O1 O]. apply Forall_app in O. destruct O as [O2 O]. apply Forall_app in O. destruct O as [O3 O4].
  assert (W : forall l, Forall other_line l -> Forall one_line l) by (intros l; apply Forall_impl; intros s [X _]; exact X).
  match goal with |- context [code_lines ?l] => set (L := l); assert (OL : Forall one_line L) end.
  { unfold L. repeat (apply Forall_app; split); try (apply W; assumption); (constructor; [|constructor]); apply decl_line; try assumption; cbn; intuition discriminate. }
  rewrite <- (app_nil_r (code_lines L)), split_lines by exact OL. unfold L. rewrite !fold_left_app, !(kfold_other l1), (kfold_other l2), (kfold_other l3), (kfold_other l4) by assumption.
  cbn [fold_left split_char]. unfold kfold.
  rewrite !(decl_value "git_refnames" "g" (word "it_refnames")), !(decl_value "git_full" "g" (word "it_full")), !(decl_value "git_date" "g" (word "it_date")) by (vm_compute; reflexivity).
  rewrite !(decl_other "git_refnames" "git_full" "g" (word "it_full")), !(decl_other "git_refnames" "git_date" "g" (word "it_date")), !(decl_other "git_full" "git_refnames" "g" (word "it_refnames")),
    !(decl_other "git_full" "git_date" "g" (word "it_date")), !(decl_other "git_date" "git_refnames" "g" (word "it_refnames")), !(decl_other "git_date" "git_full" "g" (word "it_full")) by (vm_compute; reflexivity).
  reflexivity.
Qed.
Lemma search_contains open close s g : search_between open close s = Some g -> exists a b, s = a ++ open ++ b.
Proof.
  revert g. induction s as [|c s IH]; intros g; cbn [search_between].
  - destruct (after_prefix open []) as [r|] eqn:E; [|discriminate]. intros _. apply after_Some in E. exists [], r. exact E.
  - destruct (match after_prefix open (c :: s) with Some r => before_last close r | None => None end) as [x|] eqn:E.
    + intros _. destruct (after_prefix open (c :: s)) as [r|] eqn:F; [|discriminate]. apply after_Some in F. exists [], r. exact F.
    + intros H. destruct (IH g H) as (a & b & F). exists (c :: a), b. cbn [app]. f_equal. exact F.
Qed.
Lemma no_parent n dirs : (forall x d, In d (firstn n dirs) -> d <> word "None" ++ x) -> from_parentdir n (txt "None") dirs = None.
Proof.
  revert dirs. induction n as [|n IH]; intros dirs H; [reflexivity|]. cbn [from_parentdir]. destruct dirs as [|d dirs].
  - cbn. apply (IH []). intros x d I. destruct n; destruct I.
  - destruct (after_prefix (txt "None") d) as [r|] eqn:E; [apply after_Some in E; elim (H r d); [left; reflexivity|exact E]|]. apply IH. intros x e I. apply H. right. exact I.
Qed.
Theorem builds_agree l1 l2 l3 l4 n a b c run dir : Forall other_line (l1 ++ l2 ++ l3 ++ l4) -> one_line a -> one_line b -> one_line c ->
  ~ contains (word "version_json = '''" ++ [ascii_of_N 10]) (declares l1 l2 l3 l4 n a b c) ->
  (forall x d, In d (firstn 3 (skipn 2 dir)) -> d <> word "None" ++ x) ->
  build_versions (Some (declares l1 l2 l3 l4 n a b c)) run = let! i := get_versions {| k_refnames := Some a; k_full := Some b; k_date := Some c |} run dir in Ok (info_obj i).
Proof.
  intros O A B C NC D. unfold build_versions, get_versions. rewrite read_declared by assumption. destruct (versions_from_keywords _ _) as [[i|]|e|]; cbn [bind]; try reflexivity.
  unfold versions_from_file. destruct (search_between version_open version_close _) as [g|] eqn:E; [apply search_contains in E; elim NC; exact E|]. cbn [bind].
  destruct (pieces_from_vcs _ run) as [[ps|]|e|]; cbn [bind]; try reflexivity.
  destruct dir as [|? [|? ?]]; cbn [tl skipn] in *; rewrite no_parent by exact D; reflexivity.
Qed.

(** * The literal *)
Definition quiet (c : ascii) : bool := negb (Ascii.eqb c bslash) && negb (Ascii.eqb c apos).
Lemma lit_quiet x s a b : forallb quiet x = true -> literal s = Ok (a, b) -> literal (x ++ s) = Ok (x ++ a, b).
Proof.
  intros Q L. induction x as [|c x IH]; [exact L|]. cbn [forallb] in Q. apply andb_true_iff in Q. destruct Q as [C Q]. unfold quiet in C. apply andb_true_iff in C. destruct C as [C1 C2]. rewrite negb_true_iff in C1, C2.
  cbn [app literal]. rewrite C1. cbn [after_prefix]. rewrite Ascii.eqb_sym, C2. rewrite IH by exact Q. reflexivity.
Qed.
Lemma plain_cases c : plain_char c -> json_char c = [c] /\ Ascii.eqb c bslash = false /\ Ascii.eqb c quote = false \/
  exists h1 h2 h3 h4 n, json_char c = [bslash; "u"%char; h1; h2; h3; h4] /\ hex4 h1 h2 h3 h4 = Some n /\ (n <? 256)%N = true /\ chr n = c /\ c <> apos.
Proof.
  intros P. destruct (json_char_cases c) as [(E & A & B & C) | [(e & E & A & B) | (h1 & h2 & h3 & h4 & n & E & A & B & C)]]; [left; repeat split; assumption| |right; exists h1, h2, h3, h4, n; repeat split; try assumption; intros ->; discriminate].
  exfalso. set (Q := fun c => match json_char c with [_; _] => Ascii.eqb c quote || Ascii.eqb c bslash || (cN c <? 32)%N | _ => true end).
  assert (H : Q c = true) by (apply (all_chars Q); vm_compute; reflexivity). unfold Q in H. rewrite E in H. apply orb_true_iff in H. destruct H as [H|H]; [apply orb_true_iff in H; destruct H as [H|H]; apply Ascii.eqb_eq in H; subst c|].
  - destruct P as [(_ & X & _)|P]; [apply X; reflexivity|]. unfold by_code in P. vm_compute in P. congruence.
  - destruct P as [(_ & _ & X)|P]; [apply X; reflexivity|]. unfold by_code in P. vm_compute in P. congruence.
  - apply N.ltb_lt in H. unfold cN in H. destruct P as [(X & _)|P]; [|unfold by_code in P]; lia.
Qed.
Lemma head_apos c s d r : plain_char c -> json_char c ++ s = d :: r -> d = apos -> c = apos /\ r = s.
Proof. intros P E D. destruct (plain_cases c P) as [(J & _) | (h1 & h2 & h3 & h4 & n & J & _)]; rewrite J in E; cbn [app] in E; injection E as E1 E2; [split; congruence|]. subst d. discriminate. Qed.
Lemma lit_text w s a b : Forall plain_char w -> ~ contains (word "'''") w -> literal (quote :: s) = Ok (a, b) -> literal (flat_map json_char w ++ quote :: s) = Ok (w ++ a, b).
Proof.
  intros W N L. induction W as [|c w C W IH]; [exact L|]. cbn [flat_map]. rewrite <- app_assoc.
  assert (N' : ~ contains (word "'''") w). { intros (x & y & E). apply N. exists (c :: x), y. cbn [app]. f_equal. exact E. }
  specialize (IH N'). destruct (plain_cases c C) as [(J & B1 & _) | (h1 & h2 & h3 & h4 & n & J & H4 & L256 & E & _)]; rewrite J; cbn [app].
  - cbn [literal]. rewrite B1. destruct (after_prefix [apos; apos; apos] (c :: flat_map json_char w ++ quote :: s)) as [r|] eqn:AP; [|rewrite IH; reflexivity].
    exfalso. apply after_Some in AP. cbn [app] in AP. injection AP as E1 AP. subst c.
    destruct w as [|c2 w]; [discriminate|]. inversion W as [|? ? C2 W2]; subst. cbn [flat_map] in AP. rewrite <- app_assoc in AP. destruct (head_apos _ _ _ _ C2 AP eq_refl) as [-> AP2].
    destruct w as [|c3 w]; [discriminate|]. inversion W2 as [|? ? C3 W3]; subst. cbn [flat_map] in AP2. rewrite <- app_assoc in AP2. symmetry in AP2. destruct (head_apos _ _ _ _ C3 AP2 eq_refl) as [-> _].
    apply N. exists [], w. reflexivity.
  - cbn [literal]. change (Ascii.eqb bslash bslash) with true. change (Ascii.eqb "u" "u") with true. cbn match. rewrite H4, L256, IH. cbn [bind fst snd]. rewrite E. reflexivity.
Qed.
Definition raw (c : ascii) : text := [c].
Lemma flat_raw t : flat_map raw t = t. Proof. induction t as [|c t IH]; [reflexivity|]. cbn [flat_map raw app]. f_equal. exact IH. Qed.
Lemma lit_json w s a b : harmless w -> literal s = Ok (a, b) -> literal (enc_text json_char w ++ s) = Ok (enc_text raw w ++ a, b).
Proof.
  intros [W N] L. unfold enc_text. rewrite flat_raw. assert (LQ : literal (quote :: s) = Ok (quote :: a, b)) by (apply (lit_quiet [quote]); [reflexivity|exact L]).
  change ((quote :: flat_map json_char w ++ [quote]) ++ s) with ([quote] ++ (flat_map json_char w ++ [quote]) ++ s). rewrite <- app_assoc. cbn [app].
  pose proof (lit_text w s (quote :: a) b W N LQ) as H. pose proof (lit_quiet [quote] _ _ _ eq_refl H) as H2. cbn [app] in H2 |- *. rewrite H2. rewrite <- app_assoc. reflexivity.
Qed.
Definition safe_val (v : jval) : Prop := match v with JText t => harmless t | _ => True end.
Lemma lit_value v s a b : safe_val v -> literal s = Ok (a, b) -> literal (enc_value json_char v ++ s) = Ok (enc_value raw v ++ a, b).
Proof. intros V L. destruct v as [|[]|t]; cbn [enc_value]; [apply lit_quiet; [reflexivity|exact L]..|apply lit_json; assumption]. Qed.
Lemma lit_member m s a b : harmless (fst m) -> safe_val (snd m) -> literal s = Ok (a, b) -> literal (enc_member json_char m ++ s) = Ok (enc_member raw m ++ a, b).
Proof.
  intros K V L. unfold enc_member. rewrite <- !app_assoc. apply lit_quiet; [reflexivity|]. apply lit_json; [exact K|]. apply lit_quiet; [reflexivity|]. apply lit_value; assumption.
Qed.
Lemma lit_members o s a b : Forall (fun m => harmless (fst m) /\ safe_val (snd m)) o -> literal s = Ok (a, b) -> literal (enc_members json_char o ++ s) = Ok (enc_members raw o ++ a, b).
Proof.
  intros F L. induction F as [|m o [K V] F IH]; [exact L|]. cbn [enc_members]. destruct o as [|m' o]; [apply lit_member; assumption|]. rewrite <- !app_assoc. apply lit_member; [exact K|exact V|].
  apply (lit_quiet [","%char; nl]); [reflexivity|exact IH].
Qed.
Lemma raw_encoding c : plain_char c -> encoding raw c.
Proof.
  intros P s. unfold raw. cbn [app read_text]. destruct (plain_cases c P) as [(J & B & Q) | (h1 & h2 & h3 & h4 & n & J & H4 & L256 & E & _)].
  - rewrite Q, B. destruct (json_char_cases c) as [(_ & _ & _ & C) | [(e & E & _) | (h1 & h2 & h3 & h4 & n & E & _)]]; [rewrite C; reflexivity|rewrite E in J; discriminate|rewrite E in J; discriminate].
  - assert (X : Ascii.eqb c quote = false /\ Ascii.eqb c bslash = false /\ (cN c <? 32)%N = false).
    { destruct P as [(R & X & Y)|P]; [repeat split; [apply Ascii.eqb_neq; exact X|apply Ascii.eqb_neq; exact Y|apply N.ltb_ge; apply R]|].
      unfold by_code in P. repeat split; [apply Ascii.eqb_neq; intros ->; vm_compute in P; congruence|apply Ascii.eqb_neq; intros ->; vm_compute in P; congruence|apply N.ltb_ge; unfold cN; lia]. }
    destruct X as (X1 & X2 & X3). rewrite X1, X2, X3. reflexivity.
Qed.
Lemma harmless_const s : forallb (fun c => (32 <=? cN c)%N && (cN c <=? 126)%N && negb (Ascii.eqb c quote) && negb (Ascii.eqb c bslash) && negb (Ascii.eqb c apos)) s = true -> harmless s.
Proof.
  intros H. rewrite forallb_forall in H. assert (K : forall c, In c s -> plain_char c /\ c <> apos).
  { intros c I. specialize (H c I). repeat (apply andb_true_iff in H; destruct H as [H ?]). rewrite !negb_true_iff in *. repeat match goal with X : Ascii.eqb _ _ = false |- _ => apply Ascii.eqb_neq in X end. apply N.leb_le in H. match goal with X : (_ <=? 126)%N = true |- _ => apply N.leb_le in X end. split; [left; repeat split; assumption|assumption]. }
  split; [apply Forall_forall; intros c I; apply K, I|]. intros (a & b & E). assert (I : In apos s) by (rewrite E; apply in_or_app; right; left; reflexivity). apply (proj2 (K _ I)). reflexivity.
Qed.
Definition harmless_info (i : info) : Prop := harmless (v_version i) /\ harmless_option (v_full i) /\ harmless_option (v_error i) /\ harmless_option (v_date i).
Theorem import_reads i : harmless_info i -> import_versions (short_version_py (json_dumps (info_obj i))) = Ok (info_obj i).
Proof.
  intros (V & F & E & D). unfold import_versions, short_version_py.
  assert (S0 : file_head ++ version_open ++ json_dumps (info_obj i) ++ nl :: [apos; apos; apos] ++ file_tail = (file_head ++ txt "version_json = '''") ++ nl :: json_dumps (info_obj i) ++ nl :: [apos; apos; apos] ++ file_tail)
    by (rewrite <- app_assoc; f_equal).
  rewrite S0, after_app.
  assert (SF : Forall (fun m => harmless (fst m) /\ safe_val (snd m)) (info_obj i)).
  { unfold info_obj. repeat apply Forall_cons; try apply Forall_nil; (split; [apply harmless_const; reflexivity|]); cbn [snd]; [destruct (v_date i)|destruct (v_dirty i)|destruct (v_error i)|destruct (v_full i)|]; cbn; try exact I; assumption. }
  assert (L0 : literal (nl :: [apos; apos; apos] ++ file_tail) = Ok ([nl], file_tail)) by reflexivity.
  assert (L1 : literal (nl :: "}"%char :: nl :: [apos; apos; apos] ++ file_tail) = Ok ([nl; "}"%char; nl], file_tail)) by reflexivity.
  pose proof (lit_members _ _ _ _ SF L1) as L2. pose proof (lit_quiet [nl; "{"%char; nl] _ _ _ eq_refl L2) as L3.
  assert (SH : nl :: json_dumps (info_obj i) ++ nl :: [apos; apos; apos] ++ file_tail = [nl; "{"%char; nl] ++ enc_members json_char (info_obj i) ++ nl :: "}"%char :: nl :: [apos; apos; apos] ++ file_tail).
  { rewrite dumps_enc. unfold enc_dumps. cbn [app]. rewrite <- app_assoc. reflexivity. }
  rewrite SH, L3. cbn [bind fst snd]. unfold text_eqb. destruct (list_eq_dec ascii_dec file_tail file_tail) as [_|X]; [|elim X; reflexivity].
  assert (SR : [nl; "{"%char; nl] ++ enc_members raw (info_obj i) ++ [nl; "}"%char; nl] = [nl] ++ enc_dumps raw (info_obj i) ++ [nl]) by (unfold enc_dumps; cbn [app]; rewrite <- app_assoc; reflexivity).
  rewrite SR. apply loads_enc; [|apply info_keys|discriminate|repeat constructor|repeat constructor].
  eapply Forall_impl; [|exact SF]. intros [k v] [K W]. cbn [fst snd] in *. split; [eapply Forall_impl; [|exact (proj1 K)]; apply raw_encoding|]. destruct v; cbn in *; try exact I. eapply Forall_impl; [|exact (proj1 W)]. apply raw_encoding.
Qed.
Theorem package_reads i : harmless_info i -> package_version (short_version_py (json_dumps (info_obj i))) = Ok (JText (v_version i)).
Proof. intros H. unfold package_version. rewrite import_reads by exact H. reflexivity. Qed.
Theorem wheel_agrees l1 l2 l3 l4 n a b c run dir old i : Forall other_line (l1 ++ l2 ++ l3 ++ l4) -> one_line a -> one_line b -> one_line c ->
  ~ contains (word "version_json = '''" ++ [ascii_of_N 10]) (declares l1 l2 l3 l4 n a b c) ->
  (forall x d, In d (firstn 3 (skipn 2 dir)) -> d <> word "None" ++ x) ->
  get_versions {| k_refnames := Some a; k_full := Some b; k_date := Some c |} run dir = Ok i -> harmless_info i ->
  exists t, build_py (Some (declares l1 l2 l3 l4 n a b c)) run (Some old) = Ok t /\ import_versions t = Ok (info_obj i) /\ package_version t = Ok (JText (v_version i)).
Proof.
  intros O A B C NC D G H. exists (short_version_py (json_dumps (info_obj i))). split; [|split; [apply import_reads, H|apply package_reads, H]].
  unfold build_py. rewrite (builds_agree l1 l2 l3 l4 n a b c run dir) by assumption. rewrite G. reflexivity.
Qed.
Theorem ext_missing file run : (exists e, build_versions file run = Raise e) \/ build_versions file run = OutOfFuel \/ build_ext false file run None = Raise RuntimeError.
Proof. unfold build_ext. destruct (build_versions file run) as [v|e|]; [right; right; reflexivity|left; exists e; reflexivity|right; left; reflexivity]. Qed.

(** * As stated *)
Lemma written_reads i old v : write_to_version_file (Some old) (info_obj i) = Ok v -> versions_from_file (Some v) = Ok (Some (info_obj i)).
Proof. cbn [write_to_version_file]. intros H. injection H as <-. apply build_reads. Qed.
Lemma archive_stable file run v copied run' : build_py file run (Some copied) = Ok v ->
  (exists i, build_versions file run = Ok (info_obj i)) -> forall old, build_py (Some v) run' (Some old) = Ok v.
Proof. intros H (i & B) old. unfold build_py in *. rewrite B in H. cbn [bind write_to_version_file] in H. injection H as <-. rewrite rebuild. reflexivity. Qed.
Lemma written_imports i old v : write_to_version_file (Some old) (info_obj i) = Ok v ->
  harmless (v_version i) -> harmless_option (v_full i) -> harmless_option (v_error i) -> harmless_option (v_date i) ->
  import_versions v = Ok (info_obj i) /\ package_version v = Ok (JText (v_version i)).
Proof. cbn [write_to_version_file]. intros H A B C D. injection H as <-. split; [apply import_reads|apply package_reads]; repeat split; assumption || apply A. Qed.
Definition P_tag (tag : list ascii) : runner := fun c =>
  match c with GitDir => (Some [], Some 0%Z) | Describe => (Some (describe_text (word "v" ++ tag) (word "0") (word "0123abc") false), Some 0%Z)
  | RevParse => (Some (word "0123abcdef"), Some 0%Z) | AbbrevRef => (Some (word "master"), Some 0%Z) | BranchContains => (Some [], Some 0%Z)
  | RevCount => (Some (word "3"), Some 0%Z) | ShowDate => (Some (git_date (word "2024-05-06") (word "07:08:09") (word "+0200")), Some 0%Z) end.
Lemma quote_breaks : exists tag v, tag = word "1""2" /\ build_py None (P_tag tag) (Some []) = Ok v /\
  versions_from_file (Some v) <> Ok None /\ package_version v = Raise ValueError.
Proof. exists (word "1""2"). eexists. split; [reflexivity|]. split; [vm_compute; reflexivity|]. split; [vm_compute; discriminate|vm_compute; reflexivity]. Qed.
Lemma apostrophes_run : exists tag v rest, tag = word "1'''+f()#" /\ build_py None (P_tag tag) (Some []) = Ok v /\
  contains (word "'''" ++ word "+f()#" ++ rest) v /\ literal (skipn (List.length (file_head ++ word "version_json = '''")) v) <> Raise ValueError /\
  (exists value, literal (skipn (List.length (file_head ++ word "version_json = '''")) v) = Ok (value, word "+f()#" ++ rest)).
Proof.
  exists (word "1'''+f()#"). assert (H : exists v, build_py None (P_tag (word "1'''+f()#")) (Some []) = Ok v) by (eexists; vm_compute; reflexivity).
  destruct H as [v H]. set (val := literal (skipn (List.length (file_head ++ word "version_json = '''")) v)).
  exists v, (quote :: nl :: "}"%char :: nl :: [apos; apos; apos] ++ file_tail). split; [reflexivity|]. split; [exact H|].
  vm_compute in H. injection H as <-. split.
  - unfold contains. match goal with |- exists a b, ?v = a ++ ?p ++ b => let n := eval vm_compute in (List.length v - List.length p)%nat in exists (firstn n v), [] end. vm_compute. reflexivity.
  - split; [vm_compute; discriminate|eexists; vm_compute; reflexivity].
Qed.
Lemma info_obj_inj i j : info_obj i = info_obj j -> i = j.
Proof.
  destruct i as [v f d e t], j as [v' f' d' e' t']. unfold info_obj. cbn [v_version v_full v_dirty v_error v_date]. intros H. injection H as T D E F V.
  assert (O : forall a b : option text, otext a = otext b -> a = b) by (intros [a|] [b|]; cbn; congruence).
  apply O in T, E, F. subst. f_equal. destruct d, d'; congruence.
Qed.
Lemma builds_same l1 l2 l3 l4 n a b c run dir : Forall other_line (l1 ++ l2 ++ l3 ++ l4) -> one_line a -> one_line b -> one_line c ->
  ~ contains (word "version_json = '''" ++ [ascii_of_N 10]) (declares l1 l2 l3 l4 n a b c) ->
  (forall x d, In d (firstn 3 (skipn 2 dir)) -> d <> word "None" ++ x) ->
  (forall i, get_versions {| k_refnames := Some a; k_full := Some b; k_date := Some c |} run dir = Ok i <-> build_versions (Some (declares l1 l2 l3 l4 n a b c)) run = Ok (info_obj i)) /\
  (forall e, get_versions {| k_refnames := Some a; k_full := Some b; k_date := Some c |} run dir = Raise e <-> build_versions (Some (declares l1 l2 l3 l4 n a b c)) run = Raise e).
Proof.
  intros O A B C NC D. rewrite (builds_agree l1 l2 l3 l4 n a b c run dir) by assumption. destruct (get_versions _ run dir) as [j|e|]; cbn [bind].
  - split; [|split; discriminate]. intros i. split; [congruence|]. intros H. injection H as T1 T2 T3 T4 T5. f_equal. apply info_obj_inj. unfold info_obj. congruence.
  - split; [split; discriminate|]. intros e'. split; congruence.
  - split; split; discriminate.
Qed.
Lemma wheel_same l1 l2 l3 l4 n a b c run dir old i : Forall other_line (l1 ++ l2 ++ l3 ++ l4) -> one_line a -> one_line b -> one_line c ->
  ~ contains (word "version_json = '''" ++ [ascii_of_N 10]) (declares l1 l2 l3 l4 n a b c) ->
  (forall x d, In d (firstn 3 (skipn 2 dir)) -> d <> word "None" ++ x) ->
  get_versions {| k_refnames := Some a; k_full := Some b; k_date := Some c |} run dir = Ok i ->
  harmless (v_version i) -> harmless_option (v_full i) -> harmless_option (v_error i) -> harmless_option (v_date i) ->
  exists t, build_py (Some (declares l1 l2 l3 l4 n a b c)) run (Some old) = Ok t /\ import_versions t = Ok (info_obj i) /\ package_version t = Ok (JText (v_version i)).
Proof. intros O A B C NC D G H1 H2 H3 H4. apply (wheel_agrees l1 l2 l3 l4 n a b c run dir old i); try assumption. unfold harmless_info. tauto. Qed.
Definition P_file : list ascii := declares [word "import re"; word "def get_keywords():"] [] [] [word "    return {}"] 4 (word "$Format:%d$") (word "$Format:%H$") (word "$Format:%ci$").
Definition P_no_git : runner := fun _ => (None, None).
Lemma none_dir : exists dir i o, get_versions unexpanded P_no_git dir = Ok i /\ v_version i = word "-1.0" /\
  build_versions (Some P_file) P_no_git = Ok o /\ In (word "version", JText (word "0+unknown")) o.
Proof. exists [word "_version.py"; word "oceanmesh"; word "None-1.0"]. do 2 eexists. split; [vm_compute; reflexivity|]. split; [reflexivity|]. split; [vm_compute; reflexivity|]. cbn. tauto. Qed.
Lemma ext_alone file run v : build_versions file run = Ok v -> build_ext false file run None = Raise RuntimeError /\ build_ext true file run None = Ok None.
Proof. intros H. unfold build_ext. rewrite H. split; reflexivity. Qed.
Lemma no_part p s : (fix go s := match s with [] => true | _ :: r => match after_prefix p s with Some _ => false | None => go r end end) s = true -> p <> [] -> ~ contains p s.
Proof.
  intros H NE (a & b & ->). induction a as [|c a IH]; cbn [app] in H.
  - destruct p as [|c p]; [congruence|]. cbn [app] in H. change (c :: p ++ b) with ((c :: p) ++ b) in H. rewrite after_app in H. discriminate.
  - destruct (after_prefix p (c :: a ++ p ++ b)); [discriminate|]. apply IH, H.
Qed.
Lemma harmless_bool s : forallb (fun c => (32 <=? cN c)%N && (cN c <=? 126)%N && negb (Ascii.eqb c quote) && negb (Ascii.eqb c bslash)) s = true -> ~ contains (word "'''") s -> harmless s.
Proof.
  intros H N. split; [|exact N]. apply Forall_forall. intros c I. rewrite forallb_forall in H. specialize (H c I). repeat (apply andb_true_iff in H; destruct H as [H ?]). rewrite !negb_true_iff in *.
  repeat match goal with X : Ascii.eqb _ _ = false |- _ => apply Ascii.eqb_neq in X end. apply N.leb_le in H. match goal with X : (_ <=? 126)%N = true |- _ => apply N.leb_le in X end. left; repeat split; assumption.
Qed.
Lemma harmless_cases : harmless (word "1.2+3.g0123abc.dirty") /\ harmless_option (Some (word "tag 'x' doesn't start with prefix 'v'")) /\ ~ harmless (word "1""2").
Proof.
  split; [|split]; [apply harmless_bool; [reflexivity|apply no_part; [reflexivity|discriminate]]..|].
  intros [F _]. inversion F as [|? ? _ F2]. inversion F2 as [|? ? P _]. destruct P as [(_ & X & _)|X]; [apply X; reflexivity|vm_compute in X; congruence].
Qed.
Lemma file_cases : Forall other_line ([word "import re"; word "def get_keywords():"] ++ [] ++ [] ++ [word "    return {}"]) /\ one_line (word "$Format:%d$") /\
  ~ contains (word "version_json = '''" ++ [ascii_of_N 10]) P_file.
Proof.
  split; [repeat (apply Forall_cons; [apply plain_other; reflexivity|]); constructor|]. split; [intros I; cbn in I; intuition discriminate|]. apply no_part; [vm_compute; reflexivity|discriminate].
Qed.
