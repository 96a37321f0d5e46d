(** C200, C201: the version file of the build. *)
From Coq Require Import List Ascii String ZArith NArith.
From Verif Require Import M_Base M_Writers M_Version M_BuildVersion S_Version S_BuildVersion P_BuildVersion P_BuildVersion2.
Import ListNotations.

(** What the build writes it reads back, whatever the texts are. *)
Theorem C200_build_reads : forall i old v, write_to_version_file (Some old) (info_obj i) = Ok v -> versions_from_file (Some v) = Ok (Some (info_obj i)).
Proof. exact written_reads. Qed.
Print Assumptions C200_build_reads.

(** A build from a source archive has the archive's version, whatever git says there. *)
Theorem C200_rebuild : forall file run v copied run', build_py file run (Some copied) = Ok v ->
  (exists i, build_versions file run = Ok (info_obj i)) -> forall old, build_py (Some v) run' (Some old) = Ok v.
Proof. exact archive_stable. Qed.
Print Assumptions C200_rebuild.

(** The package says at import what the build wrote, if no text has a quotation mark, a backslash, a control character or three
    apostrophes in a row.  Missing: other texts (next theorems). *)
Theorem C200_import_partial : forall i old v, write_to_version_file (Some old) (info_obj i) = Ok v ->
  harmless (v_version i) -> harmless_option (v_full i) -> harmless_option (v_error i) -> harmless_option (v_date i) ->
  import_versions v = Ok (info_obj i) /\ package_version v = Ok (JText (v_version i)).
Proof. exact written_imports. Qed.
Print Assumptions C200_import_partial.

Definition C200_tag (tag : list ascii) : runner := fun c =>
  match c with GitDir => (Some [], Some 0%Z) | Describe => (Some (describe_text (word "v" ++ tag) (word "0") (word "0123abc") false), Some 0%Z)
  | RevParse => (Some (word "0123abcdef"), Some 0%Z) | AbbrevRef => (Some (word "master"), Some 0%Z) | BranchContains => (Some [], Some 0%Z)
  | RevCount => (Some (word "3"), Some 0%Z) | ShowDate => (Some (git_date (word "2024-05-06") (word "07:08:09") (word "+0200")), Some 0%Z) end.
(** git allows a quotation mark in a tag; the file written for it cannot be imported. *)
Theorem C200_import_refuted : exists tag v, tag = word "1""2" /\ build_py None (C200_tag tag) (Some []) = Ok v /\
  versions_from_file (Some v) <> Ok None /\ package_version v = Raise ValueError.
Proof. exact quote_breaks. Qed.
Print Assumptions C200_import_refuted.

(** git allows apostrophes in a tag: three of them end the literal, and the rest of the tag becomes code of the package. *)
Theorem C200_injection_refuted : exists tag v rest, tag = word "1'''+f()#" /\ build_py None (C200_tag tag) (Some []) = Ok v /\
  contains (word "'''" ++ word "+f()#" ++ rest) v /\ literal (skipn (List.length (file_head ++ word "version_json = '''")) v) <> Raise ValueError /\
  (exists value, literal (skipn (List.length (file_head ++ word "version_json = '''")) v) = Ok (value, word "+f()#" ++ rest)).
Proof. exact apostrophes_run. Qed.
Print Assumptions C200_injection_refuted.

(** The build reads the keywords that _version.py declares. *)
Theorem C201_keywords : forall l1 l2 l3 l4 n a b c, Forall other_line (l1 ++ l2 ++ l3 ++ l4) -> one_line a -> one_line b -> one_line c ->
  read_keywords (Some (declares l1 l2 l3 l4 n a b c)) = {| k_refnames := Some a; k_full := Some b; k_date := Some c |}.
Proof. exact read_declared. Qed.
Print Assumptions C201_keywords.

(** The build and the package in place find the same version. *)
Theorem C201_agree_partial : forall l1 l2 l3 l4 n a b c run dir, Forall other_line (l1 ++ l2 ++ l3 ++ l4) -> one_line a -> one_line b -> one_line c ->
  ~ contains (word "version_json = '''" ++ [ascii_of_N 10]) (declares l1 l2 l3 l4 n a b c) ->
  (forall x d, In d (firstn 3 (skipn 2 dir)) -> d <> word "None" ++ x) ->
  (forall i, get_versions {| k_refnames := Some a; k_full := Some b; k_date := Some c |} run dir = Ok i <-> build_versions (Some (declares l1 l2 l3 l4 n a b c)) run = Ok (info_obj i)) /\
  (forall e, get_versions {| k_refnames := Some a; k_full := Some b; k_date := Some c |} run dir = Raise e <-> build_versions (Some (declares l1 l2 l3 l4 n a b c)) run = Raise e).
Proof. exact builds_same. Qed.
Print Assumptions C201_agree_partial.

(** The installed package has the version that the checkout has in place. *)
Theorem C201_installed_partial : forall l1 l2 l3 l4 n a b c run dir old i, Forall other_line (l1 ++ l2 ++ l3 ++ l4) -> one_line a -> one_line b -> one_line c ->
  ~ contains (word "version_json = '''" ++ [ascii_of_N 10]) (declares l1 l2 l3 l4 n a b c) ->
  (forall x d, In d (firstn 3 (skipn 2 dir)) -> d <> word "None" ++ x) ->
  get_versions {| k_refnames := Some a; k_full := Some b; k_date := Some c |} run dir = Ok i ->
  harmless (v_version i) -> harmless_option (v_full i) -> harmless_option (v_error i) -> harmless_option (v_date i) ->
  exists t, build_py (Some (declares l1 l2 l3 l4 n a b c)) run (Some old) = Ok t /\ import_versions t = Ok (info_obj i) /\ package_version t = Ok (JText (v_version i)).
Proof. exact wheel_same. Qed.
Print Assumptions C201_installed_partial.

Definition C201_file : list ascii := declares [word "import re"; word "def get_keywords():"] [] [] [word "    return {}"] 4 (word "$Format:%d$") (word "$Format:%H$") (word "$Format:%ci$").
Definition C201_no_git : runner := fun _ => (None, None).
(** Without git, a package below a directory whose name starts with None finds a version in place; the build does not. *)
Theorem C201_agree_refuted : exists dir i o, get_versions unexpanded C201_no_git dir = Ok i /\ v_version i = word "-1.0" /\
  build_versions (Some C201_file) C201_no_git = Ok o /\ In (word "version", JText (word "0+unknown")) o.
Proof. exact none_dir. Qed.
Print Assumptions C201_agree_refuted.

(** build_ext on its own, not in place, fails: there is no version file to replace. *)
Theorem C201_ext_refuted : forall file run v, build_versions file run = Ok v -> build_ext false file run None = Raise RuntimeError /\ build_ext true file run None = Ok None.
Proof. exact ext_alone. Qed.
Print Assumptions C201_ext_refuted.

Example C200_case : exists v, build_py (Some C201_file) (C200_tag (word "1.2")) (Some C201_file) = Ok v /\ package_version v = Ok (JText (word "1.2")) /\ build_py (Some v) C201_no_git (Some v) = Ok v.
Proof. eexists. split; [vm_compute; reflexivity|]. split; vm_compute; reflexivity. Qed.
Example C200_case_harmless : harmless (word "1.2+3.g0123abc.dirty") /\ harmless_option (Some (word "tag 'x' doesn't start with prefix 'v'")) /\ ~ harmless (word "1""2").
Proof. exact harmless_cases. Qed.
Example C201_case : Forall other_line ([word "import re"; word "def get_keywords():"] ++ [] ++ [] ++ [word "    return {}"]) /\ one_line (word "$Format:%d$") /\
  ~ contains (word "version_json = '''" ++ [ascii_of_N 10]) C201_file.
Proof. exact file_cases. Qed.

(** The file written is printable ASCII and line ends, whatever the texts are. *)
Theorem C200_ascii : forall old o v, write_to_version_file old o = Ok v -> Forall (fun c => printable c \/ c = ascii_of_N 10) v.
Proof. exact file_ascii. Qed.
Print Assumptions C200_ascii.
(** Each character of a text in the file is one of the text or one that escapes are made of. *)
Theorem C200_letters : forall t d, In d (json_text t) -> In d t \/ In d escape_letters.
Proof. exact text_letters. Qed.
Print Assumptions C200_letters.
(** A dictionary read has each key once; if the file gives a key twice, with its last value. *)
Theorem C200_last_value : forall o, o <> [] -> exists o', json_loads (json_dumps o) = Ok o' /\ NoDup (map fst o') /\ (forall k, In k (map fst o') <-> In k (map fst o)) /\ forall k v, In (k, v) o' -> last_value o k v.
Proof. exact last_wins. Qed.
Print Assumptions C200_last_value.
Example C200_twice : json_loads (json_dumps [(word "a", JBool true); (word "b", JNull); (word "a", JText [ascii_of_N 127])]) = Ok [(word "a", JText [ascii_of_N 127]); (word "b", JNull)] /\
  json_text [ascii_of_N 127; ascii_of_N 27] = word """\u007f\u001b""".
Proof. exact twice_case. Qed.

(** A tag that git allows and with which the file is a program that runs f() at import and then gives version 1: the literal ends in the
    tag and has a complete dictionary, and a second literal takes what follows.  Programs that are not the template are outside the
    model, which reports a RuntimeError. *)
Theorem C200_code_refuted : exists tag v value rest other o, tag = word "1""}''';f()or'''" /\ build_py None (C200_tag tag) (Some []) = Ok v /\
  v = file_head ++ word "version_json = '''" ++ rest /\ literal rest = Ok (value, word ";f()or'''" ++ other) /\ (exists w, literal other = Ok (w, file_tail)) /\
  json_loads value = Ok o /\ In (word "version", JText (word "1")) o /\ import_versions v = Raise RuntimeError.
Proof. exact tag_runs. Qed.
Print Assumptions C200_code_refuted.

(** The keywords that the build reads stand in the file in quotation marks, in a line that starts with the name. *)
Theorem C201_quoted : forall f pr name v, In (pr, name) [(k_refnames, "git_refnames"); (k_full, "git_full"); (k_date, "git_date")]%string -> pr (read_keywords (Some f)) = Some v ->
  exists line, one_line line /\ contains line f /\ assigns name v line.
Proof. exact keywords_from. Qed.
Print Assumptions C201_quoted.

(** build_ext in place leaves the file as it is; not in place it writes what build_py writes. *)
Theorem C201_ext_inplace : forall file run c x, build_ext true file run c = Ok x -> x = c.
Proof. exact ext_inplace. Qed.
Print Assumptions C201_ext_inplace.
Theorem C201_ext_same : forall file run c t, build_ext false file run c = Ok (Some t) <-> build_py file run c = Ok t.
Proof. exact ext_same. Qed.
Print Assumptions C201_ext_same.

(** In a checkout the keywords are those of a file that git has not expanded. *)
Theorem C201_unexpanded : forall l1 l2 l3 l4 n, Forall other_line (l1 ++ l2 ++ l3 ++ l4) -> read_keywords (Some (declares l1 l2 l3 l4 n (word "$Format:%d$") (word "$Format:%H$") (word "$Format:%ci$"))) = unexpanded.
Proof. exact read_unexpanded. Qed.
Print Assumptions C201_unexpanded.
