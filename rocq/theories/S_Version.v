(** What a version text should say, written from git's and PEP 440's descriptions of their formats. *)
From Coq Require Import List Ascii String ZArith NArith.
From Verif Require Import S_Writers.
Import ListNotations.

Definition word (s : string) : list ascii := list_ascii_of_string s.
(** Decimal notation of a number, without a leading zero. *)
Definition decimal (n : N) (d : list ascii) : Prop := read_int d = Some n /\ (d = word "0" \/ hd_error d <> Some "0"%char).
Definition hex_digit (c : ascii) : Prop := In c (word "0123456789abcdef").
Definition hex (h : list ascii) : Prop := h <> [] /\ Forall hex_digit h.
Definition mark (b : bool) (s : string) : list ascii := if b then word s else [].
(** White space and line breaks: codes up to 32. *)
Definition printable (c : ascii) : Prop := (32 < N_of_ascii c)%N.
Definition solid (s : list ascii) : Prop := s <> [] /\ Forall printable s.

(** git describe --tags --dirty --always --long for a commit [n] after the tag [tag]. *)
Definition describe_text (tag d h : list ascii) (dirty : bool) : list ascii := tag ++ word "-" ++ d ++ word "-g" ++ h ++ mark dirty "-dirty".
(** git show --format=%ci: day, time, zone; and ISO 8601. *)
Definition git_date (day time zone : list ascii) : list ascii := day ++ word " " ++ time ++ word " " ++ zone.
Definition iso_text (day time zone : list ascii) : list ascii := day ++ word "T" ++ time ++ zone.

(** The version of a tagged checkout: the tag, and the distance, hash and dirtiness unless it is exactly the tag. *)
Inductive tagged_version (tag : list ascii) (n : N) (h : list ascii) : bool -> list ascii -> Prop :=
| at_tag : n = 0%N -> tagged_version tag n h false tag
| past_tag dirty d sep : n <> 0%N \/ dirty = true -> decimal n d ->
    (In "+"%char tag -> sep = word ".") -> (~ In "+"%char tag -> sep = word "+") ->
    tagged_version tag n h dirty (tag ++ sep ++ d ++ word ".g" ++ h ++ mark dirty ".dirty").

(** PEP 440: release, pre, post and development segments; a local label. *)
Definition number (s : list ascii) : Prop := s <> [] /\ Forall (fun c => In c (word "0123456789")) s.
Definition label_char (c : ascii) : Prop := In c (word "0123456789abcdefghijklmnopqrstuvwxyz").
Definition label (s : list ascii) : Prop := s <> [] /\ Forall label_char s.
Inductive release : list ascii -> Prop :=
| release_one a : number a -> release a
| release_more r a : release r -> number a -> release (r ++ word "." ++ a).
Inductive optional_number (mark : string) : list ascii -> Prop :=
| opt_none : optional_number mark []
| opt_some a : number a -> optional_number mark (word mark ++ a).
Inductive local_part : list ascii -> Prop :=
| local_one a : label a -> local_part a
| local_more r a : local_part r -> label a -> local_part (r ++ word "." ++ a).
Definition public_part (s : list ascii) : Prop :=
  exists r pre post dev, s = r ++ pre ++ post ++ dev /\ release r /\ (optional_number "a" pre \/ optional_number "b" pre \/ optional_number "rc" pre) /\
    optional_number ".post" post /\ optional_number ".dev" dev.
Definition pep440_version (s : list ascii) : Prop := public_part s \/ exists a b, s = a ++ word "+" ++ b /\ public_part a /\ local_part b.

(** References listed by git log --decorate. *)
Definition plain_ref (r : list ascii) : Prop :=
  r <> [] /\ (forall c, In c r -> c <> ","%char /\ c <> "("%char /\ c <> ")"%char) /\
  (forall c, hd_error r = Some c -> printable c) /\ (forall c, hd_error (rev r) = Some c -> printable c).
Fixpoint listed (refs : list (list ascii)) : list ascii :=
  match refs with [] => [] | [r] => r | r :: rs => r ++ word ", " ++ listed rs end.
Definition ref_names (refs : list (list ascii)) : list ascii := word " (" ++ listed refs ++ word ")".
(** The release [v] has its tag among the references. *)
Definition starts_with_digit (v : list ascii) : Prop := exists c r, v = c :: r /\ In c (word "0123456789").
Definition tagged_release (refs : list (list ascii)) (v : list ascii) : Prop := In (word "tag: v" ++ v) refs /\ starts_with_digit v.
(** Alphabetical order of texts. *)
Inductive before : list ascii -> list ascii -> Prop :=
| before_end c r : before [] (c :: r)
| before_char a b r s : (N_of_ascii a < N_of_ascii b)%N -> before (a :: r) (b :: s)
| before_rest a r s : before r s -> before (a :: r) (a :: s).
(** git branch --contains on a detached head: a line "* (...)", then the branches. *)
Fixpoint branch_lines (names : list (list ascii)) : list ascii := match names with [] => [] | n :: r => "010"%char :: word "  " ++ n ++ branch_lines r end.
