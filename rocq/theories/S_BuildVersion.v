(** Specification vocabulary for the version file, independent of the model. *)
From Coq Require Import List Ascii String NArith.
From Verif Require Import S_Version.
Import ListNotations.

(** Characters that JSON writes as they are. *)
Definition unescaped (c : ascii) : Prop := (32 <= N_of_ascii c <= 126)%N /\ c <> ascii_of_N 34 /\ c <> ascii_of_N 92.
(** Characters above 126, which JSON writes by their code in a notation that Python reads in the same way. *)
Definition by_code (c : ascii) : Prop := (127 <= N_of_ascii c)%N.
Definition plain_char (c : ascii) : Prop := unescaped c \/ by_code c.
Definition contains (part s : list ascii) : Prop := exists a b, s = a ++ part ++ b.
(** No quotation mark, backslash or control character, and no three apostrophes in a row. *)
Definition harmless (s : list ascii) : Prop := Forall plain_char s /\ ~ contains (word "'''") s.
Definition harmless_option (o : option (list ascii)) : Prop := match o with Some s => harmless s | None => True end.

(** A line of Python that assigns a quoted text to a name, and lines that do not start with the name. *)
Definition indented (n : nat) (s : list ascii) : list ascii := repeat " "%char n ++ s.
Definition assignment (name : string) (value : list ascii) : list ascii := word name ++ word " = """ ++ value ++ word """".
Definition code_lines (l : list (list ascii)) : list ascii := flat_map (fun s => s ++ [ascii_of_N 10]) l.
Definition one_line (s : list ascii) : Prop := ~ In (ascii_of_N 10) s.
(** The names that the build looks for. *)
Definition names : list string := ["git_refnames"; "git_full"; "git_date"]%string.
Definition other_line (s : list ascii) : Prop := one_line s /\ forall n k r, In n names -> Forall (fun c => (N_of_ascii c <= 32)%N) k -> s <> k ++ word n ++ word " =" ++ r.
(** A file that assigns the three names once each, in this order, among other lines. *)
Definition declares (l1 l2 l3 l4 : list (list ascii)) (n : nat) (a b c : list ascii) : list ascii :=
  code_lines (l1 ++ [indented n (assignment "git_refnames" a)] ++ l2 ++ [indented n (assignment "git_full" b)] ++ l3 ++ [indented n (assignment "git_date" c)] ++ l4).

(** Printable ASCII characters, and those that JSON uses for escapes. *)
Definition printable (c : ascii) : Prop := (32 <= N_of_ascii c <= 126)%N.
Definition escape_letters : list ascii := word """\bfnrtu0123456789abcdef".
(** The last value given for a key. *)
Definition last_value {V : Type} (o : list (list ascii * V)) (k : list ascii) (v : V) : Prop := exists a b, o = a ++ (k, v) :: b /\ ~ In k (map fst b).
(** A line that starts with the name and has a value in quotation marks after an equality sign. *)
Definition blank (c : ascii) : Prop := (N_of_ascii c <= 32)%N.
Definition assigns (name : string) (value line : list ascii) : Prop :=
  (exists k r, line = k ++ (word name ++ word " =") ++ r /\ Forall blank k) /\
  exists a w b, line = a ++ word "=" ++ w ++ ascii_of_N 34 :: value ++ ascii_of_N 34 :: b /\ Forall blank w /\ ~ In (ascii_of_N 34) b.
