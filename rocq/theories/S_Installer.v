(** Specification vocabulary for the files written by versioneer's setup, independent of the model. *)
From Coq Require Import List Ascii String ZArith NArith Bool.
From Verif Require Import S_Version S_BuildVersion.
Import ListNotations.

Definition newline : ascii := ascii_of_N 10.
(** A file without an unfinished last line, or no file. *)
Definition whole (s : list ascii) : Prop := s = [] \/ exists t, s = t ++ [newline].
Definition whole_lines (o : option (list ascii)) : Prop := match o with None => True | Some s => whole s end.
(** The lines of a file. *)
Definition line_of (l s : list ascii) : Prop :=
  one_line l /\ exists a b, s = a ++ l ++ b /\ whole a /\ (b = [] \/ exists b', b = newline :: b').
(** White space of str.split: tab to return, 28 to 32. *)
Definition white (c : ascii) : Prop := (9 <= N_of_ascii c <= 13 \/ 28 <= N_of_ascii c <= 32)%N.
(** The words of a line. *)
Definition word_of (x s : list ascii) : Prop :=
  x <> [] /\ Forall (fun c => ~ white c) x /\ exists a b, s = a ++ x ++ b /\ (a = [] \/ exists a' c, a = a' ++ [c] /\ white c) /\ (b = [] \/ exists c b', b = c :: b' /\ white c).
(** MANIFEST.in includes a file by name. *)
Definition includes (x : list ascii) (o : option (list ascii)) : Prop :=
  exists s rest, o = Some s /\ line_of (word "include " ++ rest) s /\ word_of x rest.
(** .gitattributes gives a file an attribute: a line whose first word is the file and one of whose other words is the attribute. *)
Definition attributed (x att : list ascii) (o : option (list ascii)) : Prop :=
  exists s k rest, o = Some s /\ Forall white k /\ line_of (k ++ x ++ rest) s /\ (exists c r, rest = c :: r /\ white c) /\ word_of att rest.
(** The lines that __init__.py needs. *)
Definition version_lines (module : list ascii) : list ascii :=
  newline :: code_lines [word "from . import " ++ module; word "__version__ = " ++ module ++ word ".get_versions()['version']"].
Definition old_lines : list ascii :=
  newline :: code_lines [word "from ._version import get_versions"; word "__version__ = get_versions()['version']"; word "del get_versions"].
(** module is the name of the file without directory and without extension. *)
Definition module_name (source module : list ascii) : Prop :=
  exists dir ext, source = dir ++ module ++ word "." ++ ext /\ (dir = [] \/ exists d, dir = d ++ word "/") /\ ~ In "/"%char (module ++ ext) /\ ~ In "."%char ext /\ exists c, In c module /\ c <> "."%char.
(** A text made of pieces with a separator between them. *)
Definition glued (sep first : list ascii) (pieces : list (list ascii)) : list ascii := first ++ flat_map (fun q => sep ++ q) pieces.
(** The lines of a file in quotes, each ended by a line break. *)
Definition file_of (l : list string) : list ascii := code_lines (map word l).
