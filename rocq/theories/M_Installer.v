(** Model of `python versioneer.py setup` (versioneer.py:1308-1342, 1979-2167): what it writes.  Texts are as read in text mode, so the
    only line break is \n; they are lists of characters with codes below 256, as in M_Version.  The files are those in the current
    directory, which is the root. *)
From Coq Require Import List Ascii String ZArith NArith Bool Arith.
From Verif Require Import M_Base M_Writers M_Version.
Import ListNotations.

(** part in s. *)
Fixpoint occurs (part s : text) : bool :=
  match after_prefix part s with Some _ => true | None => match s with [] => false | _ :: r => occurs part r end end.
(** s.replace(old, new) (versioneer.py:2068) for a text [old] that is not empty: from left to right; [skip] characters belong to the copy just replaced. *)
Fixpoint replace_all (old new : text) (skip : nat) (s : text) : text :=
  match s with
  | [] => []
  | c :: r => match skip with
              | S k => replace_all old new k r
              | O => match after_prefix old s with Some _ => new ++ replace_all old new (List.length old - 1) r | None => c :: replace_all old new O r end
              end
  end.
(** s.split(): the words between white space. *)
Fixpoint words_from (s cur : text) : list text :=
  match s with
  | [] => if nonempty cur then [rev cur] else []
  | c :: r => if is_space c then if nonempty cur then rev cur :: words_from r [] else words_from r [] else words_from r (c :: cur)
  end.
Definition words (s : text) : list text := words_from s [].
Definition starts (p s : text) : bool := match after_prefix p s with Some _ => true | None => false end.
Definition mem_text (t : text) (l : list text) : bool := existsb (fun x => if list_eq_dec ascii_dec t x then true else false) l.

(** VersioneerConfig (versioneer.py:292-293, 355-364); the entry verbose is not used by setup.  Simplified: every entry is a text. *)
Record config : Type := { c_vcs : text; c_style : text; c_source : text; c_tag : text; c_parent : text }.
(** What get_config_from_root does (versioneer.py:339-364): OSError or NoSectionError; NoOptionError; a configuration.  configparser
    is the parameter [parse] below. *)
Inductive parsed : Type := NoSection | NoOption | Config (c : config).
(** The files that setup reads or writes; None is a missing file.  Simplified: a file that exists can be read. *)
Record files : Type := { f_setup : option text; f_version : option text; f_init : option text; f_manifest : option text; f_attributes : option text }.
(** open(.., "a") and write. *)
Definition append_to (o : option text) (s : text) : option text := Some (match o with Some t => t | None => [] end ++ s).

(** versioneer.py:2017-2026. *)
Definition lines_text (l : list string) : text := flat_map (fun s => txt s ++ [nl]) l.
Definition old_snippet : text := nl :: lines_text ["from ._version import get_versions"; "__version__ = get_versions()['version']"; "del get_versions"]%string.
Definition snippet (module : text) : text :=
  nl :: txt "from . import " ++ module ++ nl :: txt "__version__ = " ++ module ++ txt ".get_versions()['version']" ++ [nl].
(** versioneer.py:2002-2015. *)
Definition sample_config : text :=
  nl :: lines_text ["# See the docstring in versioneer.py for instructions. Note that you must"; "# re-run 'versioneer.py setup' after changing this section, and commit the"; "# resulting files."; "";
    "[versioneer]"; "#VCS = git"; "#style = pep440"; "#versionfile_source ="; "#versionfile_build ="; "#tag_prefix ="; "#parentdir_prefix ="; ""]%string.
(** os.path.splitext(os.path.basename(source))[0] (versioneer.py:2063): the name after the last slash, without its last extension. *)
Definition basename (p : text) : text := match rsplit "/" p with Some (_, b) => b | None => p end.
Definition module_of (source : text) : text :=
  let b := basename source in match rsplit "." b with Some (a, _) => if forallb (Ascii.eqb ".") a then b else a | None => b end.
(** versioneer.py:2064-2075 on the text of __init__.py. *)
Definition new_init (source old : text) : text :=
  let s := snippet (module_of source) in
  if occurs old_snippet old then replace_all old_snippet s 0 old else if occurs s old then old else old ++ s.
(** versioneer.py:2084-2092. *)
Definition includes_of (manifest : option text) : list text :=
  match manifest with Some s => flat_map (fun line => if starts (txt "include ") line then tl (words line) else []) (split_char nl s) | None => [] end.
(** versioneer.py:2097-2111. *)
Definition new_manifest (source : text) (m : option text) : option text :=
  let inc := includes_of m in
  let m1 := if mem_text (txt "versioneer.py") inc then m else append_to m (txt "include versioneer.py" ++ [nl]) in
  if mem_text source inc then m1 else append_to m1 (txt "include " ++ source ++ [nl]).
(** versioneer.py:1328-1337. *)
Definition marked (source line : text) : bool := starts source (strip line) && mem_text (txt "export-subst") (tl (words (strip line))).
Definition present (source : text) (a : option text) : bool := match a with Some s => existsb (marked source) (split_char nl s) | None => false end.
(** versioneer.py:1338-1340. *)
Definition new_attributes (source : text) (a : option text) : option text :=
  if present source a then a else append_to a (source ++ txt " export-subst" ++ [nl]).
Section Setup.
(** configparser and the text LONG_VERSION_PY["git"] with its five entries filled in (versioneer.py:435-1071, 2044-2054). *)
Variable parse : text -> parsed.
Variable long_version : config -> text.
Definition get_config (f : files) : parsed := match f_setup f with Some s => parse s | None => NoSection end.
(** versioneer.py:2029-2117: the files left, and what is returned with the files given to git add (:1342) besides versioneer.py.
    The version file is opened for writing, that is emptied, before the lookup of the VCS can raise a KeyError. *)
Definition do_setup (f : files) : files * res (Z * list text) :=
  match get_config f with
  | NoSection => ({| f_setup := append_to (f_setup f) sample_config; f_version := f_version f; f_init := f_init f; f_manifest := f_manifest f; f_attributes := f_attributes f |}, Ok (1%Z, []))
  | NoOption => (f, Ok (1%Z, []))
  | Config c =>
      if list_eq_dec ascii_dec (c_vcs c) (txt "git") then
        let src := c_source c in
        ({| f_setup := f_setup f; f_version := Some (long_version c); f_init := option_map (new_init src) (f_init f);
            f_manifest := new_manifest src (f_manifest f); f_attributes := new_attributes src (f_attributes f) |},
         Ok (0%Z, [txt "MANIFEST.in"; src] ++ match f_init f with Some _ => [txt "__init__.py"] | None => [] end ++
                  if present src (f_attributes f) then [] else [txt ".gitattributes"]))
      else ({| f_setup := f_setup f; f_version := Some []; f_init := f_init f; f_manifest := f_manifest f; f_attributes := f_attributes f |}, Raise KeyError)
  end.
End Setup.
(** versioneer.py:2120-2157: the number of complaints about setup.py. *)
Definition scan_setup_py (s : text) : nat :=
  let lines := split_char nl s in
  let found (p : string) := existsb (occurs (txt p)) lines in
  (if found "import versioneer"%string && found "versioneer.get_cmdclass()"%string && found "versioneer.get_version()"%string then 0 else 1) +
  (if found "versioneer.VCS"%string || found "versioneer.versionfile_source"%string then 1 else 0).
(** versioneer.py:2160-2167: whether the program ends with status 1. *)
Definition setup_fails (code : Z) (setup_py : text) : bool := negb (code + Z.of_nat (scan_setup_py setup_py) =? 0)%Z.
