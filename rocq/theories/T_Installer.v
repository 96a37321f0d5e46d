(** Theorems on `python versioneer.py setup`: C210, C211, C212. *)
From Coq Require Import List Ascii String ZArith NArith Bool Lia.
From Verif Require Import M_Base M_Version M_Installer S_Version S_BuildVersion S_Installer P_Installer P_Installer2 P_Installer3.
Import ListNotations.

(** C210 with conditions on the files: a second run changes nothing.  Missing: files that end in an unfinished line, two copies of the
    old lines, paths with white space; see the refutations. *)
Theorem C210_idempotent_partial parse long f s c : f_setup f = Some s -> parse s = Config c -> c_vcs c = word "git" -> solid (c_source c) -> whole_lines (f_manifest f) -> whole_lines (f_attributes f) ->
  match f_init f with None => True | Some t => whole t /\ ~ contains old_lines t end ->
  let f1 := fst (do_setup parse long f) in
  fst (do_setup parse long f1) = f1 /\ snd (do_setup parse long f1) = Ok (0%Z, [word "MANIFEST.in"; c_source c] ++ match f_init f with Some _ => [word "__init__.py"] | None => [] end).
Proof. exact (setup_again parse long f s c). Qed.
Print Assumptions C210_idempotent_partial.

(** C210 without a configuration: the sample is added once and nothing else is touched, provided the sample lacks an option. *)
Theorem C210_unconfigured parse long f : (forall s, f_setup f = Some s -> parse s = NoSection) -> (forall s, parse (s ++ sample_config) = NoOption) ->
  let f1 := fst (do_setup parse long f) in
  do_setup parse long f1 = (f1, Ok (1%Z, [])) /\ f_version f1 = f_version f /\ f_init f1 = f_init f /\ f_manifest f1 = f_manifest f /\ f_attributes f1 = f_attributes f.
Proof. exact (sample_again parse long f). Qed.
Print Assumptions C210_unconfigured.

(** C210 for a path with white space: every run adds the line for it to MANIFEST.in again. *)
Theorem C210_space parse long f s c w : f_setup f = Some s -> parse s = Config c -> c_vcs c = word "git" -> In w (c_source c) -> white w ->
  exists t, f_manifest (fst (do_setup parse long f)) = Some (match f_manifest f with Some m => m | None => [] end ++ t ++ word "include " ++ c_source c ++ [newline]).
Proof. exact (space_grows parse long f s c w). Qed.
Print Assumptions C210_space.

(** C210 fails when two copies of the old lines share a line break: the first run replaces one of them, the second the other. *)
Theorem C210_shared_refuted : let f := case_files (Some (old_lines ++ tl old_lines)) None None in f_init (run (run f)) <> f_init (run f).
Proof. exact shared_again. Qed.
Print Assumptions C210_shared_refuted.

(** C210 fails for a .gitattributes whose last line has no line break: the new line is joined to it and written again by the next run. *)
Theorem C210_attributes_refuted : let f := case_files None None (Some (word "*.png binary")) in f_attributes (run (run f)) <> f_attributes (run f).
Proof. exact unfinished_again. Qed.
Print Assumptions C210_attributes_refuted.

(** C210 fails for an __init__.py that holds the old lines without the last line break. *)
Theorem C210_init_refuted : let f := case_files (Some (removelast old_lines)) None None in f_init (run (run f)) <> f_init (run f).
Proof. exact unfinished_init. Qed.
Print Assumptions C210_init_refuted.

(** C211: __init__.py always gets the lines for the module, whose name is that of the file without directory and extension. *)
Theorem C211_init source module old : module_name source module -> contains (version_lines module) (new_init source old).
Proof. exact (init_lines source module old). Qed.
Print Assumptions C211_init.

(** C211: the rest of __init__.py is kept: copies of the old lines are exchanged for the new ones where they stand, or the new ones are
    added at the end of a file with neither. *)
Theorem C211_init_kept source module old : module_name source module -> exists p ps, old = glued old_lines p ps /\ Forall (fun q => ~ contains old_lines q) (p :: ps) /\
  (new_init source old = glued (version_lines module) p ps \/ ps = [] /\ ~ contains (version_lines module) old /\ new_init source old = old ++ version_lines module).
Proof. exact (init_rest source module old). Qed.
Print Assumptions C211_init_kept.

(** C211 for the lines of /repo/oceanmesh/__init__.py, which a formatter has changed: they are not recognised and a third copy is added. *)
Theorem C211_formatted_refuted : let f := case_files (Some (file_of ["from . import _version"; ""; "__version__ = _version.get_versions()[""version""]"; ""; "from . import _version"; ""; "__version__ = _version.get_versions()[""version""]"]%string)) None None in
  exists t, f_init f = Some t /\ f_init (run f) = Some (t ++ version_lines (word "_version")).
Proof. exact formatted_again. Qed.
Print Assumptions C211_formatted_refuted.

(** C211: MANIFEST.in includes what it included, versioneer.py and the version file, if its last line is finished. *)
Theorem C211_manifest_partial source o x : solid source -> whole_lines o -> includes x (new_manifest source o) <-> includes x o \/ x = word "versioneer.py" \/ x = source.
Proof. exact (manifest_kept source o x). Qed.
Print Assumptions C211_manifest_partial.

(** C211 fails for an unfinished last line: README.md is no longer included. *)
Theorem C211_manifest_refuted : let f := case_files None (Some (word "include README.md")) None in includes (word "README.md") (f_manifest f) /\ ~ includes (word "README.md") (f_manifest (run f)).
Proof. exact readme_lost. Qed.
Print Assumptions C211_manifest_refuted.

(** C211: .gitattributes gives the version file the attribute, if its last line is finished and no line starts with a longer name. *)
Theorem C211_attributes_partial source o : solid source -> whole_lines o -> (forall s k c r, o = Some s -> line_of (k ++ source ++ c :: r) s -> Forall white k -> white c) -> attributed source (word "export-subst") (new_attributes source o).
Proof. exact (attributes_set source o). Qed.
Print Assumptions C211_attributes_partial.

(** C211: a finished .gitattributes keeps its lines. *)
Theorem C211_attributes_kept source s l : whole s -> line_of l s -> l <> [] -> exists s', new_attributes source (Some s) = Some s' /\ line_of l s'.
Proof. exact (lines_kept source s l). Qed.
Print Assumptions C211_attributes_kept.

(** C211 fails when a longer name has the attribute: the version file is left without it. *)
Theorem C211_attributes_refuted : let f := case_files None None (Some (file_of ["oceanmesh/_version.pyc export-subst"]%string)) in
  f_attributes (run f) = f_attributes f /\ ~ attributed (word "oceanmesh/_version.py") (word "export-subst") (f_attributes (run f)).
Proof. exact longer_name. Qed.
Print Assumptions C211_attributes_refuted.

(** C211 for a version control system that is not git: the version file is emptied before the KeyError. *)
Theorem C211_emptied parse long f s c : f_setup f = Some s -> parse s = Config c -> c_vcs c <> word "git" ->
  do_setup parse long f = ({| f_setup := f_setup f; f_version := Some []; f_init := f_init f; f_manifest := f_manifest f; f_attributes := f_attributes f |}, Raise KeyError).
Proof. exact (emptied parse long f s c). Qed.
Print Assumptions C211_emptied.

(** C212: setup.py passes when the text has the three phrases, anywhere, and neither of the other two. *)
Theorem C212_scan s : scan_setup_py s = 0%nat <-> contains (word "import versioneer") s /\ contains (word "versioneer.get_cmdclass()") s /\ contains (word "versioneer.get_version()") s /\ ~ contains (word "versioneer.VCS") s /\ ~ contains (word "versioneer.versionfile_source") s.
Proof. exact (scan_zero s). Qed.
Print Assumptions C212_scan.

(** C212: after a configured run the program ends with status 0 exactly when setup.py passes. *)
Theorem C212_status parse long f s c py : f_setup f = Some s -> parse s = Config c -> c_vcs c = word "git" -> exists l, snd (do_setup parse long f) = Ok (0%Z, l) /\ (setup_fails 0 py = false <-> scan_setup_py py = 0%nat).
Proof. exact (setup_status parse long f s c py). Qed.
Print Assumptions C212_status.

(** C212 says little about the program: a file of comments passes. *)
Theorem C212_commented_refuted : exists py, scan_setup_py py = 0%nat /\ forall l, line_of l py -> l = [] \/ exists r, l = "#"%char :: r.
Proof. exact commented. Qed.
Print Assumptions C212_commented_refuted.

(** C212: a correct setup.py with a space in a call fails. *)
Theorem C212_spelled_refuted : exists py, setup_fails 0 py = true /\ contains (word "import versioneer") py /\ contains (word "version=versioneer.get_version( )") py /\ contains (word "cmdclass=versioneer.get_cmdclass()") py.
Proof. exact spelled. Qed.
Print Assumptions C212_spelled_refuted.

(** A case that meets the hypotheses: the MANIFEST.in and .gitattributes of /repo with an __init__.py that has no version yet. *)
Definition case_manifest : list ascii := file_of ["include oceanmesh/cpp/*.cpp"; "include tests/*"; ""; "include README.md LICENSE.txt"; "global-include CMakeLists.txt"; "include versioneer.py"; "include oceanmesh/_version.py"]%string.
Example C210_case : let f := case_files (Some (file_of ["from .clean import delete_boundary_faces"]%string)) (Some case_manifest) None in
  f_setup f = Some [] /\ case_parse [] = Config case_config /\ c_vcs case_config = word "git" /\ solid (c_source case_config) /\ whole_lines (f_manifest f) /\ whole_lines (f_attributes f) /\
  (match f_init f with None => True | Some t => whole t /\ ~ contains old_lines t end) /\
  f_manifest (run f) = f_manifest f /\ f_attributes (run f) = Some (file_of ["oceanmesh/_version.py export-subst"]%string) /\
  f_init (run f) = Some (file_of ["from .clean import delete_boundary_faces"; ""; "from . import _version"; "__version__ = _version.get_versions()['version']"]%string).
Proof.
  cbv zeta. split; [reflexivity|]. split; [reflexivity|]. split; [reflexivity|]. split; [split; [discriminate|repeat constructor]|].
  split; [right; exists (removelast case_manifest); vm_compute; reflexivity|]. split; [exact I|]. split; [split; [right; eexists (removelast (file_of ["from .clean import delete_boundary_faces"]%string)); vm_compute; reflexivity|apply occurs_false; vm_compute; reflexivity]|]. vm_compute. auto.
Qed.
Example C211_case : module_name (word "oceanmesh/_version.py") (word "_version") /\ new_init (word "oceanmesh/_version.py") (word "x" ++ old_lines ++ word "y") = word "x" ++ version_lines (word "_version") ++ word "y".
Proof.
  split; [|vm_compute; reflexivity]. exists (word "oceanmesh/"), (word "py"). split; [reflexivity|]. split; [right; exists (word "oceanmesh"); reflexivity|]. split; [cbn; intuition discriminate|]. split; [cbn; intuition discriminate|]. exists "_"%char. split; [left; reflexivity|discriminate].
Qed.
Example C212_case : setup_fails 0 (file_of ["import versioneer"; "setup(version=versioneer.get_version(), cmdclass=versioneer.get_cmdclass())"]%string) = false /\ setup_fails 0 (file_of ["import versioneer"; "versioneer.VCS = 'git'"; "setup(version=versioneer.get_version(), cmdclass=versioneer.get_cmdclass())"]%string) = true.
Proof. vm_compute. auto. Qed.
