(** C163-C165: the version of a checkout and of an archive. *)
From Coq Require Import List Ascii String ZArith NArith Bool.
From Verif Require Import M_Base M_Writers S_Writers M_Version S_Version P_Version P_VersionMore.
Import ListNotations.
Local Open Scope string_scope.
Local Open Scope list_scope.

(** ** C163 *)
(** A checkout under a tag "v...", hyphens and all: the version is the tag with the distance, hash and dirtiness. *)
Theorem C163_tagged : forall run file tag n d h f b bs day time zone dirty o r1 r2 r3,
  run GitDir = (o, Some 0%Z) -> run Describe = (Some (describe_text (word "v" ++ tag) d h dirty), r1) -> run RevParse = (Some f, r2) ->
  run AbbrevRef = (Some b, Some 0%Z) -> run BranchContains = (Some bs, Some 0%Z) -> run ShowDate = (Some (git_date day time zone), r3) ->
  tag <> [] -> ~ In nl tag -> read_int d = Some n -> hex h -> hex f -> solid day -> solid time -> solid zone ->
  exists ver, tagged_version tag n h dirty ver /\
    get_versions unexpanded run file = Ok {| v_version := ver; v_full := Some f; v_dirty := Some dirty; v_error := None; v_date := Some (iso_text day time zone) |}.
Proof. exact version_tagged. Qed.
Print Assumptions C163_tagged.
(** A checkout without a tag: the number of commits and the first seven digits of the hash. *)
Theorem C163_untagged : forall run file n c h f b bs day time zone dirty o r1 r2 r3 r4,
  run GitDir = (o, Some 0%Z) -> run Describe = (Some (h ++ mark dirty "-dirty"), r1) -> run RevParse = (Some f, r2) ->
  run AbbrevRef = (Some b, Some 0%Z) -> run BranchContains = (Some bs, Some 0%Z) -> run RevCount = (Some c, r4) -> run ShowDate = (Some (git_date day time zone), r3) ->
  decimal n c -> hex h -> hex f -> solid day -> solid time -> solid zone ->
  get_versions unexpanded run file = Ok {| v_version := word "0+untagged." ++ c ++ word ".g" ++ firstn 7 f ++ mark dirty ".dirty";
    v_full := Some f; v_dirty := Some dirty; v_error := None; v_date := Some (iso_text day time zone) |}.
Proof. exact version_untagged. Qed.
Print Assumptions C163_untagged.
(** Outside git, or without git, the version is unknown and nothing is raised. *)
Theorem C163_no_git : forall run a b rest, snd (run GitDir) <> Some 0%Z -> (forall x d, In d (firstn 3 rest) -> d <> word "None" ++ x) ->
  get_versions unexpanded run (a :: b :: rest) = Ok {| v_version := word "0+unknown"; v_full := None; v_dirty := None; v_error := Some (word "unable to compute version"); v_date := None |}.
Proof. exact version_no_git. Qed.
Print Assumptions C163_no_git.
(** The first of three directories whose name starts with the text "None" gives the version (the setting None became a text). *)
Theorem C163_parent : forall run a b pre d post x, snd (run GitDir) <> Some 0%Z -> (List.length pre < 3)%nat -> (forall y e, In e pre -> e <> word "None" ++ y) -> d = word "None" ++ x ->
  get_versions unexpanded run (a :: b :: pre ++ d :: post) = Ok {| v_version := x; v_full := None; v_dirty := Some false; v_error := None; v_date := None |}.
Proof. exact version_parent. Qed.
Print Assumptions C163_parent.
(** A tag that does not start with "v": unknown, with the hash and an error. *)
Theorem C163_foreign : forall run file tag n d h f b bs dirty o r1 r2,
  run GitDir = (o, Some 0%Z) -> run Describe = (Some (describe_text tag d h dirty), r1) -> run RevParse = (Some f, r2) ->
  run AbbrevRef = (Some b, Some 0%Z) -> run BranchContains = (Some bs, Some 0%Z) ->
  solid tag -> (forall x, tag <> word "v" ++ x) -> read_int d = Some n -> hex h -> hex f ->
  exists err, err <> [] /\ get_versions unexpanded run file = Ok {| v_version := word "unknown"; v_full := Some f; v_dirty := None; v_error := Some err; v_date := None |}.
Proof. exact version_foreign. Qed.
Print Assumptions C163_foreign.
(** The style git-describe-long gives git's own text back, without the prefix. *)
Theorem C163_describe_long : forall run tag n d h f b bs day time zone dirty o r1 r2 r3,
  run GitDir = (o, Some 0%Z) -> run Describe = (Some (describe_text (word "v" ++ tag) d h dirty), r1) -> run RevParse = (Some f, r2) ->
  run AbbrevRef = (Some b, Some 0%Z) -> run BranchContains = (Some bs, Some 0%Z) -> run ShowDate = (Some (git_date day time zone), r3) ->
  tag <> [] -> ~ In nl tag -> decimal n d -> hex h -> hex f -> solid day -> solid time -> solid zone ->
  exists ps i, pieces_from_vcs (word "v") run = Ok (Some ps) /\ render ps "git-describe-long" = Ok i /\ word "v" ++ v_version i = describe_text (word "v" ++ tag) d h dirty.
Proof. exact describe_long. Qed.
Print Assumptions C163_describe_long.
(** The branch: the current one; on a detached head master if it contains the commit, else the first that does. *)
Theorem C163_branch : forall run b, run AbbrevRef = (Some b, Some 0%Z) -> solid b -> b <> word "HEAD" -> branch_of run = Ok (Some (Some b)).
Proof. exact branch_attached. Qed.
Print Assumptions C163_branch.
Theorem C163_detached : forall run bs here names, run AbbrevRef = (Some (word "HEAD"), Some 0%Z) -> run BranchContains = (Some bs, Some 0%Z) ->
  bs = word "* (" ++ here ++ branch_lines names -> ~ In nl here -> Forall (fun n => ~ In nl n) names ->
  branch_of run = Ok (Some (if in_dec (list_eq_dec ascii_dec) (word "master") names then Some (word "master") else hd_error names)).
Proof. exact branch_detached. Qed.
Print Assumptions C163_detached.
(** A clean checkout of the tag itself has the tag as its version in every style but git-describe-long; other styles are refused. *)
Theorem C163_styles : forall p t, p_tag p = Some t -> t <> [] -> p_distance p = 0%N -> p_dirty p = false ->
  forall style, In style ["pep440"; "pep440-branch"; "pep440-pre"; "pep440-post"; "pep440-post-branch"; "pep440-old"; "git-describe"] ->
  render (Parts p) style = Ok {| v_version := t; v_full := Some (p_long p); v_dirty := Some false; v_error := None; v_date := Some (p_date p) |}.
Proof. exact styles_at_tag. Qed.
Print Assumptions C163_styles.
Theorem C163_unknown_style : forall p style,
  ~ In style [""; "default"; "pep440"; "pep440-branch"; "pep440-pre"; "pep440-post"; "pep440-post-branch"; "pep440-old"; "git-describe"; "git-describe-long"] ->
  render (Parts p) style = Raise ValueError.
Proof. exact styles_unknown. Qed.
Print Assumptions C163_unknown_style.
(** Every style away from the tag, and without a tag; [dev] marks branches other than master. *)
Theorem C163_formats : forall p t sep dev, p_tag p = Some t -> t <> [] -> p_distance p <> 0%N \/ p_dirty p = true ->
  (In "+"%char t -> sep = word ".") -> (~ In "+"%char t -> sep = word "+") ->
  (p_branch p = Some (word "master") -> dev = []) -> (p_branch p <> Some (word "master") -> dev = word ".dev0") ->
  exists k, decimal (p_distance p) k /\
    let gives style v := render (Parts p) style = Ok {| v_version := v; v_full := Some (p_long p); v_dirty := Some (p_dirty p); v_error := None; v_date := Some (p_date p) |} in
    gives "pep440" (t ++ sep ++ k ++ word ".g" ++ p_short p ++ mark (p_dirty p) ".dirty") /\
    gives "pep440-branch" (t ++ dev ++ sep ++ k ++ word ".g" ++ p_short p ++ mark (p_dirty p) ".dirty") /\
    gives "pep440-post" (t ++ word ".post" ++ k ++ mark (p_dirty p) ".dev0" ++ sep ++ word "g" ++ p_short p) /\
    gives "pep440-post-branch" (t ++ word ".post" ++ k ++ dev ++ sep ++ word "g" ++ p_short p ++ mark (p_dirty p) ".dirty") /\
    gives "pep440-old" (t ++ word ".post" ++ k ++ mark (p_dirty p) ".dev0") /\
    (p_distance p <> 0%N -> gives "git-describe" (t ++ word "-" ++ k ++ word "-g" ++ p_short p ++ mark (p_dirty p) "-dirty")) /\
    gives "git-describe-long" (t ++ word "-" ++ k ++ word "-g" ++ p_short p ++ mark (p_dirty p) "-dirty").
Proof. exact all_styles. Qed.
Print Assumptions C163_formats.
Theorem C163_formats_untagged : forall p dev, p_tag p = None ->
  (p_branch p = Some (word "master") -> dev = []) -> (p_branch p <> Some (word "master") -> dev = word ".dev0") ->
  exists k, decimal (p_distance p) k /\
    let gives style v := render (Parts p) style = Ok {| v_version := v; v_full := Some (p_long p); v_dirty := Some (p_dirty p); v_error := None; v_date := Some (p_date p) |} in
    gives "pep440" (word "0+untagged." ++ k ++ word ".g" ++ p_short p ++ mark (p_dirty p) ".dirty") /\
    gives "pep440-branch" (word "0" ++ dev ++ word "+untagged." ++ k ++ word ".g" ++ p_short p ++ mark (p_dirty p) ".dirty") /\
    gives "pep440-pre" (word "0.post0.dev" ++ k) /\
    gives "pep440-post" (word "0.post" ++ k ++ mark (p_dirty p) ".dev0" ++ word "+g" ++ p_short p) /\
    gives "pep440-post-branch" (word "0.post" ++ k ++ dev ++ word "+g" ++ p_short p ++ mark (p_dirty p) ".dirty") /\
    gives "pep440-old" (word "0.post" ++ k ++ mark (p_dirty p) ".dev0") /\
    gives "git-describe" (p_short p ++ mark (p_dirty p) "-dirty") /\
    gives "git-describe-long" (p_short p ++ mark (p_dirty p) "-dirty").
Proof. exact all_untagged. Qed.
Print Assumptions C163_formats_untagged.
(** The style pep440-pre counts the post-release of the tag up; ".post" alone is ".post0". *)
Theorem C163_pre : forall p base d n, p_tag p = Some (base ++ word ".post" ++ d) -> (forall a b, base <> a ++ word ".post" ++ b) ->
  (d = [] /\ n = 0%N \/ read_int d = Some n) -> p_distance p <> 0%N ->
  exists m k, decimal (n + 1) m /\ decimal (p_distance p) k /\ render (Parts p) "pep440-pre" =
    Ok {| v_version := base ++ word ".post" ++ m ++ word ".dev" ++ k; v_full := Some (p_long p); v_dirty := Some (p_dirty p); v_error := None; v_date := Some (p_date p) |}.
Proof. exact pre_post. Qed.
Print Assumptions C163_pre.
Theorem C163_pre_plain : forall p t, p_tag p = Some t -> t <> [] -> (forall a b, t <> a ++ word ".post" ++ b) -> p_distance p <> 0%N ->
  exists k, decimal (p_distance p) k /\ render (Parts p) "pep440-pre" =
    Ok {| v_version := t ++ word ".post0.dev" ++ k; v_full := Some (p_long p); v_dirty := Some (p_dirty p); v_error := None; v_date := Some (p_date p) |}.
Proof. exact pre_plain. Qed.
Print Assumptions C163_pre_plain.
(** Lines about a signature before the date change nothing. *)
Theorem C163_signed : forall run run' file sg day time zone r r', (forall c, c <> ShowDate -> run' c = run c) -> solid day -> solid time -> solid zone ->
  run ShowDate = (Some (git_date day time zone), r) -> run' ShowDate = (Some (sg ++ nl :: git_date day time zone), r') ->
  get_versions unexpanded run' file = get_versions unexpanded run file.
Proof. exact version_signed. Qed.
Print Assumptions C163_signed.
(** Looking up the version always succeeds: false when git answers the first questions and fails later (an interrupted git show). *)
Definition C163_repo (desc : string) (date : option text) : runner := fun c =>
  match c with
  | GitDir => (Some (txt ".git"), Some 0%Z) | Describe => (Some (txt desc), Some 0%Z) | RevParse => (Some (txt "0123abcd4567"), Some 0%Z)
  | AbbrevRef => (Some (txt "master"), Some 0%Z) | BranchContains => (Some (txt "* master"), Some 0%Z) | RevCount => (Some (txt "17"), Some 0%Z) | ShowDate => (date, if date then Some 0%Z else Some 128%Z)
  end.
Theorem C163_import_refuted : exists run file, (forall c, snd (run c) <> Some 0%Z -> fst (run c) = None) /\ get_versions unexpanded run file = Raise AttributeError.
Proof. exact version_import. Qed.
Print Assumptions C163_import_refuted.
(** The closest tag is in the version: false of the tag "v" itself, which the pattern "v*" also finds. *)
Theorem C163_bare_tag_refuted : exists run file d h v, fst (run Describe) = Some (describe_text (word "v") d h false) /\
  get_versions unexpanded run file = Ok v /\ v_version v = word "0+untagged.3.g" ++ h.
Proof. exact version_bare. Qed.
Print Assumptions C163_bare_tag_refuted.
Example C163_case : exists i, get_versions unexpanded (C163_repo "v1.0-rc-2-14-g0123abc-dirty" (Some (txt "2024-05-06 07:08:09 +0200"))) [] = Ok i /\
  v_version i = txt "1.0-rc-2+14.g0123abc.dirty" /\ v_date i = Some (txt "2024-05-06T07:08:09+0200") /\ v_dirty i = Some true.
Proof. eexists. split; [vm_compute; reflexivity|]. repeat split. Qed.
Example C163_case_local : exists i, get_versions unexpanded (C163_repo "v1.0+sea-2-g0123abc" (Some (txt "2024-05-06 07:08:09 +0200"))) [] = Ok i /\
  v_version i = txt "1.0+sea.2.g0123abc".
Proof. eexists. split; [vm_compute; reflexivity|]. reflexivity. Qed.
Example C163_case_untagged : exists i, get_versions unexpanded (C163_repo "0123abc" (Some (txt "2024-05-06 07:08:09 +0200"))) [] = Ok i /\
  v_version i = txt "0+untagged.17.g0123abc".
Proof. eexists. split; [vm_compute; reflexivity|]. reflexivity. Qed.
Example C163_case_pre : exists i, render (Parts {| p_long := []; p_short := txt "ab"; p_branch := None; p_dirty := true; p_tag := Some (txt "1.2.post4"); p_distance := 9; p_date := [] |}) "pep440-pre" = Ok i /\
  v_version i = txt "1.2.post5.dev9".
Proof. eexists. split; [vm_compute; reflexivity|]. reflexivity. Qed.
Example C163_case_formats : exists i, render (Parts {| p_long := []; p_short := txt "ab"; p_branch := Some (txt "work"); p_dirty := true; p_tag := Some (txt "1.2"); p_distance := 9; p_date := [] |}) "pep440-branch" = Ok i /\
  v_version i = txt "1.2.dev0+9.gab.dirty".
Proof. eexists. split; [vm_compute; reflexivity|]. reflexivity. Qed.
Example C163_case_post : forall a b, txt "1.2" <> a ++ word ".post" ++ b.
Proof. intros [|? [|? [|? [|? ?]]]] b H; discriminate. Qed.
Example C163_case_signed : get_versions unexpanded (C163_repo "v1.0-0-gab" (Some (txt "gpg: Good signature" ++ nl :: txt "2024-05-06 07:08:09 +0200"))) [] =
  get_versions unexpanded (C163_repo "v1.0-0-gab" (Some (txt "2024-05-06 07:08:09 +0200"))) [].
Proof. vm_compute. reflexivity. Qed.
Example C163_case_answers : hex (word "0123abc") /\ read_int (word "14") = Some 14%N /\ solid (word "+0200").
Proof. repeat split; try discriminate; cbn; repeat (constructor; [vm_compute; tauto|]); constructor. Qed.

(** ** C164 *)
(** Versions identify the checkout: equal texts come from the same tag, distance and state, and from the same hash unless the commit is the tag itself. *)
Theorem C164_identifies_partial : forall p q,
  (forall t, p_tag p = Some t -> t <> [] /\ ~ In "+"%char t) -> (forall t, p_tag q = Some t -> t <> [] /\ ~ In "+"%char t) ->
  hex (p_short p) -> hex (p_short q) -> render_pep440 p = render_pep440 q ->
  p_tag p = p_tag q /\ p_distance p = p_distance q /\ p_dirty p = p_dirty q /\
  (p_tag p = None \/ p_distance p <> 0%N \/ p_dirty p = true -> p_short p = p_short q).
Proof. exact render_identifies. Qed.
Print Assumptions C164_identifies_partial.
(** With a plus sign in a tag two different checkouts have the same version. *)
Theorem C164_identifies_refuted : exists p q, p_tag p = Some (word "1.0") /\ p_tag q = Some (word "1.0+3.gab") /\ p_distance p <> p_distance q /\
  hex (p_short p) /\ hex (p_short q) /\ render_pep440 p = render_pep440 q.
Proof. exact render_collides. Qed.
Print Assumptions C164_identifies_refuted.
(** If the tag is a PEP 440 version, so is the text; and also without a tag. *)
Theorem C164_pep440_partial : forall p, (forall t, p_tag p = Some t -> pep440_version t) -> hex (p_short p) -> pep440_version (render_pep440 p).
Proof. exact render_pep440_ok. Qed.
Print Assumptions C164_pep440_partial.
(** Any tag "v..." is taken, so the text need not be a PEP 440 version. *)
Theorem C164_pep440_refuted : exists run file i, fst (run Describe) = Some (describe_text (word "verified") (word "0") (word "ab12") false) /\
  get_versions unexpanded run file = Ok i /\ v_version i = word "erified" /\ ~ pep440_version (v_version i).
Proof. exact version_not_pep440. Qed.
Print Assumptions C164_pep440_refuted.
Example C164_case : pep440_version (word "1.2rc3+4.gab.dirty") /\
  render_pep440 {| p_long := []; p_short := txt "ab"; p_branch := None; p_dirty := true; p_tag := Some (txt "1.2rc3"); p_distance := 4; p_date := [] |} = word "1.2rc3+4.gab.dirty".
Proof. exact pep440_case. Qed.

(** ** C165 *)
(** An archive of a tagged commit: of its release tags the alphabetically first is taken, with the hash and the date. *)
Theorem C165_tagged : forall run file refs full day time zone v0, Forall plain_ref refs -> hex full -> solid day -> solid time -> solid zone -> tagged_release refs v0 ->
  exists v, tagged_release refs v /\ (forall w, tagged_release refs w -> w = v \/ before v w) /\
    get_versions {| k_refnames := Some (ref_names refs); k_full := Some full; k_date := Some (git_date day time zone) |} run file =
      Ok {| v_version := v; v_full := Some full; v_dirty := Some false; v_error := None; v_date := Some (iso_text day time zone) |}.
Proof. exact archive_tagged. Qed.
Print Assumptions C165_tagged.
(** Lines before the date and a line break after it change nothing. *)
Theorem C165_lines : forall run file refs full day time zone pre e, solid day -> solid time -> solid zone ->
  (pre = [] \/ exists q, pre = q ++ [nl]) -> e = [] \/ e = [nl] \/ e = ["013"%char; nl] ->
  get_versions {| k_refnames := refs; k_full := full; k_date := Some (pre ++ git_date day time zone ++ e) |} run file =
  get_versions {| k_refnames := refs; k_full := full; k_date := Some (git_date day time zone) |} run file.
Proof. exact archive_lines. Qed.
Print Assumptions C165_lines.
(** Tags, but none of a release. *)
Theorem C165_unsuitable : forall run file refs full day time zone, refs <> [] -> Forall plain_ref refs -> hex full -> solid day -> solid time -> solid zone ->
  (exists t, In (word "tag: " ++ t) refs) -> (forall v, ~ tagged_release refs v) ->
    get_versions {| k_refnames := Some (ref_names refs); k_full := Some full; k_date := Some (git_date day time zone) |} run file =
      Ok {| v_version := word "0+unknown"; v_full := Some full; v_dirty := Some false; v_error := Some (word "no suitable tags"); v_date := None |}.
Proof. exact archive_unsuitable. Qed.
Print Assumptions C165_unsuitable.
(** No tag: a reference named like a release, which may be a branch, gives the version. *)
Theorem C165_branch : forall run file refs full day time zone v0, Forall plain_ref refs -> hex full -> solid day -> solid time -> solid zone ->
  (forall t, ~ In (word "tag: " ++ t) refs) -> In (word "v" ++ v0) refs -> starts_with_digit v0 ->
  exists v, In (word "v" ++ v) refs /\ starts_with_digit v /\
    get_versions {| k_refnames := Some (ref_names refs); k_full := Some full; k_date := Some (git_date day time zone) |} run file =
      Ok {| v_version := v; v_full := Some full; v_dirty := Some false; v_error := None; v_date := Some (iso_text day time zone) |}.
Proof. exact archive_branch. Qed.
Print Assumptions C165_branch.
Theorem C165_nothing : forall run file refs full day time zone, refs <> [] -> Forall plain_ref refs -> hex full -> solid day -> solid time -> solid zone ->
  (forall t, ~ In (word "tag: " ++ t) refs) -> (forall v, starts_with_digit v -> ~ In (word "v" ++ v) refs) ->
    get_versions {| k_refnames := Some (ref_names refs); k_full := Some full; k_date := Some (git_date day time zone) |} run file =
      Ok {| v_version := word "0+unknown"; v_full := Some full; v_dirty := Some false; v_error := Some (word "no suitable tags"); v_date := None |}.
Proof. exact archive_nothing. Qed.
Print Assumptions C165_nothing.
(** Without a release tag the version is unknown: false of a commit at the head of a branch named v2-work. *)
Theorem C165_untagged_refuted : exists run file k i, k_refnames k = Some (ref_names [word "origin/v2-work"; word "v2-work"]) /\
  get_versions k run file = Ok i /\ v_version i = word "2-work" /\ v_error i = None.
Proof. exact archive_by_branch. Qed.
Print Assumptions C165_untagged_refuted.
(** The newest of several tags is taken: false, 2.0 and 1.0 on one commit give 1.0. *)
Theorem C165_newest_refuted : exists run file k i, k_refnames k = Some (ref_names [word "HEAD -> master"; word "tag: v2.0"; word "tag: v1.0"]) /\
  get_versions k run file = Ok i /\ v_version i = word "1.0".
Proof. exact archive_newest. Qed.
Print Assumptions C165_newest_refuted.
(** An archive with an empty date cannot be imported. *)
Theorem C165_empty_date : forall run file refs full, get_versions {| k_refnames := Some refs; k_full := full; k_date := Some [] |} run file = Raise IndexError.
Proof. exact archive_no_date. Qed.
Print Assumptions C165_empty_date.
Example C165_case : plain_ref (word "HEAD -> master") /\ tagged_release [word "HEAD -> master"; word "tag: v2.0"; word "tag: v2.0rc1"] (word "2.0") /\ before (word "2.0") (word "2.0rc1").
Proof. exact archive_case. Qed.
Example C165_case_run : forall run file, exists i,
  get_versions {| k_refnames := Some (txt " (HEAD -> master, tag: v2.0rc1, tag: v2.0, tag: nightly)"); k_full := Some (txt "0123abcd"); k_date := Some (txt "2024-05-06 07:08:09 +0200") |} run file = Ok i /\
  v_version i = txt "2.0" /\ v_full i = Some (txt "0123abcd").
Proof. intros. eexists. split; [vm_compute; reflexivity|]. split; reflexivity. Qed.
