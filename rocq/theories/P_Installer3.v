(** Proofs for the versioneer installer: pieces kept around replaced lines, and cases where setup goes wrong. *)
From Coq Require Import List Ascii String ZArith NArith Bool Arith Lia.
From Verif Require Import M_Base M_Writers M_Version M_Installer S_Version S_BuildVersion S_Installer P_Version P_BuildVersion P_Installer P_Installer2.
Import ListNotations.

Lemma replace_pieces c old new : forall n s, (List.length s <= n)%nat -> exists p ps, s = glued (c :: old) p ps /\ replace_all (c :: old) new 0 s = glued new p ps /\ ~ contains (c :: old) p /\ Forall (fun q => ~ contains (c :: old) q) ps.
Proof.
  assert (E0 : ~ contains (c :: old) []) by (intros (a & b & E); destruct a; discriminate E).
  induction n as [|n IH]; intros s L.
  - destruct s; [|cbn in L; lia]. exists [], []. cbn. auto.
  - destruct s as [|d s]; [exists [], []; cbn; auto|]. cbn [List.length] in L. destruct (after_prefix (c :: old) (d :: s)) as [r|] eqn:A.
    + apply after_prefix_inv in A. injection A as -> ->. destruct (IH r) as (p & ps & E1 & E2 & N & F); [rewrite app_length in L; lia|]. exists [], (p :: ps). split; [unfold glued in *; cbn [app flat_map]; rewrite E1 at 1; rewrite <- app_assoc; reflexivity|]. split.
      * change (replace_all (c :: old) new 0 (c :: old ++ r)) with (match after_prefix (c :: old) ((c :: old) ++ r) with Some _ => new ++ replace_all (c :: old) new (List.length (c :: old) - 1) (old ++ r) | None => c :: replace_all (c :: old) new 0 (old ++ r) end).
        rewrite after_prefix_app. cbn [List.length]. rewrite Nat.sub_0_r || (replace (S (List.length old) - 1)%nat with (List.length old) by lia). rewrite replace_skip, E2. unfold glued. cbn [app flat_map]. rewrite <- app_assoc. reflexivity.
      * split; [exact E0|constructor; assumption].
    + destruct (IH s) as (p & ps & E1 & E2 & N & F); [lia|]. exists (d :: p), ps. split; [unfold glued in *; cbn [app]; rewrite E1 at 1; reflexivity|]. split; [|split; [|exact F]].
      * change (replace_all (c :: old) new 0 (d :: s)) with (match after_prefix (c :: old) (d :: s) with Some _ => new ++ replace_all (c :: old) new (List.length (c :: old) - 1) s | None => d :: replace_all (c :: old) new 0 s end).
        rewrite A, E2. reflexivity.
      * intros (a & b & E). destruct a as [|x a]; [|injection E as -> E; apply N; exists a, b; exact E]. cbn [app] in E. injection E as -> E. unfold glued in E1. rewrite E in E1. rewrite E1 in A.
        change (c :: (old ++ b) ++ flat_map (fun q => (c :: old) ++ q) ps) with ((c :: old ++ b) ++ flat_map (fun q => (c :: old) ++ q) ps) in A. change (c :: old ++ b) with ((c :: old) ++ b) in A. rewrite <- app_assoc, after_prefix_app in A. discriminate A.
Qed.
Theorem init_kept source old : exists p ps, old = glued old_lines p ps /\ Forall (fun q => ~ contains old_lines q) (p :: ps) /\
  (new_init source old = glued (version_lines (module_of source)) p ps \/ ps = [] /\ ~ contains (version_lines (module_of source)) old /\ new_init source old = old ++ version_lines (module_of source)).
Proof.
  unfold new_init. cbv zeta. rewrite snippet_is. change old_snippet with old_lines. destruct (occurs old_lines old) eqn:O.
  - destruct (replace_pieces newline (tl old_lines) (version_lines (module_of source)) _ old (le_n _)) as (p & ps & E1 & E2 & N & F). change (newline :: tl old_lines) with old_lines in *. exists p, ps. split; [exact E1|]. split; [constructor; assumption|]. left. exact E2.
  - exists old, []. unfold glued. cbn [flat_map]. rewrite app_nil_r. split; [reflexivity|]. split; [constructor; [apply occurs_false, O|constructor]|]. destruct (occurs (version_lines (module_of source)) old) eqn:V; [left; reflexivity|]. right. split; [reflexivity|]. split; [apply occurs_false, V|reflexivity].
Qed.

(** * Paths with white space *)
Theorem space_grows parse long f s c w : f_setup f = Some s -> parse s = Config c -> c_vcs c = word "git" -> In w (c_source c) -> white w ->
  exists t, f_manifest (fst (do_setup parse long f)) = Some (match f_manifest f with Some m => m | None => [] end ++ t ++ word "include " ++ c_source c ++ [newline]).
Proof.
  intros S P V I W. unfold do_setup, get_config. rewrite S, P, V. destruct (list_eq_dec ascii_dec (word "git") (txt "git")) as [_|C]; [|exfalso; apply C; reflexivity]. cbn [fst f_manifest]. unfold new_manifest. cbv zeta.
  assert (M : mem_text (c_source c) (includes_of (f_manifest f)) = false). { destruct (mem_text _ _) eqn:M; [|reflexivity]. apply mem_spec, includes_spec in M. destruct M as (z & r & _ & _ & _ & F & _). exfalso. rewrite Forall_forall in F. exact (F w I W). }
  rewrite M. unfold append_to. destruct (mem_text (txt "versioneer.py") _); [exists []; reflexivity|]. exists (txt "include versioneer.py" ++ [nl]). rewrite <- !app_assoc. reflexivity.
Qed.

(** * Cases *)
Definition case_config : config := {| c_vcs := word "git"; c_style := word "pep440"; c_source := word "oceanmesh/_version.py"; c_tag := word "v"; c_parent := [] |}.
Definition case_parse (s : text) : parsed := Config case_config.
Definition case_long (c : config) : text := [].
Definition case_files (i m a : option text) : files := {| f_setup := Some []; f_version := None; f_init := i; f_manifest := m; f_attributes := a |}.
Definition run (f : files) : files := fst (do_setup case_parse case_long f).
Definition file (l : list string) : text := file_of l.
Theorem shared_again : let f := case_files (Some (old_lines ++ tl old_lines)) None None in f_init (run (run f)) <> f_init (run f).
Proof. intros f H. vm_compute in H. discriminate H. Qed.
Theorem unfinished_again : let f := case_files None None (Some (word "*.png binary")) in f_attributes (run (run f)) <> f_attributes (run f).
Proof. intros f H. vm_compute in H. discriminate H. Qed.
Theorem unfinished_init : let f := case_files (Some (removelast old_lines)) None None in f_init (run (run f)) <> f_init (run f).
Proof. intros f H. vm_compute in H. discriminate H. Qed.
Theorem formatted_again : let f := case_files (Some (file ["from . import _version"; ""; "__version__ = _version.get_versions()[""version""]"; ""; "from . import _version"; ""; "__version__ = _version.get_versions()[""version""]"]%string)) None None in
  exists t, f_init f = Some t /\ f_init (run f) = Some (t ++ version_lines (word "_version")).
Proof. eexists. split; [reflexivity|]. vm_compute. reflexivity. Qed.
Lemma no_word x s : ~ In x (words s) -> ~ word_of x s. Proof. rewrite words_spec. tauto. Qed.
Theorem readme_lost : let f := case_files None (Some (word "include README.md")) None in includes (word "README.md") (f_manifest f) /\ ~ includes (word "README.md") (f_manifest (run f)).
Proof.
  cbv zeta. split; [apply includes_spec; vm_compute; auto|]. intros H. apply includes_spec in H. vm_compute in H. intuition discriminate.
Qed.
Theorem longer_name : let f := case_files None None (Some (file ["oceanmesh/_version.pyc export-subst"]%string)) in
  f_attributes (run f) = f_attributes f /\ ~ attributed (word "oceanmesh/_version.py") (word "export-subst") (f_attributes (run f)).
Proof.
  cbv zeta. split; [vm_compute; reflexivity|]. intros (s & k & rest & E & K & L & (c & r & -> & C) & _). replace (f_attributes (run _)) with (Some (file ["oceanmesh/_version.pyc export-subst"]%string)) in E by (vm_compute; reflexivity). injection E as <-. apply lines_spec in L. destruct k as [|d k].
  - vm_compute in L. destruct L as [L|[L|[]]]; [|discriminate L]. injection L as <- _. apply space_white in C. vm_compute in C. discriminate C.
  - inversion K as [|? ? D _ X]; subst. apply space_white in D. cbn [app] in L. vm_compute in L. destruct L as [L|[L|[]]]; [|discriminate L]. injection L as <- _. vm_compute in D. discriminate D.
Qed.
Theorem emptied parse long f s c : f_setup f = Some s -> parse s = Config c -> c_vcs c <> word "git" -> do_setup parse long f = ({| f_setup := f_setup f; f_version := Some []; f_init := f_init f; f_manifest := f_manifest f; f_attributes := f_attributes f |}, Raise KeyError).
Proof. intros S P V. unfold do_setup, get_config. rewrite S, P. destruct (list_eq_dec ascii_dec (c_vcs c) (txt "git")) as [E|_]; [exfalso; apply V, E|]. rewrite ?S. reflexivity. Qed.
Theorem commented : exists py, scan_setup_py py = 0%nat /\ forall l, line_of l py -> l = [] \/ exists r, l = "#"%char :: r.
Proof.
  exists (file ["# import versioneer"; "# versioneer.get_cmdclass() versioneer.get_version()"]%string). split; [vm_compute; reflexivity|]. intros l L. apply lines_spec in L. vm_compute in L. destruct L as [<-|[<-|[<-|[]]]]; [right|right|left; reflexivity]; eexists; reflexivity.
Qed.
Theorem spelled : exists py, setup_fails 0 py = true /\ contains (word "import versioneer") py /\ contains (word "version=versioneer.get_version( )") py /\ contains (word "cmdclass=versioneer.get_cmdclass()") py.
Proof.
  exists (file ["import versioneer"; "setup(version=versioneer.get_version( ), cmdclass=versioneer.get_cmdclass())"]%string). split; [vm_compute; reflexivity|]. split; [|split]; apply occurs_spec; vm_compute; reflexivity.
Qed.
Theorem init_lines source module old : module_name source module -> contains (version_lines module) (new_init source old).
Proof. intros M. rewrite <- (module_is _ _ M). apply init_has. Qed.
Theorem init_rest source module old : module_name source module -> exists p ps, old = glued old_lines p ps /\ Forall (fun q => ~ contains old_lines q) (p :: ps) /\
  (new_init source old = glued (version_lines module) p ps \/ ps = [] /\ ~ contains (version_lines module) old /\ new_init source old = old ++ version_lines module).
Proof. intros M. rewrite <- (module_is _ _ M). apply init_kept. Qed.
