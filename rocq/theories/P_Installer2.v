(** Versioneer's setup: __init__.py, a second run, setup.py. *)
From Coq Require Import List Ascii String ZArith NArith Bool Arith Lia.
From Verif Require Import M_Base M_Writers M_Version M_Installer S_Version S_BuildVersion S_Installer P_Version P_BuildVersion P_BuildVersion2 P_Installer.
Import ListNotations.

(** * __init__.py *)
Lemma snippet_is m : snippet m = version_lines m.
Proof. unfold snippet, version_lines, code_lines. cbn [flat_map]. rewrite <- !app_assoc, app_nil_r. cbn [app]. reflexivity. Qed.
Lemma old_is : old_snippet = old_lines. Proof. reflexivity. Qed.
Lemma replace_skip old new : forall r s, replace_all old new (List.length r) (r ++ s) = replace_all old new 0 s.
Proof. induction r as [|c r IH]; intros s; [reflexivity|]. cbn [List.length app replace_all]. apply IH. Qed.
Lemma replace_has c old new : forall s, contains (c :: old) s -> contains new (replace_all (c :: old) new 0 s).
Proof.
  induction s as [|d s IH]; intros H.
  - destruct H as (a & b & E). destruct a; discriminate.
  - cbn [replace_all]. destruct (after_prefix (c :: old) (d :: s)) eqn:E.
    + exists [], (replace_all (c :: old) new (List.length (c :: old) - 1) s). reflexivity.
    + destruct (IH) as (a & b & ->); [|exists (d :: a), b; reflexivity]. destruct H as (a & b & H). destruct a as [|x a]; [cbn [app] in H; rewrite H in E; change (c :: old ++ b) with ((c :: old) ++ b) in E; rewrite after_prefix_app in E; discriminate|]. injection H as _ H. exists a, b. exact H.
Qed.
Theorem init_has source old : contains (version_lines (module_of source)) (new_init source old).
Proof.
  rewrite <- snippet_is. unfold new_init. cbv zeta. destruct (occurs old_snippet old) eqn:E.
  - apply occurs_spec in E. change old_snippet with (nl :: tl old_snippet) in *. apply replace_has, E.
  - destruct (occurs (snippet (module_of source)) old) eqn:E2; [apply occurs_spec, E2|]. exists old, []. rewrite app_nil_r. reflexivity.
Qed.
(** A copy of the old lines cannot straddle the end of a finished file. *)
Definition agrees (p s : text) : bool := (fix go p s := match p, s with c :: p', d :: s' => Ascii.eqb c d && go p' s' | _, _ => true end) p s.
Lemma agrees_app : forall y h t b, h ++ t = y ++ b -> agrees y h = true.
Proof. induction y as [|c y IH]; intros h t b E; [reflexivity|]. destruct h as [|d h]; [reflexivity|]. cbn in E. injection E as -> E. cbn [agrees]. change (agrees (c :: y) (c :: h)) with (Ascii.eqb c c && agrees y h). rewrite Ascii.eqb_refl. eapply IH, E. Qed.
Lemma splits_checked : forallb (fun k => let y := skipn k old_snippet in negb (agrees y (nl :: txt "from . import ")) || (List.length y <=? 1)%nat) (seq 0 (List.length old_snippet)) = true.
Proof. vm_compute. reflexivity. Qed.
Lemma old_suffix l y h t b : old_snippet = l ++ y -> h = nl :: txt "from . import " -> h ++ t = y ++ b -> (List.length y <= 1)%nat.
Proof.
  intros E -> H. destruct y as [|c y]; [cbn; lia|]. pose proof splits_checked as C. rewrite forallb_forall in C. specialize (C (List.length l)). cbv zeta in C.
  assert (S : skipn (List.length l) old_snippet = c :: y) by (rewrite E, skipn_app, skipn_all, Nat.sub_diag; reflexivity). rewrite S in C. rewrite (agrees_app _ _ _ _ H) in C. cbn [negb orb] in C. apply Nat.leb_le, C. apply in_seq. rewrite E, app_length. cbn. lia.
Qed.
Lemma count_free (s : text) c : ~ In c s -> count_occ ascii_dec s c = 0%nat.
Proof. apply count_occ_not_In. Qed.
Lemma snippet_count m : one_line m -> count_occ ascii_dec (snippet m) nl = 3%nat.
Proof.
  intros O. assert (Z : count_occ ascii_dec m nl = 0%nat) by (apply count_occ_not_In, O). unfold snippet. rewrite !app_comm_cons. change (nl :: txt "from . import ") with ([nl] ++ txt "from . import "). change (nl :: txt "__version__ = ") with ([nl] ++ txt "__version__ = ").
  rewrite !count_occ_app, Z. vm_compute. reflexivity.
Qed.
Lemma no_straddle m old : one_line m -> whole old -> ~ contains old_snippet old -> ~ contains old_snippet (old ++ snippet m).
Proof.
  intros O W N (a & b & E). assert (NO : count_occ ascii_dec old_snippet nl = 4%nat) by (vm_compute; reflexivity). apply app_eq_app in E. destruct E as (l & [[E1 E2]|[E1 E2]]).
  - symmetry in E2. apply app_eq_app in E2. destruct E2 as (l2 & [[E3 E4]|[E3 E4]]).
    + apply N. exists a, l2. rewrite E1, E3. reflexivity.
    + assert (L : (List.length l2 <= 1)%nat). { eapply old_suffix; [exact E3|reflexivity|]. unfold snippet in E4. change (nl :: txt "from . import " ++ m ++ nl :: txt "__version__ = " ++ m ++ txt ".get_versions()['version']" ++ [nl]) with ((nl :: txt "from . import ") ++ m ++ nl :: txt "__version__ = " ++ m ++ txt ".get_versions()['version']" ++ [nl]) in E4. exact E4. }
      destruct l2 as [|c [|]]; [|clear L|cbn in L; lia].
      * rewrite app_nil_r in E3. apply N. exists a, []. rewrite app_nil_r, E3. exact E1.
      * assert (R : l = removelast old_snippet) by (rewrite E3, removelast_last; reflexivity). destruct W as [->|(t & W)]; [destruct a; [cbn in E1; rewrite <- E1 in R; discriminate R|discriminate E1]|].
        rewrite W in E1. apply (f_equal (@rev ascii)) in E1. rewrite !rev_app_distr, R in E1. discriminate E1.
  - apply (f_equal (fun s => count_occ ascii_dec s nl)) in E2. rewrite snippet_count, !count_occ_app, NO in E2 by exact O. lia.
Qed.
Lemma rsplit_parts c : forall s a b, rsplit c s = Some (a, b) -> s = a ++ c :: b /\ ~ In c b.
Proof.
  induction s as [|x s IH]; intros a b H; [discriminate|]. cbn [rsplit] in H. destruct (rsplit c s) as [[a' b']|] eqn:E.
  - injection H as <- <-. destruct (IH _ _ eq_refl) as [-> N]. split; [reflexivity|exact N].
  - destruct (Ascii.eqb x c) eqn:X; [|discriminate]. injection H as <- <-. apply Ascii.eqb_eq in X. subst. split; [reflexivity|]. clear IH. intros I. apply in_split in I. destruct I as (p & q & ->).
    assert (G : forall p, rsplit c (p ++ c :: q) <> None). { induction p0 as [|y p0 IH]; cbn [app rsplit]; [destruct (rsplit c q) as [[]|]; [discriminate|]; rewrite Ascii.eqb_refl; discriminate|]. destruct (rsplit c (p0 ++ c :: q)) as [[]|]; [discriminate|congruence]. } apply (G p E).
Qed.
Lemma rsplit_none c : forall s, rsplit c s = None -> ~ In c s.
Proof.
  induction s as [|x s IH]; intros H I; [destruct I|]. cbn [rsplit] in H. destruct (rsplit c s) as [[]|]; [discriminate|]. destruct (Ascii.eqb x c) eqn:X; [discriminate|]. destruct I as [<-|I]; [rewrite Ascii.eqb_refl in X; discriminate|]. exact (IH eq_refl I).
Qed.
Lemma rsplit_at c a b : ~ In c b -> rsplit c (a ++ c :: b) = Some (a, b).
Proof.
  intros N. induction a as [|x a IH]; cbn [app rsplit]; [|rewrite IH; reflexivity]. assert (E : rsplit c b = None) by (destruct (rsplit c b) as [[p q]|] eqn:E; [|reflexivity]; apply rsplit_parts in E; destruct E as [-> _]; exfalso; apply N, in_or_app; right; left; reflexivity). rewrite E, Ascii.eqb_refl. reflexivity.
Qed.
Lemma module_in source c : In c (module_of source) -> In c source.
Proof.
  unfold module_of, basename. cbv zeta. intros I. assert (G : forall b, In c (match rsplit "." b with Some (a, _) => if forallb (Ascii.eqb ".") a then b else a | None => b end) -> In c b).
  { intros b H. destruct (rsplit "." b) as [[p q]|] eqn:E; [|exact H]. destruct (forallb _ p); [exact H|]. apply rsplit_parts in E. destruct E as [-> _]. apply in_or_app. auto. }
  apply G in I. destruct (rsplit "/" source) as [[p q]|] eqn:E; [|exact I]. apply rsplit_parts in E. destruct E as [-> _]. apply in_or_app. right. right. exact I.
Qed.
Theorem module_is source module : module_name source module -> module_of source = module.
Proof.
  intros (dir & ext & -> & D & NS & NE & c & C & CD). unfold module_of. assert (B : basename (dir ++ module ++ word "." ++ ext) = module ++ word "." ++ ext).
  { assert (F : ~ In "/"%char (module ++ word "." ++ ext)) by (rewrite !in_app_iff in *; cbn [word list_ascii_of_string In]; intros [H|[[H|[]]|H]]; [tauto|discriminate H|tauto]). unfold basename. destruct D as [->|(d & ->)].
    - cbn [app]. destruct (rsplit "/" _) as [[p q]|] eqn:E; [|reflexivity]. apply rsplit_parts in E. destruct E as [E _]. exfalso. apply F. rewrite E. apply in_or_app. right. left. reflexivity.
    - rewrite <- app_assoc. cbn [word list_ascii_of_string app]. change (list_ascii_of_string ".") with (word "."). rewrite (rsplit_at "/" d); [reflexivity|]. exact F. }
  rewrite B. cbn [word list_ascii_of_string app]. rewrite rsplit_at by exact NE. destruct (forallb (Ascii.eqb ".") module) eqn:A; [|reflexivity]. rewrite forallb_forall in A. specialize (A c C). apply Ascii.eqb_eq in A. congruence.
Qed.
Lemma init_again source old : one_line source -> whole old -> ~ contains old_lines old -> new_init source (new_init source old) = new_init source old.
Proof.
  intros O W N. change old_lines with old_snippet in N. assert (M : one_line (module_of source)) by (intros I; apply O, module_in, I). assert (H : occurs old_snippet old = false) by (apply occurs_false, N). assert (E : new_init source old = if occurs (snippet (module_of source)) old then old else old ++ snippet (module_of source)) by (unfold new_init; rewrite H; reflexivity).
  rewrite E. destruct (occurs (snippet (module_of source)) old) eqn:S; [rewrite E, ?S; reflexivity|]. unfold new_init. cbv zeta. rewrite (proj2 (occurs_false _ _) (no_straddle _ _ M W N)). rewrite (proj2 (occurs_spec _ _)); [reflexivity|]. exists old, []. rewrite app_nil_r. reflexivity.
Qed.

(** * A second run *)
Definition init_ready (o : option text) : Prop := match o with None => True | Some s => whole s /\ ~ contains old_lines s end.
Theorem setup_again parse long f s c : f_setup f = Some s -> parse s = Config c -> c_vcs c = word "git" -> solid (c_source c) -> whole_lines (f_manifest f) -> whole_lines (f_attributes f) -> init_ready (f_init f) ->
  let f1 := fst (do_setup parse long f) in fst (do_setup parse long f1) = f1 /\ snd (do_setup parse long f1) = Ok (0%Z, [word "MANIFEST.in"; c_source c] ++ match f_init f with Some _ => [word "__init__.py"] | None => [] end).
Proof.
  intros S P V Src WM WA I f1. assert (D : forall f, f_setup f = Some s -> do_setup parse long f = ({| f_setup := Some s; f_version := Some (long c); f_init := option_map (new_init (c_source c)) (f_init f);
            f_manifest := new_manifest (c_source c) (f_manifest f); f_attributes := new_attributes (c_source c) (f_attributes f) |},
         Ok (0%Z, [txt "MANIFEST.in"; c_source c] ++ match f_init f with Some _ => [txt "__init__.py"] | None => [] end ++ if present (c_source c) (f_attributes f) then [] else [txt ".gitattributes"]))).
  { intros g G. unfold do_setup, get_config. rewrite G, P, V. destruct (list_eq_dec ascii_dec (word "git") (txt "git")) as [_|C]; [reflexivity|exfalso; apply C; reflexivity]. }
  unfold f1. rewrite (D f S). cbn [fst]. rewrite D by reflexivity. cbn [fst snd f_setup f_init f_manifest f_attributes]. destruct (attributes_again (c_source c) (f_attributes f) Src WA) as (A1 & A2 & _). rewrite manifest_again, A1, A2 by assumption. destruct (solid_wordless _ Src) as (_ & _ & O).
  destruct (f_init f) as [t|]; cbn [option_map init_ready] in *.
  - destruct I as [W N]. rewrite init_again by assumption. split; [reflexivity|]. rewrite app_nil_r. reflexivity.
  - split; reflexivity.
Qed.
Theorem sample_again parse long f : (forall s, f_setup f = Some s -> parse s = NoSection) -> (forall s, parse (s ++ sample_config) = NoOption) ->
  let f1 := fst (do_setup parse long f) in do_setup parse long f1 = (f1, Ok (1%Z, [])) /\ f_version f1 = f_version f /\ f_init f1 = f_init f /\ f_manifest f1 = f_manifest f /\ f_attributes f1 = f_attributes f.
Proof.
  intros N S f1. assert (E : do_setup parse long f = ({| f_setup := append_to (f_setup f) sample_config; f_version := f_version f; f_init := f_init f; f_manifest := f_manifest f; f_attributes := f_attributes f |}, Ok (1%Z, []))).
  { unfold do_setup, get_config. destruct (f_setup f) as [s|] eqn:E; [rewrite (N s eq_refl)|]; reflexivity. }
  unfold f1. rewrite E. cbn [fst f_version f_init f_manifest f_attributes]. split; [|auto]. unfold do_setup at 1, get_config. cbn [f_setup append_to]. unfold append_to. rewrite S. reflexivity.
Qed.

(** * What a run adds and keeps *)
Theorem manifest_kept source o x : solid source -> whole_lines o -> includes x (new_manifest source o) <-> includes x o \/ x = word "versioneer.py" \/ x = source.
Proof. intros S W. rewrite <- !includes_spec. apply (manifest_entries source o S W). Qed.
Theorem attributes_set source o : solid source -> whole_lines o -> (forall s k c r, o = Some s -> line_of (k ++ source ++ c :: r) s -> Forall white k -> white c) -> attributed source (word "export-subst") (new_attributes source o).
Proof.
  intros S W H. unfold new_attributes. destruct (present source o) eqn:P.
  - destruct o as [s|]; [|discriminate]. apply present_attributed; [exact S|exact P|]. intros k c r. apply (H s k c r eq_refl).
  - destruct (solid_wordless _ S) as (_ & _ & O). exists (match o with Some t => t | None => [] end ++ source ++ txt " export-subst" ++ [nl]), [], (word " export-subst"). split; [reflexivity|]. split; [constructor|]. split; [|split].
    + split; [intros I; cbn [app] in I; apply in_app_or in I; destruct I as [I|I]; [exact (O I)|cbn in I; intuition discriminate]|]. exists (match o with Some t => t | None => [] end), [nl]. split; [cbn [app]; rewrite <- (app_assoc source); reflexivity|]. split; [destruct o; [exact W|left; reflexivity]|right; exists []; reflexivity].
    + exists " "%char, (word "export-subst"). split; [reflexivity|right; cbn; lia].
    + apply words_spec. vm_compute. left. reflexivity.
Qed.
Theorem lines_kept source s l : whole s -> line_of l s -> l <> [] -> exists s', new_attributes source (Some s) = Some s' /\ line_of l s'.
Proof.
  intros W L N. unfold new_attributes. destruct (present source (Some s)); [exists s; auto|]. eexists. split; [reflexivity|]. destruct L as (O & a & b & -> & WA & WB). split; [exact O|]. exists a, (b ++ source ++ txt " export-subst" ++ [nl]). rewrite <- !app_assoc. split; [reflexivity|]. split; [exact WA|].
  destruct WB as [->|(b' & ->)]; [|right; eexists; reflexivity]. exfalso. rewrite app_nil_r in W. destruct W as [W|(t & W)]; [destruct a; [cbn in W; congruence|discriminate W]|]. destruct (exists_last N) as (l' & z & ->). rewrite app_assoc in W. apply app_inj_tail in W. destruct W as [_ ->]. apply O, in_or_app. right. left. reflexivity.
Qed.

(** * setup.py *)
Lemma contains_line p s : one_line p -> p <> [] -> existsb (occurs p) (split_char nl s) = true <-> contains p s.
Proof.
  intros O N. rewrite existsb_exists. split.
  - intros (l & L & C). apply lines_spec in L. destruct L as (_ & a & b & -> & _). apply occurs_spec in C. destruct C as (x & y & ->). exists (a ++ x), (y ++ b). rewrite <- !app_assoc. reflexivity.
  - intros (a & b & ->). induction a as [|c a IH].
    + cbn [app]. assert (G : forall p, ~ In nl p -> exists w ws, split_char nl (p ++ b) = (p ++ w) :: ws). { clear. induction p as [|d p IH]; intros H; [cbn [app]; destruct (split_char nl b) as [|w ws] eqn:E; [destruct b; cbn in E; [discriminate|destruct (Ascii.eqb a nl); [discriminate|destruct (split_char nl b); discriminate]]|eauto]|].
        cbn [app split_char]. destruct (Ascii.eqb d nl) eqn:D; [apply Ascii.eqb_eq in D; subst; exfalso; apply H; left; reflexivity|]. destruct IH as (w & ws & ->); [intros I; apply H; right; exact I|]. eauto. }
      destruct (G p O) as (w & ws & E). exists (p ++ w). rewrite E. split; [left; reflexivity|]. apply occurs_spec. exists [], w. reflexivity.
    + destruct IH as (l & L & C). cbn [app split_char]. destruct (Ascii.eqb c nl); [exists l; split; [right; exact L|exact C]|]. destruct (split_char nl (a ++ p ++ b)) as [|w ws]; [destruct L|]. destruct L as [<-|L]; [|exists l; split; [right; exact L|exact C]].
      exists (c :: w). split; [left; reflexivity|]. apply occurs_spec in C. destruct C as (x & y & ->). apply occurs_spec. exists (c :: x), y. reflexivity.
Qed.
Theorem scan_zero s : scan_setup_py s = 0%nat <-> contains (word "import versioneer") s /\ contains (word "versioneer.get_cmdclass()") s /\ contains (word "versioneer.get_version()") s /\ ~ contains (word "versioneer.VCS") s /\ ~ contains (word "versioneer.versionfile_source") s.
Proof.
  assert (G : forall p, one_line (word p) -> word p <> [] -> existsb (occurs (txt p)) (split_char nl s) = true <-> contains (word p) s) by (intros p; apply contains_line).
  pose proof (G "import versioneer"%string ltac:(intros I; vm_compute in I; intuition discriminate) ltac:(intros I; vm_compute in I; discriminate)) as G1. pose proof (G "versioneer.get_cmdclass()"%string ltac:(intros I; vm_compute in I; intuition discriminate) ltac:(intros I; vm_compute in I; discriminate)) as G2. pose proof (G "versioneer.get_version()"%string ltac:(intros I; vm_compute in I; intuition discriminate) ltac:(intros I; vm_compute in I; discriminate)) as G3.
  pose proof (G "versioneer.VCS"%string ltac:(intros I; vm_compute in I; intuition discriminate) ltac:(intros I; vm_compute in I; discriminate)) as G4. pose proof (G "versioneer.versionfile_source"%string ltac:(intros I; vm_compute in I; intuition discriminate) ltac:(intros I; vm_compute in I; discriminate)) as G5.
  unfold scan_setup_py. cbv zeta. rewrite <- G1, <- G2, <- G3, <- G4, <- G5. destruct (existsb (occurs (txt "import versioneer")) _), (existsb (occurs (txt "versioneer.get_cmdclass()")) _), (existsb (occurs (txt "versioneer.get_version()")) _), (existsb (occurs (txt "versioneer.VCS")) _), (existsb (occurs (txt "versioneer.versionfile_source")) _); cbn; split; intros; intuition (congruence || discriminate || lia).
Qed.
Theorem setup_status parse long f s c py : f_setup f = Some s -> parse s = Config c -> c_vcs c = word "git" -> exists l, snd (do_setup parse long f) = Ok (0%Z, l) /\ (setup_fails 0 py = false <-> scan_setup_py py = 0%nat).
Proof.
  intros S P V. unfold do_setup, get_config. rewrite S, P, V. destruct (list_eq_dec ascii_dec (word "git") (txt "git")) as [_|C]; [|exfalso; apply C; reflexivity]. cbn [snd]. eexists. split; [reflexivity|]. unfold setup_fails. rewrite negb_false_iff, Z.eqb_eq. lia.
Qed.
