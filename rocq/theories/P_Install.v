(** Proofs about setup.py. *)
From Coq Require Import List Ascii String ZArith Bool Lia.
From Verif Require Import M_Base M_Writers M_Version M_Install S_Install.
Import ListNotations.
Open Scope string_scope.

(** What is asked of Cython: the same modules, from the same sources or from the .c file written for the .pyx file. *)
Definition faithful (cz : list ext -> list ext) : Prop := forall l, map name (cz l) = map name l /\
  Forall2 (fun x y => forall s, In s (sources y) -> In s (sources x) \/ (In pyx_file (sources x) /\ s = c_file)) l (cz l).

(** The three modules and the kernel. *)
Lemma pybind_shape e : have_pybind e = true -> exists i l k, pybind_exts e = cpp_exts i l k.
Proof.
  intros H. unfold pybind_exts. rewrite H. destruct (get_prefix_paths _ _) as [i l]. destruct (nt e); [destruct i, l|]; eauto.
Qed.
Lemma cpp_idents i l k x : In x (cpp_exts i l k) -> ident x < 3.
Proof. cbn. intros [<-|[<-|[<-|[]]]]; cbn; lia. Qed.
Lemma cython_ident e x : In x (cython_exts e) -> ident x = 3.
Proof. unfold cython_exts. destruct (have_numpy e), (have_pyx e), (have_c e); cbn; intros []; subst; auto; contradiction. Qed.
Lemma ext_modules_is cz e : have_pybind e = true -> exists i l k,
  ext_modules cz e = (cpp_exts i l k ++ if have_cython e && match cython_exts e with [] => false | _ => true end then cz (cython_exts e) else cython_exts e)%list /\
  pybind_exts e = cpp_exts i l k.
Proof.
  intros H. destruct (pybind_shape e H) as (i & l & k & E). exists i, l, k. split; auto. unfold ext_modules. rewrite E.
  destruct (have_cython e && _) eqn:C; auto. f_equal. rewrite filter_app.
  destruct (cython_exts e) as [|c [|]] eqn:K.
  - rewrite andb_false_r in C. discriminate.
  - assert (I : ident c = 3) by (apply (cython_ident e); rewrite K; left; auto). cbn. rewrite I. cbn. reflexivity.
  - exfalso. unfold cython_exts in K. destruct (have_numpy e), (have_pyx e), (have_c e); discriminate.
Qed.
Lemma modules_needed cz e m f : have_pybind e = true -> In (m, f) needed ->
  exists x src fs, In x (ext_modules cz e) /\ name x = m /\ sources x = [src] /\ In (src, m, fs) defined_in /\ In f fs.
Proof.
  intros H N. destruct (ext_modules_is cz e H) as (i & l & k & E & _). rewrite E. cbn in N.
  destruct N as [N|[N|[N|[]]]]; injection N as <- <-.
  - exists (nth 0 (cpp_exts i l k) {| ident := 9; name := ""; sources := []; include_dirs := []; library_dirs := []; link_args := []; libraries := []; compile_args := [] |}), (nth 0 cpp_files ""), ["gradient_limit"].
    split; [apply in_or_app; left; cbn; auto|]. cbn. auto.
  - exists (nth 1 (cpp_exts i l k) {| ident := 9; name := ""; sources := []; include_dirs := []; library_dirs := []; link_args := []; libraries := []; compile_args := [] |}), (nth 1 cpp_files ""), ["Point"; "VertexHandle"; "DelaunayTriangulation"; "Vertex"; "Face"].
    split; [apply in_or_app; left; cbn; auto|]. cbn. auto 10.
  - exists (nth 2 (cpp_exts i l k) {| ident := 9; name := ""; sources := []; include_dirs := []; library_dirs := []; link_args := []; libraries := []; compile_args := [] |}), (nth 2 cpp_files ""), ["unique_edges"].
    split; [apply in_or_app; left; cbn; auto|]. cbn. auto 10.
Qed.
Lemma cython_names e : map name (cython_exts e) = if have_numpy e && (have_pyx e || have_c e) then [kernel_name] else [].
Proof. unfold cython_exts. destruct (have_numpy e), (have_pyx e), (have_c e); reflexivity. Qed.
Lemma module_names cz e : faithful cz -> have_pybind e = true ->
  map name (ext_modules cz e) = (is_called ++ if have_numpy e && (have_pyx e || have_c e) then [kernel_name] else [])%list.
Proof.
  intros F H. destruct (ext_modules_is cz e H) as (i & l & k & E & _). rewrite E, map_app, <- cython_names. f_equal.
  destruct (_ && _); auto. apply F.
Qed.
Lemma names_distinct cz e : faithful cz -> NoDup (map name (ext_modules cz e)).
Proof.
  intros F. destruct (have_pybind e) eqn:H.
  - rewrite module_names by auto. destruct (_ && _); cbn; repeat constructor; cbn; intuition discriminate.
  - unfold ext_modules, pybind_exts. rewrite H. cbn [app]. pose proof (cython_names e) as C.
    destruct (cython_exts e) as [|c [|c' r]] eqn:K.
    + rewrite andb_false_r. constructor.
    + destruct (have_cython e); cbn [andb].
      * cbn [filter existsb]. rewrite Nat.eqb_refl. cbn. rewrite (proj1 (F [c])). cbn. repeat constructor. auto.
      * cbn. repeat constructor. auto.
    + exfalso. destruct (_ && _) in C; discriminate.
Qed.
(** A build gives all three or fails. *)
Lemma never_incomplete cz e ns m f : build cz e = Ok ns -> In (m, f) needed -> In m ns.
Proof.
  unfold build. destruct (have_pybind e) eqn:H; [|discriminate]. destruct (forallb _ _); [|discriminate]. intros E N. injection E as <-.
  destruct (modules_needed cz e m f H N) as (x & src & fs & I & <- & _). apply in_map, I.
Qed.
Lemma source_cpp e s : In s cpp_files -> source_there e s = true.
Proof. cbn. intros [<-|[<-|[<-|[]]]]; reflexivity. Qed.
Lemma builds_iff cz e : faithful cz -> (exists ns, build cz e = Ok ns) <->
  have_pybind e = true /\ ~ (have_numpy e = true /\ have_pyx e = true /\ have_cython e = false /\ have_c e = false).
Proof.
  intros F. unfold build. destruct (have_pybind e) eqn:H; [|split; [intros (ns & E); discriminate|intros [E _]; discriminate]].
  destruct (ext_modules_is cz e H) as (i & l & k & E & _). rewrite E, forallb_app.
  assert (C : forallb (fun x => forallb (source_there e) (sources x)) (cpp_exts i l k) = true) by reflexivity. rewrite C. cbn [andb].
  set (rest := if have_cython e && _ then _ else _).
  assert (R : forallb (fun x => forallb (source_there e) (sources x)) rest = negb (have_numpy e && have_pyx e && negb (have_cython e) && negb (have_c e))).
  { subst rest. unfold cython_exts. destruct (have_numpy e) eqn:En, (have_pyx e) eqn:Ep; cbn [andb negb].
    - destruct (have_cython e) eqn:Ec; cbn [andb negb].
      + match goal with |- forallb _ (cz ?l) = _ => destruct (F l) as [_ G]; inversion G as [|x y l1 l2 P Q]; inversion Q; subst end.
        cbn [forallb]. rewrite andb_true_r. apply forallb_forall. intros s I.
        assert (J : s = pyx_file \/ s = c_file) by (destruct (P s I) as [[J|[]]|[_ J]]; auto). clear -J Ep Ec.
        destruct J as [->| ->]; unfold source_there; cbn; rewrite ?Ep, ?Ec, ?orb_true_r; reflexivity.
      + unfold source_there; cbn. rewrite Ec. destruct (have_c e); reflexivity.
    - destruct (have_c e) eqn:Eo; [|rewrite andb_false_r; reflexivity].
      rewrite andb_true_r. destruct (have_cython e) eqn:Ec.
      + match goal with |- forallb _ (cz ?l) = _ => destruct (F l) as [_ G]; inversion G as [|x y l1 l2 P Q]; inversion Q; subst end.
        cbn [forallb]. rewrite andb_true_r. apply forallb_forall. intros s I.
        assert (J : s = c_file) by (destruct (P s I) as [[J|[]]|[[J|[]] _]]; auto; discriminate). subst s.
        unfold source_there; cbn. rewrite Eo. reflexivity.
      + unfold source_there; cbn. rewrite Eo. reflexivity.
    - rewrite andb_false_r. reflexivity.
    - rewrite andb_false_r. reflexivity. }
  rewrite R. destruct (have_numpy e), (have_pyx e), (have_cython e), (have_c e); cbn; split;
    try (intros _; split; [reflexivity|intros (A1 & A2 & A3 & A4); discriminate]); try (intros _; eexists; reflexivity);
    try (intros (ns & E'); discriminate); intros [_ G]; exfalso; apply G; auto.
Qed.
Lemma no_kernel_sources cz e : have_pybind e = true -> (have_numpy e = false \/ (have_pyx e = false /\ have_c e = false)) ->
  build cz e = Ok ["_HamiltonJacobi"; "_delaunay_class"; "_fast_geometry"].
Proof.
  intros H N. assert (K : cython_exts e = []).
  { unfold cython_exts. destruct N as [N|[N1 N2]]; [rewrite N|rewrite N1, N2; destruct (have_numpy e)]; reflexivity. }
  unfold build. rewrite H. destruct (ext_modules_is cz e H) as (i & l & k & E & _). rewrite E, K, andb_false_r. reflexivity.
Qed.
Definition no_cython : env := {| have_pybind := true; have_numpy := true; have_cython := false; nt := false; win32 := false;
  variable := fun _ => None; isdir := fun _ => false; have_pyx := true; have_c := false |}.
Lemma pyx_without_cython cz : build cz no_cython = Raise RuntimeError.
Proof. reflexivity. Qed.

(** ** Directories *)
Lemma or_given a b p : asked a b p -> or_ a b = Some p /\ p <> "".
Proof.
  unfold asked, given, not_given. intros [[-> N]|[[->| ->] [-> N]]]; cbn; split; auto.
  destruct p; auto. contradiction.
Qed.
Lemma or_not_given a b : nothing_asked a b -> or_ a b = None \/ or_ a b = Some "".
Proof. unfold nothing_asked, not_given. intros [[->| ->] [->| ->]]; cbn; auto. Qed.
Lemma prefix_none e a b : nothing_asked a b -> get_prefix_paths e (or_ a b) = (None, None).
Proof. intros N. destruct (or_not_given a b N) as [-> | ->]; reflexivity. Qed.
Lemma prefix_some e a b p : asked a b p -> get_prefix_paths e (or_ a b) =
  ((if isdir e (join (nt e) p "include") then Some (join (nt e) p "include") else None), (if isdir e (join (nt e) p "lib") then Some (join (nt e) p "lib") else None)).
Proof. intros A. destruct (or_given a b p A) as [-> N]. destruct p; [contradiction|reflexivity]. Qed.
Lemma in_cpp i l k x : In x (cpp_exts i l k) -> include_dirs x = i /\ library_dirs x = l /\ link_args x = k /\ libraries x = ["gmp"; "mpfr"].
Proof. cbn. intros [<-|[<-|[<-|[]]]]; auto. Qed.

Lemma directories_posix e x d : have_pybind e = true -> nt e = false -> In x (pybind_exts e) ->
  (In d (include_dirs x) <-> exists p, asked (variable e "OCEANMESH_PREFIX") (variable e "CONDA_PREFIX") p /\ d = join false p "include" /\ isdir e d = true) /\
  (In d (library_dirs x) <-> exists p, asked (variable e "OCEANMESH_PREFIX") (variable e "CONDA_PREFIX") p /\ d = join false p "lib" /\ isdir e d = true) /\
  link_args x = flat_map (fun l => ["-L" ++ l; "-Wl,-rpath," ++ l]) (library_dirs x) /\ libraries x = ["gmp"; "mpfr"].
Proof.
  intros H W I. unfold pybind_exts in I. rewrite H, W in I.
  assert (D : (exists p, asked (variable e "OCEANMESH_PREFIX") (variable e "CONDA_PREFIX") p) \/ nothing_asked (variable e "OCEANMESH_PREFIX") (variable e "CONDA_PREFIX")).
  { unfold asked, nothing_asked, given, not_given. destruct (variable e "OCEANMESH_PREFIX") as [[|c s]|].
    - destruct (variable e "CONDA_PREFIX") as [[|c s]|]; auto. left. exists (String c s). right. split; auto. split; auto. discriminate.
    - left. exists (String c s). left. split; auto. discriminate.
    - destruct (variable e "CONDA_PREFIX") as [[|c s]|]; auto. left. exists (String c s). right. split; auto. split; auto. discriminate. }
  destruct D as [(p & A)|N].
  - assert (U : forall q, asked (variable e "OCEANMESH_PREFIX") (variable e "CONDA_PREFIX") q -> q = p).
    { intros q B. destruct (or_given _ _ _ A) as [E _], (or_given _ _ _ B) as [E' _]. congruence. }
    rewrite (prefix_some e _ _ p A), W in I. apply in_cpp in I. destruct I as (-> & -> & -> & ->).
    destruct (isdir e (join false p "include")) eqn:DI, (isdir e (join false p "lib")) eqn:DL; cbn [In flat_map app]; repeat split; auto;
      intros G; try contradiction; try (destruct G as [<-|[]]; exists p; auto); destruct G as (q & B & -> & G); rewrite (U q B) in *; try congruence; auto.
  - rewrite prefix_none in I by auto. apply in_cpp in I. destruct I as (-> & -> & -> & ->). cbn. repeat split; auto; try contradiction;
      intros (q & B & _); destruct N as [[N|N] [M|M]]; unfold asked, given, not_given in B; rewrite N, M in B;
      (destruct B as [[B1 B2]|[_ [B1 B2]]]; congruence).
Qed.
Lemma directories_windows e p x : have_pybind e = true -> nt e = true -> asked (variable e "OCEANMESH_PREFIX") (variable e "CONDA_PREFIX") p ->
  isdir e (join true p "include") = true -> isdir e (join true p "lib") = true -> In x (pybind_exts e) ->
  include_dirs x = [join true p "include"] /\ library_dirs x = [join true p "lib"] /\ link_args x = ["/LIBPATH:" ++ join true p "lib"].
Proof.
  intros H W A I L J. unfold pybind_exts in J. rewrite H, W, (prefix_some e _ _ p A), W, I, L in J. apply in_cpp in J. tauto.
Qed.
Lemma sapp_assoc (a b c : string) : (a ++ b) ++ c = a ++ b ++ c.
Proof. induction a; cbn; congruence. Qed.
(** A prefix with headers but without libraries is left aside altogether on Windows, and the directory used instead is not looked up. *)
Lemma directories_vcpkg e x : have_pybind e = true -> nt e = true ->
  (forall p, asked (variable e "OCEANMESH_PREFIX") (variable e "CONDA_PREFIX") p -> isdir e (join true p "include") && isdir e (join true p "lib") = false) ->
  In x (pybind_exts e) -> exists root, include_dirs x = [root ++ "/installed/x64-windows/include"] /\ library_dirs x = [] /\
    link_args x = ["/LIBPATH:" ++ root ++ "/installed/x64-windows/lib"] /\
    (forall r, asked (variable e "VCPKG_ROOT") (variable e "VCPKG_INSTALLATION_ROOT") r -> root = slashes r) /\
    (nothing_asked (variable e "VCPKG_ROOT") (variable e "VCPKG_INSTALLATION_ROOT") ->
       root = slashes (match variable e "USERPROFILE" with Some h => h | None => "" end) ++ "/OceanMesh/vcpkg").
Proof.
  intros H W N J. unfold pybind_exts in J. rewrite H, W in J.
  assert (Q : exists i l, get_prefix_paths e (or_ (variable e "OCEANMESH_PREFIX") (variable e "CONDA_PREFIX")) = (i, l) /\ (i = None \/ l = None)).
  { destruct (or_ (variable e "OCEANMESH_PREFIX") (variable e "CONDA_PREFIX")) as [[|c s]|] eqn:O; cbn; eauto.
    assert (A : asked (variable e "OCEANMESH_PREFIX") (variable e "CONDA_PREFIX") (String c s)).
    { unfold asked, given, not_given. destruct (variable e "OCEANMESH_PREFIX") as [[|a b]|]; cbn in O.
      - right. split; auto. split; auto. discriminate.
      - left. split; auto. discriminate.
      - right. split; auto. split; auto. discriminate. }
    specialize (N _ A). rewrite W. destruct (isdir e (join true (String c s) "include")); destruct (isdir e (join true (String c s) "lib")); try discriminate; eauto. }
  destruct Q as (i & l & E & F). rewrite E in J.
  set (v := match or_ (variable e "VCPKG_ROOT") _ with None => _ | Some _ => _ end) in J.
  assert (G : include_dirs x = [v ++ "/include"] /\ library_dirs x = [] /\ link_args x = ["/LIBPATH:" ++ v ++ "/lib"]).
  { destruct i as [i|], l as [l|]; try (apply in_cpp in J; tauto). destruct F; discriminate. }
  destruct G as (-> & -> & ->). clear J E F N.
  assert (K : exists root, v = root ++ "/installed/x64-windows" /\
    (forall r, asked (variable e "VCPKG_ROOT") (variable e "VCPKG_INSTALLATION_ROOT") r -> root = slashes r) /\
    (nothing_asked (variable e "VCPKG_ROOT") (variable e "VCPKG_INSTALLATION_ROOT") ->
       root = slashes (match variable e "USERPROFILE" with Some h => h | None => "" end) ++ "/OceanMesh/vcpkg")).
  { subst v. destruct (or_ (variable e "VCPKG_ROOT") (variable e "VCPKG_INSTALLATION_ROOT")) as [[|c s]|] eqn:O.
    - exists (slashes (variable_or_empty e "USERPROFILE") ++ "/OceanMesh/vcpkg"). rewrite sapp_assoc. split; auto. split.
      + intros r A. destruct (or_given _ _ _ A). congruence.
      + reflexivity.
    - exists (slashes (String c s)). split; auto. split.
      + intros r A. destruct (or_given _ _ _ A). congruence.
      + intros A. destruct (or_not_given _ _ A); congruence.
    - exists (slashes (variable_or_empty e "USERPROFILE") ++ "/OceanMesh/vcpkg"). rewrite sapp_assoc. split; auto. split.
      + intros r A. destruct (or_given _ _ _ A). congruence.
      + reflexivity. }
  destruct K as (root & -> & K). exists root. rewrite !sapp_assoc. cbn [append]. auto.
Qed.

(** ** Requirements *)
Open Scope list_scope.
Lemma words_from_word w s cur : Forall (fun c => is_space c = false) w -> words_from (w ++ s) cur = words_from s (cur ++ w).
Proof.
  intros F. revert cur. induction F as [|c w C F IH]; intros cur; cbn; [rewrite app_nil_r; auto|].
  rewrite C, IH, <- app_assoc. reflexivity.
Qed.
Lemma spells_empty ws : spells is_space [] ws -> ws = [].
Proof.
  intros H. remember (@nil ascii) as s eqn:E. destruct H as [| |w s ws N]; auto; try discriminate.
  destruct w; [contradiction|discriminate].
Qed.
Lemma words_spells s ws : spells is_space s ws -> words s = ws.
Proof.
  unfold words. induction 1 as [|c s ws C H IH|w s ws N F E H IH]; auto.
  - cbn. rewrite C. auto.
  - rewrite words_from_word by auto. cbn [app]. destruct s as [|c s].
    + rewrite (spells_empty ws H). destruct w; [contradiction|reflexivity].
    + cbn. rewrite E. destruct w as [|a w]; [contradiction|]. f_equal. rewrite <- IH. cbn. rewrite E. reflexivity.
Qed.
Lemma spells_exists s : exists ws, spells is_space s ws.
Proof.
  assert (G : forall s, (exists ws, spells is_space s ws)).
  { intros t. remember (List.length t) as n eqn:L. assert (L' : List.length t <= n) by lia. clear L. revert t L'.
    induction n as [|n IH]; intros t L; destruct t as [|c t]; try (exists []; apply spells_nil); try (cbn in L; lia).
    destruct (is_space c) eqn:C.
    - destruct (IH t) as (ws & W); [cbn in L; lia|]. exists ws. apply spells_space; auto.
    - assert (SP : exists w r, (c :: t)%list = (w ++ r)%list /\ w <> [] /\ Forall (fun c => is_space c = false) w /\ match r with [] => True | a :: _ => is_space a = true end).
      { clear - C. revert c C. induction t as [|d t IH]; intros c C.
        - exists [c], []. repeat split; auto. discriminate.
        - destruct (is_space d) eqn:D.
          + exists [c], (d :: t). repeat split; auto. discriminate.
          + destruct (IH d D) as (w & r & E & N & F & G). exists (c :: w), r. cbn. rewrite E. repeat split; auto. discriminate. }
      destruct SP as (w & r & E & N & F & G). destruct (IH r) as (ws & W).
      { apply (f_equal (@List.length ascii)) in E. rewrite app_length in E. cbn in E, L. destruct w; [contradiction|cbn in E; lia]. }
      exists (w :: ws). rewrite E. apply spells_word; auto. }
  apply G.
Qed.
Lemma spells_one s ws ws' : spells is_space s ws -> spells is_space s ws' -> ws = ws'.
Proof. intros A B. rewrite <- (words_spells s ws A). apply words_spells, B. Qed.
Lemma requirements_listed t ws v : spells is_space t ws -> (3 < fst v \/ (fst v = 3 /\ 9 <= snd v)) -> get_requirements (Some t) v = Ok ws.
Proof.
  intros H V. unfold get_requirements. rewrite (words_spells t ws H). replace (old_python v) with false; auto.
  unfold old_python. destruct V as [V|[V1 V2]].
  - symmetry. apply orb_false_iff. split; [apply Nat.ltb_ge; lia|]. apply andb_false_iff. left. apply Nat.eqb_neq. lia.
  - symmetry. apply orb_false_iff. split; [apply Nat.ltb_ge; lia|]. apply andb_false_iff. right. apply Nat.ltb_ge. lia.
Qed.
Lemma old_python_true v : (fst v < 3 \/ (fst v = 3 /\ snd v < 9)) -> old_python v = true.
Proof.
  intros V. unfold old_python. apply orb_true_iff. destruct V as [V|[V1 V2]]; [left; apply Nat.ltb_lt; auto|right].
  apply andb_true_iff. split; [apply Nat.eqb_eq; auto|apply Nat.ltb_lt; auto].
Qed.
Lemma remove_first_at x a b : ~ In x a -> remove_first x (a ++ x :: b) = Ok (a ++ b)%list.
Proof.
  induction a as [|y a IH]; cbn; intros N; destruct (list_eq_dec ascii_dec x _) as [E|E]; auto; try congruence.
  - exfalso. apply N. auto.
  - rewrite IH by auto. reflexivity.
Qed.
Lemma remove_first_none x l : ~ In x l -> remove_first x l = Raise ValueError.
Proof.
  induction l as [|y l IH]; cbn; intros N; auto. destruct (list_eq_dec ascii_dec x y) as [E|E]; [exfalso; apply N; auto|].
  rewrite IH by auto. reflexivity.
Qed.
Lemma requirements_old t ws v : spells is_space t ws -> (fst v < 3 \/ (fst v = 3 /\ snd v < 9)) ->
  (forall a b, ws = (a ++ txt "fiona" :: b)%list -> ~ In (txt "fiona") a -> get_requirements (Some t) v = Ok (a ++ b ++ [txt "fiona<1.10"])%list) /\
  (~ In (txt "fiona") ws -> get_requirements (Some t) v = Raise ValueError).
Proof.
  intros H V. unfold get_requirements. rewrite (words_spells t ws H), (old_python_true v V). split.
  - intros a b -> N. rewrite remove_first_at by auto. cbn [bind]. rewrite app_assoc. reflexivity.
  - intros N. rewrite remove_first_none by auto. reflexivity.
Qed.
Lemma fiona_with_version v : (fst v < 3 \/ (fst v = 3 /\ snd v < 9)) -> get_requirements (Some (txt "numpy fiona>=1.8")) v = Raise ValueError.
Proof. intros V. unfold get_requirements. rewrite (old_python_true v V). reflexivity. Qed.
Lemma cfg_words : spells is_space setup_cfg (map txt ["numpy"; "meshio"; "pyproj"; "scipy"; "geopandas"; "fiona"; "shapely"; "matplotlib"; "rasterio>=1.3a1"; "rioxarray"; "scikit-fmm"; "scikit-image"]).
Proof.
  destruct (spells_exists setup_cfg) as (ws & H). pose proof (words_spells _ _ H) as E. vm_compute in E. subst ws. exact H.
Qed.
Lemma imports_listed v rs : (3 < fst v \/ (fst v = 3 /\ 9 <= snd v)) -> get_requirements (Some setup_cfg) v = Ok rs ->
  (forall m d, In (m, d) imported -> ~ In m ["affine"; "xarray"] -> In (txt d) (map dist_of rs)) /\
  ~ In (txt "affine") (map dist_of rs) /\ ~ In (txt "xarray") (map dist_of rs) /\
  (In (txt "meshio") (map dist_of rs) /\ ~ In "meshio" (map snd imported)).
Proof.
  intros V E. pose proof (eq_trans (eq_sym (requirements_listed setup_cfg _ v cfg_words V)) E) as G. injection G as <-.
  split; [|split; [|split; [|split]]].
  - intros m d I N. cbn in I. repeat (destruct I as [I|I]; [injection I as <- <-; first [vm_compute; tauto | exfalso; apply N; cbn; tauto]|]). contradiction.
  - vm_compute. intuition discriminate.
  - vm_compute. intuition discriminate.
  - vm_compute. tauto.
  - cbn. intuition discriminate.
Qed.

(** Paths. *)
Open Scope string_scope.
Lemma last_split : forall s, s <> "" -> exists r c, s = r ++ String c "" /\ last_char s = Some c.
Proof.
  induction s as [|c s IH]; [congruence|]. intros _. destruct s as [|d s]; [exists "", c; auto|].
  destruct IH as (r & x & E & L); [discriminate|]. exists (String c r), x. split; [cbn; rewrite <- E; reflexivity|exact L].
Qed.
Lemma join_below win a b : a <> "" -> below win a b (join win a b).
Proof.
  intro N. destruct (last_split a N) as (r & c & E & L). unfold join. rewrite L.
  assert (S : (Ascii.eqb c "/" || win && (Ascii.eqb c backslash || Ascii.eqb c ":")) = true <-> separates win c).
  { unfold separates. rewrite orb_true_iff, andb_true_iff, orb_true_iff, !Ascii.eqb_eq. reflexivity. }
  destruct (Ascii.eqb c "/" || win && (Ascii.eqb c backslash || Ascii.eqb c ":")).
  - left. exists r, c. split; [exact E|]. split; [apply S; reflexivity|reflexivity].
  - right. exists r, c. split; [exact E|]. split; [intro H; apply S in H; discriminate|]. destruct win; reflexivity.
Qed.
Lemma below_one win a b p p' : below win a b p -> below win a b p' -> p = p'.
Proof.
  assert (U : forall r c r' c', r ++ String c "" = r' ++ String c' "" -> c = c').
  { induction r as [|x r IH]; intros c [|y r'] c'; cbn; intro H; injection H; intros; subst; auto; try (destruct r; discriminate); try (destruct r'; discriminate). eapply IH; eassumption. }
  intros [(r & c & E & S & ->)|(r & c & E & S & ->)] [(r' & c' & E' & S' & ->)|(r' & c' & E' & S' & ->)]; try reflexivity; rewrite E in E'; apply U in E'; subst; contradiction.
Qed.
Lemma slashes_with : forall s, with_slashes s (slashes s).
Proof.
  unfold with_slashes. induction s as [|c s (L & G)]; [split; [reflexivity|intros []; reflexivity]|]. cbn [slashes]. split; [cbn; congruence|].
  intros [|i]; cbn [String.get]; [|apply G]. unfold backslash. f_equal. destruct (Ascii.eqb_spec c "\"), (ascii_dec c "\"); congruence.
Qed.
