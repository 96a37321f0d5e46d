(** Theorems about setup.py (C192-C195). *)
From Coq Require Import List Ascii String ZArith Bool Lia.
From Verif Require Import M_Base M_Writers M_Version M_Install S_Install P_Install.
Import ListNotations.
Open Scope string_scope.

(** C192.  Every module the package imports is built, from the file that defines it, whatever the operating system and directories. *)
Theorem C192_needed_modules : forall cythonize e m f, have_pybind e = true -> In (m, f) needed ->
  exists x src fs, In x (ext_modules cythonize e) /\ name x = m /\ sources x = [src] /\ In (src, m, fs) defined_in /\ In f fs.
Proof. exact modules_needed. Qed.
Print Assumptions C192_needed_modules.
Theorem C192_names : forall cythonize e, faithful cythonize -> have_pybind e = true ->
  map name (ext_modules cythonize e) = (["_HamiltonJacobi"; "_delaunay_class"; "_fast_geometry"] ++
    if have_numpy e && (have_pyx e || have_c e) then ["oceanmesh.geometry.point_in_polygon_"] else [])%list.
Proof. exact module_names. Qed.
Print Assumptions C192_names.
Theorem C192_distinct : forall cythonize e, faithful cythonize -> NoDup (map name (ext_modules cythonize e)).
Proof. exact names_distinct. Qed.
Print Assumptions C192_distinct.
Theorem C192_never_incomplete : forall cythonize e ns m f, build cythonize e = Ok ns -> In (m, f) needed -> In m ns.
Proof. exact never_incomplete. Qed.
Print Assumptions C192_never_incomplete.
(** A builder with everything: [cythonize] may hand back what it is given, or the written .c file. *)
Example C192_case : let e := {| have_pybind := true; have_numpy := true; have_cython := true; nt := false; win32 := false;
    variable := fun _ => None; isdir := fun _ => false; have_pyx := true; have_c := false |} in
  let written := map (fun x => {| ident := 9; name := name x; sources := ["oceanmesh/geometry/point_in_polygon_.c"]; include_dirs := include_dirs x;
     library_dirs := library_dirs x; link_args := link_args x; libraries := libraries x; compile_args := compile_args x |}) in
  faithful (fun l => l) /\ List.length (ext_modules written e) = 4 /\ build written e = build (fun l => l) e /\
  build written e = Ok ["_HamiltonJacobi"; "_delaunay_class"; "_fast_geometry"; "oceanmesh.geometry.point_in_polygon_"].
Proof. split; [|repeat split]. intros l. split; auto. induction l; constructor; auto. Qed.

(** C193.  The kernel is optional: without its sources, or without numpy, the rest is built. *)
Theorem C193_without_sources : forall cythonize e, have_pybind e = true -> (have_numpy e = false \/ (have_pyx e = false /\ have_c e = false)) ->
  build cythonize e = Ok ["_HamiltonJacobi"; "_delaunay_class"; "_fast_geometry"].
Proof. exact no_kernel_sources. Qed.
Print Assumptions C193_without_sources.
Theorem C193_builds_iff : forall cythonize e, faithful cythonize -> (exists ns, build cythonize e = Ok ns) <->
  have_pybind e = true /\ ~ (have_numpy e = true /\ have_pyx e = true /\ have_cython e = false /\ have_c e = false).
Proof. exact builds_iff. Qed.
Print Assumptions C193_builds_iff.
(** The .pyx file is taken also when Cython is missing, against the docstring: the build then fails instead of going on without the kernel. *)
Theorem C193_without_cython_refuted : exists e, have_pybind e = true /\ have_numpy e = true /\ have_cython e = false /\ forall cythonize, build cythonize e = Raise RuntimeError.
Proof. exact (ex_intro _ no_cython (conj eq_refl (conj eq_refl (conj eq_refl pyx_without_cython)))). Qed.
Print Assumptions C193_without_cython_refuted.
Example C193_case : have_pybind no_cython = true /\ have_pyx no_cython = true.
Proof. split; reflexivity. Qed.

(** C194.  Outside Windows exactly the existing directories below the prefix asked for are used. *)
Theorem C194_directories : forall e x d, have_pybind e = true -> nt e = false -> In x (pybind_exts e) ->
  (In d (include_dirs x) <-> exists p, asked (variable e "OCEANMESH_PREFIX") (variable e "CONDA_PREFIX") p /\ d = join false p "include" /\ isdir e d = true) /\
  (In d (library_dirs x) <-> exists p, asked (variable e "OCEANMESH_PREFIX") (variable e "CONDA_PREFIX") p /\ d = join false p "lib" /\ isdir e d = true) /\
  link_args x = flat_map (fun l => ["-L" ++ l; "-Wl,-rpath," ++ l]) (library_dirs x) /\ libraries x = ["gmp"; "mpfr"].
Proof. exact directories_posix. Qed.
Print Assumptions C194_directories.
Theorem C194_windows : forall e p x, have_pybind e = true -> nt e = true -> asked (variable e "OCEANMESH_PREFIX") (variable e "CONDA_PREFIX") p ->
  isdir e (join true p "include") = true -> isdir e (join true p "lib") = true -> In x (pybind_exts e) ->
  include_dirs x = [join true p "include"] /\ library_dirs x = [join true p "lib"] /\ link_args x = ["/LIBPATH:" ++ join true p "lib"].
Proof. exact directories_windows. Qed.
Print Assumptions C194_windows.
(** On Windows a prefix that lacks one of the two directories is not used at all, and the directories of vcpkg are not looked up. *)
Theorem C194_vcpkg_unchecked_refuted : forall e x, have_pybind e = true -> nt e = true ->
  (forall p, asked (variable e "OCEANMESH_PREFIX") (variable e "CONDA_PREFIX") p -> isdir e (join true p "include") && isdir e (join true p "lib") = false) ->
  In x (pybind_exts e) -> exists root, include_dirs x = [root ++ "/installed/x64-windows/include"] /\ library_dirs x = [] /\
    link_args x = ["/LIBPATH:" ++ root ++ "/installed/x64-windows/lib"] /\
    (forall r, asked (variable e "VCPKG_ROOT") (variable e "VCPKG_INSTALLATION_ROOT") r -> root = slashes r) /\
    (nothing_asked (variable e "VCPKG_ROOT") (variable e "VCPKG_INSTALLATION_ROOT") ->
       root = slashes (match variable e "USERPROFILE" with Some h => h | None => "" end) ++ "/OceanMesh/vcpkg").
Proof. exact directories_vcpkg. Qed.
Print Assumptions C194_vcpkg_unchecked_refuted.
(** The paths above: [join] puts the separator of the platform between the two parts unless the first ends in one, and [slashes] replaces every backslash. *)
Theorem C194_paths : forall win dir entry path, dir <> "" -> (path = join win dir entry <-> below win dir entry path).
Proof. exact (fun win dir entry path N => conj (fun E => eq_ind_r (below win dir entry) (join_below win dir entry N) E) (fun B => below_one win dir entry path _ B (join_below win dir entry N))). Qed.
Print Assumptions C194_paths.
Theorem C194_slashes : forall s, with_slashes s (slashes s).
Proof. exact slashes_with. Qed.
Print Assumptions C194_slashes.
Example C194_case_paths : below true "C:\om" "lib" "C:\om\lib" /\ below true "C:" "lib" "C:lib" /\ below false "/opt/om/" "lib" "/opt/om/lib" /\ with_slashes "C:\a\b" "C:/a/b".
Proof. split; [apply C194_paths; [discriminate|reflexivity]|]. split; [apply C194_paths; [discriminate|reflexivity]|]. split; [apply C194_paths; [discriminate|reflexivity]|]. exact (C194_slashes "C:\a\b"). Qed.
(** A conda environment with headers only, on Linux and on Windows. *)
Example C194_case : let e w := {| have_pybind := true; have_numpy := true; have_cython := true; nt := w; win32 := w;
    variable := fun k => if String.eqb k "CONDA_PREFIX" then Some "/opt/om" else if String.eqb k "OCEANMESH_PREFIX" then Some "" else None;
    isdir := fun d => String.eqb d "/opt/om/include" || String.eqb d (String.append "/opt/om" (String "092" "include")); have_pyx := true; have_c := false |} in
  asked (variable (e false) "OCEANMESH_PREFIX") (variable (e false) "CONDA_PREFIX") "/opt/om" /\
  map include_dirs (pybind_exts (e false)) = [["/opt/om/include"]; ["/opt/om/include"]; ["/opt/om/include"]] /\
  map library_dirs (pybind_exts (e false)) = [[]; []; []] /\
  map include_dirs (pybind_exts (e true)) = [["/OceanMesh/vcpkg/installed/x64-windows/include"]; ["/OceanMesh/vcpkg/installed/x64-windows/include"]; ["/OceanMesh/vcpkg/installed/x64-windows/include"]].
Proof. split; [right; split; [right; reflexivity|split; [reflexivity|discriminate]]|]. vm_compute. auto. Qed.

(** C195.  The requirements are the words of install_requires; before Python 3.9 the word fiona becomes fiona<1.10. *)
Theorem C195_words : forall t, exists! ws, spells is_space t ws.
Proof. exact (fun t => match spells_exists t with ex_intro _ ws H => ex_intro _ ws (conj H (fun ws' H' => spells_one t ws ws' H H')) end). Qed.
Print Assumptions C195_words.
Theorem C195_listed : forall t ws v, spells is_space t ws -> (3 < fst v \/ (fst v = 3 /\ 9 <= snd v)) -> get_requirements (Some t) v = Ok ws.
Proof. exact requirements_listed. Qed.
Print Assumptions C195_listed.
Theorem C195_old_python : forall t ws v, spells is_space t ws -> (fst v < 3 \/ (fst v = 3 /\ snd v < 9)) ->
  (forall a b, ws = (a ++ txt "fiona" :: b)%list -> ~ In (txt "fiona") a -> get_requirements (Some t) v = Ok (a ++ b ++ [txt "fiona<1.10"])%list) /\
  (~ In (txt "fiona") ws -> get_requirements (Some t) v = Raise ValueError).
Proof. exact requirements_old. Qed.
Print Assumptions C195_old_python.
(** A version given with fiona makes the lookup fail there. *)
Theorem C195_fiona_version_refuted : forall v, (fst v < 3 \/ (fst v = 3 /\ snd v < 9)) -> get_requirements (Some (txt "numpy fiona>=1.8")) v = Raise ValueError.
Proof. exact fiona_with_version. Qed.
Print Assumptions C195_fiona_version_refuted.
(** Of the packages imported, affine and xarray are not required directly; meshio is required and never imported. *)
Theorem C195_imports_refuted : forall v rs, (3 < fst v \/ (fst v = 3 /\ 9 <= snd v)) -> get_requirements (Some setup_cfg) v = Ok rs ->
  (forall m d, In (m, d) imported -> ~ In m ["affine"; "xarray"] -> In (txt d) (map dist_of rs)) /\
  ~ In (txt "affine") (map dist_of rs) /\ ~ In (txt "xarray") (map dist_of rs) /\
  (In (txt "meshio") (map dist_of rs) /\ ~ In "meshio" (map snd imported)).
Proof. exact imports_listed. Qed.
Print Assumptions C195_imports_refuted.
Example C195_case : spells is_space setup_cfg (map txt ["numpy"; "meshio"; "pyproj"; "scipy"; "geopandas"; "fiona"; "shapely"; "matplotlib";
    "rasterio>=1.3a1"; "rioxarray"; "scikit-fmm"; "scikit-image"]) /\
  get_requirements (Some setup_cfg) (3, 8) = Ok (map txt ["numpy"; "meshio"; "pyproj"; "scipy"; "geopandas"; "shapely"; "matplotlib";
    "rasterio>=1.3a1"; "rioxarray"; "scikit-fmm"; "scikit-image"; "fiona<1.10"]).
Proof. split; [exact cfg_words|vm_compute; reflexivity]. Qed.
