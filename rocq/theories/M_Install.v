(** Model of setup.py: which extension modules are built, with which directories, and the requirements.
    setuptools, pybind11 and Cython are other libraries; what is assumed of them is said at each definition. *)
From Coq Require Import List Ascii String ZArith Bool.
From Verif Require Import M_Base M_Writers M_Version.
Import ListNotations.
Open Scope string_scope.

(** The surroundings setup.py looks at: which packages can be imported (lines 5-26, 222-226), os.name (63), sys.platform (163),
    sys.version_info (208), os.environ.get, os.path.isdir and Path.is_file on the two candidate sources (151-156).  *)
Record env := { have_pybind : bool; have_numpy : bool; have_cython : bool; nt : bool; win32 : bool;
  variable : string -> option string; isdir : string -> bool; have_pyx : bool; have_c : bool }.
(** One extension (pybind11's Pybind11Extension or setuptools' Extension); [ident] stands for the identity of the object, by which
    [e not in cython_exts] (line 232) compares, as Extension defines no __eq__. *)
Record ext := { ident : nat; name : string; sources : list string; include_dirs : list string; library_dirs : list string;
  link_args : list string; libraries : list string; compile_args : list string }.

(** setup.py:36-40 *)
Definition is_called : list string := ["_HamiltonJacobi"; "_delaunay_class"; "_fast_geometry"].
(** setup.py:42-46 *)
Definition cpp_files : list string := ["oceanmesh/cpp/HamiltonJacobi.cpp"; "oceanmesh/cpp/delaunay_class.cpp"; "oceanmesh/cpp/fast_geometry.cpp"].

(** The last character of a text. *)
Fixpoint last_char (s : string) : option ascii :=
  match s with EmptyString => None | String c EmptyString => Some c | String _ r => last_char r end.
(** os.path.join(a, b) for a relative second part (lines 56-57): posixpath.py adds a slash unless one is there;
    ntpath.py adds a backslash unless a slash, backslash or colon is there (drives and UNC shares are left aside). *)
Definition backslash : ascii := "092".
Definition join (win : bool) (a b : string) : string :=
  match last_char a with
  | None => b
  | Some c => if Ascii.eqb c "/" || win && (Ascii.eqb c backslash || Ascii.eqb c ":") then a ++ b
              else a ++ String (if win then backslash else "/"%char) b
  end.
(** setup.py:52-62 _get_prefix_paths; None and "" are the same to [not prefix]. *)
Definition get_prefix_paths (e : env) (prefix : option string) : option string * option string :=
  match prefix with
  | None | Some "" => (None, None)
  | Some p => let i := join (nt e) p "include" in let l := join (nt e) p "lib" in
      ((if isdir e i then Some i else None), (if isdir e l then Some l else None))
  end.
(** Python's [a or b] on texts that may be None. *)
Definition or_ (a b : option string) : option string := match a with None | Some "" => b | _ => a end.
(** os.environ.get(k, "") *)
Definition variable_or_empty (e : env) (k : string) : string := match variable e k with Some s => s | None => "" end.
(** s.replace("\\", "/"), lines 84 and 89 *)
Fixpoint slashes (s : string) : string :=
  match s with EmptyString => EmptyString | String c r => String (if Ascii.eqb c backslash then "/"%char else c) (slashes r) end.
(** The comprehensions over zip(files, is_called) (lines 71-81, 94-103, 122-132); objects are numbered from 0. *)
Definition cpp_exts (incl libd link : list string) : list ext :=
  map (fun q => {| ident := fst q; name := snd (snd q); sources := [fst (snd q)]; include_dirs := incl; library_dirs := libd;
                   link_args := link; libraries := ["gmp"; "mpfr"]; compile_args := [] |})
    (combine (seq 0 3) (combine cpp_files is_called)).
(** setup.py:65-132.  Without a given prefix on Windows the directories of vcpkg are used without looking whether they are there. *)
Definition pybind_exts (e : env) : list ext :=
  if have_pybind e then
    let prefix := or_ (variable e "OCEANMESH_PREFIX") (variable e "CONDA_PREFIX") in
    let '(i, l) := get_prefix_paths e prefix in
    if nt e then
      match i, l with
      | Some i, Some l => cpp_exts [i] [l] ["/LIBPATH:" ++ l]
      | _, _ =>
          let home := slashes (variable_or_empty e "USERPROFILE") in
          let vcpkg := match or_ (variable e "VCPKG_ROOT") (variable e "VCPKG_INSTALLATION_ROOT") with
            | None | Some "" => home ++ "/OceanMesh/vcpkg/installed/x64-windows"
            | Some r => slashes r ++ "/installed/x64-windows" end in
          cpp_exts [vcpkg ++ "/include"] [] ["/LIBPATH:" ++ vcpkg ++ "/lib"]
      end
    else
      cpp_exts (match i with Some i => [i] | None => [] end) (match l with Some l => [l] | None => [] end)
        (match l with Some l => ["-L" ++ l; "-Wl,-rpath," ++ l] | None => [] end)
  else [].

(** setup.py:135-178 maybe_add_cython_extensions; paths are relative to the directory of setup.py, numpy's include directory is called "numpy". *)
Definition kernel_name : string := "oceanmesh.geometry.point_in_polygon_".
Definition pyx_file : string := "oceanmesh/geometry/point_in_polygon_.pyx".
Definition c_file : string := "oceanmesh/geometry/point_in_polygon_.c".
Definition cython_exts (e : env) : list ext :=
  if have_numpy e then
    let add s := [{| ident := 3; name := kernel_name; sources := [s]; include_dirs := ["numpy"]; library_dirs := []; link_args := [];
                     libraries := []; compile_args := [if win32 e then "/O2" else "-O3"] |}] in
    if have_pyx e then add pyx_file else if have_c e then add c_file else []
  else [].
(** setup.py:217-232: the extensions handed to setup().  [cythonize] is Cython's. *)
Definition ext_modules (cythonize : list ext -> list ext) (e : env) : list ext :=
  let cy := cython_exts e in
  let all := (pybind_exts e ++ cy)%list in
  if have_cython e && match cy with [] => false | _ => true end
  then (filter (fun x => negb (existsb (fun c => Nat.eqb (ident c) (ident x)) cy)) all ++ cythonize cy)%list
  else all.

(** The build_ext command (lines 181-196 and setuptools): without pybind11 it raises (ModuleNotFoundError, line 189).  Otherwise every source has to be
    there.  [Extension] of setuptools reads ".pyx" as ".c" when Cython cannot be imported; compilers and linkers are taken to succeed on
    existing sources.  Cython writes the .c file from the .pyx file. *)
Definition source_there (e : env) (s : string) : bool :=
  if String.eqb s pyx_file then (if have_cython e then have_pyx e else have_c e)
  else if String.eqb s c_file then have_c e || have_cython e && have_pyx e else existsb (String.eqb s) cpp_files.
Definition build (cythonize : list ext -> list ext) (e : env) : res (list string) :=
  if have_pybind e then
    let xs := ext_modules cythonize e in
    if forallb (fun x => forallb (source_there e) (sources x)) xs then Ok (map name xs) else Raise RuntimeError
  else Raise RuntimeError.

(** ** Requirements (setup.py:199-214) *)
(** str.split() without argument. *)
Fixpoint words_from (s cur : text) : list text :=
  match s with
  | [] => match cur with [] => [] | _ => [cur] end
  | c :: r => if is_space c then match cur with [] => words_from r [] | _ => cur :: words_from r [] end
              else words_from r (cur ++ [c])%list
  end.
Definition words (s : text) : list text := words_from s [].
(** list.remove *)
Fixpoint remove_first (x : text) (l : list text) : res (list text) :=
  match l with
  | [] => Raise ValueError
  | y :: r => if list_eq_dec ascii_dec x y then Ok r else let! r' := remove_first x r in Ok (y :: r')
  end.
(** sys.version_info < (3, 9) *)
Definition old_python (v : nat * nat) : bool := (fst v <? 3)%nat || (fst v =? 3)%nat && (snd v <? 9)%nat.
(** setup.py:199-214 get_requirements; [cfg] is config["options"]["install_requires"], None when section or option is missing. *)
Definition get_requirements (cfg : option text) (v : nat * nat) : res (list text) :=
  match cfg with
  | None => Raise KeyError
  | Some t => let req := words t in
      if old_python v then let! r := remove_first (txt "fiona") req in Ok (r ++ [txt "fiona<1.10"])%list else Ok req
  end.
(** setup.cfg:25-38 install_requires as configparser hands it out: one leading line break, the lines stripped. *)
Definition lf : string := String "010" EmptyString.
Definition setup_cfg : text := txt (lf ++ "numpy" ++ lf ++ "meshio" ++ lf ++ "pyproj" ++ lf ++ "scipy" ++ lf ++ "geopandas" ++ lf ++ "fiona" ++ lf ++
  "shapely" ++ lf ++ "matplotlib" ++ lf ++ "rasterio>=1.3a1" ++ lf ++ "rioxarray" ++ lf ++ "scikit-fmm" ++ lf ++ "scikit-image").
