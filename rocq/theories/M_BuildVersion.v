(** Model of the version lookup of the build (versioneer.py, called by setup.py:178, 233), of the version file it writes and
    of what that file says at import.  Texts are lists of characters with codes below 256, as in M_Version. *)
From Coq Require Import List Ascii String ZArith NArith Bool Arith.
From Verif Require Import M_Base M_Writers M_Version.
Import ListNotations.

Definition quote : ascii := chr 34.
Definition bslash : ascii := chr 92.
Definition apos : ascii := chr 39.

(** ** JSON *)
(** Values of the dictionaries written; numbers, arrays and nested objects are not modelled. *)
Inductive jval : Type := JNull | JBool (b : bool) | JText (t : text).
(** A dictionary with its keys in sorted order. *)
Definition obj : Type := list (text * jval).
(** The keys returned by git_versions_from_keywords, render and get_versions (versioneer.py:1102-1170, 1634-1673, 1752-1758), sorted. *)
Definition otext (o : option text) : jval := match o with Some t => JText t | None => JNull end.
Definition info_obj (i : info) : obj :=
  [(txt "date", otext (v_date i)); (txt "dirty", match v_dirty i with Some b => JBool b | None => JNull end); (txt "error", otext (v_error i));
   (txt "full-revisionid", otext (v_full i)); (txt "version", JText (v_version i))].
(** json.dumps with ensure_ascii (versioneer.py:1415): what lies outside space..~ and the two marks are escaped. *)
Definition hex_char (n : N) : ascii := chr (if (n <? 10)%N then 48 + n else 87 + n)%N.
Definition json_char (c : ascii) : text :=
  let n := cN c in
  if Ascii.eqb c quote then [bslash; quote] else if Ascii.eqb c bslash then [bslash; bslash]
  else if (n =? 10)%N then [bslash; "n"%char] else if (n =? 13)%N then [bslash; "r"%char] else if (n =? 9)%N then [bslash; "t"%char]
  else if (n =? 12)%N then [bslash; "f"%char] else if (n =? 8)%N then [bslash; "b"%char]
  else if ((32 <=? n) && (n <=? 126))%N then [c]
  else [bslash; "u"%char; "0"%char; "0"%char; hex_char (n / 16)%N; hex_char (n mod 16)%N].
Definition json_text (t : text) : text := quote :: flat_map json_char t ++ [quote].
Definition json_value (v : jval) : text := match v with JNull => txt "null" | JBool true => txt "true" | JBool false => txt "false" | JText t => json_text t end.
(** indent=1, separators=(",", ": ") (versioneer.py:1415) of a dictionary that is not empty. *)
Definition json_member (m : text * jval) : text := txt " " ++ json_text (fst m) ++ txt ": " ++ json_value (snd m).
Fixpoint json_members (o : obj) : text :=
  match o with [] => [] | [m] => json_member m | m :: r => json_member m ++ "," %char :: nl :: json_members r end.
Definition json_dumps (o : obj) : text := "{"%char :: nl :: json_members o ++ [nl; "}"%char].

(** json.loads (versioneer.py:1389, 1409).  JSONDecodeError is a ValueError.  Simplified: numbers, arrays, nested objects, NaN
    and code points above 255 are reported as NotImplementedError. *)
Definition is_ws (c : ascii) : bool := let n := cN c in ((n =? 32) || (n =? 9) || (n =? 10) || (n =? 13))%N.
Definition hex_val (c : ascii) : option N :=
  let n := cN c in
  if ((48 <=? n) && (n <=? 57))%N then Some (n - 48)%N else if ((97 <=? n) && (n <=? 102))%N then Some (n - 87)%N
  else if ((65 <=? n) && (n <=? 70))%N then Some (n - 55)%N else None.
Definition hex4 (a b c d : ascii) : option N :=
  match hex_val a, hex_val b, hex_val c, hex_val d with Some a, Some b, Some c, Some d => Some (((a * 16 + b) * 16 + c) * 16 + d)%N | _, _, _, _ => None end.
Definition json_escape (e : ascii) : option ascii :=
  if Ascii.eqb e quote then Some quote else if Ascii.eqb e bslash then Some bslash else if Ascii.eqb e "/" then Some "/"%char
  else if Ascii.eqb e "b" then Some (chr 8) else if Ascii.eqb e "f" then Some (chr 12) else if Ascii.eqb e "n" then Some (chr 10)
  else if Ascii.eqb e "r" then Some (chr 13) else if Ascii.eqb e "t" then Some (chr 9) else None.
(** After the opening mark: the text and what follows the closing mark; control characters are refused (strict). *)
Fixpoint read_text (s : text) : res (text * text) :=
  match s with
  | [] => Raise ValueError
  | c :: r =>
      if Ascii.eqb c quote then Ok ([], r)
      else if Ascii.eqb c bslash then
        match r with
        | [] => Raise ValueError
        | e :: r1 =>
            if Ascii.eqb e "u" then
              match r1 with
              | h1 :: h2 :: h3 :: h4 :: r2 =>
                  match hex4 h1 h2 h3 h4 with
                  | None => Raise ValueError
                  | Some n => if (n <? 256)%N then let! q := read_text r2 in Ok (chr n :: fst q, snd q) else Raise NotImplementedError
                  end
              | _ => Raise ValueError
              end
            else match json_escape e with None => Raise ValueError | Some d => let! q := read_text r1 in Ok (d :: fst q, snd q) end
        end
      else if (cN c <? 32)%N then Raise ValueError
      else let! q := read_text r in Ok (c :: fst q, snd q)
  end.
Definition read_value (s : text) : res (jval * text) :=
  match s with
  | [] => Raise ValueError
  | c :: r =>
      if Ascii.eqb c quote then let! q := read_text r in Ok (JText (fst q), snd q)
      else match after_prefix (txt "null") s with Some r => Ok (JNull, r) | None =>
           match after_prefix (txt "true") s with Some r => Ok (JBool true, r) | None =>
           match after_prefix (txt "false") s with Some r => Ok (JBool false, r) | None =>
           if is_dec c || existsb (Ascii.eqb c) (txt "-[{NI") then Raise NotImplementedError else Raise ValueError end end end
  end.
(** A key met again replaces the value. *)
Fixpoint put (k : text) (v : jval) (o : obj) : obj :=
  match o with [] => [(k, v)] | (k', v') :: r => if list_eq_dec ascii_dec k k' then (k, v) :: r else (k', v') :: put k v r end.
(** Members after the opening brace or a comma; each takes at least one character. *)
Fixpoint read_members (fuel : nat) (acc : obj) (s : text) : res (obj * text) :=
  match fuel with
  | O => OutOfFuel
  | S f =>
      match drop_while is_ws s with
      | c :: r =>
          if Ascii.eqb c quote then
            let! k := read_text r in
            match drop_while is_ws (snd k) with
            | c2 :: r2 =>
                if Ascii.eqb c2 ":" then
                  let! v := read_value (drop_while is_ws r2) in
                  match drop_while is_ws (snd v) with
                  | c3 :: r3 => if Ascii.eqb c3 "," then read_members f (put (fst k) (fst v) acc) r3
                                else if Ascii.eqb c3 "}" then Ok (put (fst k) (fst v) acc, r3) else Raise ValueError
                  | [] => Raise ValueError
                  end
                else Raise ValueError
            | [] => Raise ValueError
            end
          else Raise ValueError
      | [] => Raise ValueError
      end
  end.
Definition json_loads (s : text) : res obj :=
  match drop_while is_ws s with
  | [] => Raise ValueError
  | c :: r =>
      if Ascii.eqb c "{" then
        let! q := match drop_while is_ws r with
                  | c2 :: r2 => if Ascii.eqb c2 "}" then Ok ([], r2) else read_members (S (List.length r)) [] r
                  | [] => Raise ValueError
                  end in
        match drop_while is_ws (snd q) with [] => Ok (fst q) | _ => Raise ValueError end
      else Raise NotImplementedError
  end.

(** ** The version file *)
Definition lines_of (l : list string) : text := flat_map (fun s => txt s ++ [nl]) l.
(** SHORT_VERSION_PY (versioneer.py:1375-1390) before and after the contents. *)
Definition version_open : text := txt "version_json = '''" ++ [nl].
Definition file_head : text :=
  lines_of [""; "# This file was generated by 'versioneer.py' (0.21) from"; "# revision-control system data, or from the parent directory name of an";
            "# unpacked source archive. Distribution tarballs contain a pre-generated copy"; "# of this file."; ""; "import json"; ""]%string.
Definition version_close : text := txt "'''  # END VERSION_JSON".
Definition file_tail : text := txt "  # END VERSION_JSON" ++ [nl] ++ lines_of [""; ""; "def get_versions():"; "    return json.loads(version_json)"]%string.
Definition short_version_py (contents : text) : text := file_head ++ version_open ++ contents ++ nl :: [apos; apos; apos] ++ file_tail.
(** versioneer.py:1412-1417 write_to_version_file: os.unlink first, which raises FileNotFoundError (here RuntimeError) when
    there is no such file; files are written and read in text mode. *)
Definition write_to_version_file (old : option text) (v : obj) : res text :=
  match old with None => Raise RuntimeError | Some _ => Ok (short_version_py (json_dumps v)) end.
(** re.search of everything between open and close, with re.S (versioneer.py:1400-1402): the first start from which it matches; greedy.
    The second search (:1404-1406), for \r\n, finds nothing in a text read in text mode. *)
Fixpoint before_last (close s : text) : option text :=
  match s with
  | [] => match after_prefix close [] with Some _ => Some [] | None => None end
  | c :: r => match before_last close r with
              | Some t => Some (c :: t)
              | None => match after_prefix close s with Some _ => Some [] | None => None end
              end
  end.
Fixpoint search_between (open close s : text) : option text :=
  match match after_prefix open s with Some r => before_last close r | None => None end with
  | Some g => Some g
  | None => match s with [] => None | _ :: r => search_between open close r end
  end.
(** versioneer.py:1393-1409 versions_from_file; None is an unreadable file. *)
Definition versions_from_file (file : option text) : attempt obj :=
  match file with
  | None => Ok None
  | Some s => match search_between version_open version_close s with
              | None => Ok None
              | Some g => let! o := json_loads g in Ok (Some o)
              end
  end.

(** ** The keywords in the text of _version.py *)
(** Text before the last mark. *)
Definition before_quote (s : text) : option text := before_last [quote] s.
(** re.search of an equality sign, white space and a text in quotation marks in the line (versioneer.py:1085, 1089, 1093); a line ends at its newline, which is not in [s]. *)
Fixpoint quoted_value (s : text) : option text :=
  match s with
  | [] => None
  | c :: r =>
      match (if Ascii.eqb c "=" then match drop_while is_space r with d :: r2 => if Ascii.eqb d quote then before_quote r2 else None | [] => None end else None) with
      | Some v => Some v
      | None => quoted_value r
      end
  end.
Definition keyword_line (name : string) (line : text) : option text :=
  match after_prefix (txt name ++ txt " =") (strip line) with Some _ => quoted_value line | None => None end.
Definition or_else {A} (a b : option A) : option A := match a with Some _ => a | None => b end.
(** versioneer.py:1073-1098 git_get_keywords: the last line wins. *)
Definition read_keywords (file : option text) : keywords :=
  match file with
  | None => {| k_refnames := None; k_full := None; k_date := None |}
  | Some s => fold_left (fun k line => {| k_refnames := or_else (keyword_line "git_refnames" line) (k_refnames k);
                                          k_full := or_else (keyword_line "git_full" line) (k_full k);
                                          k_date := or_else (keyword_line "git_date" line) (k_date k) |})
                (split_char nl s) {| k_refnames := None; k_full := None; k_date := None |}
  end.

(** ** The lookup of the build *)
(** versioneer.py:1680-1758 get_versions with the section [versioneer] of setup.cfg:41-46: git, pep440, tag_prefix v, no
    parentdir_prefix (so :1740-1747 is skipped).  [file] is oceanmesh/_version.py.  git_versions_from_keywords (:1101-1170),
    git_pieces_from_vcs (:1172-1305) and render (:1634-1673) are the functions of _version.py, word for word but for comments. *)
Definition build_versions (file : option text) (run : runner) : res obj :=
  let! a := versions_from_keywords (read_keywords file) (txt "v") in
  match a with
  | Some i => Ok (info_obj i)
  | None =>
      let! f := versions_from_file file in
      match f with
      | Some o => Ok o
      | None =>
          let! b := pieces_from_vcs (txt "v") run in
          match b with
          | Some ps => let! i := render ps "pep440" in Ok (info_obj i)
          | None => Ok (info_obj {| v_version := txt "0+unknown"; v_full := None; v_dirty := None; v_error := Some (txt "unable to compute version"); v_date := None |})
          end
      end
  end.
(** cmd_build_py.run and cmd_sdist (versioneer.py:1837-1848, 1953-1973): the version file of the wheel or the archive;
    [copied] is the _version.py that setuptools put there. *)
Definition build_py (file : option text) (run : runner) (copied : option text) : res text :=
  let! v := build_versions file run in write_to_version_file copied v.
(** cmd_build_ext.run (versioneer.py:1859-1875): nothing in place; else the version file in the build directory, copied there
    by build_py if that has run. *)
Definition build_ext (inplace : bool) (file : option text) (run : runner) (copied : option text) : res (option text) :=
  let! v := build_versions file run in
  if inplace then Ok copied else let! t := write_to_version_file copied v in Ok (Some t).

(** ** The version file at import *)
(** Python's escapes that json.dumps can produce; any other backslash is kept. *)
Definition python_escape (e : ascii) : option ascii :=
  if Ascii.eqb e quote then Some quote else if Ascii.eqb e bslash then Some bslash else if Ascii.eqb e "b" then Some (chr 8)
  else if Ascii.eqb e "f" then Some (chr 12) else if Ascii.eqb e "n" then Some (chr 10) else if Ascii.eqb e "r" then Some (chr 13)
  else if Ascii.eqb e "t" then Some (chr 9) else None.
(** The literal after its opening apostrophes (versioneer.py:1383): its value, and the code after it. *)
Fixpoint literal (s : text) : res (text * text) :=
  match s with
  | [] => Raise ValueError
  | c :: r =>
      if Ascii.eqb c bslash then
        match r with
        | [] => Raise ValueError
        | e :: r1 =>
            if Ascii.eqb e "u" then
              match r1 with
              | h1 :: h2 :: h3 :: h4 :: r2 =>
                  match hex4 h1 h2 h3 h4 with
                  | None => Raise ValueError
                  | Some n => if (n <? 256)%N then let! q := literal r2 in Ok (chr n :: fst q, snd q) else Raise NotImplementedError
                  end
              | _ => Raise ValueError
              end
            else let! q := literal r1 in Ok (match python_escape e with Some d => d :: fst q | None => bslash :: e :: fst q end, snd q)
        end
      else match after_prefix [apos; apos; apos] s with
           | Some rest => Ok ([], rest)
           | None => let! q := literal r in Ok (c :: fst q, snd q)
           end
  end.
Definition text_eqb (a b : text) : bool := if list_eq_dec ascii_dec a b then true else false.
(** get_versions() of a file written by the build (versioneer.py:1383-1389).  When the code after the literal is not the rest of
    the template it is run by Python; here RuntimeError. *)
Definition import_versions (file : text) : res obj :=
  match after_prefix (file_head ++ txt "version_json = '''") file with
  | None => Raise RuntimeError
  | Some body =>
      let! q := literal body in
      if text_eqb (snd q) file_tail then json_loads (fst q) else Raise RuntimeError
  end.
(** oceanmesh/__init__.py:125-131: __version__ = _version.get_versions()["version"]. *)
Definition package_version (file : text) : res jval :=
  let! o := import_versions file in
  match find (fun m => text_eqb (fst m) (txt "version")) o with Some m => Ok (snd m) | None => Raise KeyError end.
