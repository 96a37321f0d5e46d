(** Model of the version lookup run at import (oceanmesh/_version.py, called by oceanmesh/__init__.py:125-131).
    Texts are lists of ASCII characters; str methods and re act on ASCII only. *)
From Coq Require Import List Ascii String ZArith NArith Bool.
From Verif Require Import M_Base M_Writers.
Import ListNotations.

(** ** str methods and regular expressions used by _version.py *)
(** Characters and their codes (the comparisons of _version.py are on code points). *)
Definition chr (n : N) : ascii := ascii_of_N n.
Definition cN (c : ascii) : N := N_of_ascii c.
(** str.isspace on ASCII: what strip() removes (_version.py:100, 184, 185, 190 and others). *)
Definition is_space (c : ascii) : bool := let n := cN c in ((9 <=? n) && (n <=? 13) || (28 <=? n) && (n <=? 32))%N.
Fixpoint drop_while (f : ascii -> bool) (s : text) : text := match s with [] => [] | c :: r => if f c then drop_while f r else s end.
Definition strip_by (f : ascii -> bool) (s : text) : text := rev (drop_while f (rev (drop_while f s))).
Definition strip (s : text) : text := strip_by is_space s.
(** s.startswith(p), s[len(p):] when it does. *)
Fixpoint after_prefix (p s : text) : option text :=
  match p, s with
  | [], _ => Some s
  | c :: p', d :: s' => if Ascii.eqb c d then after_prefix p' s' else None
  | _ :: _, [] => None
  end.
(** s.endswith(p), the rest when it does; s[:s.rindex(p)] is the same text (_version.py:324-327). *)
Definition before_suffix (p s : text) : option text := option_map (@rev ascii) (after_prefix (rev p) (rev s)).
Definition has_char (c : ascii) (s : text) : bool := existsb (Ascii.eqb c) s.
(** s.split(c) for one character. *)
Fixpoint split_char (c : ascii) (s : text) : list text :=
  match s with
  | [] => [[]]
  | x :: r => if Ascii.eqb x c then [] :: split_char c r else match split_char c r with [] => [[x]] | w :: ws => (x :: w) :: ws end
  end.
(** s.split(sep) for a non-empty text; [fuel] is at least the length of s. *)
Fixpoint split_text (fuel : nat) (sep s cur : text) : list text :=
  match fuel with
  | O => [rev cur]
  | S f => match after_prefix sep s with
           | Some r => rev cur :: split_text f sep r []
           | None => match s with [] => [rev cur] | x :: r => split_text f sep r (x :: cur) end
           end
  end.
(** s.splitlines(): \n, \r, \r\n, \v, \f and the separators 28-30. *)
Definition is_break (c : ascii) : bool := let n := cN c in ((10 <=? n) && (n <=? 13) || (28 <=? n) && (n <=? 30))%N.
Fixpoint splitlines (s cur : text) : list text :=
  match s with
  | [] => match cur with [] => [] | _ => [rev cur] end
  | c :: r => if Ascii.eqb c (chr 13) then match r with d :: r' => if Ascii.eqb d (chr 10) then rev cur :: splitlines r' [] else rev cur :: splitlines r [] | [] => rev cur :: splitlines r [] end
              else if is_break c then rev cur :: splitlines r [] else splitlines r (c :: cur)
  end.
(** s.replace(c, by, 1). *)
Fixpoint replace_first (c : ascii) (by_ s : text) : text :=
  match s with [] => [] | x :: r => if Ascii.eqb x c then by_ ++ r else x :: replace_first c by_ r end.
(** \d and [0-9a-f] on ASCII. *)
Definition is_dec (c : ascii) : bool := let n := cN c in ((48 <=? n) && (n <=? 57))%N.
Definition is_hex (c : ascii) : bool := let n := cN c in ((48 <=? n) && (n <=? 57) || (97 <=? n) && (n <=? 102))%N.
Definition nonempty (s : text) : bool := match s with [] => false | _ => true end.
(** int of a text of digits, after strip; signs and underscores, which git does not print, are not modelled. *)
Definition int_of (s : text) : res N :=
  let d := strip s in
  if nonempty d && forallb is_dec d then Ok (fold_left (fun a c => 10 * a + (cN c - 48))%N d 0%N) else Raise ValueError.
(** Comparison of texts by code points, and sorted() of a set. *)
Fixpoint text_ltb (a b : text) : bool :=
  match a, b with
  | [], [] => false
  | [], _ :: _ => true
  | _ :: _, [] => false
  | x :: a', y :: b' => if (cN x <? cN y)%N then true else if (cN y <? cN x)%N then false else text_ltb a' b'
  end.
Fixpoint insert_text (x : text) (l : list text) : list text :=
  match l with [] => [x] | y :: r => if text_ltb y x then y :: insert_text x r else if text_ltb x y then x :: l else l end.
Definition sorted_set (l : list text) : list text := fold_right insert_text [] l.

(** ** Results *)
(** The dictionaries returned by get_versions. *)
Record info : Type := { v_version : text; v_full : option text; v_dirty : option bool; v_error : option text; v_date : option text }.
(** Calls that may raise NotThisMethod (_version.py:51-52): [Ok None]. *)
Definition attempt (A : Type) : Type := res (option A).

(** ** Dates *)
(** _version.py:174-184 and 365-369: the last line, made ISO 8601. *)
Definition iso_date (s : text) : res text :=
  match rev (splitlines s []) with
  | [] => Raise IndexError
  | l :: _ => Ok (replace_first " " [] (replace_first " " (txt "T") (strip l)))
  end.

(** ** Keywords of an archive *)
(** The dictionary of get_keywords (_version.py:20-30); an absent key is None. *)
Record keywords : Type := { k_refnames : option text; k_full : option text; k_date : option text }.
Definition is_paren (c : ascii) : bool := Ascii.eqb c "(" || Ascii.eqb c ")".
(** _version.py:190: the references, stripped; order and repetition do not matter, see sorted_set. *)
Definition refs_of (refnames : text) : list text := map strip (split_char "," (strip_by is_paren refnames)).
Fixpoint keep_some {A B} (f : A -> option B) (l : list A) : list B := match l with [] => [] | x :: r => match f x with Some y => y :: keep_some f r | None => keep_some f r end end.
(** _version.py:191-203: references marked as tags, else those with a digit. *)
Definition tags_of (refs : list text) : list text :=
  match keep_some (after_prefix (txt "tag: ")) refs with
  | [] => filter (existsb is_dec) refs
  | tags => tags
  end.
(** _version.py:208-225: the first tag in sorted order with the prefix and a digit after it. *)
Fixpoint pick_tag (prefix : text) (tags : list text) : option text :=
  match tags with
  | [] => None
  | t :: r => match after_prefix prefix t with
              | Some (c :: s) => if is_dec c then Some (c :: s) else pick_tag prefix r
              | _ => pick_tag prefix r
              end
  end.
(** _version.py:167-235 git_versions_from_keywords. *)
Definition versions_from_keywords (k : keywords) (prefix : text) : attempt info :=
  match k_refnames k with
  | None => Ok None
  | Some rn =>
      let! date := match k_date k with None => Ok None | Some d => let! i := iso_date d in Ok (Some i) end in
      let refnames := strip rn in
      match after_prefix (txt "$Format") refnames with
      | Some _ => Ok None
      | None =>
          match k_full k with
          | None => Raise KeyError
          | Some full =>
              match pick_tag prefix (sorted_set (tags_of (refs_of refnames))) with
              | Some r => Ok (Some {| v_version := r; v_full := Some (strip full); v_dirty := Some false; v_error := None; v_date := date |})
              | None => Ok (Some {| v_version := txt "0+unknown"; v_full := Some (strip full); v_dirty := Some false; v_error := Some (txt "no suitable tags"); v_date := None |})
              end
          end
      end
  end.

(** ** A checkout *)
(** The git commands run by git_pieces_from_vcs (_version.py:252, 260-272, 277, 287, 297, 361, 365). *)
Inductive git_cmd : Type := GitDir | Describe | RevParse | AbbrevRef | BranchContains | RevCount | ShowDate.
(** run_command (_version.py:72-106): output or None, exit code or None when git does not start.  Any answers. *)
Definition runner : Type := git_cmd -> option text * option Z.
(** What git_pieces_from_vcs returns: an error, or the parts.  In the first case the other keys are absent. *)
Record parts : Type := { p_long : text; p_short : text; p_branch : option text; p_dirty : bool; p_tag : option text; p_distance : N; p_date : text }.
Inductive pieces : Type := Unparsed (long err : text) | Parts (p : parts).
(** Cut at the last occurrence of a character, for the expression of _version.py:333. *)
Fixpoint rsplit (c : ascii) (s : text) : option (text * text) :=
  match s with
  | [] => None
  | x :: r => match rsplit c r with
              | Some (a, b) => Some (x :: a, b)
              | None => if Ascii.eqb x c then Some ([], r) else None
              end
  end.
(** re.search(r"^(.+)-(\d+)-g([0-9a-f]+)$", s) (_version.py:333): neither of the last two groups has a hyphen.
    A text that ends with a line break is not modelled ($ would match before it). *)
Definition match_describe (s : text) : option (text * text * text) :=
  match rsplit "-" s with
  | Some (a, g :: h) =>
      if Ascii.eqb g "g" && nonempty h && forallb is_hex h then
        match rsplit "-" a with
        | Some (t, n) => if nonempty t && negb (has_char nl t) && nonempty n && forallb is_dec n then Some (t, n, h) else None
        | None => None
        end
      else None
  | _ => None
  end.
(** _version.py:287-317: the name of the branch. *)
Definition branch_of (run : runner) : attempt (option text) :=
  match run AbbrevRef with
  | (Some b, Some 0%Z) =>
      let b := strip b in
      if list_eq_dec ascii_dec b (txt "HEAD") then
        match run BranchContains with
        | (Some bs, Some 0%Z) =>
            let l := split_char nl bs in
            let l := match l with x :: r => if has_char "(" x then r else l | [] => l end in
            let l := map (skipn 2) l in
            if existsb (fun x => if list_eq_dec ascii_dec x (txt "master") then true else false) l then Ok (Some (Some (txt "master")))
            else match l with [] => Ok (Some None) | x :: _ => Ok (Some (Some x)) end
        | _ => Ok None
        end
      else Ok (Some (Some b))
  | _ => Ok None
  end.
(** _version.py:238-371 git_pieces_from_vcs. *)
Definition pieces_from_vcs (prefix : text) (run : runner) : attempt pieces :=
  match run GitDir with
  | (_, Some 0%Z) =>
      match fst (run Describe) with
      | None => Ok None
      | Some d =>
          let describe_out := strip d in
          match fst (run RevParse) with
          | None => Ok None
          | Some f =>
              let full := strip f in
              let! br := branch_of run in
              match br with
              | None => Ok None
              | Some branch =>
                  let dirty := match before_suffix (txt "-dirty") describe_out with Some _ => true | None => false end in
                  let git_describe := match before_suffix (txt "-dirty") describe_out with Some s => s | None => describe_out end in
                  let finish tag distance short :=
                    match fst (run ShowDate) with
                    | None => Raise AttributeError
                    | Some dt => let! date := iso_date (strip dt) in
                        Ok (Some (Parts {| p_long := full; p_short := short; p_branch := branch; p_dirty := dirty; p_tag := tag; p_distance := distance; p_date := date |}))
                    end in
                  if has_char "-" git_describe then
                    match match_describe git_describe with
                    | None => Ok (Some (Unparsed full (txt "unable to parse git-describe output: '" ++ describe_out ++ txt "'")))
                    | Some (t, n, h) =>
                        match after_prefix prefix t with
                        | None => Ok (Some (Unparsed full (txt "tag '" ++ t ++ txt "' doesn't start with prefix '" ++ prefix ++ txt "'")))
                        | Some tag => let! n' := int_of n in finish (Some tag) n' h
                        end
                    end
                  else
                    match fst (run RevCount) with
                    | None => Raise TypeError
                    | Some c => let! n' := int_of c in finish None n' (firstn 7 full)
                    end
              end
          end
      end
  | _ => Ok None
  end.

(** ** Styles *)
(** The tag if it is not None and not empty: the truth value of pieces["closest-tag"] (_version.py:390). *)
Definition tag_of (p : parts) : option text := match p_tag p with Some (c :: t) => Some (c :: t) | _ => None end.
(** pieces["distance"] or pieces["dirty"] (_version.py:392). *)
Definition moved (p : parts) : bool := negb (p_distance p =? 0)%N || p_dirty p.
(** _version.py:374-378 for a tag that is not None. *)
Definition plus_or_dot (tag : text) : text := if has_char "+" tag then txt "." else txt "+".
Definition if_ (b : bool) (s : text) : text := if b then s else [].
Definition off_master (p : parts) : bool := match p_branch p with Some b => if list_eq_dec ascii_dec b (txt "master") then false else true | None => true end.
Definition dist_hash (p : parts) : text := fmt_i (p_distance p) ++ txt ".g" ++ p_short p.
(** _version.py:381-402. *)
Definition render_pep440 (p : parts) : text :=
  match tag_of p with
  | Some t => t ++ if_ (moved p) (plus_or_dot t ++ dist_hash p ++ if_ (p_dirty p) (txt ".dirty"))
  | None => txt "0+untagged." ++ dist_hash p ++ if_ (p_dirty p) (txt ".dirty")
  end.
(** _version.py:405-431. *)
Definition render_pep440_branch (p : parts) : text :=
  match tag_of p with
  | Some t => t ++ if_ (moved p) (if_ (off_master p) (txt ".dev0") ++ plus_or_dot t ++ dist_hash p ++ if_ (p_dirty p) (txt ".dirty"))
  | None => txt "0" ++ if_ (off_master p) (txt ".dev0") ++ txt "+untagged." ++ dist_hash p ++ if_ (p_dirty p) (txt ".dirty")
  end.
(** _version.py:434-441. *)
Definition split_post (ver : text) : res (text * option N) :=
  match split_text (S (List.length ver)) (txt ".post") ver [] with
  | [a; b] => let! n := match b with [] => Ok 0%N | _ => int_of b end in Ok (a, Some n)
  | a :: _ => Ok (a, None)
  | [] => Raise IndexError
  end.
(** _version.py:444-465. *)
Definition render_pep440_pre (p : parts) : res text :=
  match tag_of p with
  | Some t => if (p_distance p =? 0)%N then Ok t
              else let! vp := split_post t in
                Ok (fst vp ++ match snd vp with Some n => txt ".post" ++ fmt_i (n + 1) ++ txt ".dev" ++ fmt_i (p_distance p) | None => txt ".post0.dev" ++ fmt_i (p_distance p) end)
  | None => Ok (txt "0.post0.dev" ++ fmt_i (p_distance p))
  end.
(** _version.py:468-492. *)
Definition render_pep440_post (p : parts) : text :=
  match tag_of p with
  | Some t => t ++ if_ (moved p) (txt ".post" ++ fmt_i (p_distance p) ++ if_ (p_dirty p) (txt ".dev0") ++ plus_or_dot t ++ txt "g" ++ p_short p)
  | None => txt "0.post" ++ fmt_i (p_distance p) ++ if_ (p_dirty p) (txt ".dev0") ++ txt "+g" ++ p_short p
  end.
(** _version.py:495-521. *)
Definition render_pep440_post_branch (p : parts) : text :=
  match tag_of p with
  | Some t => t ++ if_ (moved p) (txt ".post" ++ fmt_i (p_distance p) ++ if_ (off_master p) (txt ".dev0") ++ plus_or_dot t ++ txt "g" ++ p_short p ++ if_ (p_dirty p) (txt ".dirty"))
  | None => txt "0.post" ++ fmt_i (p_distance p) ++ if_ (off_master p) (txt ".dev0") ++ txt "+g" ++ p_short p ++ if_ (p_dirty p) (txt ".dirty")
  end.
(** _version.py:524-543. *)
Definition render_pep440_old (p : parts) : text :=
  match tag_of p with
  | Some t => t ++ if_ (moved p) (txt ".post" ++ fmt_i (p_distance p) ++ if_ (p_dirty p) (txt ".dev0"))
  | None => txt "0.post" ++ fmt_i (p_distance p) ++ if_ (p_dirty p) (txt ".dev0")
  end.
(** _version.py:546-563. *)
Definition render_git_describe (p : parts) : text :=
  match tag_of p with
  | Some t => t ++ if_ (negb (p_distance p =? 0)%N) (txt "-" ++ fmt_i (p_distance p) ++ txt "-g" ++ p_short p)
  | None => p_short p
  end ++ if_ (p_dirty p) (txt "-dirty").
(** _version.py:566-583. *)
Definition render_git_describe_long (p : parts) : text :=
  match tag_of p with
  | Some t => t ++ txt "-" ++ fmt_i (p_distance p) ++ txt "-g" ++ p_short p
  | None => p_short p
  end ++ if_ (p_dirty p) (txt "-dirty").
(** _version.py:586-625 render; the style is "pep440" in this package (:43). *)
Definition render (ps : pieces) (style : string) : res info :=
  match ps with
  | Unparsed long err => Ok {| v_version := txt "unknown"; v_full := Some long; v_dirty := None; v_error := Some err; v_date := None |}
  | Parts p =>
      let is s := String.eqb style s in
      let! r := (if is "" || is "default" || is "pep440" then Ok (render_pep440 p)
        else if is "pep440-branch" then Ok (render_pep440_branch p)
        else if is "pep440-pre" then render_pep440_pre p
        else if is "pep440-post" then Ok (render_pep440_post p)
        else if is "pep440-post-branch" then Ok (render_pep440_post_branch p)
        else if is "pep440-old" then Ok (render_pep440_old p)
        else if is "git-describe" then Ok (render_git_describe p)
        else if is "git-describe-long" then Ok (render_git_describe_long p)
        else Raise ValueError)%string in
      Ok {| v_version := r; v_full := Some (p_long p); v_dirty := Some (p_dirty p); v_error := None; v_date := Some (p_date p) |}
  end.

(** ** The parent directory *)
(** _version.py:109-136; a path is the list of its names, the innermost first; the parent of the root is the root. *)
Fixpoint from_parentdir (levels : nat) (prefix : text) (path : list text) : option info :=
  match levels with
  | O => None
  | S k => match after_prefix prefix (match path with [] => [] | d :: _ => d end) with
           | Some v => Some {| v_version := v; v_full := None; v_dirty := Some false; v_error := None; v_date := None |}
           | None => from_parentdir k prefix (tl path)
           end
  end.
(** _version.py:628-677 get_versions with the configuration of :37-48: tag_prefix "v", style "pep440", parentdir_prefix
    "None", two path components.  __file__ is defined. *)
Definition get_versions (k : keywords) (run : runner) (file : list text) : res info :=
  let! a := versions_from_keywords k (txt "v") in
  match a with
  | Some i => Ok i
  | None =>
      let! b := pieces_from_vcs (txt "v") run in
      match b with
      | Some ps => render ps "pep440"
      | None =>
          match from_parentdir 3 (txt "None") (tl (tl file)) with
          | Some i => Ok i
          | None => Ok {| v_version := txt "0+unknown"; v_full := None; v_dirty := None; v_error := Some (txt "unable to compute version"); v_date := None |}
          end
      end
  end.
(** _version.py:20-30: the keywords of a checkout, where git has expanded nothing. *)
Definition unexpanded : keywords := {| k_refnames := Some (txt "$Format:%d$"); k_full := Some (txt "$Format:%H$"); k_date := Some (txt "$Format:%ci$") |}.
