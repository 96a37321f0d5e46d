(** Model of the wheel check run by the release workflow (tools/verify_manylinux_wheels.py).
    Texts are lists of ASCII characters, as in M_Version.  Not modelled: argparse, the texts printed other than
    the complaints, the zip and directory readers (a wheel is given by its name, its members and the output of
    auditwheel). *)
From Coq Require Import List Ascii String ZArith NArith Bool.
From Verif Require Import M_Base M_Writers M_Version.
Import ListNotations.

(** Python's "needle in s" on str. *)
Fixpoint has_sub (needle s : text) : bool :=
  match after_prefix needle s with
  | Some _ => true
  | None => match s with [] => false | _ :: r => has_sub needle r end
  end.
(** The digits at the start of a text and what follows (\d+, greedy). *)
Fixpoint lead_digits (s : text) : text * text :=
  match s with
  | c :: r => if is_dec c then let '(d, q) := lead_digits r in (c :: d, q) else ([], s)
  | [] => ([], [])
  end.
(** A match of GLIBC_(\d+)\.(\d+) at the start of a text: both groups and what follows
    (verify_manylinux_wheels.py:12).  Giving back digits cannot help, since a digit is not a dot. *)
Definition glibc_at (s : text) : option (text * text * text) :=
  match after_prefix (txt "GLIBC_") s with
  | None => None
  | Some r =>
      let '(a, q) := lead_digits r in
      match after_prefix (txt ".") q with
      | None => None
      | Some q' => let '(b, z) := lead_digits q' in if nonempty a && nonempty b then Some (a, b, z) else None
      end
  end.
(** verify_manylinux_wheels.py:12 re.findall: matches from left to right that do not overlap. *)
Fixpoint findall (fuel : nat) (s : text) : list (text * text) :=
  match fuel with
  | O => []
  | S f => match glibc_at s with
           | Some (a, b, z) => (a, b) :: findall f z
           | None => match s with [] => [] | _ :: r => findall f r end
           end
  end.
(** Comparison of pairs, verify_manylinux_wheels.py:16 and 86: u > v. *)
Definition newer_b (u v : N * N) : bool := ((fst v <? fst u) || (fst v =? fst u) && (snd v <? snd u))%N.
(** verify_manylinux_wheels.py:15 int of both groups. *)
Definition pair_of (p : text * text) : res (N * N) := let! a := int_of (fst p) in let! b := int_of (snd p) in Ok (a, b).
(** verify_manylinux_wheels.py:11-16 _parse_glibc_symbols. *)
Definition parse_glibc_symbols (out : text) : res (option (N * N)) :=
  let! vs := mapM pair_of (findall (List.length out) out) in
  Ok (match vs with [] => None | v :: r => Some (fold_left (fun m x => if newer_b x m then x else m) r v) end).

(** A wheel: file name, names of the zip members, output of "auditwheel show -v" (None: the command fails and
    check_output raises, verify_manylinux_wheels.py:19-24). *)
Record wheel : Type := { w_name : text; w_members : list text; w_audit : option text }.
(** verify_manylinux_wheels.py:27-36 _wheel_contains_shared_lib. *)
Definition contains_shared_lib (w : wheel) (needle : text) : bool :=
  existsb (fun name => has_sub needle name && has_sub (txt ".so") name) (w_members w).
(** The ERROR lines printed about one wheel (verify_manylinux_wheels.py:75, 79, 87-90, 98, 101). *)
Inductive complaint : Type := NoTag | PlainLinux | TooNew (seen allowed : N * N) | NoGmp | NoMpfr.
(** One line if a test fails. *)
Definition when (b : bool) (c : complaint) : list complaint := if b then [c] else [].
(** verify_manylinux_wheels.py:72-105, the body of the loop: lines printed, or lines printed before the
    exception. *)
Definition check_wheel (allowed : N * N) (w : wheel) : list complaint * res unit :=
  let tag := has_sub (txt "manylinux") (w_name w) in
  let c1 := when (negb tag) NoTag ++ when (has_sub (txt "linux_x86_64") (w_name w) && negb tag) PlainLinux in
  match w_audit w with
  | None => (c1, Raise RuntimeError)
  | Some out =>
      match parse_glibc_symbols out with
      | Ok seen =>
          (c1 ++ match seen with Some v => when (newer_b v allowed) (TooNew v allowed) | None => [] end
              ++ when (negb (contains_shared_lib w (txt "libgmp"))) NoGmp
              ++ when (negb (contains_shared_lib w (txt "libmpfr"))) NoMpfr, Ok tt)
      | Raise e => (c1, Raise e)
      | OutOfFuel => (c1, OutOfFuel)
      end
  end.
(** verify_manylinux_wheels.py:69-107: all wheels; [failed] is set by any complaint.  Returns what was printed about
    each wheel and the exit status. *)
Fixpoint check_all (allowed : N * N) (failed : bool) (ws : list wheel) : list (text * list complaint) * res Z :=
  match ws with
  | [] => ([], Ok (if failed then 1 else 0)%Z)
  | w :: r =>
      let '(c, x) := check_wheel allowed w in
      match x with
      | Ok _ => let '(l, s) := check_all allowed (failed || match c with [] => false | _ => true end) r in ((w_name w, c) :: l, s)
      | Raise e => ([(w_name w, c)], Raise e)
      | OutOfFuel => ([(w_name w, c)], OutOfFuel)
      end
  end.
(** verify_manylinux_wheels.py:60-65: which wheels are looked at. *)
Definition is_linux_wheel (w : wheel) : bool :=
  has_sub (txt "linux") (w_name w) && has_sub (txt "x86_64") (w_name w) && negb (has_sub (txt "musllinux") (w_name w)).
(** verify_manylinux_wheels.py:39-107, 110-111 main.  [files] are the wheels of the directory, sorted; SystemExit with a
    message ends the program with status 1 and prints nothing about a wheel. *)
Definition main (max_glibc : text) (files : list wheel) : list (text * list complaint) * res Z :=
  match split_char "." max_glibc with
  | [a; b] =>
      match pair_of (a, b) with
      | Ok allowed =>
          match filter is_linux_wheel files with
          | [] => ([], Ok 1%Z)
          | ws => check_all allowed false ws
          end
      | Raise e => ([], Raise e)
      | OutOfFuel => ([], OutOfFuel)
      end
  | _ => ([], Ok 1%Z)
  end.
