(** Model of write_to_fort14 and write_to_t3s (oceanmesh/mesh_generator.py).  A file is a list of characters. *)
From Coq Require Import List Ascii String ZArith NArith QArith Qround Qabs.
From Verif Require Import M_Base.
Import ListNotations.

Definition text : Type := list ascii.
Definition txt (s : string) : text := list_ascii_of_string s.
Definition nl : ascii := "010"%char.
Definition digit (d : N) : ascii := ascii_of_N (48 + d).

(** The last k decimal digits of n. *)
Fixpoint fixed_digits (k : nat) (n : N) : text :=
  match k with O => [] | S k' => fixed_digits k' (n / 10)%N ++ [digit (n mod 10)%N] end.
(** Number of decimal digits of n (at least one); [fuel] bounds the recursion and N.size_nat n suffices. *)
Fixpoint num_digits (fuel : nat) (n : N) : nat :=
  match fuel with O => 1%nat | S f => if (n <? 10)%N then 1%nat else S (num_digits f (n / 10)%N) end.
(** "%i" of a non-negative integer.  savetxt first converts the numbers of a row to float64, exact below 2^53: not modelled. *)
Definition fmt_i (n : N) : text := fixed_digits (num_digits (N.size_nat n) n) n.
(** Nearest integer, ties to even, of a non-negative number. *)
Definition round_even (q : Q) : N :=
  let f := Qfloor q in
  Z.to_N (match Qcompare (q - inject_Z f) (1 # 2) with
          | Lt => f
          | Gt => f + 1
          | Eq => if Z.even f then f else f + 1
          end)%Z.
(** "%f" of a finite number: six decimals, correctly rounded; nan, inf and -0.0 are not modelled. *)
Definition fmt_f (q : Q) : text :=
  let r := round_even (Qabs q * (1000000 # 1)) in
  (if Qle_bool 0 q then [] else txt "-") ++ fmt_i (r / 1000000)%N ++ txt "." ++ fixed_digits 6 r.

(** mesh_generator.py:101-108: one node row, "%i %f %f %f". *)
Definition node_row (k : N) (x y z : Q) : text := fmt_i k ++ txt " " ++ fmt_f x ++ txt " " ++ fmt_f y ++ txt " " ++ fmt_f z ++ [nl].
(** mesh_generator.py:111-118: one element row, "%i %i %i %i %i ". *)
Definition elem_row (k : N) (t : nat * nat * nat) : text :=
  let '(a, b, c) := t in
  fmt_i k ++ txt " " ++ fmt_i 3 ++ txt " " ++ fmt_i (N.of_nat a) ++ txt " " ++ fmt_i (N.of_nat b) ++ txt " " ++ fmt_i (N.of_nat c) ++ txt " " ++ [nl].
(** for k in range(n): row k+1. *)
Fixpoint rows {A} (f : N -> A -> text) (k : N) (l : list A) : text :=
  match l with [] => [] | x :: r => f k x ++ rows f (k + 1)%N r end.

Definition shift_cell (t : nat * nat * nat) : nat * nat * nat := let '(a, b, c) := t in (S a, S b, S c).

(** The arrays of the caller after the call. *)
Record arrays : Type := { a_cells : list (nat * nat * nat); a_topo : option (list Q) }.

(** mesh_generator.py:40-124 write_to_fort14: the file written (or the exception), and the caller's
    cells and topobathymetry arrays afterwards.  An integer points or cells array and a
    one-dimensional or (n,1) topobathymetry give the same result. *)
Definition write_to_fort14 (points : list (Q * Q)) (st : arrays) (name : text) (flip : bool) : arrays * res text :=
  match a_topo st with
  | Some z => if Nat.eqb (List.length z) (List.length points) then
      let z' := if flip then map (fun q => q * (-1 # 1))%Q z else z in
      let cells' := map shift_cell (a_cells st) in
      ({| a_cells := cells'; a_topo := Some z' |},
       Ok (name ++ (if flip then txt " (bathymetry flipped) " else txt " ") ++ [nl]
           ++ fmt_i (N.of_nat (List.length cells')) ++ txt " " ++ fmt_i (N.of_nat (List.length points)) ++ [nl]
           ++ rows (fun k p => node_row k (fst (fst p)) (snd (fst p)) (snd p)) 1 (combine points z')
           ++ rows elem_row 1 cells'
           ++ txt "0 " ++ [nl] ++ txt "0 " ++ [nl] ++ txt "0 " ++ [nl] ++ txt "0 " ++ [nl]))
      else (st, Raise AssertionError)
  | None =>
      let z' := map (fun _ => 0%Q) points in
      let cells' := map shift_cell (a_cells st) in
      ({| a_cells := cells'; a_topo := None |},
       Ok (name ++ (if flip then txt " (bathymetry flipped) " else txt " ") ++ [nl]
           ++ fmt_i (N.of_nat (List.length cells')) ++ txt " " ++ fmt_i (N.of_nat (List.length points)) ++ [nl]
           ++ rows (fun k p => node_row k (fst (fst p)) (snd (fst p)) (snd p)) 1 (combine points z')
           ++ rows elem_row 1 cells'
           ++ txt "0 " ++ [nl] ++ txt "0 " ++ [nl] ++ txt "0 " ++ [nl] ++ txt "0 " ++ [nl]))
  end.

(** mesh_generator.py:150-180: the header, empty lines dropped, joined by os.linesep (a newline). *)
Definition t3s_header (date : text) (np ne : N) : list text :=
  [txt "#########################################################################";
   txt "        :FileType t3s ASCII EnSim 1.0";
   txt "        # Canadian Hydraulics Centre/National Research Council (c) 1998-2004";
   txt "        # DataType 2D T3 Scalar Mesh";
   txt "        #";
   txt "        :Application BlueKenue";
   txt "        :Version 3.0.44";
   txt "        :WrittenBy pyoceanmesh";
   txt "        :CreationDate " ++ date;
   txt "        #";
   txt "        #------------------------------------------------------------------------";
   txt "        #";
   txt "        :Projection Cartesian";
   txt "        :Ellipsoid Unknown";
   txt "        #";
   txt "        :NodeCount " ++ fmt_i np;
   txt "        :ElementCount " ++ fmt_i ne;
   txt "        :ElementType T3";
   txt "        #";
   txt "        :EndHeader"].
(** mesh_generator.py:183-200: rows "%f %f %f" and "%i %i %i ". *)
Definition t3s_node_row (p : Q * Q) : text := fmt_f (fst p) ++ txt " " ++ fmt_f (snd p) ++ txt " " ++ fmt_f 0 ++ [nl].
Definition t3s_elem_row (t : nat * nat * nat) : text :=
  let '(a, b, c) := t in fmt_i (N.of_nat a) ++ txt " " ++ fmt_i (N.of_nat b) ++ txt " " ++ fmt_i (N.of_nat c) ++ txt " " ++ [nl].
(** mesh_generator.py:127-202 write_to_t3s; [date] is the formatted current time. *)
Definition write_to_t3s (points : list (Q * Q)) (st : arrays) (date : text) : arrays * res text :=
  (st, Ok (List.concat (map (fun l => l ++ [nl]) (t3s_header date (N.of_nat (List.length points)) (N.of_nat (List.length (a_cells st)))))
           ++ List.concat (map t3s_node_row points) ++ List.concat (map t3s_elem_row (a_cells st)))).

(** A sequence of write_to_fort14 calls on the same arrays: the arrays afterwards. *)
Fixpoint calls (points : list (Q * Q)) (st : arrays) (l : list (text * bool)) : arrays :=
  match l with [] => st | (name, flip) :: r => calls points (fst (write_to_fort14 points st name flip)) r end.
