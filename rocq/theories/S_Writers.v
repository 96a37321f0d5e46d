(** Readers for the two file formats, written from the format descriptions only. *)
From Coq Require Import List Ascii String ZArith NArith QArith.
Import ListNotations.

Definition is_digit (c : ascii) : bool := let n := N_of_ascii c in ((48 <=? n) && (n <=? 57))%N%bool.
(** Unsigned integer, most significant digit first. *)
Definition read_int (l : list ascii) : option N :=
  match l with
  | [] => None
  | _ => if forallb is_digit l then Some (fold_left (fun a c => 10 * a + (N_of_ascii c - 48))%N l 0%N) else None
  end.
(** Cut at every occurrence of a character. *)
Fixpoint split_on (c : ascii) (l : list ascii) : list (list ascii) :=
  match l with
  | [] => [[]]
  | x :: r => if Ascii.eqb x c then [] :: split_on c r
              else match split_on c r with [] => [[x]] | w :: ws => (x :: w) :: ws end
  end.
Definition lines (l : list ascii) : list (list ascii) := split_on "010"%char l.
Definition words (l : list ascii) : list (list ascii) :=
  filter (fun w => match w with [] => false | _ => true end) (split_on " "%char l).
(** Decimal number: optional minus sign, integer part, point, fraction. *)
Definition read_unsigned_dec (l : list ascii) : option Q :=
  match split_on "."%char l with
  | [a; b] => match read_int a, read_int b with
              | Some x, Some y => Some (inject_Z (Z.of_N x) + inject_Z (Z.of_N y) / inject_Z (10 ^ Z.of_nat (List.length b)))%Q
              | _, _ => None
              end
  | _ => None
  end.
Definition read_dec (l : list ascii) : option Q :=
  match l with
  | c :: r => if Ascii.eqb c "-"%char then match read_unsigned_dec r with Some q => Some (- q)%Q | None => None end
              else read_unsigned_dec l
  | [] => None
  end.
Definition obind {A B} (o : option A) (f : A -> option B) : option B := match o with Some a => f a | None => None end.
Fixpoint read_all {A} (f : list ascii -> option A) (ls : list (list ascii)) : option (list A) :=
  match ls with [] => Some [] | l :: r => obind (f l) (fun a => obind (read_all f r) (fun t => Some (a :: t))) end.
(** The first n lines and the rest; None if there are fewer. *)
Definition take (n : nat) (ls : list (list ascii)) : option (list (list ascii) * list (list ascii)) :=
  if (n <=? List.length ls)%nat then Some (firstn n ls, skipn n ls) else None.

(** fort.14: title; "NE NP"; NP lines "id x y z"; NE lines "id 3 a b c" (ids from 1); then boundary lines. *)
Definition read_node (l : list ascii) : option (N * Q * Q * Q) :=
  match words l with
  | [k; x; y; z] => obind (read_int k) (fun k => obind (read_dec x) (fun x => obind (read_dec y) (fun y => obind (read_dec z) (fun z => Some (k, x, y, z)))))
  | _ => None
  end.
Definition read_elem (l : list ascii) : option (N * N * N * N) :=
  match words l with
  | [k; n; a; b; c] => obind (read_int k) (fun k => obind (read_int n) (fun n => obind (read_int a) (fun a => obind (read_int b) (fun b => obind (read_int c) (fun c =>
      if (n =? 3)%N then Some (k, a, b, c) else None)))))
  | _ => None
  end.
Definition read_fort14 (file : list ascii) : option (list ascii * list (N * Q * Q * Q) * list (N * N * N * N) * list (list (list ascii))) :=
  match lines file with
  | title :: counts :: ls =>
      match words counts with
      | [ne; np] => obind (read_int ne) (fun ne => obind (read_int np) (fun np =>
          obind (take (N.to_nat np) ls) (fun a => obind (take (N.to_nat ne) (snd a)) (fun b =>
          obind (read_all read_node (fst a)) (fun nodes => obind (read_all read_elem (fst b)) (fun elems =>
          Some (title, nodes, elems, map words (snd b))))))))
      | _ => None
      end
  | _ => None
  end.

(** t3s: header lines with keywords, ended by :EndHeader; NodeCount lines "x y z"; ElementCount lines "a b c". *)
Definition str (s : string) : list ascii := list_ascii_of_string s.
Definition text_eqb (a b : list ascii) : bool := if list_eq_dec ascii_dec a b then true else false.
Fixpoint t3s_scan (np ne : option N) (ls : list (list ascii)) : option (N * N * list (list ascii)) :=
  match ls with
  | [] => None
  | l :: r =>
      match words l with
      | [k] => if text_eqb k (str ":EndHeader") then obind np (fun a => obind ne (fun b => Some (a, b, r))) else t3s_scan np ne r
      | [k; v] => if text_eqb k (str ":NodeCount") then t3s_scan (read_int v) ne r
                  else if text_eqb k (str ":ElementCount") then t3s_scan np (read_int v) r else t3s_scan np ne r
      | _ => t3s_scan np ne r
      end
  end.
Definition read_t3s_node (l : list ascii) : option (Q * Q * Q) :=
  match words l with [x; y; z] => obind (read_dec x) (fun x => obind (read_dec y) (fun y => obind (read_dec z) (fun z => Some (x, y, z)))) | _ => None end.
Definition read_t3s_elem (l : list ascii) : option (N * N * N) :=
  match words l with [a; b; c] => obind (read_int a) (fun a => obind (read_int b) (fun b => obind (read_int c) (fun c => Some (a, b, c)))) | _ => None end.
Definition read_t3s (file : list ascii) : option (list (Q * Q * Q) * list (N * N * N)) :=
  obind (t3s_scan None None (lines file)) (fun h =>
    obind (take (N.to_nat (fst (fst h))) (snd h)) (fun a => obind (take (N.to_nat (snd (fst h))) (snd a)) (fun b =>
    obind (read_all read_t3s_node (fst a)) (fun nodes => obind (read_all read_t3s_elem (fst b)) (fun elems => Some (nodes, elems)))))).

(** Equal up to half a unit of the sixth decimal. *)
Definition close6 (x y : Q) : Prop := (x - y <= 1 # 2000000 /\ y - x <= 1 # 2000000)%Q.

(** A list numbered from k. *)
Fixpoint numbered {A} (k : N) (l : list A) : list (N * A) := match l with [] => [] | x :: r => (k, x) :: numbered (k + 1)%N r end.
Definition flat (m : N * (nat * nat * nat)) : N * N * N * N := let '(j, (a, b, c)) := m in (j, N.of_nat a, N.of_nat b, N.of_nat c).
(** A node read from a file agrees with a numbered point. *)
Definition near (n : N * Q * Q * Q) (m : N * (Q * Q * Q)) : Prop :=
  let '(i, x', y', z') := n in let '(j, (x, y, z)) := m in i = j /\ close6 x' x /\ close6 y' y /\ close6 z' z.
(** The depths to be written: zeros, the given ones, or their negatives; None when the length is wrong. *)
Definition depths (points : list (Q * Q)) (topo : option (list Q)) (flip : bool) : option (list Q) :=
  match topo with
  | None => Some (map (fun _ => 0%Q) points)
  | Some t => if Nat.eqb (List.length t) (List.length points) then Some (if flip then map (fun q => q * (-1 # 1))%Q t else t) else None
  end.

(** Every vertex number increased by n. *)
Definition shift_by (n : nat) (t : nat * nat * nat) : nat * nat * nat := let '(a, b, c) := t in (n + a, n + b, n + c)%nat.
