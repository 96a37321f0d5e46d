(** Model of _create_ranges and _densify (oceanmesh/geodata.py:489-550) on IEEE doubles.  M_Shore has the same functions on exact
    rationals. *)
From Coq Require Import List Arith Bool ZArith SpecFloat.
From Verif Require Import M_Base M_FixMesh M_QualF M_Ieee M_StartF.
Import ListNotations.

(** geodata.py:489-498 with endpoint: [N] values from [start] to [stop]; one row of the result. *)
Definition create_range_f (start stop : spec_float) (N : nat) : list spec_float :=
  let divisor := of_nat_f (N - 1) in
  let steps := fmul (fdiv f_one divisor) (fsub stop start) in
  map (fun k => fadd (fmul steps (of_nat_f k)) start) (seq 0 N).
(** np.maximum: nan if one is nan. *)
Definition np_maximum (a b : spec_float) : spec_float := if is_nan a then a else if is_nan b then b else if SFltb a b then b else a.
(** An entry of nin. *)
Inductive count : Type := NanCount | InfCount | Count (z : Z).
(** geodata.py:512-517: how many points to insert before row [b].  [inside] is contains_points for that row (matplotlib, a parameter).
    ceil(..) - 1 is exact up to 2^53; larger sums raise below. *)
Definition count_of (maxdiff : spec_float) (a b : fpt) (inside : bool) : count :=
  if negb inside then Count 0
  else
    let dlat := SFabs (fsub (snd b) (snd a)) in
    let dlon := SFabs (fsub (fst b) (fst a)) in
    match fdiv (np_maximum dlat dlon) maxdiff with
    | S754_nan => NanCount
    | S754_infinity s => if s then Count 0 else InfCount
    | q => match f_ceil q with Ok n => Count (if (n - 1 <? 0)%Z then 0 else n - 1) | _ => NanCount end
    end.
Fixpoint counts (maxdiff : spec_float) (poly : list fpt) (inside : list bool) : list count :=
  match poly, inside with
  | a :: ((b :: _) as t), _ :: ((m :: _) as s) => count_of maxdiff a b m :: counts maxdiff t s
  | _, _ => []
  end.
(** np.nansum (geodata.py:518) and int(nout) (:523): an infinite sum raises an OverflowError, a sum above 2^52 a MemoryError. *)
Definition is_inf (c : count) : bool := match c with InfCount => true | _ => false end.
Definition count_sum (l : list count) : Z := fold_right (fun c s => (match c with Count n => n | _ => 0 end + s)%Z) 0%Z l.
Definition count_total (l : list count) : res Z :=
  if existsb is_inf l then Raise RuntimeError else if (2 ^ 52 <? count_sum l)%Z then Raise RuntimeError else Ok (count_sum l).
(** a[n : n+k] = v (rows; geodata.py:530-531, 540-541, 545-546). *)
Definition write_at {A} (out : list A) (n : nat) (v : list A) : list A := firstn n out ++ v ++ skipn (n + length v) out.
(** The loop geodata.py:526-543; latout and lonout are kept as one array of rows. *)
Fixpoint densify_loop_f (poly : list fpt) (nin : list count) (n : nat) (out : list fpt) : list fpt :=
  match poly, nin with
  | a :: ((b :: _) as t), ni :: ns =>
      let k := match ni with Count z => Z.to_nat z | _ => 0 end in
      if (k =? 0)%nat then densify_loop_f t ns (n + 1) (write_at out n [a])
      else
        let lats := create_range_f (snd a) (snd b) (k + 2) in
        let lons := create_range_f (fst a) (fst b) (k + 2) in
        densify_loop_f t ns (n + (k + 1)) (write_at out n (combine (firstn (k + 1) lons) (firstn (k + 1) lats)))
  | _, _ => out
  end.
(** geodata.py:501-550.  [inside] is the mask of line 509; the argument radius is not used by the code. *)
Definition densify_f (poly : list fpt) (maxdiff : spec_float) (inside : list bool) : res (list fpt) :=
  let nin := counts maxdiff poly inside in
  let! sumnin := count_total nin in
  if (sumnin =? 0)%Z then Ok poly
  else
    let nout := (Z.to_nat sumnin + length poly)%nat in
    let out := densify_loop_f poly nin 0 (repeat (S754_nan, S754_nan) nout) in
    Ok (write_at out (nout - 1) [last poly (S754_nan, S754_nan)]).
