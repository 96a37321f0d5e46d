(** Model of the sizing functions' arithmetic (oceanmesh/edgefx.py) on IEEE binary64, node by node.  Grids, skfmm, the DEM's interpolant and slopes
    are parameters; each operation is rounded once, as numpy does. *)
From Coq Require Import List Arith Bool ZArith SpecFloat.
From Verif Require Import M_Base M_FixMesh M_LimitF M_LapF.
Import ListNotations.

(** values[values > hi] = hi and values[values < lo] = lo; comparisons with nan are False. *)
Definition cap_f (hi : option spec_float) (v : spec_float) : spec_float := match hi with Some h => if SFltb h v then h else v | None => v end.
Definition floor_f (lo : option spec_float) (v : spec_float) : spec_float := match lo with Some l => if SFltb v l then l else v | None => v end.
(** 999 (edgefx.py:271, 347, 420). *)
Definition f_999 : spec_float := S754_finite false 8787296929185792 (-43).

(** edgefx.py:343-350; 267-274 and 416-423 are the same: [dis] is the answer of skfmm.distance, None if it raised ValueError for [n] nodes. *)
Definition distance_sizes_f (h0 rate : spec_float) (hi : option spec_float) (n : nat) (dis : option (list spec_float)) : list spec_float :=
  let d := match dis with Some l => map SFabs l | None => repeat f_999 n end in
  map (fun x => cap_f hi (fadd h0 (fmul x rate))) d.

(** np.amin: nan if there is one; no value raises ValueError. *)
Definition is_nan_f (x : spec_float) : bool := match x with S754_nan => true | _ => false end.
Definition amin_f (l : list spec_float) : res spec_float :=
  match l with
  | [] => Raise ValueError
  | x :: r => Ok (fold_left (fun m y => if is_nan_f m then m else if is_nan_f y then y else if SFltb y m then y else m) r x)
  end.
(** edgefx.py:924-925 at one node, and 929: [mpd] is meters_per_degree, None for other systems. *)
Definition wave_f (period gravity wl : spec_float) (mpd : option spec_float) (z : spec_float) : spec_float :=
  let z := if SFltb (SFabs z) f_one then f_one else z in
  let v := fdiv (fmul period (fsqrt (fmul gravity (SFabs z)))) wl in
  match mpd with Some m => fdiv v m | None => v end.
(** edgefx.py:924-941: the sizes and hmin. *)
Definition wavelength_sizes_f (period gravity wl : spec_float) (mpd lo hi : option spec_float) (depths : list spec_float) : res (list spec_float * spec_float) :=
  let v := map (wave_f period gravity wl mpd) depths in
  let! hmin := match lo with None => amin_f v | Some l => Ok l end in
  Ok (map (fun x => cap_f hi (floor_f lo x)) v, hmin).

(** np.pi (edgefx.py:538), 1e-10 (:535) and -1.0 (:537). *)
Definition f_pi : spec_float := S754_finite false 7074237752028440 (-51).
Definition f_1e10 : spec_float := S754_finite false 7737125245533627 (-86).
Definition f_m1 : spec_float := S754_finite true 4503599627370496 (-52).
(** edgefx.py:486, 537-538 and 550 at one node: elevation [z], slope [bs]; np.clip(z, None, -1.0) is np.minimum. *)
Definition slope_f (cutoff sp : spec_float) (mpd : option spec_float) (z bs : spec_float) : spec_float :=
  let z := if SFleb cutoff z then cutoff else z in
  let dp := if is_nan_f z then z else if SFltb f_m1 z then f_m1 else z in
  let v := fdiv (fmul (fdiv (fmul ftwo f_pi) sp) (SFabs dp)) (fadd bs f_1e10) in
  match mpd with Some m => fdiv v m | None => v end.
(** edgefx.py:555-560: the bounds; the sizes and hmin.  Python's max (:556). *)
Definition py_max (a b : spec_float) : spec_float := if SFltb a b then b else a.
Definition slope_sizes_f (cutoff sp : spec_float) (mpd lo hi : option spec_float) (dx dy : spec_float) (nodes : list (spec_float * spec_float)) : list spec_float * spec_float :=
  let lo := match lo with Some l => l | None => py_max dx dy end in
  (map (fun n => cap_f hi (floor_f (Some lo) (slope_f cutoff sp mpd (fst n) (snd n)))) nodes, lo).

(** edgefx.py:187-190 of _resample_line: the distances along the line at which points are taken.  [half] is min_edge_length / 2. *)
Fixpoint resample_f (fuel : nat) (len half d : spec_float) : res (list spec_float) :=
  match fuel with
  | O => OutOfFuel
  | S k => if SFltb d len then let! r := resample_f k len half (fadd d half) in Ok (d :: r) else Ok []
  end.
Definition resample_line_f (fuel : nat) (len h : spec_float) : res (list spec_float) := resample_f fuel len (fdiv h ftwo) f_zero.
