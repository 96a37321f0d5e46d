(** Model of the bar forces (oceanmesh/mesh_generator.py:_compute_forces, opts["stereo"] false) and of the
    element removal (_remove_triangles_outside) on IEEE doubles. *)
From Coq Require Import List Arith Bool ZArith SpecFloat.
From Verif Require Import M_Base M_Numpy M_Edges M_FixMesh M_LimitF M_QualF M_Forces.
Import ListNotations.

(** np.finfo(float).eps of mesh_generator.py:948, 2^-52. *)
Definition f_finfo_eps : spec_float := S754_finite false 4503599627370496 (-104).
(** The literal 0 and the zero that coo_matrix.toarray starts from. *)
Definition f_0 : spec_float := S754_zero false.
(** mesh_generator.py:797 L0mult = 1 + 0.4 / 2 ** (_DIM - 1) with _DIM = 2: the quotient and the sum of doubles. *)
Definition L0mult_f : spec_float := fadd (S754_finite false 4503599627370496 (-52)) (fdiv (S754_finite false 7205759403792794 (-54)) ftwo).
Definition zero2 : fpt := (f_0, f_0).

(** mesh_generator.py:946: p[bars[:, 0]] - p[bars[:, 1]]; the indices are checked in [compute_forces_f]. *)
Definition barvec_f (p : list fpt) (e : edge) : fpt := rsub_f (nth (fst e) p zero2) (nth (snd e) p zero2).
(** mesh_generator.py:947-948. *)
Definition bar_length_f (v : fpt) : spec_float := let l := length_f v in if SFeqb l f_0 then f_finfo_eps else l.
(** mesh_generator.py:958: p[bars].sum(1) / 2. *)
Definition midpoint_f (p : list fpt) (e : edge) : fpt :=
  (fdiv (fadd (fst (nth (fst e) p zero2)) (fst (nth (snd e) p zero2))) ftwo, fdiv (fadd (snd (nth (fst e) p zero2)) (snd (nth (snd e) p zero2))) ftwo).
(** mesh_generator.py:961: np.isfinite(hbars) & (hbars > 0). *)
Definition valid_f (h : spec_float) : bool := match h with S754_finite false _ _ => true | _ => false end.
(** np.nanmedian (mesh_generator.py:967, 969) of values without nan: np.mean of the middle one (itself) or of the two
    middle ones (their sum divided by 2) of the sorted values. *)
Definition median_f (l : list spec_float) : spec_float :=
  let s := isort SFleb l in
  let n := length s in
  if Nat.even n then fdiv (fadd (nth (n / 2 - 1) s S754_nan) (nth (n / 2) s S754_nan)) ftwo else nth (n / 2) s S754_nan.
(** np.nanmedian drops nan (numpy _remove_nan_1d); the median of nothing is nan. *)
Definition not_nan (x : spec_float) : bool := match x with S754_nan => false | _ => true end.
Definition nanmedian_f (l : list spec_float) : spec_float :=
  match filter not_nan l with [] => S754_nan | l' => median_f l' end.
(** mesh_generator.py:960-968. *)
Definition repair_f (h : list spec_float) : res (list spec_float) :=
  if existsb valid_f h then
    let repl := nanmedian_f (filter valid_f h) in
    Ok (map (fun x => if valid_f x then x else repl) h)
  else Raise ValueError.
(** mesh_generator.py:969-974: L0 = hbars * L0mult * scale, F = L0 - L, F[F < 0] = 0, F / L * barvec. *)
Definition bar_force_f (m scale h : spec_float) (v : fpt) : fpt :=
  let L := bar_length_f v in
  let F := fsub (fmul (fmul h m) scale) L in
  let F' := if SFltb F f_0 then f_0 else F in
  (fmul (fdiv F' L) (fst v), fmul (fdiv F' L) (snd v)).
(** mesh_generator.py:975-980, 1008-1028 _dense: scipy's coo_todense adds the entries in the given order, that is bar
    by bar, the first end before the second. *)
Definition ends_f (c : fpt -> spec_float) (i : nat) (q : edge * fpt) : list spec_float :=
  (if fst (fst q) =? i then [c (snd q)] else []) ++ (if snd (fst q) =? i then [SFopp (c (snd q))] else []).
Definition scatter_f (n : nat) (bars : list edge) (fv : list fpt) : list fpt :=
  map (fun i => (fold_left fadd (flat_map (ends_f fst i) (combine bars fv)) f_0, fold_left fadd (flat_map (ends_f snd i) (combine bars fv)) f_0)) (seq 0 n).
(** mesh_generator.py:942-981 _compute_forces; [fh] is the sizing function, [m] is L0mult.  Simplified: an array of
    sizes of another length raises ValueError, also where numpy would broadcast a single size. *)
Definition compute_forces_f (fh : list fpt -> res (list spec_float)) (m : spec_float) (p : list fpt) (t : list tri) : res (list fpt) :=
  let bars := get_bars t in
  if forallb (fun e => (fst e <? length p) && (snd e <? length p))%nat bars then
    let vs := map (barvec_f p) bars in
    let! h0 := fh (map (midpoint_f p) bars) in
    let! h := repair_f h0 in
    if length h =? length bars then
      let scale := fdiv (nanmedian_f (map bar_length_f vs)) (nanmedian_f h) in
      Ok (scatter_f (length p) bars (map (fun q => bar_force_f m scale (fst q) (snd q)) (combine h vs)))
    else Raise ValueError
  else Raise IndexError.

(** The literal 3 of mesh_generator.py:1033. *)
Definition f_3 : spec_float := S754_finite false 6755399441055744 (-51).
(** mesh_generator.py:1033: p[t].sum(1) / 3, the three rows added from left to right. *)
Definition centroid_f (a b c : fpt) : fpt :=
  (fdiv (fadd (fadd (fst a) (fst b)) (fst c)) f_3, fdiv (fadd (fadd (snd a) (snd b)) (snd c)) f_3).
(** mesh_generator.py:1031-1034 _remove_triangles_outside; [fd] is the distance function, at one point. *)
Definition remove_triangles_outside_f (p : list fpt) (t : list tri) (fd : fpt -> spec_float) (geps : spec_float) : res (list tri) :=
  let! keep := mapM (fun f => let '(i, j, k) := f in let! a := get p i in let! b := get p j in let! c := get p k in
    Ok (SFltb (fd (centroid_f a b c)) (SFopp geps))) t in
  Ok (map fst (filter snd (combine t keep))).
