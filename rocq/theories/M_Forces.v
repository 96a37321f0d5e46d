(** Model of the bar forces (oceanmesh/mesh_generator.py:_compute_forces) over the real numbers. *)
From Coq Require Import List Arith Bool ZArith Reals.
From Verif Require Import M_Base M_Numpy M_Edges M_Stereo.
Import ListNotations.
Open Scope R_scope.

(** A float the sizing function may return: [None] stands for nan and the infinities. *)
Definition hval : Type := option R.
Definition rsum (l : list R) : R := fold_right Rplus 0 l.
Definition rleb (a b : R) : bool := if Rle_dec a b then true else false.
(** np.nanmedian of finite values: the middle of the sorted values, or the mean of the two middle ones. *)
Definition median (l : list R) : R :=
  let s := isort rleb l in
  let n := length s in
  if Nat.even n then (nth (n / 2 - 1) s 0 + nth (n / 2) s 0) / 2 else nth (n / 2) s 0.

(** mesh_generator.py:935-938 _get_bars (unique_edges works on integer pairs). *)
Definition get_bars (t : list tri) : list edge :=
  map (fun e => (Z.to_nat (fst e), Z.to_nat (snd e)))
    (unique_edges (map (fun e => (Z.of_nat (fst e), Z.of_nat (snd e)))
      (map (fun s => (fst (fst s), snd (fst s))) t ++ map (fun s => (snd (fst s), snd s)) t ++ map (fun s => (snd s, fst (fst s))) t))).

(** mesh_generator.py:1074-1078 _stereo_distortion_dist; infinite at the south pole. *)
Definition stereo_distortion_dist (lat : R) : hval :=
  if Req_EM_T (1 + sin (lat / 180 * PI)) 0 then None else Some (2 / (1 + sin (lat / 180 * PI)) / 180 * PI).
(** Product of two floats, [None] when one is not finite. *)
Definition hmul (a b : hval) : hval := match a, b with Some x, Some y => Some (x * y) | _, _ => None end.

(** mesh_generator.py:961: finite and positive. *)
Definition valid_size (h : hval) : bool := match h with Some x => if Rlt_dec 0 x then true else false | None => false end.
(** mesh_generator.py:966-968: replace the invalid ones. *)
Definition repaired (repl : R) (h : hval) : R := if valid_size h then match h with Some x => x | None => repl end else repl.
Definition some_values (l : list hval) : list R := flat_map (fun h => match h with Some x => [x] | None => [] end) l.

Section Forces.
  (** The sizing function on an array of points; radius of region.py's projection; eps; L0mult. *)
  Variable fh : list (R * R) -> res (list hval).
  Variables (RR eps L0mult : R) (stereo : bool).

  (** mesh_generator.py:946-948: the bar vector and its length, zero lengths replaced by eps. *)
  Definition barvec (p : list (R * R)) (e : edge) : R * R :=
    (fst (nth (fst e) p (0, 0)) - fst (nth (snd e) p (0, 0)), snd (nth (fst e) p (0, 0)) - snd (nth (snd e) p (0, 0))).
  Definition bar_length (v : R * R) : R :=
    let l := sqrt (fst v * fst v + snd v * snd v) in if Req_EM_T l 0 then eps else l.
  Definition midpoint (p : list (R * R)) (e : edge) : R * R :=
    ((fst (nth (fst e) p (0, 0)) + fst (nth (snd e) p (0, 0))) / 2, (snd (nth (fst e) p (0, 0)) + snd (nth (snd e) p (0, 0))) / 2).
  (** mesh_generator.py:949-958. *)
  Definition bar_sizes (p : list (R * R)) (bars : list edge) : res (list hval) :=
    let mid := map (midpoint p) bars in
    if stereo then
      let! ll := to_lat_lon RR mid in
      let! h := fh ll in
      if length h =? length ll then Ok (map (fun q => hmul (fst q) (stereo_distortion_dist (snd (snd q)))) (combine h ll))
      else Raise ValueError
    else fh mid.
  (** mesh_generator.py:959-968. *)
  Definition repair_sizes (h : list hval) : res (list R) :=
    if existsb valid_size h then
      Ok (map (repaired (median (some_values (filter valid_size h)))) h)
    else Raise ValueError.
  (** mesh_generator.py:969-974: the force of one bar on its first end. *)
  Definition bar_force (scale h : R) (v : R * R) : R * R :=
    let L := bar_length v in
    let F := h * L0mult * scale - L in
    let F' := if Rlt_dec F 0 then 0 else F in
    (F' / L * fst v, F' / L * snd v).
  (** mesh_generator.py:975-980, 1008-1028 _dense: entries with the same position add up. *)
  Definition scatter (n : nat) (bars : list edge) (fv : list (R * R)) : list (R * R) :=
    map (fun i =>
      (rsum (map (fun q => (if fst (fst q) =? i then fst (snd q) else 0) + (if snd (fst q) =? i then - fst (snd q) else 0)) (combine bars fv)),
       rsum (map (fun q => (if fst (fst q) =? i then snd (snd q) else 0) + (if snd (fst q) =? i then - snd (snd q) else 0)) (combine bars fv))))
      (seq 0 n).
  (** mesh_generator.py:942-981 _compute_forces. *)
  Definition compute_forces (p : list (R * R)) (t : list tri) : res (list (R * R)) :=
    let bars := get_bars t in
    if forallb (fun e => (fst e <? length p) && (snd e <? length p))%nat bars then
      let vs := map (barvec p) bars in
      let! h0 := bar_sizes p bars in
      let! h := repair_sizes h0 in
      if length h =? length bars then
        let scale := median (map bar_length vs) / median h in
        Ok (scatter (length p) bars (map (fun q => bar_force scale (fst q) (snd q)) (combine h vs)))
      else Raise ValueError
    else Raise IndexError.
End Forces.
