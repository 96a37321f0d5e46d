(** Model of the mesh generation loop (oceanmesh/mesh_generator.py).  Coordinates are exact rationals. *)
From Coq Require Import List Arith Bool ZArith QArith Qround.
From Verif Require Import M_Base M_Numpy M_Edges M_FixMesh M_Clean.
Import ListNotations.
Open Scope Q_scope.

(** A signed distance function on an array of points; finite values, may raise. *)
Definition dfun : Type := list point -> res (list Q).

(** a[mask] with a boolean mask: IndexError when the lengths differ. *)
Definition bool_index {A} (l : list A) (m : list bool) : res (list A) :=
  if length m =? length l then Ok (take_mask l m) else Raise IndexError.
Definition Qlt_bool (a b : Q) : bool := negb (Qle_bool b a).
Definition padd (a b : point) : point := (fst a + fst b, snd a + snd b).

(** mesh_generator.py:1031-1034 _remove_triangles_outside. *)
Definition centroid (p : list point) (t : tri) : res point :=
  let '(a, b, c) := t in
  let! x := get p a in let! y := get p b in let! z := get p c in
  Ok ((fst x + fst y + fst z) / 3, (snd x + snd y + snd z) / 3).
Definition remove_triangles_outside (p : list point) (t : list tri) (fd : dfun) (geps : Q) : res (list tri) :=
  let! pmid := mapM (centroid p) t in
  let! d := fd pmid in
  bool_index t (map (fun v => Qlt_bool v (- geps)) d).

(** Elementwise difference of two arrays divided by deps: shapes that do not match raise ValueError
    (broadcasting of a length one array is not modelled: fd returns one value per point). *)
Definition diff_quot (deps : Q) (a b : list Q) : res (list Q) :=
  if length a =? length b then Ok (map (fun q => (fst q - snd q) / deps) (combine a b)) else Raise ValueError.
(** mesh_generator.py:1043-1056: one component of the gradient at the selected points; [try]/[except ValueError]. *)
Definition try_value {A} (r k : res A) : res A := match r with Raise ValueError => k | _ => r end.
Definition deps_vec (deps : Q) (i : nat) : point := match i with O => (deps, 0) | _ => (0, deps) end.
Definition dgrads (fd : dfun) (deps : Q) (p : list point) (d : list Q) (ix : list bool) : res (list Q * list Q) :=
  let one q e i := let! v := fd (map (fun x => padd x (deps_vec deps i)) q) in diff_quot deps v e in
  try_value
    (let! q := bool_index p ix in
     let! g0 := one q (take_mask d ix) 0%nat in
     let! g1 := one q (take_mask d ix) 1%nat in Ok (g0, g1))
    (let! g0 := one p d 0%nat in
     let! g1 := one p d 1%nat in Ok (take_mask g0 ix, take_mask g1 ix)).
(** mesh_generator.py:1057-1059: the moved points. *)
Definition move_back (deps : Q) (x : point) (d : Q) (g : Q * Q) : point :=
  let g2 := fst g * fst g + snd g * snd g in
  let g2' := if Qlt_bool g2 deps then deps else g2 in
  (fst x - d * fst g / g2', snd x - d * snd g / g2').
(** p[ix] = values, in order; the values are used up one by one. *)
Fixpoint put_mask {A} (l : list A) (m : list bool) (v : list A) : list A :=
  match l, m with
  | x :: l', b :: m' => if b then match v with y :: v' => y :: put_mask l' m' v' | [] => x :: put_mask l' m' [] end
                        else x :: put_mask l' m' v
  | _, _ => l
  end.
(** mesh_generator.py:1037-1060 _project_points_back. *)
Definition project_points_back (p : list point) (fd : dfun) (deps : Q) : res (list point) :=
  let! d := fd p in
  let ix := map (fun v => Qlt_bool 0 v) d in
  if existsb (fun b => b) ix then
    let! g := dgrads fd deps p d ix in
    let! q := bool_index p ix in
    Ok (put_mask p ix (map (fun a => move_back deps (fst (fst a)) (snd (fst a)) (snd a))
                           (combine (combine q (take_mask d ix)) (combine (fst g) (snd g)))))
  else Ok p.

(** mesh_generator.py:841-846: every fixed point replaces the vertex closest to it. *)
Fixpoint place_fixed (pfix : list point) (p : list point) : res (list point * list nat) :=
  match pfix with
  | [] => Ok (p, [])
  | x :: r =>
      let! ind := closest_node x p in
      let! q := place_fixed r (upd p ind x) in
      Ok (fst q, ind :: snd q)
  end.
(** mesh_generator.py:835-839: vertices of the boundary of the whole triangulation. *)
Definition locked (lock : bool) (p : list point) (t : list tri) : res (list nat) :=
  if lock then
    let! topo := external_topology p t in
    mapM (fun i => let! x := get p i in closest_node x p) (snd topo)
  else Ok [].
(** mesh_generator.py:860-866: zero force at fixed points and the update of the positions. *)
Definition move (dt : Q) (p F : list point) (fixed : list nat) : res (list point) :=
  if length F =? length p then
    Ok (map (fun i => if existsb (Nat.eqb i) fixed then padd (nth i p (0, 0)) (dt * 0, dt * 0)
                      else padd (nth i p (0, 0)) (dt * fst (nth i F (0, 0)), dt * snd (nth i F (0, 0)))) (seq 0 (length p)))
  else Raise ValueError.

Section Generate.
  (** The Delaunay triangulation of the current points in iteration [count] (delaunay_class.cpp; modelled
      in M_Delaunay.v), the signed distance function, the forces (M_Forces.v) and the byte order of
      coordinate rows (M_FixMesh.v). *)
  Variable triangulate : nat -> list point -> res (list point * list tri).
  Variable fd : dfun.
  Variable forces : list point -> list tri -> res (list point).
  Variable kleb : Z * Z -> Z * Z -> bool.
  Variables (geps deps dt : Q) (pfix : list point) (lock : bool).

  (** mesh_generator.py:828-849: triangulation, fixed points, removal of outside triangles. *)
  Definition topology_step (count : nat) (p : list point) : res (list point * list tri * list nat) :=
    let! pt := triangulate count p in
    let! l := locked lock (fst pt) (snd pt) in
    let! pf := place_fixed pfix (fst pt) in
    let! t := remove_triangles_outside (fst pf) (snd pt) fd geps in
    Ok (fst pf, t, l ++ snd pf).
  (** mesh_generator.py:857-869: forces, move, projection. *)
  Definition move_step (p : list point) (t : list tri) (fixed : list nat) : res (list point) :=
    let! F := forces p t in
    let! p1 := move dt p F fixed in
    project_points_back p1 fd deps.
  (** mesh_generator.py:825-883: [n] iterations left after this one. *)
  Fixpoint mesh_loop (n count : nat) (p : list point) : res (list point * list tri) :=
    let! s := topology_step count p in
    let '(p1, t, fixed) := s in
    match n with
    | O => let! f := fix_mesh kleb ptol_default p1 t true in Ok (fst (fst f), snd (fst f))
    | S n' => let! p2 := move_step p1 t fixed in mesh_loop n' (S count) p2
    end.
  (** mesh_generator.py:792-820 with the initial points given: the assertions, then the loop. *)
  Definition generate_mesh (max_iter : nat) (p : list point) : res (list point * list tri) :=
    match max_iter with
    | O => Raise AssertionError
    | S n => if (length p =? 0)%nat then Raise AssertionError else mesh_loop n 0 p
    end.
End Generate.

(** * _generate_initial_points (mesh_generator.py:1081-1110), stereo=False *)

(** np.mgrid of one slice (lo, hi + h, h): ceil((hi + h - lo) / h) values lo + k h. *)
Definition mgrid1 (lo hi h : Q) : list Q :=
  map (fun k => lo + inject_Z (Z.of_nat k) * h) (seq 0 (Z.to_nat (Qceiling ((hi + h - lo) / h)))).
(** p.reshape(2, -1).T: x varies slowest. *)
Definition lattice (b : Q * Q * Q * Q) (h : Q) : list point :=
  let '(x0, x1, y0, y1) := b in flat_map (fun x => map (fun y => (x, y)) (mgrid1 y0 y1 h)) (mgrid1 x0 x1 h).
Definition min_list (l : list Q) : res Q :=
  match l with [] => Raise ValueError | x :: r => Ok (fold_left (fun m y => if Qle_bool m y then m else y) r x) end.
(** mesh_generator.py:1103: rand < r0m**2 / r0**2; for r0 = 0 numpy divides to +inf. *)
Definition accepted (r0m rand r : Q) : bool := Qeq_bool r 0 || Qlt_bool rand (r0m * r0m / (r * r)).
(** [rand] are the numbers drawn, one per lattice point; [fh] the sizing function, with finite values. *)
Definition generate_initial_points (h geps : Q) (b : Q * Q * Q * Q) (fh : dfun) (fd : dfun) (pfix : list point) (rand : list Q)
  : res (list point) :=
  let p := lattice b h in
  let! r0 := fh p in
  let! r0m := min_list (filter (fun r => Qle_bool h r) r0) in
  if negb (length rand =? length r0)%nat then Raise ValueError else
  let! p1 := bool_index p (map (fun q => accepted r0m (fst q) (snd q)) (combine rand r0)) in
  let! d := fd p1 in
  let! p2 := bool_index p1 (map (fun v => Qlt_bool v geps) d) in
  Ok (pfix ++ p2).
