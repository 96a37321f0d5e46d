(** Model of the iterations of generate_mesh (oceanmesh/mesh_generator.py:825-883, opts["stereo"] false) on IEEE doubles, up to
    the arrays that the last iteration hands to fix_mesh.  M_Generate has the same loop on exact rationals. *)
From Coq Require Import List Arith Bool ZArith SpecFloat.
From Verif Require Import M_Base M_Numpy M_Edges M_FixMesh M_LimitF M_LapF M_QualF M_Ieee M_ForceF M_ProjF.
Import ListNotations.

(** mesh_generator.py:841-846: every fixed point replaces the vertex closest to it; _closest_node (:1134-1138) is the function
    of clean.py:435-439, [closest_node_f]. *)
Fixpoint place_fixed_f (pfix p : list fpt) : res (list fpt * list nat) :=
  match pfix with
  | [] => Ok (p, [])
  | x :: r => let! ind := closest_node_f x p in let! q := place_fixed_f r (upd p ind x) in Ok (fst q, ind :: snd q)
  end.
(** mesh_generator.py:860-866: Ftot[fixed_indices] = 0, then p += delta_t * Ftot. *)
Definition move_f (dt : spec_float) (p F : list fpt) (fixed : list nat) : res (list fpt) :=
  if length F =? length p then
    Ok (map (fun i => let f := if existsb (Nat.eqb i) fixed then zero2 else nth i F zero2 in
                      let q := nth i p zero2 in (fadd (fst q) (fmul dt (fst f)), fadd (snd q) (fmul dt (snd f)))) (seq 0 (length p)))
  else Raise ValueError.

(** fix_mesh.py:34 ptol=2e-13, the default: the nearest double. *)
Definition ptol_f : spec_float := S754_finite false 7922816251426434 (-95).

Section GenF.
  (** The triangulation in iteration [count] (delaunay_class.cpp, _get_topology), the further indices that lock_boundary fixes
      (mesh_generator.py:835-839), the distance function at one point and the sizing function. *)
  Variable triangulate : nat -> list fpt -> res (list fpt * list tri).
  Variable locked : list fpt -> list tri -> res (list nat).
  Variable fd : fpt -> spec_float.
  Variable fh : list fpt -> res (list spec_float).
  Variables (geps deps dt m : spec_float) (pfix : list fpt).
  (** mesh_generator.py:828-849. *)
  Definition topology_step_f (count : nat) (p : list fpt) : res (list fpt * list tri * list nat) :=
    let! pt := triangulate count p in
    let! l := locked (fst pt) (snd pt) in
    let! pf := place_fixed_f pfix (fst pt) in
    let! t := remove_triangles_outside_f (fst pf) (snd pt) fd geps in
    Ok (fst pf, t, l ++ snd pf).
  (** mesh_generator.py:857-869. *)
  Definition move_step_f (p : list fpt) (t : list tri) (fixed : list nat) : res (list fpt) :=
    let! F := compute_forces_f fh m p t in
    let! p1 := move_f dt p F fixed in
    Ok (project_points_back_f p1 fd deps).
  (** mesh_generator.py:825-883: [n] iterations left after this one; the result is p and t of :853, before fix_mesh. *)
  Fixpoint mesh_loop_f (n count : nat) (p : list fpt) : res (list fpt * list tri) :=
    let! s := topology_step_f count p in
    let '(p1, t, fixed) := s in
    match n with
    | O => Ok (p1, t)
    | S n' => let! p2 := move_step_f p1 t fixed in mesh_loop_f n' (S count) p2
    end.
  (** mesh_generator.py:792, :820 the assertions, then the loop and fix_mesh with its default tolerance and delete_unused (:853-855);
      [kleb] is the order that sorts the merged points. *)
  Definition generate_mesh_f (kleb : Z * Z -> Z * Z -> bool) (max_iter : nat) (p : list fpt) : res (list fpt * list tri) :=
    match max_iter with
    | O => Raise AssertionError
    | S n => if (length p =? 0)%nat then Raise AssertionError
             else let! s := mesh_loop_f n 0 p in let! f := fix_mesh_f kleb ptol_f (fst s) (snd s) true in Ok (fst (fst f), snd (fst f))
    end.
End GenF.
