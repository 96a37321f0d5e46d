(** Model of the projection of outside points (oceanmesh/mesh_generator.py:_project_points_back) on IEEE doubles. *)
From Coq Require Import List Bool ZArith SpecFloat.
From Verif Require Import M_Base M_FixMesh M_LimitF M_QualF M_Ieee M_ForceF.
Import ListNotations.

(** mesh_generator.py:800: np.sqrt(np.finfo(np.double).eps). *)
Definition deps_f : spec_float := fsqrt f_finfo_eps.
(** mesh_generator.py:1043-1046, 1050: p + _deps_vec(i); the other entry of the list is the integer 0, added as a double. *)
Definition shifted (deps : spec_float) (q : fpt) (i : nat) : fpt :=
  match i with O => (fadd (fst q) deps, fadd (snd q) f_0) | _ => (fadd (fst q) f_0, fadd (snd q) deps) end.
(** mesh_generator.py:1049-1051: one component of the gradient at one point. *)
Definition dgrad_f (fd : fpt -> spec_float) (deps : spec_float) (q : fpt) (i : nat) : spec_float :=
  fdiv (fsub (fd (shifted deps q i)) (fd q)) deps.
(** mesh_generator.py:1057-1059: Python's sum starts from the integer 0; numpy squares by a multiplication; the
    product with d comes before the division. *)
Definition project_point_f (fd : fpt -> spec_float) (deps : spec_float) (q : fpt) : fpt :=
  let d := fd q in
  let g0 := dgrad_f fd deps q 0 in
  let g1 := dgrad_f fd deps q 1 in
  let g2 := fadd (fadd f_0 (fmul g0 g0)) (fmul g1 g1) in
  let g2' := if SFltb g2 deps then deps else g2 in
  (fsub (fst q) (fdiv (fmul d g0) g2'), fsub (snd q) (fdiv (fmul d g1) g2')).
(** mesh_generator.py:1037-1060 _project_points_back.  Simplified: [fd] is a function of one point that does not
    raise, so the fallback for ValueError (:1052-1056), which computes the same numbers, is not needed. *)
Definition project_points_back_f (p : list fpt) (fd : fpt -> spec_float) (deps : spec_float) : list fpt :=
  map (fun q => if SFltb f_0 (fd q) then project_point_f fd deps q else q) p.
(** The distance of signed_distance_function.py:50-58 create_bbox at a point. *)
Definition box_fd (x0 xN y0 yN : spec_float) (q : fpt) : spec_float := bbox_f x0 xN y0 yN (fst q) (snd q).
