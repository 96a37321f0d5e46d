(** Model of signed_distance_function (oceanmesh/signed_distance_function.py:187-275) with the polygon edges, the point-in-polygon
    kernel and the nearest-neighbour tree it uses, and of the distance function mesh_generator.py calls.  M_Sdf has the same functions
    with the answers of inpoly2 as parameters. *)
From Coq Require Import List Arith Bool ZArith QArith.
From Verif Require Import M_Base M_Edges M_Sdf M_Inpoly M_Shore.
Import ListNotations.
Open Scope Q_scope.

(** np.nan_to_num of rows (lines 214, 234): nan becomes 0.0. *)
Definition nan_to_num (rows : list row) : list xy := map (fun r => match r with Some p => p | None => (0, 0) end) rows.
(** np.isnan(poly[:, 0]), the column get_poly_edges reads (edges.py:25). *)
Definition nan_rows (rows : list row) : list bool := map is_nan rows.

Section Signed.
  (** The kernel inpoly2 runs, its tolerance, and cKDTree(rows).query(x, k=1) for finite queries (lines 209-211, 236, 250-252, 266). *)
  Variable kernel : Q -> list xy -> list (nat * nat) -> list xy -> list (bool * bool).
  Variable ftol : Q.
  Variable query : list xy -> list pt -> list Q.

  (** Lines 217-246: [e_box], [boubox] and [poly] are the variables of the closure. *)
  Definition signed_func (poly boubox : list row) (e e_box : list (Z * Z)) (invert : bool) : sdf := fun x =>
    let m := finite_mask x in
    let n := length x in
    let d := repeat far n in
    let inb := repeat false n in
    let ins := repeat false n in
    let! out :=
      (if existsb (fun b => b) m then
         let xf := mask_select m x in
         let! ib := inpoly2 kernel ftol (nan_to_num boubox) (Some e_box) xf in
         let! inb' := mask_assign inb m (fst ib) in
         let! ish := inpoly2 kernel ftol (nan_to_num poly) (Some e) xf in
         let! ins' := mask_assign ins m (fst ish) in
         let! d' := mask_assign d m (query (points_of poly) xf) in
         Ok (inb', ins', d')
       else Ok (inb, ins, d)) in
    let '(inb, ins, d) := out in
    let cond := map (fun p => andb (fst p) (snd p)) (combine ins inb) in
    let dist := map (fun p => sign_of (fst p) * snd p) (combine cond d) in
    Ok (if invert then map (fun v => v * - (1)) dist else dist).

  (** Lines 253-270. *)
  Definition signed_covering (boubox : list row) (e_box : list (Z * Z)) : sdf := fun x =>
    let m := finite_mask x in
    let n := length x in
    let d := repeat far n in
    let inb := repeat false n in
    let! out :=
      (if existsb (fun b => b) m then
         let xf := mask_select m x in
         let! ib := inpoly2 kernel ftol (nan_to_num boubox) (Some e_box) xf in
         let! inb' := mask_assign inb m (fst ib) in
         let! d' := mask_assign d m (query (points_of boubox) xf) in
         Ok (inb', d')
       else Ok (inb, d)) in
    let '(inb, d) := out in
    Ok (map (fun p => sign_of (fst p) * snd p) (combine inb d)).

  (** Lines 187-275 for the attributes of a Shoreline.  Building a tree of no rows is not refused by scipy; the first call that fails
      for an empty boubox is get_poly_edges (line 215), unless inner is empty too (line 212). *)
  Definition signed_distance_function (inner boubox : list row) (bbox : Q * Q * Q * Q) (crs : option nat) (stereo invert : bool) : res domain :=
    let poly := inner ++ boubox in
    let! e := get_poly_edges (nan_rows poly) in
    let! e_box := get_poly_edges (nan_rows boubox) in
    Ok {| d_bbox := bbox; d_eval := signed_func poly boubox e e_box invert; d_covering := Some (signed_covering boubox e_box);
          d_crs := crs; d_stereo := stereo |}.
End Signed.

(** The distance function generate_mesh calls (mesh_generator.py:921-924: fd = domain.eval) on the points of a mesh, all finite. *)
Definition distance_of (d : domain) : list (Q * Q) -> res (list Q) := fun l => d_eval d (map (fun p => (Fin (fst p), Fin (snd p))) l).
