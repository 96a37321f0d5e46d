(** Model of Grid.blend_into (oceanmesh/grid.py:351-424). *)
From Coq Require Import List Arith Bool ZArith QArith Qabs.
From Verif Require Import M_Base M_Sdf M_Grid.
Import ListNotations.
Open Scope Q_scope.

(** grid.py:370. *)
Definition pad_code : num := Fin (-99999).
(** np.pad with constant values (grid.py:382-384). *)
Definition pad (w : nat) (v : list (list num)) : list (list num) :=
  let m := match v with [] => 0%nat | r :: _ => length r end in
  let edge := repeat (repeat pad_code (m + 2 * w)) w in
  edge ++ map (fun r => repeat pad_code w ++ r ++ repeat pad_code w) v ++ edge.
(** grid.py:386-399; the padded grid has the default CRS, which is not used. *)
Definition pad_grid (w : nat) (g : grid) : res grid :=
  let l := g_dx g * inject_Z (Z.of_nat w) in
  let h := g_dy g * inject_Z (Z.of_nat w) in
  make_grid (b0 (g_bbox g) - l, b1 (g_bbox g) + l, b2 (g_bbox g) - h, b3 (g_bbox g) + h) (g_dx g) (g_dy g) (pad w (g_values g)) None (g_extra g) 0.
(** grid.py:374-376: the fine box lies strictly inside the coarse box. *)
Definition strictly_inside (fine coarse : grid) : bool :=
  let c := g_bbox coarse in let f := g_bbox fine in
  negb (Qle_bool (b0 f) (b0 c)) && negb (Qle_bool (b1 c) (b1 f)) && negb (Qle_bool (b2 f) (b2 c)) && negb (Qle_bool (b3 c) (b3 f)).

Section Blend.
  (** Invdisttree(points, values)(queries, ...): known points with their values, then the query points. *)
  Variable idw : list ((Q * Q) * num) -> list (Q * Q) -> res (list num).
  (** All cells with their places, row by row (grid.py:404-407). *)
  Definition cells_of (g : grid) (v : list (list num)) : list ((Q * Q) * num) :=
    flat_map (fun i => map (fun j => ((node_x g i, node_y g j), cell v i j)) (seq 0 (ny g))) (seq 0 (nx g)).
  (** vals[ask] = answers (grid.py:416). *)
  Fixpoint fill_in (vals : list num) (answers : list num) : list num :=
    match vals with
    | [] => []
    | a :: r => if neq_bool a pad_code then match answers with [] => a :: fill_in r [] | x :: s => x :: fill_in r s end else a :: fill_in r answers
    end.
  (** np.amin: ValueError on an empty array; nan if there is one. *)
  Definition amin (l : list num) : res num := match l with [] => Raise ValueError | a :: r => Ok (fold_left nmin r a) end.
  (** reshape (grid.py:422): n rows of m. *)
  Fixpoint reshape (n m : nat) (l : list num) : list (list num) :=
    match n with O => [] | S n' => firstn m l :: reshape n' m (skipn m l) end.
  Definition blend_into (fine coarse : grid) (w : nat) : res grid :=
    if strictly_inside fine coarse then
      let! padded := pad_grid w fine in
      let! c := interpolate_to padded coarse in
      let cs := cells_of c (g_values c) in
      let vals := map snd cs in
      let ask := filter (fun a => neq_bool (snd a) pad_code) cs in
      if match ask with [] => false | _ => true end then
        let! answers := idw (filter (fun a => negb (neq_bool (snd a) pad_code)) cs) (map fst ask) in
        let! h := amin answers in
        Ok (set_hmin (set_values c (reshape (nx c) (ny c) (fill_in vals answers))) (Some h))
      else
        let! h := amin vals in Ok (set_hmin c (Some h))
    else Ok coarse.
End Blend.
