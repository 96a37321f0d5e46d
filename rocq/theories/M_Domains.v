(** Model of the remaining helpers on domains, regions and grids: sampling and plotting of domains
    (oceanmesh/signed_distance_function.py:65-131), total bounds of a region (region.py:177-187) and the
    coordinate arrays of a grid (grid.py:190-227). *)
From Coq Require Import List Arith Bool ZArith QArith.
From Verif Require Import M_Base M_Sdf M_Region M_Grid.
Import ListNotations.
Open Scope Q_scope.

(** random.uniform(a, b) (line 73): a + (b - a) * u, with [u] the next draw of random.random(). *)
Definition uniform (a b u : Q) : Q := a + (b - a) * u.
(** signed_distance_function.py:65-94 for dim = 2; [draws] is the stream of draws, two for a sample.  [N] is a whole number;
    range of a negative one is empty. *)
Definition generate_samples (bbox : Q * Q * Q * Q) (N : Z) (draws : nat -> Q) : list (Q * Q) :=
  let '(x0, x1, y0, y1) := bbox in
  map (fun i => (uniform (x0 - (1 # 100)) (x1 + (1 # 100)) (draws (2 * i)%nat), uniform (y0 - (1 # 100)) (y1 + (1 # 100)) (draws (2 * i + 1)%nat)))
    (seq 0 (Z.to_nat N)).
(** Where a figure goes: to a window (plt.show) or to a file (plt.savefig). *)
Inductive output (F : Type) : Type := Shown | Saved (file : F).
Arguments Shown {F}.
Arguments Saved {F} _.
(** signed_distance_function.py:100: the mask of the points drawn. *)
Definition near_zero (d : Q) : bool := negb (Qle_bool d (- (1 # 10000))) && negb (Qle_bool (1 # 10000) d).
(** signed_distance_function.py:97-115 _plot: the points of the scatter plot with their colours, and where it goes.  The array
    indexed by the mask must be as long as the mask (IndexError). *)
Definition plot_domain {F : Type} (d : domain) (filename : option F) (samples : Z) (draws : nat -> Q) : res (list (Q * Q * Q) * output F) :=
  let p := generate_samples (d_bbox d) samples draws in
  let! v := d_eval d (map (fun q => (Fin (fst q), Fin (snd q))) p) in
  if Nat.eqb (length v) (length p) then
    Ok (filter (fun q => near_zero (snd q)) (combine p v), match filename with None => Shown | Some f => Saved f end)
  else Raise IndexError.
(** signed_distance_function.py:130-131 Domain.plot: passes filename=None on. *)
Definition Domain_plot {F : Type} (d : domain) (filename : option F) (samples : Z) (draws : nat -> Q) : res (list (Q * Q * Q) * output F) :=
  plot_domain d None samples draws.

(** np.min and np.max of a column: nan if there is one; ValueError when empty (region.py:182-187). *)
Definition le_num (a b : num) : bool := negb (num_lt b a).
Definition amin2 (a b : num) : num := match a, b with NaN, _ => NaN | _, NaN => NaN | _, _ => if le_num a b then a else b end.
Definition amax2 (a b : num) : num := match a, b with NaN, _ => NaN | _, NaN => NaN | _, _ => if le_num a b then b else a end.
Definition column (op : num -> num -> num) (l : list num) : res num := match l with [] => Raise ValueError | x :: r => Ok (fold_left op r x) end.
(** region.py:176-187 total_bounds. *)
Definition total_bounds (e : extent) : res (list num) :=
  match e with
  | Box v => Ok v
  | Poly v =>
      let! a := column amin2 (map fst v) in
      let! b := column amax2 (map fst v) in
      let! c := column amin2 (map snd v) in
      let! d := column amax2 (map snd v) in
      Ok [a; b; c; d]
  end.

(** grid.py:190-208 create_vectors. *)
Definition create_vectors (g : grid) : list Q * list Q := (map (node_x g) (seq 0 (nx g)), map (node_y g) (seq 0 (ny g))).
(** np.meshgrid(x, y, indexing="ij") (grid.py:226). *)
Definition meshgrid_ij (x y : list Q) : list (list Q) * list (list Q) := (map (fun a => map (fun _ => a) y) x, map (fun _ => y) x).
(** grid.py:210-227 create_grid. *)
Definition create_grid (g : grid) : list (list Q) * list (list Q) := let '(x, y) := create_vectors g in meshgrid_ij x y.
