(** Model of laplacian2 (oceanmesh/clean.py:414-487) on IEEE doubles, with the decision to stop.  M_Clean has the
    same function on exact rationals with an arbitrary decision. *)
From Coq Require Import List Arith Bool ZArith QArith SpecFloat.
From Verif Require Import M_Base M_Numpy M_Edges M_FixMesh M_Adjacency M_Clean M_LimitF.
Import ListNotations.

Definition f_one : spec_float := S754_finite false 4503599627370496 (-52).
Definition f_zero : spec_float := S754_zero false.
(** clean.py:441 np.finfo(float).eps. *)
Definition f_eps52 : spec_float := S754_finite false 4503599627370496 (-104).
(** Entry of an array of points; only used in range. *)
Definition row_f (p : list fpoint) (i : nat) : fpoint := nth i p (S754_nan, S754_nan).
(** Product of a row of the coo matrix with a vector (clean.py:474, S @ ...; scipy's coo_matvec): the entries are
    added to zero in the order they are stored, which is face by face; all entries are 1.0, so the products are
    exact. *)
Definition sum_f (l : list spec_float) : spec_float := fold_left fadd l f_zero.
(** clean.py:462 np.sum(S, 1): the product with a vector of ones. *)
Definition weight_f (ts : list tri) (i : nat) : spec_float := sum_f (repeat f_one (length (lap_row ts i))).
(** clean.py:435-439: squared distances and np.argmin, which takes the first nan if there is one. *)
Definition dist2_f (x y : fpoint) : spec_float :=
  let dx := fsub (fst y) (fst x) in let dy := fsub (snd y) (snd x) in fadd (fmul dx dx) (fmul dy dy).
Fixpoint argmin_from_f (i best : nat) (b : spec_float) (l : list spec_float) : nat :=
  match l with
  | [] => best
  | x :: r =>
      match b with
      | S754_nan => best
      | _ => match x with
             | S754_nan => i
             | _ => if SFltb x b then argmin_from_f (S i) i x r else argmin_from_f (S i) best b r
             end
      end
  end.
Definition closest_node_f (x : fpoint) (p : list fpoint) : res nat :=
  match map (dist2_f x) p with [] => Raise ValueError | d :: r => Ok (argmin_from_f 1 0 d r) end.
(** clean.py:474-476: one smoothing sweep. *)
Definition mean_f (ts : list tri) (c : fpoint -> spec_float) (p : list fpoint) (i : nat) : spec_float :=
  fdiv (sum_f (map (fun j => c (row_f p j)) (lap_row ts i))) (weight_f ts i).
Definition lap_sweep_f (ts : list tri) (bnd : list nat) (p : list fpoint) : list fpoint :=
  map (fun i => if existsb (Nat.eqb i) bnd then row_f p i else (mean_f ts fst p i, mean_f ts snd p i)) (seq 0 (length p)).
(** clean.py:468-471 and 477-480: the length of an edge, at least eps; a nan stays. *)
Definition edge_length_f (p : list fpoint) (e : edge) : spec_float :=
  let a := row_f p (fst e) in let b := row_f p (snd e) in
  let dx := fsub (fst a) (fst b) in let dy := fsub (snd a) (snd b) in
  let l := fsqrt (fadd (fmul dx dx) (fmul dy dy)) in
  if SFltb l f_eps52 then f_eps52 else l.
(** np.amax: a nan wins. *)
Definition amax2_f (a b : spec_float) : spec_float :=
  match a, b with
  | S754_nan, _ => S754_nan
  | _, S754_nan => S754_nan
  | _, _ => if SFltb a b then b else a
  end.
Definition amax_f (l : list spec_float) : spec_float := fcol amax2_f l.
(** clean.py:481-482. *)
Definition still_f (tol : spec_float) (lold lnew : list spec_float) : bool :=
  SFltb (amax_f (map (fun ll => fdiv (fsub (snd ll) (fst ll)) (snd ll)) (combine lold lnew))) tol.
(** clean.py:473-485.  The flag tells whether the loop was left by the break of line 484. *)
Fixpoint lap_loop_f (n : nat) (tol : spec_float) (ts : list tri) (bnd : list nat) (lold : list spec_float) (p : list fpoint)
  : list fpoint * bool :=
  match n with
  | O => (p, false)
  | S n' =>
      let p' := lap_sweep_f ts bnd p in
      let lnew := map (edge_length_f p') (get_edges ts) in
      if still_f tol lold lnew then (p', true) else lap_loop_f n' tol ts bnd lnew p'
  end.
(** clean.py:414-487.  The boundary (line 453) depends on the number of points only.  Exceptions as in M_Clean. *)
Definition laplacian2_flag (tol : spec_float) (max_iter : nat) (pfix : option (list fpoint)) (p : list fpoint) (ts : list tri)
  : res (list fpoint * bool) :=
  if forallb (fun t => forallb (fun v => v <? length p) (tri_vertices t)) ts then
    let! topo := external_topology (repeat (0%Q, 0%Q) (length p)) ts in
    let! ifix := mapM (fun x => closest_node_f x p) (match pfix with Some l => l | None => [] end) in
    if existsb (fun i => SFeqb (weight_f ts i) f_zero) (seq 0 (length p)) then Ok (p, false)
    else if (match pfix with Some [] => (0 <? max_iter)%nat | _ => false end) then Raise IndexError
    else Ok (lap_loop_f max_iter tol ts (snd topo ++ ifix) (map (edge_length_f p) (get_edges ts)) p)
  else Raise ValueError.
Definition laplacian2_f (tol : spec_float) (max_iter : nat) (pfix : option (list fpoint)) (p : list fpoint) (ts : list tri)
  : res (list fpoint * list tri) :=
  let! r := laplacian2_flag tol max_iter pfix p ts in Ok (fst r, ts).
