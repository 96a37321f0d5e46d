(** Property theorems on the argument handling of generate_mesh. *)
From Coq Require Import List Arith Bool ZArith QArith.
From Verif Require Import M_Base M_Numpy M_Edges M_FixMesh M_Clean M_Sdf M_Generate M_Setup S_Setup P_Setup.
Import ListNotations.
Open Scope Q_scope.

(** C124.  A Grid's own minimum is used when it is positive and finite; otherwise its least positive finite value, which becomes the
    grid's minimum; without one it is a ValueError.  The min_edge_length option is ignored for a Grid and needed for a function. *)
Theorem C124_grid : forall hmin vals eval given,
  (forall q, good_minimum hmin q -> unpack_sizing (SGrid hmin vals eval) given = Ok (eval, Some q, hmin)) /\
  ((forall q, ~ good_minimum hmin q) -> (exists r, In (Fin r) vals /\ 0 < r) ->
     exists q, unpack_sizing (SGrid hmin vals eval) given = Ok (eval, Some q, Some (Fin q)) /\ least_positive vals q) /\
  ((forall q, ~ good_minimum hmin q) -> (forall r, In (Fin r) vals -> r <= 0) -> unpack_sizing (SGrid hmin vals eval) given = Raise ValueError).
Proof. exact grid_sizing. Qed.
Print Assumptions C124_grid.
Theorem C124_call : forall triangulate forces kleb deps rand domain hmin vals eval o r,
  call triangulate forces kleb deps rand domain (SGrid hmin vals eval) o = Ok r ->
  exists q, 0 < q /\ (good_minimum hmin q \/ ((forall u, ~ good_minimum hmin u) /\ least_positive vals q)) /\
    forall given, call triangulate forces kleb deps rand domain (SGrid (Some (Fin q)) vals eval)
      {| o_bbox := o_bbox o; o_min := given; o_max_iter := o_max_iter o; o_pfix := o_pfix o; o_points := o_points o; o_lock := o_lock o; o_dt := o_dt o |} = Ok r.
Proof. exact call_grid. Qed.
Print Assumptions C124_call.
Theorem C124_function : forall triangulate forces kleb deps rand fd fh l o, o_bbox o = Some (BTuple l) -> Nat.even (length l) = true -> (2 <= length l)%nat ->
  (o_min o = None -> call triangulate forces kleb deps rand (DFun fd) (SFun fh) o = Raise TypeError) /\
  (forall q, o_min o = Some q -> q <= 0 -> call triangulate forces kleb deps rand (DFun fd) (SFun fh) o = Raise AssertionError).
Proof. exact call_minimum. Qed.
Print Assumptions C124_function.
Example C124_case : let g := [NaN; Fin 3; Inf true; Fin (-1); Fin 2] in
  match unpack_sizing (SGrid (Some NaN) g (fun p => Ok [])) (Some 7) with Ok (_, m, h) => m = Some 2 /\ h = Some (Fin 2) | _ => False end /\
  match unpack_sizing (SGrid (Some (Fin 5)) g (fun p => Ok [])) (Some 7) with Ok (_, m, h) => m = Some 5 /\ h = Some (Fin 5) | _ => False end.
Proof. repeat split. Qed.

(** C125.  A box of four numbers gives the lattice over its two intervals.  Missing: the dimension is not checked; every tuple of
    an even, positive number of entries is accepted, and six entries give starting points out of the box. *)
Theorem C125_four_partial : forall h geps x0 x1 y0 y1 fh fd pfix rand,
  in_pairs [x0; x1; y0; y1] = Ok [(x0, x1); (y0, y1)] /\
  initial_points h geps [(x0, x1); (y0, y1)] fh fd (Some pfix) rand = generate_initial_points h geps (x0, x1, y0, y1) fh fd pfix rand.
Proof. exact four_numbers. Qed.
Print Assumptions C125_four_partial.
Theorem C125_accepted : forall b, (exists box, (let! l := check_bbox b in in_pairs l) = Ok box) <-> exists l, b = BTuple l /\ Nat.even (length l) = true /\ (2 <= length l)%nat.
Proof. exact boxes_accepted. Qed.
Print Assumptions C125_accepted.
Theorem C125_dimension_refuted : exists l box p x, check_bbox (BTuple l) = Ok l /\ in_pairs l = Ok box /\ firstn 2 box = [(0, 1); (0, 1)] /\
  initial_points 1 (1 # 1000) box (fun p => Ok (map (fun _ => 1) p)) (fun p => Ok (map (fun _ => - (1)) p)) (Some []) (repeat 0 12) = Ok p /\
  In x p /\ ~ in_rectangle 0 1 0 1 1 x.
Proof. exact six_accepted. Qed.
Print Assumptions C125_dimension_refuted.
Theorem C125_missing : forall triangulate forces kleb deps rand fd e o, o_bbox o = None -> call triangulate forces kleb deps rand (DFun fd) e o = Raise KeyError.
Proof. exact call_no_box. Qed.
Print Assumptions C125_missing.
Example C125_case : match initial_points 1 (1 # 1000) [(0, 2); (0, 1)] (fun p => Ok (map (fun _ => 1) p)) (fun p => Ok (map (fun _ => - (1)) p)) (Some [(7, 7)]) (repeat 0 6) with
  Ok p => length p = 7%nat /\ hd (0, 0) p = (7, 7) | _ => False end.
Proof. vm_compute. split; reflexivity. Qed.

(** C126.  With a distance function, a sizing function, four numbers, a positive minimum and a positive integer count, a call makes
    the initial points and runs the loop on them with geps = h / 1000.  Missing: the documented float count never gives a mesh, and an
    empty list of fixed points does not either. *)
Theorem C126_call_partial : forall triangulate forces kleb deps rand fd fh x0 x1 y0 y1 h z (pf : option (list point)) pts lock dt o, 0 < h -> (0 < z)%Z ->
  o = {| o_bbox := Some (BTuple [x0; x1; y0; y1]); o_min := Some h; o_max_iter := CInt z; o_pfix := match pf with Some l => PPoints l | None => PNone end;
         o_points := pts; o_lock := lock; o_dt := dt |} ->
  call triangulate forces kleb deps rand (DFun fd) (SFun fh) o =
    (let pfix := match pf with Some l => l | None => [] end in
     let! p := match pts with Some p => Ok p | None => generate_initial_points h ((1 # 1000) * h) (x0, x1, y0, y1) fh fd pfix rand end in
     generate_mesh triangulate fd (forces fh) kleb ((1 # 1000) * h) deps dt pfix lock (Z.to_nat z) p).
Proof. exact call_good. Qed.
Print Assumptions C126_call_partial.
(** C126.  Options that are not given have the documented defaults: fifty passes, no fixed points, starting points made by the
    generator, time step 0.2, and the boundary is not locked. *)
Theorem C126_defaults : forall triangulate forces kleb deps rand fd fh x0 x1 y0 y1 h, 0 < h ->
  call triangulate forces kleb deps rand (DFun fd) (SFun fh)
    {| o_bbox := Some (BTuple [x0; x1; y0; y1]); o_min := Some h; o_max_iter := o_max_iter default_options; o_pfix := o_pfix default_options;
       o_points := o_points default_options; o_lock := o_lock default_options; o_dt := o_dt default_options |} =
    (let! p := generate_initial_points h ((1 # 1000) * h) (x0, x1, y0, y1) fh fd [] rand in
     generate_mesh triangulate fd (forces fh) kleb ((1 # 1000) * h) deps (1 # 5) [] false 50 p).
Proof. exact call_defaults. Qed.
Print Assumptions C126_defaults.
Theorem C126_no_options : forall triangulate forces kleb deps rand fd fh, call triangulate forces kleb deps rand (DFun fd) (SFun fh) default_options = Raise KeyError.
Proof. exact call_needs. Qed.
Print Assumptions C126_no_options.
Example C126_defaults_case : exists p t, call (fun _ p => Ok (p, [(0, 1, 2)%nat])) (fun _ p _ => Ok (map (fun _ => (0, 0)) p)) (fun a b => (fst a <=? fst b)%Z) 1 (repeat 0 4) (DFun (fun p => Ok (map (fun _ => - (1)) p)))
  (SFun (fun p => Ok (map (fun _ => 1) p)))
  {| o_bbox := Some (BTuple [0; 1; 0; 1]); o_min := Some 1; o_max_iter := o_max_iter default_options; o_pfix := o_pfix default_options;
     o_points := o_points default_options; o_lock := o_lock default_options; o_dt := o_dt default_options |} = Ok (p, t) /\ length p = 3%nat.
Proof. eexists; eexists; split; [vm_compute; reflexivity|reflexivity]. Qed.
Theorem C126_float_refuted : forall triangulate forces kleb deps rand domain e o q r, o_max_iter o = CFloat q -> call triangulate forces kleb deps rand domain e o <> Ok r.
Proof. exact call_float. Qed.
Print Assumptions C126_float_refuted.
Theorem C126_empty_refuted : forall triangulate forces kleb deps rand domain e o r, o_pfix o = PEmpty -> o_points o = None -> call triangulate forces kleb deps rand domain e o <> Ok r.
Proof. exact call_empty_list. Qed.
Print Assumptions C126_empty_refuted.
Theorem C126_count : forall triangulate forces kleb deps rand fd fh l o h, o_bbox o = Some (BTuple l) -> Nat.even (length l) = true -> (2 <= length l)%nat -> o_min o = Some h -> 0 < h ->
  match o_max_iter o with CInt z => (z <= 0)%Z | CFloat q => q <= 0 end -> call triangulate forces kleb deps rand (DFun fd) (SFun fh) o = Raise AssertionError.
Proof. exact call_count. Qed.
Print Assumptions C126_count.
Theorem C126_kinds : forall triangulate forces kleb deps rand e o fd, call triangulate forces kleb deps rand DOther e o = Raise ValueError /\
  (forall b, o_bbox o = Some b -> call triangulate forces kleb deps rand (DFun fd) SOther o = Raise ValueError).
Proof. exact call_other. Qed.
Print Assumptions C126_kinds.
Example C126_case : let run c f := call (fun _ p => Ok (p, [(0, 1, 2)%nat])) (fun _ p _ => Ok p) (fun a b => (fst a <=? fst b)%Z) 1 (repeat 0 4) (DFun (fun p => Ok (map (fun _ => - (1)) p))) (SFun (fun p => Ok (map (fun _ => 1) p)))
    {| o_bbox := Some (BTuple [0; 1; 0; 1]); o_min := Some 1; o_max_iter := c; o_pfix := f; o_points := None; o_lock := false; o_dt := 1 # 5 |} in
  (exists p t, run (CInt 2) PNone = Ok (p, t) /\ length p = 3%nat) /\ run (CFloat 2) PNone = Raise TypeError /\ run (CInt 2) PEmpty = Raise ValueError.
Proof. split; [eexists; eexists; split; [vm_compute; reflexivity|reflexivity]|split; vm_compute; reflexivity]. Qed.
