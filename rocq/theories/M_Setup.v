(** Model of the argument handling of generate_mesh (oceanmesh/mesh_generator.py:308-310, 769-820, 886-932, 1081-1126)
    in front of the loop of M_Generate.v; stereo=False.  Numbers are exact rationals. *)
From Coq Require Import List Arith Bool ZArith QArith Qround.
From Verif Require Import M_Base M_Numpy M_Edges M_FixMesh M_Clean M_Sdf M_Generate.
Import ListNotations.
Open Scope Q_scope.

(** An edge_length argument: a Grid with its hmin ([None]: None), its values and its eval; a function; anything else. *)
Inductive sizing_arg : Type := SGrid (hmin : option num) (vals : list num) (eval : dfun) | SFun (f : dfun) | SOther.
(** mesh_generator.py:891-895: hmin is a positive finite number. *)
Definition usable (h : option num) : option Q :=
  match h with Some (Fin q) => if Qlt_bool 0 q then Some q else None | _ => None end.
(** mesh_generator.py:900: the positive finite values. *)
Definition positive_values (vals : list num) : list Q :=
  flat_map (fun v => match v with Fin q => if Qlt_bool 0 q then [q] else [] | _ => [] end) vals.
(** mesh_generator.py:886-918 _unpack_sizing: the function, the minimum ([None]: None) and the grid's hmin afterwards.
    [given] is opts["min_edge_length"], a finite number or None; masked arrays are not modelled. *)
Definition unpack_sizing (e : sizing_arg) (given : option Q) : res (dfun * option Q * option num) :=
  match e with
  | SGrid hmin vals eval =>
      match usable hmin with
      | Some q => Ok (eval, Some q, hmin)
      | None => let! q := min_list (positive_values vals) in Ok (eval, Some q, Some (Fin q))
      end
  | SFun f => Ok (f, given, None)
  | SOther => Raise ValueError
  end.

(** A bbox value: a tuple of numbers, or anything else. *)
Inductive box_value : Type := BTuple (l : list Q) | BOther.
(** A domain argument: a Domain with its bbox and eval, a function, anything else. *)
Inductive domain_arg : Type := DDomain (bbox : box_value) (eval : dfun) | DFun (f : dfun) | DOther.
(** mesh_generator.py:921-932 _unpack_domain; [given] is opts["bbox"], [None] when the option is not given (it has no default). *)
Definition unpack_domain (d : domain_arg) (given : option box_value) : res (dfun * box_value) :=
  match d with
  | DDomain b f => Ok (f, b)
  | DFun f => match given with Some b => Ok (f, b) | None => Raise KeyError end
  | DOther => Raise ValueError
  end.
(** mesh_generator.py:308-310 _check_bbox: int(len(bbox) / 2) must not be 0. *)
Definition check_bbox (b : box_value) : res (list Q) :=
  match b with BTuple l => if (length l / 2 =? 0)%nat then Raise AssertionError else Ok l | BOther => Raise AssertionError end.
(** mesh_generator.py:788: reshape(-1, 2). *)
Fixpoint in_pairs (l : list Q) : res (list (Q * Q)) :=
  match l with
  | [] => Ok []
  | [_] => Raise ValueError
  | a :: b :: r => let! t := in_pairs r in Ok ((a, b) :: t)
  end.

(** A pfix value: None, an array of points, or a list without elements (np.array gives shape (0,)). *)
Inductive pfix_value : Type := PNone | PPoints (l : list point) | PEmpty.
(** mesh_generator.py:1118-1126 _unpack_pfix; [None] is the array of shape (0,). *)
Definition unpack_pfix (p : pfix_value) : option (list point) :=
  match p with PNone => Some [] | PPoints l => Some l | PEmpty => None end.

(** np.mgrid of several slices: the coordinate lists, each over all index tuples with the last index fastest. *)
Fixpoint mgrid (axes : list (list Q)) : list (list Q) :=
  match axes with
  | [] => []
  | a :: r =>
      let m := mgrid r in
      let inner := fold_right Nat.mul 1%nat (map (@length Q) r) in
      flat_map (fun x => repeat x inner) a :: map (fun c => List.concat (map (fun _ => c) a)) m
  end.
(** reshape(2, -1).T (mesh_generator.py:1100). *)
Definition two_columns (m : list (list Q)) : res (list point) :=
  let flat := List.concat m in
  let n := length flat in
  if Nat.even n then Ok (combine (firstn (n / 2) flat) (skipn (n / 2) flat)) else Raise ValueError.
(** mesh_generator.py:1081-1110 _generate_initial_points for a box of any number of rows; pfix as above: np.vstack of an array
    of shape (0,) with one of two columns raises ValueError. *)
Definition initial_points (h geps : Q) (box : list (Q * Q)) (fh fd : dfun) (pfix : option (list point)) (rand : list Q) : res (list point) :=
  let! p := two_columns (mgrid (map (fun b => mgrid1 (fst b) (snd b) h) box)) in
  let! r0 := fh p in
  let! r0m := min_list (filter (fun r => Qle_bool h r) r0) in
  if negb (length rand =? length r0)%nat then Raise ValueError else
  let! p1 := bool_index p (map (fun q => accepted r0m (fst q) (snd q)) (combine rand r0)) in
  let! d := fd p1 in
  let! p2 := bool_index p1 (map (fun v => Qlt_bool v geps) d) in
  match pfix with Some l => Ok (l ++ p2) | None => Raise ValueError end.

(** The options of generate_mesh that matter here, after opts.update(kwargs); max_iter is an integer or a float. *)
Inductive count_value : Type := CInt (z : Z) | CFloat (q : Q).
Record options : Type := {
  o_bbox : option box_value; o_min : option Q; o_max_iter : count_value; o_pfix : pfix_value; o_points : option (list point);
  o_lock : bool; o_dt : Q }.
Definition default_options : options :=
  {| o_bbox := None; o_min := None; o_max_iter := CInt 50; o_pfix := PNone; o_points := None; o_lock := false; o_dt := 1 # 5 |}.

Section Call.
  Variable triangulate : nat -> list point -> res (list point * list tri).
  (** _compute_forces for a sizing function. *)
  Variable forces : dfun -> list point -> list tri -> res (list point).
  Variable kleb : Z * Z -> Z * Z -> bool.
  Variable deps : Q.
  (** np.random.rand: the numbers drawn for an array length. *)
  Variable rand : list Q.
  (** mesh_generator.py:769-883 generate_mesh after _parse_kwargs.  None > 0 raises TypeError; range of a float raises TypeError,
      after the initial points are made and counted. *)
  Definition call (domain : domain_arg) (edge_length : sizing_arg) (o : options) : res (list point * list tri) :=
    let! d := unpack_domain domain (o_bbox o) in
    let! s := unpack_sizing edge_length (o_min o) in
    let '(fh, hm, _) := s in
    let! b := check_bbox (snd d) in
    let! box := in_pairs b in
    match hm with
    | None => Raise TypeError
    | Some h =>
        if negb (Qlt_bool 0 h) then Raise AssertionError
        else if negb (match o_max_iter o with CInt z => (0 <? z)%Z | CFloat q => Qlt_bool 0 q end) then Raise AssertionError
        else
          let geps := (1 # 1000) * h in
          let pf := unpack_pfix (o_pfix o) in
          let! p := match o_points o with None => initial_points h geps box fh (fst d) pf rand | Some p => Ok p end in
          if (length p =? 0)%nat then Raise AssertionError
          else match o_max_iter o with
               | CFloat _ => Raise TypeError
               | CInt z => generate_mesh triangulate (fst d) (forces fh) kleb geps deps (o_dt o) (match pf with Some l => l | None => [] end) (o_lock o) (Z.to_nat z) p
               end
    end.
End Call.
