(** Model of oceanmesh/cpp/HamiltonJacobi.cpp.  Doubles are exact rationals: rounding of sums and
    products is not modelled. *)
From Coq Require Import List Arith Bool ZArith QArith.
From Verif Require Import M_Base.
Import ListNotations.

(** HamiltonJacobi.cpp:28-30 sub2ind and 33-42 ind2sub (1-based, no overflow). *)
Definition sub2ind (row col zpos nrows ncols : nat) : nat :=
  (1 + (zpos - 1) * ncols * nrows + (col - 1) * nrows + (row - 1))%nat.
Definition ind2sub (index nrows ncols : nat) : nat * nat * nat :=
  let nij := (nrows * ncols)%nat in
  let ij := ((index - 1) mod nij)%nat in
  (1 + ij mod nrows, 1 + ij / nrows, 1 + (index - 1) / nij)%nat.

(** HamiltonJacobi.cpp:48-56 findIndices. *)
Definition find_indices (A : list Z) (value : Z) : list nat :=
  filter (fun i => Z.eqb (nth i A 0%Z) value) (seq 0 (length A)).

(** HamiltonJacobi.cpp:107-129: the eight neighbours npos[1..8] of node nod (0-based).  The last repeats
    the fifth, as in the code. *)
Definition stencil (d0 d1 nod : nat) : list nat :=
  let '(i, j, k) := ind2sub (nod + 1)%nat d0 d1 in
  map (fun n => n - 1)%nat
   ([ sub2ind i (Nat.min (j + 1) d1) k d0 d1;
     sub2ind i (Nat.max (j - 1) 1) k d0 d1;
     sub2ind (Nat.min (i + 1) d0) j k d0 d1;
     sub2ind (Nat.max (i - 1) 1) j k d0 d1;
     sub2ind (Nat.min (i + 1) d0) (Nat.min (j + 1) d1) k d0 d1;
     sub2ind (Nat.max (i - 1) 1) (Nat.min (j + 1) d1) k d0 d1;
     sub2ind (Nat.max (i - 1) 1) (Nat.max (j - 1) 1) k d0 d1;
     sub2ind (Nat.min (i + 1) d0) (Nat.min (j + 1) d1) k d0 d1 ])%nat.

Definition Qgtb (x y : Q) : bool := negb (Qle_bool x y).

Section Limit.
  (** Dimensions (dims[0], dims[1]), the products elen * dfdx and elend * dfdx, and ftol. *)
  Variables d0 d1 : nat.
  Variables (w wd ftol : Q).

  (** HamiltonJacobi.cpp:149-165.  State: ffun_s and aset. *)
  Definition relax (iter : Z) (nod1 nod2 : nat) (we : Q) (st : list Q * list Z) : list Q * list Z :=
    let '(f, a) := st in
    if Qgtb (nth nod1 f 0) (nth nod2 f 0) then
      let fun1 := nth nod2 f 0 + we in
      if Qgtb (nth nod1 f 0) (fun1 + ftol) then (upd f nod1 fun1, upd a nod1 iter) else st
    else
      let fun2 := nth nod1 f 0 + we in
      if Qgtb (nth nod2 f 0) (fun2 + ftol) then (upd f nod2 fun2, upd a nod2 iter) else st.

  (** HamiltonJacobi.cpp:135-166: the loop over p = 1..8; elen for the first four, elend after. *)
  Definition node_moves (nod : nat) : list (nat * Q) :=
    combine (stencil d0 d1 nod) [w; w; w; w; wd; wd; wd; wd].
  Definition relax_node (iter : Z) (nod : nat) (st : list Q * list Z) : list Q * list Z :=
    fold_left (fun st m => relax iter nod (fst m) (snd m) st) (node_moves nod) st.

  (** HamiltonJacobi.cpp:95-167: one pass over the active nodes. *)
  Definition sweep (iter : Z) (aidx : list nat) (st : list Q * list Z) : list Q * list Z :=
    fold_left (fun st nod => relax_node iter nod st) aidx st.

  (** HamiltonJacobi.cpp:83-169: [n] is the number of passes left.  The flag tells whether the loop was
      left by the break at line 92 (the code does not report it). *)
  Fixpoint limit_loop (n : nat) (iter : Z) (st : list Q * list Z) : list Q * bool :=
    match n with
    | O => (fst st, false)
    | S n' =>
        match find_indices (snd st) (iter - 1) with
        | [] => (fst st, true)
        | aidx => limit_loop n' (iter + 1) (sweep iter aidx st)
        end
    end.
End Limit.

(** *std::min_element (line 68). *)
Definition Qmin_list (l : list Q) : Q :=
  match l with [] => 0 | x :: r => fold_left (fun m y => if Qle_bool m y then m else y) r x end.

(** std::sqrt(2.0) (line 73) and std::sqrt(1e-9) (line 68) as doubles. *)
Definition sqrt2_d : Q := 6369051672525773 # 4503599627370496.
Definition sqrt_eps_d : Q := 4666698134970813 # 147573952589676412928.

(** HamiltonJacobi.cpp:59-171 c_gradient_limit with the result and the convergence flag.  [s2] and [se]
    are the values of std::sqrt(2.0) and std::sqrt(EPS).  Sizes that do not match are undefined
    behaviour in C++ (line 64 and 132 assert some of it); here an AssertionError. *)
Definition gradient_limit_flag (s2 se : Q) (d0 d1 d2 : nat) (elen dfdx : Q) (imax : nat) (ffun : list Q)
  : res (list Q * bool) :=
  if ((0 <? d0) && (0 <? d1) && (0 <? d2) && (length ffun =? d0 * d1 * d2))%nat then
    let ftol := Qmin_list ffun * se in
    let elend := elen * s2 in
    Ok (limit_loop d0 d1 (elen * dfdx) (elend * dfdx) ftol imax 0 (ffun, repeat (-1)%Z (d0 * d1 * d2)))
  else Raise AssertionError.
Definition gradient_limit (s2 se : Q) (d0 d1 d2 : nat) (elen dfdx : Q) (imax : nat) (ffun : list Q) : res (list Q) :=
  let! r := gradient_limit_flag s2 se d0 d1 d2 elen dfdx imax ffun in Ok (fst r).
