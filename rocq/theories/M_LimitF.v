(** Model of oceanmesh/cpp/HamiltonJacobi.cpp on IEEE binary64 (SpecFloat), with its rounding, infinities
    and nan.  Each operation of the source is rounded once: the extension is built with -O3 and no option
    that allows other arithmetic (setup.py:162-166), and a fused multiply-add is not modelled. *)
From Coq Require Import List Arith Bool ZArith SpecFloat.
From Verif Require Import M_Base M_GradLimit M_FixMesh.
Import ListNotations.

(** std::sqrt. *)
Definition fsqrt := SFsqrt fprec femax.
(** HamiltonJacobi.cpp:22 EPS (1e-9) and 73 (2.0). *)
Definition f_eps : spec_float := S754_finite false 4835703278458517 (-82).
Definition sqrt_eps_f : spec_float := fsqrt f_eps.
Definition sqrt_two_f : spec_float := fsqrt ftwo.

Section Limit.
  (** Dimensions (dims[0], dims[1]), the products elen * dfdx and elend * dfdx, and ftol. *)
  Variables d0 d1 : nat.
  Variables (w wd ftol : spec_float).

  (** HamiltonJacobi.cpp:149-165.  State: ffun_s and aset; x > y is written y < x. *)
  Definition relax_f (iter : Z) (nod1 nod2 : nat) (we : spec_float) (st : list spec_float * list Z) : list spec_float * list Z :=
    let '(f, a) := st in
    if SFltb (nth nod2 f S754_nan) (nth nod1 f S754_nan) then
      let fun1 := fadd (nth nod2 f S754_nan) we in
      if SFltb (fadd fun1 ftol) (nth nod1 f S754_nan) then (upd f nod1 fun1, upd a nod1 iter) else st
    else
      let fun2 := fadd (nth nod1 f S754_nan) we in
      if SFltb (fadd fun2 ftol) (nth nod2 f S754_nan) then (upd f nod2 fun2, upd a nod2 iter) else st.

  (** HamiltonJacobi.cpp:135-166: the loop over p = 1..8; elen for the first four, elend after. *)
  Definition node_moves_f (nod : nat) : list (nat * spec_float) :=
    combine (stencil d0 d1 nod) [w; w; w; w; wd; wd; wd; wd].
  Definition relax_node_f (iter : Z) (nod : nat) (st : list spec_float * list Z) : list spec_float * list Z :=
    fold_left (fun st m => relax_f iter nod (fst m) (snd m) st) (node_moves_f nod) st.

  (** HamiltonJacobi.cpp:95-167: one pass over the active nodes. *)
  Definition sweep_f (iter : Z) (aidx : list nat) (st : list spec_float * list Z) : list spec_float * list Z :=
    fold_left (fun st nod => relax_node_f iter nod st) aidx st.

  (** HamiltonJacobi.cpp:83-169: [n] is the number of passes left.  The flag tells whether the loop was
      left by the break at line 92 (the code does not report it). *)
  Fixpoint limit_loop_f (n : nat) (iter : Z) (st : list spec_float * list Z) : list spec_float * bool :=
    match n with
    | O => (fst st, false)
    | S n' =>
        match find_indices (snd st) (iter - 1) with
        | [] => (fst st, true)
        | aidx => limit_loop_f n' (iter + 1) (sweep_f iter aidx st)
        end
    end.
End Limit.

(** *std::min_element (line 68): the first entry that no later one undercuts; nan is never less. *)
Definition fmin_list (l : list spec_float) : spec_float :=
  match l with [] => S754_nan | x :: r => fold_left (fun m y => if SFltb y m then y else m) r x end.

(** HamiltonJacobi.cpp:59-171 c_gradient_limit with the result and the convergence flag.  Sizes that do
    not match are undefined behaviour in C++ (lines 64 and 132 assert some of it); here an AssertionError. *)
Definition limit_f_flag (d0 d1 d2 : nat) (elen dfdx : spec_float) (imax : nat) (ffun : list spec_float)
  : res (list spec_float * bool) :=
  if ((0 <? d0) && (0 <? d1) && (0 <? d2) && (length ffun =? d0 * d1 * d2))%nat then
    let ftol := fmul (fmin_list ffun) sqrt_eps_f in
    let elend := fmul elen sqrt_two_f in
    Ok (limit_loop_f d0 d1 (fmul elen dfdx) (fmul elend dfdx) ftol imax 0 (ffun, repeat (-1)%Z (d0 * d1 * d2)))
  else Raise AssertionError.
Definition limit_f (d0 d1 d2 : nat) (elen dfdx : spec_float) (imax : nat) (ffun : list spec_float) : res (list spec_float) :=
  let! r := limit_f_flag d0 d1 d2 elen dfdx imax ffun in Ok (fst r).
