(** Model of Invdisttree.__call__ with weights and statistics (oceanmesh/idw.py:72-106), over the reals.  M_Idw.v has the case without both. *)
From Coq Require Import List Arith Bool Reals.
From Verif Require Import M_Base M_Idw.
Import ListNotations.
Open Scope R_scope.

(** Attributes wn and wsum (lines 75-76); a number that is not finite is None. *)
Record stats : Type := { s_wn : nat; s_wsum : option (list (option R)) }.
Definition fresh : stats := {| s_wn := 0; s_wsum := None |}.
Definition zip_with {A B C} (f : A -> B -> C) (a : list A) (b : list B) : list C := map (fun p => f (fst p) (snd p)) (combine a b).
Definition plus_opt (a b : option R) : option R := match a, b with Some x, Some y => Some (x + y) | _, _ => None end.
(** Lines 96-98: 1 / dist**p, times weights[ix]. *)
Definition raw_weights (p : nat) (weights : option (list R)) (row : answer) : res (list R) :=
  let w := map (fun a => weight p (fst a)) row in
  match weights with
  | None => Ok w
  | Some ws => let! m := mapM (fun a => get ws (snd a)) row in Ok (zip_with Rmult w m)
  end.
(** Lines 99-103.  Division by a sum of 0 gives no finite number. *)
Definition shares (w : list R) : option (list R) := if Req_EM_T (sum w) 0 then None else Some (map (fun x => x / sum w) w).
(** self.wsum += w raises ValueError for arrays of different lengths (w has at least two entries here). *)
Definition count (wsum : list (option R)) (w : option (list R)) (n : nat) : res (list (option R)) :=
  if (length wsum =? n)%nat then Ok (zip_with plus_opt wsum (match w with Some l => map Some l | None => repeat None n end)) else Raise ValueError.
(** Lines 90-105, one query point; the state is (wn, wsum). *)
Definition one (z : list R) (nnear p : nat) (weights : option (list R)) (stat : bool) (row : answer) (st : nat * list (option R)) : res (option R * (nat * list (option R))) :=
  match row with
  | [] => Raise IndexError
  | (d0, i0) :: _ =>
      if (nnear =? 1)%nat then let! v := get z i0 in Ok (Some v, st)
      else if match d0 with Some r => if Rlt_dec r eps_same then true else false | None => false end then let! v := get z i0 in Ok (Some v, st)
      else
        let! w := raw_weights p weights row in
        let! zs := mapM (fun a => get z (snd a)) row in
        let v := match shares w with Some l => Some (dot l zs) | None => None end in
        if stat then let! s := count (snd st) (shares w) (length row) in Ok (v, (S (fst st), s)) else Ok (v, st)
  end.
Fixpoint many (z : list R) (nnear p : nat) (weights : option (list R)) (stat : bool) (rows : list answer) (st : nat * list (option R)) : res (list (option R) * (nat * list (option R))) :=
  match rows with
  | [] => Ok ([], st)
  | r :: rest => let! a := one z nnear p weights stat r st in let! b := many z nnear p weights stat rest (snd a) in Ok (fst a :: fst b, snd b)
  end.
(** Lines 78-106 on the rows the tree answers (line 87); wsum is created by the first call (lines 84-85).  The state after an exception is not followed. *)
Definition call (z : list R) (nnear p : nat) (weights : option (list R)) (stat : bool) (rows : list answer) (st : stats) : res (list (option R) * stats) :=
  if (length z =? 0)%nat then Raise IndexError
  else
    let wsum := match s_wsum st with Some l => l | None => repeat (Some 0) nnear end in
    let! r := many z nnear p weights stat rows (s_wn st, wsum) in
    Ok (fst r, {| s_wn := fst (snd r); s_wsum := Some (snd (snd r)) |}).
