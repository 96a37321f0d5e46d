(** Specification vocabulary for ocean boundary sections. *)
From Coq Require Import List Arith Bool ZArith QArith.
From Verif Require Import M_Sdf S_Edges.
Import ListNotations.
Open Scope nat_scope.

Definition near (m : Z) (a b : nat) : Prop := (Z.of_nat b - Z.of_nat a < m)%Z.
(** A run: consecutive members closer than m. *)
Inductive run (m : Z) : list nat -> Prop :=
| run_one x : run m [x]
| run_more x y l : near m x y -> run m (y :: l) -> run m (x :: y :: l).
(** A list cut into its maximal runs. *)
Inductive max_runs (m : Z) : list (list nat) -> Prop :=
| mr_nil : max_runs m []
| mr_one r : run m r -> max_runs m [r]
| mr_more r x y l rs : run m (r ++ [x]) -> ~ near m x y -> max_runs m ((y :: l) :: rs) -> max_runs m ((r ++ [x]) :: (y :: l) :: rs).

(** At or below the threshold. *)
Definition deep (t : Q) (d : num) : Prop := match d with Fin q => (q <= t)%Q | Inf b => b = false | NaN => False end.
(** [ps] lists, in increasing order, the positions of the nodes with a deep value. *)
Fixpoint increasing (l : list nat) : Prop :=
  match l with x :: ((y :: _) as r) => x < y /\ increasing r | _ => True end.
Definition deep_positions (topo : list num) (t : Q) (nodes ps : list nat) : Prop :=
  increasing ps /\
  forall i, In i ps <-> exists v d, nth_error nodes i = Some v /\ nth_error topo v = Some d /\ deep t d.

(** The nodes go once around a boundary loop: all different, neighbours (also last and first) joined by a boundary edge. *)
Definition boundary_loop (ts : list (nat * nat * nat)) (nodes : list nat) : Prop :=
  NoDup nodes /\
  (forall i u v, nth_error nodes i = Some u -> nth_error nodes (S i) = Some v -> on_boundary ts u v) /\
  (forall u v, hd_error nodes = Some u -> nth_error nodes (length nodes - 1) = Some v -> on_boundary ts v u).

(** What a scan reports of the maximal runs [rs], when [start] and [stop] are left over from earlier runs: the ends of a run of
    three or more; of a pair with a run behind it, its first node and the end left over; of two single nodes at the end, the start
    left over and the last node; nothing else. *)
Fixpoint reported (start stop : option nat) (rs : list (list nat)) : list (option nat * option nat) :=
  match rs with
  | [] => []
  | r :: rest =>
      match rest with
      | [] => if 3 <=? length r then [(Some (hd 0 r), Some (last r 0))] else []
      | r' :: rest' =>
          match r with
          | [_] => match r', rest' with [y], [] => [(start, Some y)] | _, _ => reported start stop rest end
          | [x; y] => (Some x, stop) :: reported (Some y) stop rest
          | _ => (Some (hd 0 r), Some (last r 0)) :: reported (Some (last r 0)) (Some (last r 0)) rest
          end
      end
  end.
(** A pair with a run behind it; two single nodes at the end. *)
Definition pair_inside (rs : list (list nat)) : Prop := exists pre x y post, rs = pre ++ [x; y] :: post /\ post <> [].
Definition singles_last (rs : list (list nat)) : Prop := exists pre x y, rs = pre ++ [[x]; [y]].
(** A pair with a run behind it and no run of three or more before it; two single nodes at the end and only single ones before. *)
Definition no_end_yet (rs : list (list nat)) : Prop :=
  exists pre x y post, rs = pre ++ [x; y] :: post /\ post <> [] /\ Forall (fun r => length r < 3) pre.
Definition all_single (rs : list (list nat)) : Prop := 2 <= length rs /\ Forall (fun r => length r = 1) rs.
