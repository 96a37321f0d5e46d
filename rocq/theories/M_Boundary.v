(** Model of oceanmesh/boundary.py. *)
From Coq Require Import List Arith Bool ZArith QArith.
From Verif Require Import M_Base M_Numpy M_Edges M_Sdf.
Import ListNotations.
Open Scope nat_scope.

(** boundary.py:43-48: flatten the edges; np.unique(..., return_index=True)[1] sorted gives the position
    of the first occurrence of every node, so the nodes in order of first occurrence. *)
Fixpoint first_seen (seen : list nat) (l : list nat) : list nat :=
  match l with
  | [] => []
  | x :: r => if existsb (Nat.eqb x) seen then first_seen seen r else x :: first_seen (x :: seen) r
  end.
Definition flatten (es : list edge) : list nat := flat_map (fun e => [fst e; snd e]) es.
Definition boundary_nodes (cells : list tri) : res (list nat) :=
  let! w := get_winded_boundary_edges cells None in
  Ok (first_seen [] (flatten w)).

(** boundary.py:53: comparison with the threshold; NaN compares False. *)
Definition num_leb (a : num) (t : Q) : bool :=
  match a with Fin q => Qle_bool q t | Inf b => negb b | NaN => false end.
(** boundary.py:50-53: depths at the boundary nodes (IndexError when a node has no depth), a NaN
    appended, and the positions at or below the threshold. *)
Definition find_stops (topo : list num) (nodes : list nat) (threshold : Q) : res (list nat) :=
  let! d := mapM (get topo) nodes in
  Ok (map fst (filter (fun p => num_leb (snd p) threshold) (combine (seq 0 (S (length d))) (d ++ [NaN])))).

(** boundary.py:60-63 the variables of the loop. *)
Record scan_state : Type := {
  ss_first : bool; ss_start : option nat; ss_end : option nat; ss_sections : list (option nat * option nat) }.
Definition scan_init : scan_state := {| ss_first := true; ss_start := None; ss_end := None; ss_sections := [] |}.
(** boundary.py:64-89, one pass of the loop; [lastidx] is idx == len(stops) - 2. *)
Definition scan_step (m : Z) (lastidx : bool) (s1 s2 : nat) (st : scan_state) : scan_state :=
  let gap := (Z.of_nat s2 - Z.of_nat s1)%Z in
  if (gap <? m)%Z then
    if ss_first st then
      {| ss_first := false; ss_start := Some s1; ss_end := ss_end st; ss_sections := ss_sections st |}
    else if lastidx then
      {| ss_first := ss_first st; ss_start := ss_start st; ss_end := Some s2; ss_sections := ss_sections st ++ [(ss_start st, Some s2)] |}
    else {| ss_first := ss_first st; ss_start := ss_start st; ss_end := Some s2; ss_sections := ss_sections st |}
  else if (m <=? gap)%Z && negb (ss_first st) then
    {| ss_first := true; ss_start := Some s1; ss_end := ss_end st; ss_sections := ss_sections st ++ [(ss_start st, ss_end st)] |}
  else if lastidx then
    {| ss_first := ss_first st; ss_start := ss_start st; ss_end := Some s2; ss_sections := ss_sections st ++ [(ss_start st, Some s2)] |}
  else st.
Fixpoint scan_loop (m : Z) (nstops : nat) (idx : nat) (pairs : list (nat * nat)) (st : scan_state) : scan_state :=
  match pairs with
  | [] => st
  | (s1, s2) :: r => scan_loop m nstops (S idx) r (scan_step m (idx + 2 =? nstops) s1 s2 st)
  end.
Definition scan_sections (m : Z) (stops : list nat) : list (option nat * option nat) :=
  ss_sections (scan_loop m (length stops) 0 (combine (removelast stops) (tl stops)) scan_init).

(** boundary.py:101-105: back to node numbers; indexing a list with None raises TypeError. *)
Definition node_at (nodes : list nat) (i : option nat) : res nat :=
  match i with Some k => get nodes k | None => Raise TypeError end.
Definition map_section (nodes : list nat) (s : option nat * option nat) : res (nat * nat) :=
  let! a := node_at nodes (fst s) in let! b := node_at nodes (snd s) in Ok (a, b).

(** boundary.py:9-106 identify_ocean_boundary_sections with plot=False. *)
Definition identify_ocean_boundary_sections (cells : list tri) (topo : list num) (threshold : Q) (m : Z) : res (list (nat * nat)) :=
  let! nodes := boundary_nodes cells in
  let! stops := find_stops topo nodes threshold in
  mapM (map_section nodes) (scan_sections m stops).
