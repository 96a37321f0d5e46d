(** Specification vocabulary for drawings: what matplotlib's figures, windows and files hold after a sequence of calls. *)
From Coq Require Import List Arith Bool ZArith QArith String.
From Verif Require Import M_Base M_Sdf M_Plot.
Import ListNotations.
Open Scope nat_scope.
Open Scope list_scope.

(** The figures with what is drawn on them, the one our axes belong to, pyplot's current figure, the files written and the
    drawings seen in a window. *)
Record world : Type := {
  figures : list (list draw); axes : option nat; current : option nat; files : list (string * list draw); windows : list (list draw) }.
(** What is drawn on a figure, and on that of our axes. *)
Definition content (w : world) (o : option nat) : list draw := match o with Some k => nth k (figures w) [] | None => [] end.
Definition drawing (w : world) : list draw := content w (axes w).
(** One call.  plt.savefig writes the current figure, a new blank one when there is none.  With an interactive backend plt.show
    opens windows and, if it waits, pyplot has forgotten its figures when it returns; without one it does nothing. *)
Definition act (interactive : bool) (w : world) (c : cmd) : world :=
  match c with
  | New_figure =>
      let n := List.length (figures w) in
      {| figures := figures w ++ [[]]; axes := Some n; current := Some n; files := files w; windows := windows w |}
  | On d =>
      match axes w with
      | Some k => {| figures := upd (figures w) k (content w (Some k) ++ [d]); axes := axes w; current := current w; files := files w; windows := windows w |}
      | None => w
      end
  | Save f =>
      match current w with
      | Some k => {| figures := figures w; axes := axes w; current := current w; files := files w ++ [(f, content w (Some k))]; windows := windows w |}
      | None => {| figures := figures w ++ [[]]; axes := axes w; current := Some (List.length (figures w)); files := files w ++ [(f, [])];
                   windows := windows w |}
      end
  | Show wait =>
      if interactive then
        {| figures := figures w; axes := axes w; current := if wait then None else current w; files := files w;
           windows := windows w ++ [drawing w] |}
      else w
  end.
Definition run (interactive : bool) (cs : list cmd) (w : world) : world := fold_left (act interactive) cs w.
(** Axes that are given belong to a figure. *)
Definition ready (ax : bool) (w : world) : Prop := ax = true -> exists k, axes w = Some k /\ k < List.length (figures w).
(** The axes given, if any, belong to the current figure. *)
Definition on_current (ax : bool) (w : world) : Prop := ax = true -> current w = axes w.
(** One file is written, and it holds the finished drawing. *)
Definition file_complete (w w' : world) (f : string) : Prop := files w' = files w ++ [(f, drawing w')].
(** One window is opened, and it shows the finished drawing. *)
Definition window_complete (w w' : world) : Prop := windows w' = windows w ++ [drawing w'].
(** The calls on the axes. *)
Definition drawn (cs : list cmd) : list draw := flat_map (fun c => match c with On d => [d] | _ => [] end) cs.
(** The last value of a setting. *)
Definition last_set {A} (sel : draw -> option A) (l : list draw) : option A :=
  fold_left (fun o d => match sel d with Some a => Some a | None => o end) l None.
Definition x_label d := match d with Xlabel s => Some s | _ => None end.
Definition y_label d := match d with Ylabel s => Some s | _ => None end.
Definition title_of d := match d with Title s => Some s | _ => None end.
Definition x_lim d := match d with Xlim l => Some l | _ => None end.
Definition y_lim d := match d with Ylim l => Some l | _ => None end.
(** Entry of a matrix. *)
Definition at2 {A} (m : list (list A)) (i j : nat) : option A := match nth_error m i with Some r => nth_error r j | None => None end.
(** Rows of one length. *)
Definition rect {A} (n m : nat) (v : list (list A)) : Prop := List.length v = n /\ Forall (fun r => List.length r = m) v.
(** The data a name in the legend of a shoreline stands for. *)
Definition stands_for (mainland inner boubox : list (num * num)) (name : string) (data : list (num * num)) : Prop :=
  (name = "mainland"%string /\ data = mainland /\ mainland <> []) \/ (name = "inner"%string /\ data = inner /\ inner <> []) \/
  (name = "outer"%string /\ data = boubox).
(** Separator rows: not the first one, and no two in a row. *)
Definition parts_filled (isnan : list bool) : Prop :=
  nth_error isnan 0 <> Some true /\ forall i, nth_error isnan i = Some true -> nth_error isnan (S i) <> Some true.
(** A point with two numbers that are not NaN. *)
Definition drawable (p : num * num) : Prop := fst p <> NaN /\ snd p <> NaN.
(** [l] is part of [nodes]: consecutive entries from position a on. *)
Definition consecutive (nodes l : list nat) (a : nat) : Prop := forall i, i < List.length l -> nth_error l i = nth_error nodes (a + i).
(** The points marked, one list for every scatter call. *)
Definition marks (cs : list cmd) : list (list (Q * Q)) := flat_map (fun d => match d with Scatter ps _ => [ps] | _ => [] end) (drawn cs).
(** The points of some nodes. *)
Definition points_of (points : list (Q * Q)) (l : list nat) (ps : list (Q * Q)) : Prop := Forall2 (fun v p => nth_error points v = Some p) l ps.
