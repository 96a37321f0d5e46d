(** Theorems about reading shoreline files (geodata.py:1055-1131). *)
From Coq Require Import List Arith Bool ZArith QArith.
From Verif Require Import M_Base M_Shore M_Clip S_Clip M_Read S_Read P_Read.
Import ListNotations.
Open Scope Q_scope.

(** ** C135 *)
(** From a file of lines and polygons in the shoreline's CRS exactly the parts whose rectangle meets the inside of the box are read, in order; each as its
    vertices (those not on the diagonal), one closing row and the delimiter.  If there are none, ValueError. *)
Theorem C135_selection : forall (crs : Type) (equals : crs -> crs -> bool) to_crs c dst gs pss b, equals c dst = true -> proper b -> outlines gs pss -> Forall no_third gs ->
  exists sel, picked (extent_meets b) pss sel /\ (sel = [] -> read equals to_crs (Some c) gs dst b = Raise ValueError) /\
    (sel <> [] -> exists rows, read equals to_crs (Some c) gs dst b = Ok rows /\ Forall2 (fun part ps => but_two part = filter (fun p => negb (Qeq_bool (fst p) (snd p))) ps /\
      exists q, part = term (but_two part ++ [q]) /\ q = last ps q) (convert_to_list rows) sel).
Proof. exact @selection. Qed.
Print Assumptions C135_selection.
(** A part with a vertex strictly inside the box is among them, one that lies on one side of the box is not. *)
Theorem C135_vertex_inside : forall b ps p, In p ps -> strictly_in_box b p -> extent_meets b ps.
Proof. exact vertex_inside. Qed.
Print Assumptions C135_vertex_inside.
Theorem C135_beside : forall b ps, let '(x0, x1, y0, y1) := b in
  ((forall p, In p ps -> fst p <= x0) \/ (forall p, In p ps -> x1 <= fst p) \/ (forall p, In p ps -> snd p <= y0) \/ (forall p, In p ps -> y1 <= snd p)) ->
  ~ extent_meets b ps.
Proof. exact all_beside. Qed.
Print Assumptions C135_beside.
(** A larger box gives these parts too, in the same order. *)
Theorem C135_larger_box : forall (crs : Type) (equals : crs -> crs -> bool) to_crs c dst gs b b' rows rows', equals c dst = true -> proper b -> box_in b b' ->
  read equals to_crs (Some c) gs dst b = Ok rows -> read equals to_crs (Some c) gs dst b' = Ok rows' ->
  sub (convert_to_list rows) (convert_to_list rows').
Proof. exact @larger_box. Qed.
Print Assumptions C135_larger_box.
(** A multi-part geometry reads as its parts. *)
Theorem C135_multi : forall (crs : Type) (equals : crs -> crs -> bool) to_crs c dst l1 l l2 b, equals c dst = true -> (forall g m, In g l -> g <> GColl m) ->
  read equals to_crs (Some c) (l1 ++ GColl l :: l2) dst b = read equals to_crs (Some c) (l1 ++ l ++ l2) dst b.
Proof. exact @multi_flat. Qed.
Print Assumptions C135_multi.

Example C135_case : proper (0, 10, 0, 10) /\ outlines chart [bay; far; reef] /\ Forall no_third chart /\ picked (extent_meets (0, 10, 0, 10)) [bay; far; reef] [bay; reef] /\
  read Bool.eqb shifted (Some true) chart true (0, 10, 0, 10) = Ok (term [(1, 2); (3, 2); (3, 4); (1, 2); (1, 2)] ++ term [(5, 6); (7, 6); (7, 8); (7, 8)]).
Proof.
  split; [split; reflexivity|]. split; [exact chart_outlines|]. split; [exact chart_flat|]. split; [exact chart_picked|]. vm_compute; reflexivity.
Qed.
Example C135_larger_case : box_in (0, 10, 0, 10) (0, 40, 0, 40) /\ (forall g m, In g [GLine false reef] -> g <> GColl m) /\
  (exists rows, read Bool.eqb shifted (Some true) chart true (0, 40, 0, 40) = Ok rows /\ length (convert_to_list rows) = 3%nat).
Proof.
  split; [|split].
  - intros [x y]. cbn. intros [[A B] [C D]]. repeat split; eauto using Qle_trans; (eapply Qle_trans; [eassumption|discriminate]).
  - intros g m [<-|[]]; discriminate.
  - eexists. split; vm_compute; reflexivity.
Qed.

(** ** C136 *)
(** The claim is false: a vertex with equal coordinates inside the box is missing. *)
Theorem C136_refuted : exists gs b l p rows, gs = [GLine false l] /\ In p l /\ strictly_in_box b p /\
  read Bool.eqb shifted (Some true) gs true b = Ok rows /\ ~ In p (points_of rows).
Proof. exact diagonal_lost. Qed.
Print Assumptions C136_refuted.
(** Missing for the full claim: vertices with equal coordinates. *)
Theorem C136_unchanged_partial : forall (crs : Type) (equals : crs -> crs -> bool) to_crs c dst gs pss b sel, equals c dst = true -> proper b -> outlines gs pss -> Forall no_third gs ->
  picked (extent_meets b) pss sel -> sel <> [] -> (forall ps p, In ps sel -> In p ps -> ~ fst p == snd p) ->
  exists rows, read equals to_crs (Some c) gs dst b = Ok rows /\ map but_two (convert_to_list rows) = sel.
Proof. exact @unchanged. Qed.
Print Assumptions C136_unchanged_partial.

Example C136_case : picked (extent_meets (0, 10, 0, 10)) [bay; far; reef] [bay; reef] /\ (forall ps p, In ps [bay; reef] -> In p ps -> ~ fst p == snd p).
Proof. split; [exact chart_picked|]. intros ps p I J. cbn in I. repeat (destruct I as [<-|I]; [cbn in J; repeat (destruct J as [<-|J]; [discriminate|]); destruct J|]). destruct I. Qed.

(** ** C137 *)
(** The claim is false: the interior ring of a polygon inside the box is not read; and whatever interior rings there are, nothing changes. *)
Theorem C137_refuted : exists b e h rows, Forall (strictly_in_box b) e /\ Forall (strictly_in_box b) h /\ h <> [] /\ (forall p, In p (e ++ h) -> ~ fst p == snd p) /\
  read Bool.eqb shifted (Some true) [GPoly false e [h]] true b = Ok rows /\ forall p, In p h -> ~ In p (points_of rows).
Proof. exact hole_lost. Qed.
Print Assumptions C137_refuted.
Theorem C137_ignored : forall (crs : Type) (equals : crs -> crs -> bool) to_crs c dst gs hs b, equals c dst = true -> Forall2 same_outside gs hs ->
  read equals to_crs (Some c) gs dst b = read equals to_crs (Some c) hs dst b.
Proof. exact @holes_ignored. Qed.
Print Assumptions C137_ignored.

Example C137_case : Forall2 same_outside chart [GColl [GPoly true bay []; GLine false far]; GLine false reef].
Proof. repeat constructor. Qed.

(** ** C138 *)
(** Reading a file in CRS [c] is reading, in the CRS asked for, the geometries as they are if the two are equal and what to_crs makes of them otherwise. *)
Theorem C138_crs_used : forall (crs : Type) (equals : crs -> crs -> bool) to_crs c gs dst b c', equals c' dst = true ->
  read equals to_crs (Some c) gs dst b = if equals c dst then read equals to_crs (Some c') gs dst b else let! s := to_crs c dst gs in read equals to_crs (Some c') s dst b.
Proof. exact @crs_used. Qed.
Print Assumptions C138_crs_used.
(** A file without CRS is refused though the CRS is given: AttributeError, before the message for this case can be written. *)
Theorem C138_no_crs_refuted : exists gs b, outlines gs [bay] /\ Forall no_third gs /\ extent_meets b bay /\ forall crs equals to_crs (dst : crs),
  read equals to_crs None gs dst b = Raise AttributeError.
Proof. exact no_crs_refused. Qed.
Print Assumptions C138_no_crs_refuted.

Example C138_case : read Bool.eqb shifted (Some false) chart true (10, 20, 0, 10) = Ok (term [(15, 6); (17, 6); (17, 8); (17, 8)]).
Proof. vm_compute; reflexivity. Qed.

(** ** C139 *)
(** Reading succeeds exactly when some part meets the box and every part that does is a polygon or a line without third coordinate; otherwise ValueError. *)
Theorem C139_total : forall (crs : Type) (equals : crs -> crs -> bool) to_crs native gs dst b s ps, proper b -> transform_to equals to_crs native gs dst = Ok s -> parts s ps ->
  ((exists rows, read equals to_crs native gs dst b = Ok rows) <-> (exists g, In g ps /\ meets b g) /\ forall g, In g ps -> meets b g -> supported g) /\
  ((forall rows, read equals to_crs native gs dst b <> Ok rows) -> read equals to_crs native gs dst b = Raise ValueError).
Proof. exact @read_total. Qed.
Print Assumptions C139_total.
(** The same vertices with third coordinates are read as a polygon and refused as a line. *)
Theorem C139_third_refuted : exists b ps, extent_meets b ps /\ (exists rows, read Bool.eqb shifted (Some true) [GPoly true ps []] true b = Ok rows) /\
  (exists rows, read Bool.eqb shifted (Some true) [GLine false ps] true b = Ok rows) /\ read Bool.eqb shifted (Some true) [GLine true ps] true b = Raise ValueError.
Proof. exact third_uneven. Qed.
Print Assumptions C139_third_refuted.

Example C139_case : parts [GPoint (50, 50); GColl [GLine false bay; GColl [GPoint (60, 1)]]] [GPoint (50, 50); GLine false bay; GColl [GPoint (60, 1)]] /\
  (exists rows, read Bool.eqb shifted (Some true) [GPoint (50, 50); GColl [GLine false bay; GColl [GPoint (60, 1)]]] true (0, 10, 0, 10) = Ok rows) /\
  read Bool.eqb shifted (Some true) [GPoint (50, 50); GColl [GLine false bay; GColl [GPoint (60, 1)]]] true (0, 100, 0, 100) = Raise ValueError.
Proof.
  split; [apply pa_one; [discriminate|]; apply (pa_multi [_; _] [] []); constructor|]. split; [eexists; vm_compute; reflexivity|vm_compute; reflexivity].
Qed.
