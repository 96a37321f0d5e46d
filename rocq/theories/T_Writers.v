(** Theorems about the mesh writers (C33, C34, C65). *)
From Coq Require Import List Ascii String ZArith NArith QArith.
From Verif Require Import M_Base M_Writers S_Writers P_Writers.
Import ListNotations.
Local Open Scope list_scope.

(** C33.  Reading a fort.14 file gives back the title, the nodes (numbered from 1, within half a unit of the sixth decimal) and
    the elements exactly, with vertex numbers counted from 1, followed by four zeros. *)
Theorem C33_fort14_read_back : forall points st name flip z, ~ In nl name -> depths points (a_topo st) flip = Some z ->
  exists st' file nodes, write_to_fort14 points st name flip = (st', Ok file) /\
    read_fort14 file = Some (name ++ (if flip then txt " (bathymetry flipped) " else txt " "), nodes,
                             map flat (numbered 1 (map shift_cell (a_cells st))), [[["0"]]; [["0"]]; [["0"]]; [["0"]]; []]%char) /\
    Forall2 near nodes (numbered 1 (combine points z)).
Proof. exact fort14_read. Qed.
Print Assumptions C33_fort14_read_back.
(** A bathymetry of the wrong length is rejected before anything is changed. *)
Theorem C33_wrong_length : forall points st name flip t, a_topo st = Some t -> List.length t <> List.length points ->
  write_to_fort14 points st name flip = (st, Raise AssertionError).
Proof. exact fort14_mismatch. Qed.
Print Assumptions C33_wrong_length.
Definition ex_points : list (Q * Q) := [(1 # 3, -7 # 2); (0, 12345678 # 1); (1, -1 # 100000000)]%Q.
Definition ex_arrays : arrays := {| a_cells := [(0, 1, 2); (2, 1, 0)]%nat; a_topo := Some [10; -20 # 7; 1 # 2000000]%Q |}.
Example C33_case : ~ In nl (txt "my mesh") /\ depths ex_points (a_topo ex_arrays) false = Some [10; -20 # 7; 1 # 2000000]%Q /\
  snd (write_to_fort14 ex_points ex_arrays (txt "my mesh") false) =
  Ok (List.concat (map (fun l => txt l ++ [nl]) ["my mesh "; "2 3"; "1 0.333333 -3.500000 10.000000"; "2 0.000000 12345678.000000 -2.857143";
     "3 1.000000 -0.000000 0.000000"; "1 3 1 2 3 "; "2 3 3 2 1 "; "0 "; "0 "; "0 "; "0 "]%string)).
Proof. split; [intros H; repeat (destruct H as [H|H]; [discriminate|]); exact H|split; vm_compute; reflexivity]. Qed.

(** C34.  Writing a t3s file leaves the caller's arrays alone; writing a fort.14 file shifts the cells, so the next file differs ... *)
Theorem C34_t3s_unchanged : forall points st date, fst (write_to_t3s points st date) = st.
Proof. reflexivity. Qed.
Print Assumptions C34_t3s_unchanged.
Theorem C34_fort14_refuted : forall points st name flip, ~ In nl name -> a_cells st <> [] ->
  (match a_topo st with Some t => List.length t = List.length points | None => True end) ->
  exists st1 file1 st2 file2, write_to_fort14 points st name flip = (st1, Ok file1) /\ write_to_fort14 points st1 name flip = (st2, Ok file2) /\
    a_cells st1 <> a_cells st /\ file1 <> file2.
Proof. exact second_differs. Qed.
Print Assumptions C34_fort14_refuted.
(** ... and after n calls every vertex number has grown by n. *)
Theorem C34_shift_refuted : forall points calls_made st, (match a_topo st with Some t => List.length t = List.length points | None => True end) ->
  a_cells (calls points st calls_made) = map (shift_by (List.length calls_made)) (a_cells st).
Proof. exact calls_shift. Qed.
Print Assumptions C34_shift_refuted.
Example C34_case : a_cells ex_arrays <> [] /\ a_topo (fst (write_to_fort14 ex_points ex_arrays (txt "m") true)) <> a_topo ex_arrays /\
  a_cells (calls ex_points ex_arrays [(txt "m", true); (txt "m", false); (txt "n", true)]) = [(3, 4, 5); (5, 4, 3)]%nat.
Proof. split; [discriminate|split; [vm_compute; discriminate|vm_compute; reflexivity]]. Qed.

(** C65.  Reading a t3s file gives back the nodes within half a unit of the sixth decimal (depth zero) and the elements with the
    vertex numbers as they are in the array, i.e. counted from 0. *)
Theorem C65_t3s_read_back : forall points st date, ~ In nl date ->
  exists file nodes, write_to_t3s points st date = (st, Ok file) /\
    read_t3s file = Some (nodes, map (fun t => let '(a, b, c) := t in (N.of_nat a, N.of_nat b, N.of_nat c)) (a_cells st)) /\
    Forall2 (fun (n : Q * Q * Q) (p : Q * Q) => let '(x', y', z') := n in close6 x' (fst p) /\ close6 y' (snd p) /\ (z' == 0)%Q) nodes points.
Proof. exact t3s_read. Qed.
Print Assumptions C65_t3s_read_back.
Example C65_case : ~ In nl (txt "11/17/2026, 06:50:00") /\
  match snd (write_to_t3s ex_points ex_arrays (txt "11/17/2026, 06:50:00")) with
  | Ok f => option_map snd (read_t3s f) = Some [(0, 1, 2); (2, 1, 0)]%N
  | _ => False
  end.
Proof. split; [intros H; repeat (destruct H as [H|H]; [discriminate|]); exact H|vm_compute; reflexivity]. Qed.
