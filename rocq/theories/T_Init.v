(** Theorems about importing the package (C188 to C191). *)
From Coq Require Import List String Ascii Bool Arith.
From Verif Require Import M_Init S_Init P_Init.
Import ListNotations.
Open Scope string_scope.

(** C188.  The package can be imported outside Windows, and on Windows when CGAL_BIN is set; every exported name that is defined at all is then
    a function or class of that name (not a module). *)
Theorem C188_starts : forall e, may_start (os_nt e) (cgal_bin e) -> exists st, init e = Done st /\
  forall n, In n all_init -> ~ In n undefined_names -> exists q, value_of st [] n = Some (VObject q n).
Proof. exact starts. Qed.
Print Assumptions C188_starts.
Theorem C188_aborts : forall e, ~ may_start (os_nt e) (cgal_bin e) -> init e = AssertFails.
Proof. exact init_abort. Qed.
Print Assumptions C188_aborts.
(** Whatever the files contain and whatever has been imported before, imports that lead back to each other come to an end. *)
Theorem C188_imports_end : forall files st p k, List.length files <= k -> load files k st p <> Deep.
Proof. exact imports_end. Qed.
Print Assumptions C188_imports_end.
(** Two files importing each other: the second finds the first without the name. *)
Example C188_case : may_start false None /\ ~ may_start true (Some "") /\ may_start true (Some "C:\cgal") /\
  load [(["a"], [From ["b"] ["x"]; Let ["y"]]); (["b"], [From ["a"] ["y"]; Let ["x"]])] 2 [] ["a"] = ImportFails ["a"] "y" /\
  load [(["a"], [Let ["y"]; From ["b"] ["x"]]); (["b"], [From ["a"] ["y"]; Let ["x"]])] 2 [] ["a"] =
    Done [(["b"], [("x", VObject ["b"] "x"); ("y", VObject ["a"] "y")]); (["a"], [("x", VObject ["b"] "x"); ("y", VObject ["a"] "y")])].
Proof. exact start_case. Qed.

(** C189.  [from oceanmesh import *] always fails: three of the exported names are not defined anywhere. *)
Theorem C189_star_refuted : forall e st, init e = Done st -> star st [] all_init = Some "SizeFunction" /\ forall n, In n undefined_names -> In n all_init.
Proof. exact star_fails. Qed.
Print Assumptions C189_star_refuted.
Theorem C189_missing : forall e st n, init e = Done st -> In n all_init -> (value_of st [] n = None <-> In n undefined_names).
Proof. exact exported_missing. Qed.
Print Assumptions C189_missing.
(** The lists of the single modules are complete. *)
Theorem C189_modules : forall e st p all, init e = Done st ->
  In (p, all) [(["boundary"], all_boundary); (["clean"], all_clean); (["edgefx"], all_edgefx); (["filterfx"], all_filterfx); (["geodata"], all_geodata); (["region"], all_region);
      (["signed_distance_function"], all_signed_distance_function); (["mesh_generator"], all_mesh_generator); (["geometry"], all_geometry)] ->
  star st p all = None /\ forall n, In n all -> value_of st p n <> None.
Proof. exact star_modules. Qed.
Print Assumptions C189_modules.

(** C190.  The compiled point-in-polygon kernel is used exactly when it has been built and OCEANMESH_INPOLY_ACCEL is none of 0, false, no, off. *)
Theorem C190_switch : forall e st, init e = Done st -> exists b, value_of st ["geometry"; "point_in_polygon"] "_COMPILED_KERNEL_AVAILABLE" = Some (VBool b) /\
  (b = true <-> built e = true /\ ~ switched_off (accel e)) /\
  (b = true -> value_of st ["geometry"; "point_in_polygon"] "inpoly2_fast" = Some (VObject ["geometry"; "point_in_polygon_"] "inpoly2_fast")) /\
  (b = false -> value_of st ["geometry"; "point_in_polygon"] "inpoly2_fast" = None).
Proof. exact kernel_flag. Qed.
Print Assumptions C190_switch.
Example C190_case : switched_off (Some "OfF") /\ ~ switched_off (Some "") /\ ~ switched_off (Some "none") /\ ~ switched_off None /\
  wants_kernel {| os_nt := false; cgal_bin := None; accel := Some "FALSE"; built := true |} = false /\
  wants_kernel {| os_nt := false; cgal_bin := None; accel := Some "2"; built := true |} = true.
Proof. exact switch_case. Qed.

(** C191.  Two modules cannot be reached as attributes of the package: [oceanmesh.fix_mesh] and [oceanmesh.signed_distance_function] are functions. *)
Theorem C191_hidden_refuted : forall e st, init e = Done st -> value_of st [] "fix_mesh" = Some (VObject ["fix_mesh"] "fix_mesh") /\
  value_of st [] "signed_distance_function" = Some (VObject ["signed_distance_function"] "signed_distance_function") /\
  spaces_of st ["fix_mesh"] <> None /\ spaces_of st ["signed_distance_function"] <> None.
Proof. exact hidden. Qed.
Print Assumptions C191_hidden_refuted.
Theorem C191_attributes : forall e st m, init e = Done st -> In m module_files ->
  (In m hidden_modules -> value_of st [] m = Some (VObject [m] m)) /\ (~ In m hidden_modules -> value_of st [] m = Some (VModule [m])).
Proof. exact module_attributes. Qed.
Print Assumptions C191_attributes.
