(** Specification vocabulary for importing the package. *)
From Coq Require Import List String Ascii Bool Arith.
Import ListNotations.

(** On Windows the variable CGAL_BIN has to name something. *)
Definition may_start (nt : bool) (cgal : option string) : Prop := nt = true -> exists s, cgal = Some s /\ s <> EmptyString.
(** The same letter, [b] being the small one. *)
Definition same_letter (a b : ascii) : Prop := a = b \/ exists k, 65 <= k <= 90 /\ a = ascii_of_nat k /\ b = ascii_of_nat (k + 32).
Inductive same_word : string -> string -> Prop :=
| sw_nil : same_word EmptyString EmptyString
| sw_cons a b s t : same_letter a b -> same_word s t -> same_word (String a s) (String b t).
(** The variable OCEANMESH_INPOLY_ACCEL is set to 0, false, no or off, in any mixture of capitals. *)
Definition switched_off (v : option string) : Prop :=
  exists s w, v = Some s /\ In w ["0"; "false"; "no"; "off"]%string /\ same_word s w.
(** The exported names that nothing defines. *)
Definition undefined_names : list string := ["SizeFunction"; "crate_bbox"; "slope_sizing_function"]%string.
(** The modules that share their name with a function of theirs which the package imports. *)
Definition hidden_modules : list string := ["signed_distance_function"; "fix_mesh"]%string.
(** The files of the package directory. *)
Definition module_files : list string := ["boundary"; "clean"; "edgefx"; "edges"; "filterfx"; "fix_mesh"; "geodata"; "grid"; "idw"; "mesh_generator"; "region"; "signed_distance_function"; "_version"; "geometry"]%string.
