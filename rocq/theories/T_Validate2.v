(** The messages of the checks on multiscale domains (C50). *)
From Coq Require Import List Arith Bool ZArith QArith String.
From Verif Require Import M_Base M_Sdf M_Grid M_Region M_Dem M_Validate S_Grid S_Region S_Validate P_Validate P_Validate2.
Import ListNotations.
Open Scope Q_scope.

(** With lists of equal length a message is given exactly if the domain with the number in the message (or the set of domains) has the defect it names. *)
Theorem C50_messages : forall (user crs : Type) (parse : user -> option crs) (is4326 geographic : crs -> bool) (equals : crs -> crs -> bool) (st : Q * Q -> option (Q * Q)) (F : Type)
  (ds : list (vdomain user F)) els m, List.length ds = List.length els ->
  (In m (snd (validate user crs parse is4326 geographic equals st F ds els)) <-> has_defect parse is4326 geographic equals st ds els m).
Proof. exact (fun _ _ parse is4326 geographic equals st _ => messages parse is4326 geographic equals st). Qed.
Print Assumptions C50_messages.
(** Otherwise the lengths are all that is reported. *)
Theorem C50_length_message : forall (user crs : Type) (parse : user -> option crs) (is4326 geographic : crs -> bool) (equals : crs -> crs -> bool) (st : Q * Q -> option (Q * Q)) (F : Type)
  (ds : list (vdomain user F)) els, List.length ds <> List.length els -> validate user crs parse is4326 geographic equals st F ds els = (false, [ELength]).
Proof. exact (fun _ _ parse is4326 geographic equals st _ => length_message parse is4326 geographic equals st). Qed.
Print Assumptions C50_length_message.
(** A region in front of the global domain, a region without CRS behind it, and a sizing function in another CRS. *)
Example C50_case_messages : let bare := wdom false None (-90, 90, 0, 90) in
  snd (wvalidate [wregion; wglobal; bare] [Some (Some 2%nat); None; Some None]) = [EGlobalNotFirst; ENoCrs 2; ERegionStereo 1; EEdgeCrs 0] /\
  has_defect wparse wis4326 wis4326 Nat.eqb wst [wregion; wglobal; bare] [Some (Some 2%nat); None; Some None] (ERegionStereo 1).
Proof. split; [vm_compute; reflexivity|]. apply C50_messages; [reflexivity|]. vm_compute. intuition. Qed.
