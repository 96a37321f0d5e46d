(** Property theorems C50, C51, C81-C83 (mesh_generator.py: multiscale checks and options). *)
From Coq Require Import List Arith Bool ZArith QArith Qreals Reals String Lia.
From Verif Require Import M_Base M_Sdf M_Grid M_Region M_Stereo M_Dem M_Validate S_Grid S_Region S_Validate P_Validate.
Import ListNotations.
Open Scope Q_scope.

(** ** C50 *)
(** The check succeeds exactly when: the lists have equal length, only the first domain is stereographic, CRS metadata
    are on all domains or nowhere, a global first domain is in EPSG:4326 with the four corners of every region in its
    box, no world-wide EPSG:4326 domain is mixed with another CRS, and sizing grids match their domains. *)
Theorem C50_exact : forall (user crs : Type) (parse : user -> option crs) (is4326 geographic : crs -> bool) (equals : crs -> crs -> bool) (st : Q * Q -> option (Q * Q)) (F : Type) (ds : list (vdomain user F)) els,
  fst (validate user crs parse is4326 geographic equals st F ds els) = true <-> accepts parse is4326 geographic equals st ds els.
Proof. exact (fun _ _ parse is4326 geographic equals st _ => validate_iff parse is4326 geographic equals st). Qed.
Print Assumptions C50_exact.

(** Verdict and messages depend only on the metadata, never on the evaluation functions. *)
Theorem C50_metadata_only : forall (user crs : Type) (parse : user -> option crs) (is4326 geographic : crs -> bool) (equals : crs -> crs -> bool) (st : Q * Q -> option (Q * Q)) (F G : Type)
  (ds : list (vdomain user F)) (es : list (vdomain user G)) els, Forall2 same_metadata ds es ->
  validate user crs parse is4326 geographic equals st F ds els = validate user crs parse is4326 geographic equals st G es els.
Proof. exact (fun _ _ parse is4326 geographic equals st _ _ => validate_metadata parse is4326 geographic equals st). Qed.
Print Assumptions C50_metadata_only.

(** Containment is not guaranteed: with the true projection a region may pass although one of its points falls
    outside the box of the global domain (only corners are projected). *)
Theorem C50_containment_refuted : exists (st : Q * Q -> option (Q * Q)) g d gb db p,
  fst (validate nat nat wparse wis4326 wis4326 Nat.eqb st unit [g; d] [None; None]) = true /\ v_stereo _ _ g = true /\ v_bbox _ _ g = Some gb /\ v_bbox _ _ d = Some db /\
  (forall x y, (x = b0 db \/ x = b1 db) -> (y = b2 db \/ y = b3 db) -> exists q, st (x, y) = Some q /\ to_stereo 1 (Q2R x, Q2R y) = (Q2R (fst q), Q2R (snd q))) /\
  S_Region.in_box db p /\ ~ in_real_box gb (to_stereo 1 (Q2R (fst p), Q2R (snd p))).
Proof. exact containment_refuted. Qed.
Print Assumptions C50_containment_refuted.

Example C50_case : accepts wparse wis4326 wis4326 Nat.eqb wst [wglobal; wregion] [Some (Some 1%nat); None].
Proof. apply C50_exact. vm_compute. reflexivity. Qed.
Example C50_case_rejected : ~ accepts wparse wis4326 wis4326 Nat.eqb wst [wregion; wglobal] [None; None] /\ snd (wvalidate [wregion; wglobal] [None; None]) <> [].
Proof. split; [rewrite <- C50_exact|]; vm_compute; discriminate. Qed.

(** ** C81 *)
(** Without a global domain the domains may have different CRSs. *)
Theorem C81_regional_crs_refuted : exists ds els, fst (wvalidate ds els) = true /\ (forall d, In d ds -> v_stereo _ _ d = false) /\
  exists d e c r, In d ds /\ In e ds /\ v_crs _ _ d = Some c /\ v_crs _ _ e = Some r /\ c <> r.
Proof. exact regional_crs_refuted. Qed.
Print Assumptions C81_regional_crs_refuted.
(** A global domain and its regions may have no CRS at all. *)
Theorem C81_missing_crs_refuted : exists ds els, fst (wvalidate ds els) = true /\ (exists g, at_index ds 0 g /\ v_stereo _ _ g = true) /\ (forall d, In d ds -> v_crs _ _ d = None).
Proof. exact missing_crs_refuted. Qed.
Print Assumptions C81_missing_crs_refuted.
(** Sizing grids may have no CRS. *)
Theorem C81_sizing_crs_refuted : exists ds els, fst (wvalidate ds els) = true /\ (exists g, at_index ds 0 g /\ v_stereo _ _ g = true) /\ In (Some None) els.
Proof. exact sizing_without_crs_refuted. Qed.
Print Assumptions C81_sizing_crs_refuted.

(** What is enforced with a global domain. *)
Theorem C81_global_partial : forall (user crs : Type) (parse : user -> option crs) (is4326 geographic : crs -> bool) (equals : crs -> crs -> bool) (st : Q * Q -> option (Q * Q)) (F : Type) (ds : list (vdomain user F)) els,
  fst (validate user crs parse is4326 geographic equals st F ds els) = true -> accepts parse is4326 geographic equals st ds els.
Proof. exact (fun _ _ parse is4326 geographic equals st _ ds els => proj1 (validate_iff parse is4326 geographic equals st ds els)). Qed.
Print Assumptions C81_global_partial.

(** ** C51 *)
Theorem C51_refuted : exists s kw, In s accepted /\ In s (names kw) /\ forall (gen : unit -> unit -> kwargs -> res (list (Q * Q) * unit)) hm, (forall d e k, exists r, gen d e k = Ok r) -> hm tt <> None ->
  generate_multiscale_mesh _ _ _ gen hm 2 2 true [(tt, false, tt); (tt, false, tt)] tt false tt kw = Raise TypeError.
Proof. exact collision_refuted. Qed.
Print Assumptions C51_refuted.

(** Six accepted options always end in a TypeError, three of them only after all nests have been meshed. *)
Theorem C51_colliding_options : forall (dom siz cells : Type) (gen : dom -> siz -> kwargs -> res (list (Q * Q) * cells)) (hmin : siz -> option Q) n m nests union us master kw s,
  ok_lengths n m -> nests <> [] -> (forall x, In x nests -> hmin (snd x) <> None) -> (forall x, In x (names kw) -> In x accepted) ->
  (forall d e k, exists r, gen d e k = Ok r) -> In s (names kw) -> In s taken_in_nests \/ In s taken_at_end ->
  generate_multiscale_mesh _ _ _ gen hmin n m true nests union us master kw = Raise TypeError.
Proof. exact (fun _ _ _ => multi_collision). Qed.
Print Assumptions C51_colliding_options.

Theorem C51_unknown_options : forall (dom siz cells : Type) (gen : dom -> siz -> kwargs -> res (list (Q * Q) * cells)) (hmin : siz -> option Q) n m nests union us master kw s,
  ok_lengths n m -> In s (names kw) -> ~ In s accepted -> generate_multiscale_mesh _ _ _ gen hmin n m true nests union us master kw = Raise ValueError.
Proof. exact (fun _ _ _ => multi_unknown). Qed.
Print Assumptions C51_unknown_options.

(** With the other accepted options the run fails only if generate_mesh does; every nest and the final blending get
    the options as given, apart from those that are fixed. *)
Theorem C51_usable_partial : forall (dom siz cells : Type) (gen : dom -> siz -> kwargs -> res (list (Q * Q) * cells)) (hmin : siz -> option Q) n m nests union us master kw,
  ok_lengths n m -> nests <> [] -> (forall x, In x nests -> hmin (snd x) <> None) ->
  (forall s, In s (names kw) -> In s accepted /\ ~ In s taken_in_nests /\ ~ In s taken_at_end) ->
  (exists ms gm k, Forall2 (nest_meshed gen kw) nests ms /\ least_of (9999 :: sizes_of hmin nests) gm /\
     generate_multiscale_mesh _ _ _ gen hmin n m true nests union us master kw = gen union master k /\
     lookup "min_edge_length" k = Some (VNum gm) /\ lookup "points" k = Some (VPoints (List.concat (map fst ms))) /\ lookup "lock_boundary" k = Some (VBool true) /\
     lookup "max_iter" k = Some (match lookup "blend_max_iter" kw with Some v => v | None => VNum 20 end) /\
     lookup "stereo" k = (if us then Some (VBool true) else None) /\
     forall x, ~ In x ["min_edge_length"; "points"; "lock_boundary"; "max_iter"; "stereo"]%string -> lookup x k = lookup x kw) \/
  (exists d s e k, In (d, s, e) nests /\ nest_options kw s k /\ (forall r, gen d e k <> Ok r) /\ forall r, generate_multiscale_mesh _ _ _ gen hmin n m true nests union us master kw <> Ok r).
Proof. exact (fun _ _ _ => multi_usable). Qed.
Print Assumptions C51_usable_partial.

Example C51_case : let gen := fun (_ _ : unit) (k : kwargs) => Ok (match lookup "points" k with Some (VPoints l) => l | _ => [(0, 0)] end, k) in
  generate_multiscale_mesh _ _ _ gen (fun _ => Some 5) 2 2 true [(tt, true, tt); (tt, false, tt)] tt true tt [("max_iter"%string, VNum 7); ("blend_max_iter"%string, VNum 3)] =
  Ok ([(0, 0); (0, 0)], [("min_edge_length"%string, VNum 5); ("points"%string, VPoints [(0, 0); (0, 0)]); ("max_iter"%string, VNum 3); ("lock_boundary"%string, VBool true); ("blend_max_iter"%string, VNum 3); ("stereo"%string, VBool true)]).
Proof. reflexivity. Qed.

(** ** C82 *)
(** The limit given to the blending step is the least of 9999 and the smallest sizes of the nests: *)
Theorem C82_limit : forall (dom siz cells : Type) (gen : dom -> siz -> kwargs -> res (list (Q * Q) * cells)) (hmin : siz -> option Q) n m nests union us master kw,
  ok_lengths n m -> nests <> [] -> (forall x, In x nests -> hmin (snd x) <> None) ->
  (forall s, In s (names kw) -> In s accepted /\ ~ In s taken_in_nests /\ ~ In s taken_at_end) -> (forall d e k, exists r, gen d e k = Ok r) ->
  exists gm k, least_of (9999 :: sizes_of hmin nests) gm /\ generate_multiscale_mesh _ _ _ gen hmin n m true nests union us master kw = gen union master k /\ lookup "min_edge_length" k = Some (VNum gm).
Proof. exact (fun _ _ _ => multi_limit). Qed.
Print Assumptions C82_limit.
(** the smallest size if one is at most 9999 ... *)
Theorem C82_least_partial : forall (dom siz cells : Type) (gen : dom -> siz -> kwargs -> res (list (Q * Q) * cells)) (hmin : siz -> option Q) n m nests union us master kw,
  ok_lengths n m -> nests <> [] -> (forall x, In x nests -> hmin (snd x) <> None) ->
  (forall s, In s (names kw) -> In s accepted /\ ~ In s taken_in_nests /\ ~ In s taken_at_end) -> (forall d e k, exists r, gen d e k = Ok r) -> (exists h, In h (sizes_of hmin nests) /\ h <= 9999) ->
  exists gm h k, least_of (sizes_of hmin nests) h /\ h == gm /\ generate_multiscale_mesh _ _ _ gen hmin n m true nests union us master kw = gen union master k /\ lookup "min_edge_length" k = Some (VNum gm).
Proof. exact (fun _ _ _ => multi_limit_least). Qed.
Print Assumptions C82_least_partial.
(** ... otherwise less than all of them. *)
Theorem C82_refuted : exists nests k, (forall x, In x nests -> 9999 < x) /\
  generate_multiscale_mesh _ _ _ (fun (_ : unit) (_ : Q) (k : kwargs) => Ok ([], k)) Some 2 2 true (map (fun h => (tt, false, h)) nests) tt false 0 [] = Ok ([], k) /\
  lookup "min_edge_length" k = Some (VNum 9999).
Proof. exact limit_refuted. Qed.
Print Assumptions C82_refuted.
Example C82_case : sizes_of Some [(tt, false, 20); (tt, true, 7)] = [20; 7] /\ least_of [20; 7] 7.
Proof. split; [reflexivity|]. split; [cbn; intuition|]. intros x H; cbn in H; repeat destruct H as [<-|H]; try contradiction; vm_compute; discriminate. Qed.

(** ** C83 *)
Theorem C83_hmin_repaired : forall g n m, shape (g_values g) n m ->
  match sanitize g with
  | Ok g' => (exists h, g_hmin g' = Some (Fin h) /\ 0 < h) /\ g_values g' = g_values g /\
             ((exists h, g_hmin g = Some (Fin h) /\ 0 < h /\ g' = g) \/ ((forall h, g_hmin g = Some (Fin h) -> h <= 0) /\ exists h, g_hmin g' = Some (Fin h) /\ least_positive g n m h))
  | Raise e => e = ValueError /\ (forall h, g_hmin g = Some (Fin h) -> h <= 0) /\ none_positive (value_at g) n m
  | OutOfFuel => False
  end.
Proof. exact sanitize_spec. Qed.
Print Assumptions C83_hmin_repaired.
Example C83_case : sanitize {| g_bbox := (0, 1, 0, 1); g_dx := 1; g_dy := 1; g_values := [[Fin 3; NaN]; [Fin (-2); Fin 5]]; g_hmin := Some NaN; g_extra := true; g_crs := 1; g_fill := None |} =
  Ok {| g_bbox := (0, 1, 0, 1); g_dx := 1; g_dy := 1; g_values := [[Fin 3; NaN]; [Fin (-2); Fin 5]]; g_hmin := Some (Fin 3); g_extra := true; g_crs := 1; g_fill := None |}.
Proof. reflexivity. Qed.

