(** Proofs about importing the package. *)
From Coq Require Import List String Ascii Bool Arith Lia.
From Verif Require Import M_Init S_Init.
Import ListNotations.
Open Scope string_scope.
Open Scope list_scope.

(** * The import machine never runs out of fuel *)
Lemma path_eqb_eq p q : path_eqb p q = true <-> p = q.
Proof. unfold path_eqb. destruct (list_eq_dec string_dec p q); split; congruence. Qed.
Definition loaded (st : state) (p : path) : bool := match spaces_of st p with Some _ => true | None => false end.
Lemma loaded_cons q ns st p : loaded ((q, ns) :: st) p = path_eqb q p || loaded st p.
Proof. unfold loaded, spaces_of. simpl. destruct (path_eqb q p); reflexivity. Qed.
Lemma loaded_bind q n v st p : loaded (bind_name q n v st) p = loaded st p.
Proof.
  induction st as [|[r ns] st IH]; [reflexivity|]. cbn [bind_name map]. cbn [fst snd]. destruct (path_eqb r q); rewrite !loaded_cons; f_equal; exact IH.
Qed.
Lemma loaded_fold {A} (f : A -> path) (g : A -> string) (h : A -> value) l st p : loaded (fold_left (fun st a => bind_name (f a) (g a) (h a) st) l st) p = loaded st p.
Proof. revert st. induction l as [|a l IH]; intros st; simpl; auto. rewrite IH. apply loaded_bind. Qed.
Definition grows (st st' : state) : Prop := forall p, loaded st p = true -> loaded st' p = true.
Definition unl {A} (fs : list (path * A)) (st : state) : nat := List.length (filter (fun f => negb (loaded st (fst f))) fs).
Lemma unl_grows {A} (fs : list (path * A)) st st' : grows st st' -> unl fs st' <= unl fs st.
Proof.
  intros G. unfold unl. induction fs as [|f fs IH]; simpl; auto. destruct (loaded st (fst f)) eqn:E.
  - rewrite (G _ E). simpl. exact IH.
  - simpl. destruct (loaded st' (fst f)); simpl; lia.
Qed.
Lemma unl_load {A} (fs : list (path * A)) st p ns f : find (fun f => path_eqb (fst f) p) fs = Some f -> loaded st p = false -> S (unl fs ((p, ns) :: st)) <= unl fs st.
Proof.
  intros F E. assert (G : grows st ((p, ns) :: st)) by (intros q Hq; rewrite loaded_cons, Hq; apply orb_true_r).
  unfold unl. induction fs as [|g fs IH]; simpl in F; [discriminate|]. destruct (path_eqb (fst g) p) eqn:Q.
  - apply path_eqb_eq in Q. cbn [filter]. rewrite Q, E. rewrite loaded_cons. replace (path_eqb p p) with true by (symmetry; now apply path_eqb_eq). simpl.
    apply le_n_S. apply (unl_grows fs _ _ G).
  - specialize (IH F). cbn [filter]. destruct (loaded st (fst g)) eqn:Eg.
    + rewrite (G _ Eg). simpl. exact IH.
    + destruct (loaded ((p, ns) :: st) (fst g)); simpl; lia.
Qed.
Definition good (fs : list (path * list stmt)) k {A} (f : state -> A -> out) : Prop :=
  forall st a, unl fs st <= k -> f st a <> Deep /\ forall st', f st a = Done st' -> grows st st'.
Lemma grows_trans a b c : grows a b -> grows b c -> grows a c.
Proof. unfold grows. auto. Qed.
Lemma in_turn_good fs k {A} (f : state -> A -> out) : good fs k f -> good fs k (fun st l => in_turn f l st).
Proof.
  intros G st l. revert st. induction l as [|a l IH]; intros st H; simpl.
  - split; [discriminate|]. intros st' E. injection E as <-. now intros p.
  - destruct (G st a H) as [N D]. destruct (f st a) as [st1| | | |] eqn:E; try (split; [discriminate|discriminate]); [|congruence].
    specialize (D st1 eq_refl). destruct (IH st1) as [N2 D2]; [assert (Q := unl_grows fs _ _ D); lia|]. split; auto. intros st' E'. eapply grows_trans; eauto.
Qed.
Lemma grows_bind q n v st : grows st (bind_name q n v st).
Proof. intros p H. now rewrite loaded_bind. Qed.
Lemma take_good fs k ld self p : good fs k ld -> good fs k (take fs ld self p).
Proof.
  intros G st n H. unfold take. destruct (value_of st p n).
  - split; [discriminate|]. intros st' E. injection E as <-. apply grows_bind.
  - destruct (existsb _ fs); [|split; discriminate]. destruct (G st (p ++ [n]) H) as [N D]. destruct (ld st (p ++ [n])) as [st1| | | |]; try (split; discriminate); [|congruence].
    split; [discriminate|]. intros st' E. injection E as <-. eapply grows_trans; [apply D; reflexivity|apply grows_bind].
Qed.
Lemma exec_good fs k ld self : good fs k ld -> good fs k (exec fs ld self).
Proof.
  intros G st s H. destruct s as [ns|p ns|ns|n b]; cbn [exec].
  - split; [discriminate|]. intros st' E. injection E as <-. intros q Hq. now rewrite (loaded_fold (fun _ => self) (fun n => n) (fun _ => VLib)).
  - destruct (in_turn_good fs k ld G st (prefixes p) H) as [N D]. destruct (in_turn ld (prefixes p) st) as [st1| | | |]; try (split; discriminate); [|congruence].
    specialize (D st1 eq_refl). destruct (in_turn_good fs k _ (take_good fs k ld self p G) st1 ns) as [N2 D2]; [assert (Q := unl_grows fs _ _ D); lia|].
    split; auto. intros st' E'. eapply grows_trans; eauto.
  - split; [discriminate|]. intros st' E. injection E as <-. intros q Hq. now rewrite (loaded_fold (fun _ => self) (fun n => n) (fun n => VObject self n)).
  - split; [discriminate|]. intros st' E. injection E as <-. apply grows_bind.
Qed.
Lemma load_good fs k : good fs k (load fs k).
Proof.
  induction k as [|k IH]; intros st p H; cbn [load]; destruct (spaces_of st p) as [ns|] eqn:E.
  - split; [discriminate|]. intros st' Q. injection Q as <-. now intros q.
  - destruct (find _ fs) as [f|] eqn:F; [|split; discriminate]. exfalso.
    assert (L : loaded st p = false) by (unfold loaded; now rewrite E). assert (Q := unl_load fs st p [] f F L). lia.
  - split; [discriminate|]. intros st' Q. injection Q as <-. now intros q.
  - destruct (find _ fs) as [[q ss]|] eqn:F; [|split; discriminate].
    assert (L : loaded st p = false) by (unfold loaded; now rewrite E). assert (Q := unl_load fs st p [] _ F L).
    destruct (in_turn_good fs k _ (exec_good fs k _ p IH) ((p, []) :: st) ss) as [N D]; [exact (le_S_n _ _ (Nat.le_trans _ _ _ Q H))|].
    destruct (in_turn _ ss _) as [st1| | | |]; try (split; discriminate); [|congruence].
    specialize (D st1 eq_refl). split; [discriminate|]. intros st' Q'. injection Q' as <-. intros r Hr.
    assert (K : loaded st1 r = true) by (apply D; rewrite loaded_cons, Hr; apply orb_true_r).
    destruct p; auto. now rewrite loaded_bind.
Qed.
Lemma unl_le {A} (fs : list (path * A)) st : unl fs st <= List.length fs.
Proof. unfold unl. induction fs as [|f fs IH]; simpl; auto. destruct (negb _); simpl; lia. Qed.
Lemma imports_end fs st p k : List.length fs <= k -> load fs k st p <> Deep.
Proof. intros H. apply (load_good fs k st p). assert (Q := unl_le fs st). lia. Qed.

(** * The package *)
Lemma start_iff e : (os_nt e && negb (match cgal_bin e with Some s => negb (String.eqb s "") | None => false end)) = false <-> may_start (os_nt e) (cgal_bin e).
Proof.
  unfold may_start. destruct (os_nt e); simpl; [|split; [discriminate|auto]]. destruct (cgal_bin e) as [s|]; simpl.
  - destruct (String.eqb_spec s "") as [->|N]; simpl; split; try discriminate; auto.
    + intros H. destruct (H eq_refl) as (s & Q & N). congruence.
    + intros _ _. eauto.
  - split; [discriminate|]. intros H. destruct (H eq_refl) as (s & Q & _). discriminate.
Qed.
Lemma init_abort e : ~ may_start (os_nt e) (cgal_bin e) -> init e = AssertFails.
Proof.
  intros H. unfold init. destruct (os_nt e && _) eqn:E; auto. exfalso. apply H. now apply start_iff.
Qed.
Definition object_of (n : string) (v : option value) : bool := match v with Some (VObject _ m) => String.eqb m n | _ => false end.
Definition value_is (v : option value) (p : path) (n : string) : bool := match v with Some (VObject q m) => path_eqb q p && String.eqb m n | _ => false end.
Definition module_is (v : option value) (p : path) : bool := match v with Some (VModule q) => path_eqb q p | _ => false end.
(** Everything that is looked up in the finished state. *)
Definition checks (kernel : bool) (st : state) : list bool :=
  [forallb (fun n => existsb (String.eqb n) undefined_names || object_of n (value_of st [] n)) all_init;
   forallb (fun n => Bool.eqb (match value_of st [] n with None => true | _ => false end) (existsb (String.eqb n) undefined_names)) all_init;
   match star st [] all_init with Some n => String.eqb n "SizeFunction" | None => false end;
   forallb (fun pa => match star st (fst pa) (snd pa) with None => true | _ => false end)
     [(["boundary"], all_boundary); (["clean"], all_clean); (["edgefx"], all_edgefx); (["filterfx"], all_filterfx); (["geodata"], all_geodata); (["region"], all_region);
      (["signed_distance_function"], all_signed_distance_function); (["mesh_generator"], all_mesh_generator); (["geometry"], all_geometry)];
   forallb (fun m => if existsb (String.eqb m) hidden_modules then value_is (value_of st [] m) [m] m else module_is (value_of st [] m) [m]) module_files;
   match value_of st ["geometry"; "point_in_polygon"] "_COMPILED_KERNEL_AVAILABLE" with Some (VBool b) => Bool.eqb b kernel | _ => false end;
   if kernel then value_is (value_of st ["geometry"; "point_in_polygon"] "inpoly2_fast") ["geometry"; "point_in_polygon_"] "inpoly2_fast"
   else match value_of st ["geometry"; "point_in_polygon"] "inpoly2_fast" with None => true | _ => false end;
   match spaces_of st ["fix_mesh"] with Some _ => true | None => false end].
Definition result (b w : bool) : bool := match load (files b (w && b)) 20 [] [] with Done st => forallb id (checks (w && b) st) | _ => false end.
Lemma result_true b w : result b w = true.
Proof. destruct b, w; vm_compute; reflexivity. Qed.
Lemma init_checks e st : init e = Done st -> forall c, In c (checks (wants_kernel e && built e) st) -> c = true.
Proof.
  intros H c Hc. unfold init in H. destruct (os_nt e && _); [discriminate|]. assert (R := result_true (built e) (wants_kernel e)). unfold result in R. rewrite H in R.
  rewrite forallb_forall in R. now apply R.
Qed.
Lemma init_done e : may_start (os_nt e) (cgal_bin e) -> exists st, init e = Done st.
Proof.
  intros H. apply start_iff in H. unfold init. rewrite H. assert (R := result_true (built e) (wants_kernel e)). unfold result in R. destruct (load _ 20 [] []) as [st| | | |]; try discriminate. eauto.
Qed.
Lemma mem_iff n l : existsb (String.eqb n) l = true <-> In n l.
Proof. rewrite existsb_exists. split; [intros (m & Hm & Q); apply String.eqb_eq in Q; now subst|intros Q; exists n; split; auto; apply String.eqb_refl]. Qed.
Lemma value_is_eq v p n : value_is v p n = true -> v = Some (VObject p n).
Proof. destruct v as [[| q m | |]|]; try discriminate. simpl. rewrite andb_true_iff, path_eqb_eq, String.eqb_eq. intros [-> ->]. auto. Qed.
Lemma module_is_eq v p : module_is v p = true -> v = Some (VModule p).
Proof. destruct v as [[q| | |]|]; try discriminate. simpl. rewrite path_eqb_eq. intros ->. auto. Qed.
Lemma exported_objects e st n : init e = Done st -> In n all_init -> ~ In n undefined_names -> exists q, value_of st [] n = Some (VObject q n).
Proof.
  intros H I N. assert (K := init_checks e st H _ (or_introl eq_refl)). rewrite forallb_forall in K. specialize (K n I).
  apply orb_true_iff in K. destruct K as [K|K]; [apply mem_iff in K; now elim N|].
  unfold object_of in K. destruct (value_of st [] n) as [[| q m | |]|]; try discriminate. apply String.eqb_eq in K. subst m. eauto.
Qed.
Lemma exported_missing e st n : init e = Done st -> In n all_init -> (value_of st [] n = None <-> In n undefined_names).
Proof.
  intros H I. assert (K := init_checks e st H _ (or_intror (or_introl eq_refl))). rewrite forallb_forall in K. specialize (K n I). apply Bool.eqb_prop in K.
  rewrite <- mem_iff, <- K. destruct (value_of _ [] n); split; congruence.
Qed.
Lemma star_fails e st : init e = Done st -> star st [] all_init = Some "SizeFunction" /\ forall n, In n undefined_names -> In n all_init.
Proof.
  intros H. split.
  - assert (K := init_checks e st H _ (or_intror (or_intror (or_introl eq_refl)))). destruct (star st [] all_init) as [n|]; [|discriminate]. apply String.eqb_eq in K. now subst.
  - assert (K : forallb (fun n => existsb (String.eqb n) all_init) undefined_names = true) by (vm_compute; reflexivity).
    intros n I. rewrite forallb_forall in K. apply mem_iff. now apply K.
Qed.
Lemma star_none st p all : star st p all = None <-> forall n, In n all -> value_of st p n <> None.
Proof.
  unfold star. split.
  - intros F n I Q. assert (K := find_none _ _ F n I). simpl in K. rewrite Q in K. discriminate.
  - intros F. destruct (find _ all) as [n|] eqn:E; auto. apply find_some in E. destruct E as [I Q]. exfalso. apply (F n I). now destruct (value_of st p n).
Qed.
Lemma star_modules e st p all : init e = Done st ->
  In (p, all) [(["boundary"], all_boundary); (["clean"], all_clean); (["edgefx"], all_edgefx); (["filterfx"], all_filterfx); (["geodata"], all_geodata); (["region"], all_region);
      (["signed_distance_function"], all_signed_distance_function); (["mesh_generator"], all_mesh_generator); (["geometry"], all_geometry)] ->
  star st p all = None /\ forall n, In n all -> value_of st p n <> None.
Proof.
  intros H I. assert (K := init_checks e st H _ (or_intror (or_intror (or_intror (or_introl eq_refl))))). rewrite forallb_forall in K. specialize (K _ I). cbn [fst snd] in K.
  assert (Q : star st p all = None) by (destruct (star st p all); [discriminate|auto]). split; auto. now apply star_none.
Qed.
Lemma module_attributes e st m : init e = Done st -> In m module_files ->
  (In m hidden_modules -> value_of st [] m = Some (VObject [m] m)) /\ (~ In m hidden_modules -> value_of st [] m = Some (VModule [m])).
Proof.
  intros H I. assert (K := init_checks e st H _ (or_intror (or_intror (or_intror (or_intror (or_introl eq_refl)))))). rewrite forallb_forall in K. specialize (K m I). cbv beta in K.
  destruct (existsb (String.eqb m) hidden_modules) eqn:E.
  - apply mem_iff in E. split; [|tauto]. intros _. now apply value_is_eq.
  - split; [intros Q; apply mem_iff in Q; congruence|]. intros _. now apply module_is_eq.
Qed.

(** * The switch of the compiled kernel *)
Lemma lower_same a b : (forall k, 65 <= k <= 90 -> b <> ascii_of_nat k) -> (lower a = b <-> same_letter a b).
Proof.
  intros Hb. unfold same_letter, lower. set (k := nat_of_ascii a). assert (Ea : a = ascii_of_nat k) by (symmetry; apply ascii_nat_embedding).
  destruct (Nat.leb_spec 65 k) as [L|L]; destruct (Nat.leb_spec k 90) as [U|U]; cbn [andb].
  - split.
    + intros <-. right. exists k. auto.
    + intros [E|(j & Hj & E1 & E2)].
      * exfalso. apply (Hb k); [lia|congruence].
      * assert (k = j) by (unfold k; rewrite E1; apply nat_ascii_embedding; lia). congruence.
  - split; [now left|]. intros [E|(j & Hj & E1 & E2)]; auto. exfalso. assert (k = j) by (unfold k; rewrite E1; apply nat_ascii_embedding; lia). lia.
  - split; [now left|]. intros [E|(j & Hj & E1 & E2)]; auto. exfalso. assert (k = j) by (unfold k; rewrite E1; apply nat_ascii_embedding; lia). lia.
  - lia.
Qed.
Fixpoint small (s : string) : Prop := match s with EmptyString => True | String c r => (forall k, 65 <= k <= 90 -> c <> ascii_of_nat k) /\ small r end.
Lemma lower_word w : small w -> forall s, lower_all s = w <-> same_word s w.
Proof.
  induction w as [|b w IH]; intros Hs s; destruct s as [|a s]; cbn [lower_all].
  - split; [constructor|auto].
  - split; [discriminate|inversion 1].
  - split; [discriminate|inversion 1].
  - destruct Hs as [Hb Hs]. split.
    + intros Q. injection Q as Q1 Q2. constructor; [now apply lower_same|now apply IH].
    + intros Q. inversion Q; subst. f_equal; [now apply lower_same|now apply IH].
Qed.
Lemma small_char n : 91 <= n < 256 \/ n < 65 -> forall k, 65 <= k <= 90 -> ascii_of_nat n <> ascii_of_nat k.
Proof. intros H k Hk Q. apply (f_equal nat_of_ascii) in Q. rewrite !nat_ascii_embedding in Q by lia. lia. Qed.
Lemma words_small w : In w ["0"; "false"; "no"; "off"] -> small w.
Proof.
  intros H. repeat (destruct H as [<-|H]; [cbn [small]; repeat split; auto; match goal with |- forall k, _ -> ?c <> _ => exact (small_char (nat_of_ascii c) ltac:(cbv; lia)) end|]). destruct H.
Qed.
Lemma wants_iff e : wants_kernel e = true <-> ~ switched_off (accel e).
Proof.
  unfold wants_kernel, switched_off. rewrite negb_true_iff. rewrite <- not_true_iff_false. apply not_iff_compat. rewrite existsb_exists.
  destruct (accel e) as [s|].
  - split.
    + intros (w & Hw & Q). apply String.eqb_eq in Q. exists s, w. split; auto. split; auto. apply lower_word; auto. now apply words_small.
    + intros (s' & w & E & Hw & Q). injection E as <-. exists w. split; auto. apply String.eqb_eq. apply lower_word; auto. now apply words_small.
  - split.
    + intros (w & Hw & Q). apply String.eqb_eq in Q. simpl in Hw. cbv in Q. subst w. repeat (destruct Hw as [Hw|Hw]; [discriminate|]). destruct Hw.
    + intros (s' & w & E & _). discriminate.
Qed.
Lemma kernel_flag e st : init e = Done st -> exists b, value_of st ["geometry"; "point_in_polygon"] "_COMPILED_KERNEL_AVAILABLE" = Some (VBool b) /\
  (b = true <-> built e = true /\ ~ switched_off (accel e)) /\
  (b = true -> value_of st ["geometry"; "point_in_polygon"] "inpoly2_fast" = Some (VObject ["geometry"; "point_in_polygon_"] "inpoly2_fast")) /\
  (b = false -> value_of st ["geometry"; "point_in_polygon"] "inpoly2_fast" = None).
Proof.
  intros H. exists (wants_kernel e && built e). rewrite <- wants_iff.
  assert (K := init_checks e st H _ (or_intror (or_intror (or_intror (or_intror (or_intror (or_introl eq_refl))))))).
  assert (K2 := init_checks e st H _ (or_intror (or_intror (or_intror (or_intror (or_intror (or_intror (or_introl eq_refl)))))))).
  destruct (value_of st ["geometry"; "point_in_polygon"] "_COMPILED_KERNEL_AVAILABLE") as [[| | |b]|]; try discriminate. apply Bool.eqb_prop in K. subst b.
  split; auto. split; [rewrite andb_true_iff; tauto|]. destruct (wants_kernel e && built e).
  - split; [|discriminate]. intros _. now apply value_is_eq.
  - split; [discriminate|]. intros _. now destruct (value_of st ["geometry"; "point_in_polygon"] "inpoly2_fast").
Qed.
Lemma starts e : may_start (os_nt e) (cgal_bin e) -> exists st, init e = Done st /\
  forall n, In n all_init -> ~ In n undefined_names -> exists q, value_of st [] n = Some (VObject q n).
Proof. intros H. destruct (init_done e H) as (st & E). exists st. split; auto. intros n. now apply (exported_objects e). Qed.
Lemma start_case : may_start false None /\ ~ may_start true (Some "") /\ may_start true (Some "C:\cgal") /\
  load [(["a"], [From ["b"] ["x"]; Let ["y"]]); (["b"], [From ["a"] ["y"]; Let ["x"]])] 2 [] ["a"] = ImportFails ["a"] "y" /\
  load [(["a"], [Let ["y"]; From ["b"] ["x"]]); (["b"], [From ["a"] ["y"]; Let ["x"]])] 2 [] ["a"] =
    Done [(["b"], [("x", VObject ["b"] "x"); ("y", VObject ["a"] "y")]); (["a"], [("x", VObject ["b"] "x"); ("y", VObject ["a"] "y")])].
Proof.
  unfold may_start. split; [discriminate|]. split; [intros H; destruct (H eq_refl) as (s & Q & N); congruence|]. split; [intros _; eexists; split; [reflexivity|discriminate]|].
  split; vm_compute; reflexivity.
Qed.
Lemma same_len s w : same_word s w -> String.length s = String.length w.
Proof. induction 1; simpl; auto. Qed.
Lemma switch_case : switched_off (Some "OfF") /\ ~ switched_off (Some "") /\ ~ switched_off (Some "none") /\ ~ switched_off None /\
  wants_kernel {| os_nt := false; cgal_bin := None; accel := Some "FALSE"; built := true |} = false /\
  wants_kernel {| os_nt := false; cgal_bin := None; accel := Some "2"; built := true |} = true.
Proof.
  assert (W : forall a, wants_kernel {| os_nt := false; cgal_bin := None; accel := a; built := true |} = true -> ~ switched_off a) by (intros a Q; now apply wants_iff in Q).
  split; [|split; [apply W; reflexivity|split; [apply W; reflexivity|split; [apply W; reflexivity|split; reflexivity]]]].
  exists "OfF", "off". split; auto. split; [simpl; tauto|]. apply lower_word; [apply words_small; simpl; tauto|reflexivity].
Qed.
Lemma value_loaded st p n v : value_of st p n = Some v -> spaces_of st p <> None.
Proof. unfold value_of. now destruct (spaces_of st p). Qed.
Lemma hidden e st : init e = Done st -> value_of st [] "fix_mesh" = Some (VObject ["fix_mesh"] "fix_mesh") /\
  value_of st [] "signed_distance_function" = Some (VObject ["signed_distance_function"] "signed_distance_function") /\
  spaces_of st ["fix_mesh"] <> None /\ spaces_of st ["signed_distance_function"] <> None.
Proof.
  intros H. split; [|split; [|split]].
  - apply (module_attributes e st "fix_mesh" H); [simpl; tauto|simpl; tauto].
  - apply (module_attributes e st "signed_distance_function" H); [simpl; tauto|simpl; tauto].
  - assert (K := init_checks e st H _ (or_intror (or_intror (or_intror (or_intror (or_intror (or_intror (or_intror (or_introl eq_refl))))))))). cbv beta in K. destruct (spaces_of st ["fix_mesh"]); discriminate.
  - destruct (star_modules e st ["signed_distance_function"] all_signed_distance_function H) as [_ K]; [simpl; tauto|].
    specialize (K "Domain" ltac:(simpl; tauto)). destruct (value_of st ["signed_distance_function"] "Domain") eqn:E; [|congruence]. eapply value_loaded; eauto.
Qed.
