(** Proofs about drawings. *)
From Coq Require Import List Arith Bool ZArith QArith String Lia.
From Verif Require Import M_Base M_Edges M_Sdf M_Grid M_Domains M_Boundary M_Plot S_Plot.
Import ListNotations.
Open Scope nat_scope.
Open Scope list_scope.

Lemma run_app : forall i a b w, run i (a ++ b) w = run i b (run i a w).
Proof. intros. apply fold_left_app. Qed.

Lemma upd_length : forall A (l : list A) k v, List.length (upd l k v) = List.length l.
Proof. induction l; intros [|k] v; simpl; auto. Qed.
Lemma upd_same : forall A (l : list A) k v d, k < List.length l -> nth k (upd l k v) d = v.
Proof. induction l; intros [|k] v d H; simpl in *; try lia; auto. apply IHl. lia. Qed.
Lemma upd_other : forall A (l : list A) k j v, j <> k -> nth_error (upd l k v) j = nth_error l j.
Proof. induction l; intros [|k] [|j] v H; simpl; auto; try congruence. Qed.

(** A sequence of calls on axes that belong to figure k. *)
Lemma run_on : forall i ds w k, axes w = Some k -> k < List.length (figures w) -> let w' := run i (map On ds) w in
  axes w' = Some k /\ List.length (figures w') = List.length (figures w) /\ content w' (Some k) = content w (Some k) ++ ds /\
  current w' = current w /\ files w' = files w /\ windows w' = windows w /\
  forall j, j <> k -> nth_error (figures w') j = nth_error (figures w) j.
Proof.
  intros i. induction ds as [|d ds IH]; intros w k A L.
  - cbn zeta. cbn [map]. change (run i [] w) with w. rewrite app_nil_r. auto 10.
  - cbn zeta. cbn [map]. change (run i (On d :: map On ds) w) with (run i (map On ds) (act i w (On d))).
    assert (E : act i w (On d) = {| figures := upd (figures w) k (content w (Some k) ++ [d]); axes := axes w; current := current w;
      files := files w; windows := windows w |}) by (unfold act; rewrite A; reflexivity).
    rewrite E. set (w1 := {| figures := _ |}).
    assert (A1 : axes w1 = Some k) by exact A.
    assert (L1 : k < List.length (figures w1)) by (unfold w1; cbn [figures]; rewrite upd_length; exact L).
    destruct (IH w1 k A1 L1) as (P1 & P2 & P3 & P4 & P5 & P6 & P7). repeat (split; [assumption || idtac|]).
    + rewrite P2. unfold w1. cbn [figures]. apply upd_length.
    + rewrite P3. unfold w1, content. cbn [figures]. rewrite upd_same by exact L. rewrite <- app_assoc. reflexivity.
    + intros j H. rewrite P7 by exact H. unfold w1. cbn [figures]. apply upd_other. exact H.
Qed.

(** The first part of every drawing: perhaps a new figure, then calls on the axes. *)
Lemma body : forall i ax ds w, ready ax w -> let w' := run i (whenb (negb ax) [New_figure] ++ map On ds) w in exists k,
  axes w' = Some k /\ k < List.length (figures w') /\ drawing w' = (if ax then drawing w else []) ++ ds /\
  current w' = (if ax then current w else Some k) /\ (ax = true -> axes w = Some k) /\ files w' = files w /\ windows w' = windows w /\
  (forall j, j < List.length (figures w) -> (ax = true -> axes w <> Some j) -> nth_error (figures w') j = nth_error (figures w) j).
Proof.
  intros i ax ds w R. cbn zeta. rewrite run_app. destruct ax; cbn [negb whenb].
  - destruct (R eq_refl) as (k & A & L). change (run i [] w) with w. exists k.
    destruct (run_on i ds w k A L) as (P1 & P2 & P3 & P4 & P5 & P6 & P7). split; [exact P1|]. split; [lia|].
    split; [unfold drawing; rewrite P1, A; exact P3|]. split; [exact P4|]. split; [auto|]. split; [exact P5|]. split; [exact P6|].
    intros j _ N. apply P7. intros ->. apply N; auto.
  - set (w1 := run i [New_figure] w).
    assert (A : axes w1 = Some (List.length (figures w))) by reflexivity.
    assert (L : List.length (figures w1) = S (List.length (figures w))) by (cbn; rewrite app_length; cbn; lia).
    exists (List.length (figures w)). destruct (run_on i ds w1 _ A) as (P1 & P2 & P3 & P4 & P5 & P6 & P7); [lia|].
    split; [exact P1|]. split; [lia|]. split.
    + unfold drawing. rewrite P1, P3. unfold w1, run, content. cbn [fold_left act figures].
      rewrite app_nth2 by lia. rewrite Nat.sub_diag. reflexivity.
    + split; [exact P4|]. split; [discriminate|]. split; [exact P5|]. split; [exact P6|].
      intros j H _. rewrite P7 by lia. unfold w1, run. cbn [fold_left act figures]. apply nth_error_app1. exact H.
Qed.

Lemma drawn_app : forall a b, drawn (a ++ b) = drawn a ++ drawn b.
Proof. intros. apply flat_map_app. Qed.
Lemma drawn_on : forall ds, drawn (map On ds) = ds.
Proof. induction ds as [|d ds IH]; [reflexivity|]. cbn. f_equal. exact IH. Qed.

(** What follows the calls on the axes. *)
Lemma saved : forall i w f k, axes w = Some k -> k < List.length (figures w) -> current w = Some k -> let w' := act i w (Save f) in
  file_complete w w' f /\ drawing w' = drawing w /\ windows w' = windows w /\ axes w' = axes w /\ figures w' = figures w.
Proof.
  intros i w f k A L C. unfold act. rewrite C. unfold file_complete, drawing. cbn [files windows axes figures]. rewrite A.
  unfold content. cbn [figures]. auto 10.
Qed.
Lemma showed : forall i wait w, let w' := act i w (Show wait) in
  windows w' = windows w ++ (if i then [drawing w] else []) /\ files w' = files w /\ figures w' = figures w /\ axes w' = axes w /\
  current w' = (if i && wait then None else current w) /\ drawing w' = drawing w.
Proof. intros i wait w. unfold act. destruct i; cbn; [destruct wait|rewrite app_nil_r]; auto 10. Qed.
Lemma save_frame : forall i w f, let w' := act i w (Save f) in
  windows w' = windows w /\ axes w' = axes w /\ (forall j, j < List.length (figures w) -> nth_error (figures w') j = nth_error (figures w) j) /\
  (forall k, axes w = Some k -> k < List.length (figures w) -> drawing w' = drawing w) /\
  files w' = files w ++ [(f, content w (current w))].
Proof.
  intros i w f. unfold act. destruct (current w) as [c|] eqn:C; cbn [windows axes figures files content].
  - repeat split; auto.
  - repeat split; auto.
    + intros j H. apply nth_error_app1. exact H.
    + intros k A L. unfold drawing, content. cbn [axes figures]. rewrite A. apply app_nth1. exact L.
Qed.

Definition whend {A} (o : option A) (f : A -> draw) : list draw := match o with None => [] | Some a => [f a] end.
Lemma when_on : forall A (o : option A) f, when o (fun a => On (f a)) = map On (whend o f).
Proof. destruct o; reflexivity. Qed.
Lemma whenb_on : forall (b : bool) l, whenb b (map On l) = map On (if b then l else []).
Proof. destruct b; reflexivity. Qed.

Section Grid.
Variable to_stereo : list (list Q) * list (list Q) -> list (list Q) * list (list Q).

(** The calls on the axes that Grid.plot makes. *)
Definition grid_draws (ax : bool) (x y : list (list Q)) (v : list (list num)) (o : gopts) : list draw :=
  (if ax then [] else [Equal_axis]) ++ [Pcolor x y v (g_kw o)] ++ whend (g_xlabel o) Xlabel ++ whend (g_ylabel o) Ylabel ++
  whend (g_title o) Title ++ whend (g_xlim o) Xlim ++ whend (g_ylim o) Ylim ++
  (if g_colorbar o || match g_cbarlabel o with None => false | Some _ => true end then [Colorbar (g_cbarlabel o)] else []).
Lemma grid_shape : forall g ax holding k o cs, grid_plot to_stereo g ax holding k o = Ok cs -> exists x y v,
  coarsened k (fst (plot_coords to_stereo g o)) = Ok x /\ coarsened k (snd (plot_coords to_stereo g o)) = Ok y /\ coarsened k (g_values g) = Ok v /\
  cs = (whenb (negb ax) [New_figure] ++ map On (grid_draws ax x y v o)) ++ when (g_filename o) Save ++ whenb (negb holding) [Show true].
Proof.
  intros g ax holding k o cs. unfold grid_plot. destruct (plot_coords to_stereo g o) as (xg, yg). cbn [fst snd].
  destruct (coarsened k xg) as [x| |] eqn:X; cbn [bind]; try discriminate.
  destruct (coarsened k yg) as [y| |] eqn:Y; cbn [bind]; try discriminate.
  destruct (coarsened k (g_values g)) as [v| |] eqn:V; cbn [bind]; try discriminate.
  intros E. injection E as <-. exists x, y, v. repeat split; auto.
  unfold grid_draws. rewrite !map_app, !when_on.
  rewrite <- (whenb_on _ [Colorbar (g_cbarlabel o)]). rewrite <- !app_assoc. destruct ax; cbn [negb whenb map app]; reflexivity.
Qed.

(** The file of Grid.plot. *)
Lemma grid_file : forall i g ax holding k o cs f w, grid_plot to_stereo g ax holding k o = Ok cs -> g_filename o = Some f ->
  ready ax w -> on_current ax w -> file_complete w (run i cs w) f.
Proof.
  intros i g ax holding k o cs f w E F R C. destruct (grid_shape _ _ _ _ _ _ E) as (x & y & v & _ & _ & _ & ->).
  rewrite F. rewrite run_app. set (w1 := run i _ w).
  destruct (body i ax (grid_draws ax x y v o) w R) as (n & A & L & D & CU & G & FI & WI & FR). fold w1 in A, L, D, CU, FI, WI, FR.
  assert (CN : current w1 = Some n) by (destruct ax; [rewrite CU, (C eq_refl); auto|exact CU]).
  cbn [when]. rewrite run_app. change (run i [Save f] w1) with (act i w1 (Save f)).
  destruct (saved i w1 f n A L CN) as (S1 & S2 & S3 & S4 & S5). set (w2 := act i w1 (Save f)) in *.
  unfold file_complete in *. rewrite FI in S1. destruct holding; cbn [negb whenb].
  - exact S1.
  - change (run i [Show true] w2) with (act i w2 (Show true)). destruct (showed i true w2) as (T1 & T2 & T3 & T4 & T5 & T6).
    rewrite T2, T6. exact S1.
Qed.
(** With axes of another figure than the current one, it is that other figure which is written. *)
Lemma grid_file_other : forall i g holding k o cs f w n c, grid_plot to_stereo g true holding k o = Ok cs ->
  g_filename o = Some f -> axes w = Some n -> n < List.length (figures w) -> current w = Some c -> c < List.length (figures w) -> c <> n ->
  files (run i cs w) = files w ++ [(f, content w (Some c))].
Proof.
  intros i g holding k o cs f w n c E F A L CU LC N. destruct (grid_shape _ _ _ _ _ _ E) as (x & y & v & _ & _ & _ & ->).
  rewrite F. rewrite run_app. set (w1 := run i _ w).
  assert (R : ready true w) by (intros _; eauto).
  destruct (body i true (grid_draws true x y v o) w R) as (m & A1 & L1 & D & CU1 & G & FI & WI & FR).
  fold w1 in A1, L1, D, CU1, FI, WI, FR. cbn [when]. rewrite run_app. change (run i [Save f] w1) with (act i w1 (Save f)).
  destruct (save_frame i w1 f) as (_ & _ & _ & _ & S1). set (w2 := act i w1 (Save f)) in *.
  assert (X : files w2 = files w ++ [(f, content w (Some c))]).
  { rewrite S1, FI, CU1, CU. cbn [content]. do 3 f_equal.
    assert (Y : nth_error (figures w1) c = nth_error (figures w) c) by (apply FR; [exact LC|intros _; congruence]).
    destruct (nth_error (figures w) c) as [u|] eqn:U.
    - rewrite (nth_error_nth _ _ _ Y), (nth_error_nth _ _ _ U). reflexivity.
    - apply nth_error_None in U. lia. }
  destruct holding; cbn [negb whenb]; [exact X|].
  change (run i [Show true] w2) with (act i w2 (Show true)). destruct (showed i true w2) as (T1 & T2 & T3 & T4 & T5 & T6).
  rewrite T2. exact X.
Qed.
(** Without a file name none is written. *)
Lemma grid_no_file : forall i g ax holding k o cs w, grid_plot to_stereo g ax holding k o = Ok cs -> g_filename o = None ->
  ready ax w -> files (run i cs w) = files w.
Proof.
  intros i g ax holding k o cs w E F R. destruct (grid_shape _ _ _ _ _ _ E) as (x & y & v & _ & _ & _ & ->).
  rewrite F. rewrite run_app. set (w1 := run i _ w).
  destruct (body i ax (grid_draws ax x y v o) w R) as (n & A & L & D & CU & G & FI & WI & FR). fold w1 in A, L, D, CU, FI, WI, FR.
  cbn [when app]. destruct holding; cbn [negb whenb]; [exact FI|].
  change (run i [Show true] w1) with (act i w1 (Show true)). destruct (showed i true w1) as (T1 & T2 & T3 & T4 & T5 & T6). congruence.
Qed.
(** Its window, and what else there is on the screen. *)
Lemma grid_window : forall i g ax holding k o cs w, grid_plot to_stereo g ax holding k o = Ok cs -> ready ax w ->
  windows (run i cs w) = windows w ++ (if i && negb holding then [drawing (run i cs w)] else []) /\
  drawing (run i cs w) = (if ax then drawing w else []) ++ drawn cs /\
  (forall j, j < List.length (figures w) -> (ax = true -> axes w <> Some j) -> nth_error (figures (run i cs w)) j = nth_error (figures w) j).
Proof.
  intros i g ax holding k o cs w E R. destruct (grid_shape _ _ _ _ _ _ E) as (x & y & v & _ & _ & _ & ->).
  rewrite run_app. set (w1 := run i _ w).
  destruct (body i ax (grid_draws ax x y v o) w R) as (n & A & L & D & CU & G & FI & WI & FR). fold w1 in A, L, D, CU, FI, WI, FR.
  assert (K : drawn ((whenb (negb ax) [New_figure] ++ map On (grid_draws ax x y v o)) ++ when (g_filename o) Save ++ whenb (negb holding) [Show true]) =
    grid_draws ax x y v o).
  { rewrite !drawn_app, drawn_on. destruct ax, holding, (g_filename o); cbn [negb whenb when drawn flat_map app]; rewrite ?app_nil_r; reflexivity. }
  rewrite K.
  assert (X : exists w2, run i (when (g_filename o) Save) w1 = w2 /\ windows w2 = windows w1 /\ axes w2 = axes w1 /\ drawing w2 = drawing w1 /\
    (forall j, j < List.length (figures w1) -> nth_error (figures w2) j = nth_error (figures w1) j)).
  { destruct (g_filename o) as [f|]; cbn [when].
    - exists (act i w1 (Save f)). split; [reflexivity|]. destruct (save_frame i w1 f) as (S1 & S2 & S3 & S4 & S5). split; [exact S1|].
      split; [exact S2|]. split; [exact (S4 n A L)|exact S3].
    - exists w1. auto 10. }
  destruct X as (w2 & E2 & X1 & X2 & X3 & X4). rewrite run_app, E2.
  assert (LEN : forall j, j < List.length (figures w) -> (ax = true -> axes w <> Some j) -> j < List.length (figures w1)).
  { intros j H N. apply nth_error_Some. rewrite FR by assumption. apply nth_error_Some. exact H. }
  destruct holding; cbn [negb whenb].
  - rewrite andb_false_r, app_nil_r. change (run i [] w2) with w2. split; [congruence|]. split; [congruence|].
    intros j H N. rewrite X4 by auto. apply FR; assumption.
  - rewrite andb_true_r. change (run i [Show true] w2) with (act i w2 (Show true)).
    destruct (showed i true w2) as (T1 & T2 & T3 & T4 & T5 & T6). rewrite T1, T6, X1, X3, WI. split; [reflexivity|]. split; [exact D|].
    intros j H N. rewrite T3, X4 by auto. apply FR; assumption.
Qed.
(** The axes are those of a figure afterwards. *)
Lemma grid_axes : forall i g ax holding k o cs w, grid_plot to_stereo g ax holding k o = Ok cs -> ready ax w ->
  exists n, axes (run i cs w) = Some n /\ n < List.length (figures (run i cs w)) /\ (ax = true -> axes w = Some n) /\
  (ax = false -> List.length (figures w) <= n).
Proof.
  intros i g ax holding k o cs w E R. destruct (grid_shape _ _ _ _ _ _ E) as (x & y & v & _ & _ & _ & ->).
  rewrite run_app. set (w1 := run i _ w).
  destruct (body i ax (grid_draws ax x y v o) w R) as (n & A & L & D & CU & G & FI & WI & FR). fold w1 in A, L, D, CU, FI, WI, FR.
  assert (N : ax = false -> List.length (figures w) <= n).
  { intros ->. unfold w1 in A. rewrite run_app in A.
    set (w0 := run i (whenb (negb false) [New_figure]) w) in *.
    assert (A0 : axes w0 = Some (List.length (figures w))) by reflexivity.
    assert (L0 : List.length (figures w) < List.length (figures w0)) by (unfold w0; cbn; rewrite app_length; cbn; lia).
    destruct (run_on i (grid_draws false x y v o) w0 _ A0 L0) as (P1 & _). rewrite P1 in A. injection A as <-. lia. }
  assert (X : axes (run i (when (g_filename o) Save) w1) = Some n /\ n < List.length (figures (run i (when (g_filename o) Save) w1))).
  { destruct (g_filename o) as [f|]; cbn [when]; [|auto]. change (run i [Save f] w1) with (act i w1 (Save f)).
    destruct (save_frame i w1 f) as (S1 & S2 & S3 & S4 & S5). split; [congruence|].
    apply nth_error_Some. rewrite S3 by exact L. apply nth_error_Some. exact L. }
  exists n. rewrite run_app. set (w2 := run i (when (g_filename o) Save) w1) in *.
  destruct holding; cbn [negb whenb]; [tauto|]. change (run i [Show true] w2) with (act i w2 (Show true)).
  destruct (showed i true w2) as (T1 & T2 & T3 & T4 & T5 & T6). rewrite T3, T4. tauto.
Qed.

(** What DEM.plot adds. *)
Definition dem_extra : list draw :=
  [Xlabel "X-coordinate"; Ylabel "Y-coordinate"; Aspect "equal"; Colorbar (Some "Topobathymetric depth (m)"%string)].
Lemma dem_shape : forall g ax holding k o cs, dem_plot to_stereo g ax holding k o = Ok cs -> exists base o',
  grid_plot to_stereo g ax true k o' = Ok base /\ g_filename o' = g_filename o /\ g_title o' = g_title o /\ g_xlim o' = g_xlim o /\
  g_ylim o' = g_ylim o /\ g_stereo o' = g_stereo o /\ g_kw o' = ("cmap"%string, "terrain"%string) :: g_kw o /\
  ~ In "cmap"%string (map fst (g_kw o)) /\
  cs = base ++ map On dem_extra ++ whenb (negb holding) [Show true].
Proof.
  intros g ax holding k o cs. unfold dem_plot. destruct (existsb _ (g_kw o)) eqn:X; [discriminate|].
  match goal with |- context[grid_plot to_stereo g ax true k ?p] => set (o' := p) end.
  destruct (grid_plot to_stereo g ax true k o') as [base| |] eqn:E; cbn [bind]; try discriminate.
  intros H. injection H as <-. exists base, o'. repeat split; auto.
  intros I. apply in_map_iff in I. destruct I as ((a, b) & Ha & I). cbn in Ha. subst a.
  assert (Y : existsb (fun p => String.eqb (fst p) "cmap") (g_kw o) = true) by (apply existsb_exists; exists ("cmap"%string, b); auto).
  congruence.
Qed.
Lemma dem_cmap : forall g ax holding k o, In "cmap"%string (map fst (g_kw o)) -> dem_plot to_stereo g ax holding k o = Raise TypeError.
Proof.
  intros g ax holding k o I. unfold dem_plot. apply in_map_iff in I. destruct I as ((a, b) & Ha & I). cbn in Ha. subst a.
  assert (Y : existsb (fun p => String.eqb (fst p) "cmap") (g_kw o) = true) by (apply existsb_exists; exists ("cmap"%string, b); auto).
  rewrite Y. reflexivity.
Qed.
Lemma dem_run : forall i g ax holding k o cs w, dem_plot to_stereo g ax holding k o = Ok cs -> ready ax w -> exists base,
  drawn cs = drawn base ++ dem_extra /\
  drawing (run i cs w) = (if ax then drawing w else []) ++ drawn base ++ dem_extra /\
  windows (run i cs w) = windows w ++ (if i && negb holding then [drawing (run i cs w)] else []) /\
  (forall j, j < List.length (figures w) -> (ax = true -> axes w <> Some j) -> nth_error (figures (run i cs w)) j = nth_error (figures w) j) /\
  (g_filename o = None -> files (run i cs w) = files w) /\
  (forall f, g_filename o = Some f -> on_current ax w -> files (run i cs w) = files w ++ [(f, (if ax then drawing w else []) ++ drawn base)]).
Proof.
  intros i g ax holding k o cs w E R. destruct (dem_shape _ _ _ _ _ _ E) as (base & o' & B & F & _ & _ & _ & _ & _ & _ & ->).
  exists base. destruct (grid_axes i _ _ _ _ _ _ w B R) as (n & A & L & AT & AF).
  destruct (grid_window i _ _ _ _ _ _ w B R) as (W1 & W2 & W3). rewrite andb_false_r, app_nil_r in W1.
  split. { rewrite !drawn_app, drawn_on. destruct holding; cbn; rewrite ?app_nil_r; reflexivity. }
  rewrite run_app. set (w1 := run i base w) in *. rewrite run_app.
  destruct (run_on i dem_extra w1 n A L) as (P1 & P2 & P3 & P4 & P5 & P6 & P7). set (w2 := run i (map On dem_extra) w1) in *.
  assert (D2 : drawing w2 = (if ax then drawing w else []) ++ drawn base ++ dem_extra).
  { unfold drawing at 1. rewrite P1, P3. unfold drawing at 1 in W2. rewrite A in W2. rewrite W2. rewrite <- app_assoc. reflexivity. }
  assert (FR : forall j, j < List.length (figures w) -> (ax = true -> axes w <> Some j) -> nth_error (figures w2) j = nth_error (figures w) j).
  { intros j H N. rewrite P7; [apply W3; assumption|]. intros ->. destruct ax; [apply (N eq_refl); apply AT; reflexivity|].
    specialize (AF eq_refl). lia. }
  assert (FN : g_filename o = None -> files w2 = files w).
  { intros H. rewrite P5. apply (grid_no_file i _ _ _ _ _ _ w B); [congruence|exact R]. }
  assert (FS : forall f, g_filename o = Some f -> on_current ax w -> files w2 = files w ++ [(f, (if ax then drawing w else []) ++ drawn base)]).
  { intros f H C. rewrite P5. rewrite <- W2. apply (grid_file i _ _ _ _ _ _ f w B); [congruence|exact R|exact C]. }
  destruct holding; cbn [negb whenb].
  - change (run i [] w2) with w2. rewrite andb_false_r, app_nil_r. repeat split; auto. congruence.
  - change (run i [Show true] w2) with (act i w2 (Show true)). destruct (showed i true w2) as (T1 & T2 & T3 & T4 & T5 & T6).
    rewrite andb_true_r, T1, T2, T3, T6. repeat split; auto. rewrite P6, W1. reflexivity.
Qed.
End Grid.

(** Shoreline.plot. *)
Definition shore_draws (ax : bool) (mainland inner boubox : list (num * num)) (a b c d : Q) (o : sopts) : list draw :=
  (if ax then [] else [Equal_axis]) ++ (if Nat.eqb (List.length mainland) 0 then [] else [Line mainland "k-"]) ++
  (if Nat.eqb (List.length inner) 0 then [] else [Line inner "r-"]) ++ [Line boubox "g--"; Rect (a, c) (b - a) (d - c)] ++
  (if Nat.eqb (List.length mainland) 0 then if Nat.eqb (List.length inner) 0 then [] else [Legend [("r-", "inner"); ("g--", "outer")]%string]
   else if Nat.eqb (List.length inner) 0 then [Legend [("k-", "mainland"); ("g--", "outer")]%string]
   else [Legend [("k-", "mainland"); ("r-", "inner"); ("g--", "outer")]%string]) ++
  whend (s_xlabel o) Xlabel ++ whend (s_ylabel o) Ylabel ++ whend (s_title o) Title ++ [Aspect "equal"].
Lemma shore_shape : forall mainland inner boubox bbox ax o cs, shoreline_plot mainland inner boubox bbox ax o = Ok cs -> exists a b c d,
  bbox = [a; b; c; d] /\
  cs = (whenb (negb ax) [New_figure] ++ map On (shore_draws ax mainland inner boubox a b c d o)) ++ whenb (s_show o) [Show true] ++ when (s_file o) Save.
Proof.
  intros mainland inner boubox bbox ax o cs. unfold shoreline_plot. destruct bbox as [|a [|b [|c [|d [|e r]]]]]; try discriminate.
  intros H. injection H as <-. exists a, b, c, d. split; [reflexivity|]. unfold shore_draws. rewrite !map_app, !when_on.
  rewrite <- !app_assoc. destruct ax, (Nat.eqb (List.length mainland) 0), (Nat.eqb (List.length inner) 0); reflexivity.
Qed.
Lemma shore_raises : forall mainland inner boubox bbox ax o, (exists cs, shoreline_plot mainland inner boubox bbox ax o = Ok cs) <-> List.length bbox = 4.
Proof.
  intros. split.
  - intros (cs & E). destruct (shore_shape _ _ _ _ _ _ _ E) as (a & b & c & d & -> & _). reflexivity.
  - destruct bbox as [|a [|b [|c [|d [|e r]]]]]; try discriminate. intros _. eexists. reflexivity.
Qed.
Lemma shore_run : forall i mainland inner boubox bbox ax o cs w, shoreline_plot mainland inner boubox bbox ax o = Ok cs -> ready ax w ->
  drawing (run i cs w) = (if ax then drawing w else []) ++ drawn cs /\
  windows (run i cs w) = windows w ++ (if i && s_show o then [drawing (run i cs w)] else []) /\
  (forall j, j < List.length (figures w) -> (ax = true -> axes w <> Some j) -> nth_error (figures (run i cs w)) j = nth_error (figures w) j) /\
  (s_file o = None -> files (run i cs w) = files w) /\
  (forall f, s_file o = Some f -> on_current ax w -> i && s_show o = false -> file_complete w (run i cs w) f) /\
  (forall f, s_file o = Some f -> i && s_show o = true -> files (run i cs w) = files w ++ [(f, [])]).
Proof.
  intros i mainland inner boubox bbox ax o cs w E R. destruct (shore_shape _ _ _ _ _ _ _ E) as (a & b & c & d & -> & ->).
  set (ds := shore_draws ax mainland inner boubox a b c d o).
  assert (K : drawn ((whenb (negb ax) [New_figure] ++ map On ds) ++ whenb (s_show o) [Show true] ++ when (s_file o) Save) = ds).
  { rewrite !drawn_app, drawn_on. destruct ax, (s_show o), (s_file o); cbn [negb whenb when drawn flat_map app]; rewrite ?app_nil_r; reflexivity. }
  rewrite K. rewrite run_app. set (w1 := run i (whenb (negb ax) [New_figure] ++ map On ds) w).
  destruct (body i ax ds w R) as (n & A & L & D & CU & G & FI & WI & FR). fold w1 in A, L, D, CU, FI, WI, FR.
  assert (LEN : forall j, j < List.length (figures w) -> (ax = true -> axes w <> Some j) -> j < List.length (figures w1)).
  { intros j H N. apply nth_error_Some. rewrite FR by assumption. apply nth_error_Some. exact H. }
  rewrite run_app.
  assert (X : exists w2, run i (whenb (s_show o) [Show true]) w1 = w2 /\ windows w2 = windows w ++ (if i && s_show o then [drawing w1] else []) /\
    files w2 = files w /\ figures w2 = figures w1 /\ axes w2 = axes w1 /\ drawing w2 = drawing w1 /\
    current w2 = (if i && s_show o then None else current w1)).
  { destruct (s_show o); cbn [whenb].
    - exists (act i w1 (Show true)). split; [reflexivity|]. destruct (showed i true w1) as (T1 & T2 & T3 & T4 & T5 & T6).
      rewrite andb_true_r in *. rewrite T1, WI, T2, T3, T4, T5, T6. auto 10.
    - exists w1. rewrite andb_false_r, app_nil_r. auto 10. }
  destruct X as (w2 & -> & X1 & X2 & X3 & X4 & X5 & X6).
  assert (A2 : axes w2 = Some n) by congruence. assert (L2 : n < List.length (figures w2)) by (rewrite X3; exact L).
  destruct (s_file o) as [f|]; cbn [when].
  - change (run i [Save f] w2) with (act i w2 (Save f)). destruct (save_frame i w2 f) as (S1 & S2 & S3 & S4 & S5).
    specialize (S4 n A2 L2). split; [congruence|]. split; [rewrite S1, S4, X5; exact X1|]. split.
    + intros j H N. rewrite S3 by (rewrite X3; auto). rewrite X3. apply FR; assumption.
    + split; [discriminate|]. split.
      * intros f' Ef C Q. injection Ef as <-. unfold file_complete. rewrite S5, X2, S4. do 3 f_equal. rewrite X6, Q.
        unfold drawing. f_equal. rewrite A2. destruct ax; [rewrite CU, (C eq_refl); auto|exact CU].
      * intros f' Ef Q. injection Ef as <-. rewrite S5, X2, X6, Q. reflexivity.
  - change (run i [] w2) with w2. split; [congruence|]. split; [rewrite X5; exact X1|]. split.
    + intros j H N. rewrite X3. apply FR; assumption.
    + split; [auto|]. split; discriminate.
Qed.

(** Strided slices. *)
Lemma every_nth : forall A (l : list A) k s i, 0 < k -> nth_error (every k s l) i = nth_error l (s + k * i).
Proof.
  induction l as [|a l IH]; intros k s i K.
  - cbn [every]. destruct i, (s + k * _); reflexivity.
  - cbn [every]. destruct s as [|s].
    + destruct i as [|i].
      * replace (0 + k * 0) with 0 by lia. reflexivity.
      * cbn [nth_error]. rewrite IH by exact K. replace (0 + k * S i) with (S (k - 1 + k * i)) by lia. reflexivity.
    + rewrite IH by exact K. replace (S s + k * i) with (S (s + k * i)) by lia. reflexivity.
Qed.
Lemma rev_nth_error : forall A (l : list A) i, i < List.length l -> nth_error (rev l) i = nth_error l (List.length l - 1 - i).
Proof.
  intros A l i H. destruct (nth_error l (List.length l - 1 - i)) as [a|] eqn:E.
  - apply (nth_error_nth _ _ a) in E. rewrite <- E. rewrite (nth_error_nth' (rev l) a) by (rewrite rev_length; exact H).
    f_equal. rewrite rev_nth by exact H. f_equal. lia.
  - apply nth_error_None in E. lia.
Qed.
Lemma slice_pos : forall A k (l : list A), (0 < k)%Z -> exists r, step_slice k l = Ok r /\ forall i, nth_error r i = nth_error l (Z.to_nat k * i).
Proof.
  intros A k l K. unfold step_slice. destruct (Z.eqb_spec k 0) as [|_]; [lia|]. destruct (Z.ltb_spec 0 k) as [_|]; [|lia].
  eexists. split; [reflexivity|]. intros i. rewrite every_nth by lia. reflexivity.
Qed.
Lemma slice_neg : forall A k (l : list A), (k < 0)%Z -> exists r, step_slice k l = Ok r /\
  (forall i, Z.to_nat (- k) * i < List.length l -> nth_error r i = nth_error l (List.length l - 1 - Z.to_nat (- k) * i)) /\
  (forall i, List.length l <= Z.to_nat (- k) * i -> nth_error r i = None).
Proof.
  intros A k l K. unfold step_slice. destruct (Z.eqb_spec k 0) as [|_]; [lia|]. destruct (Z.ltb_spec 0 k) as [|_]; [lia|].
  eexists. split; [reflexivity|]. split; intros i H; rewrite every_nth by lia; cbn [Nat.add].
  - apply rev_nth_error. exact H.
  - apply nth_error_None. rewrite rev_length. exact H.
Qed.
Lemma mapM_each : forall A B (f : A -> res B) l, (forall x, In x l -> exists y, f x = Ok y) -> exists t, mapM f l = Ok t /\
  List.length t = List.length l /\ forall i, match nth_error l i with Some x => exists y, nth_error t i = Some y /\ f x = Ok y | None => nth_error t i = None end.
Proof.
  induction l as [|a l IH]; intros H.
  - exists []. repeat split; auto. intros [|i]; reflexivity.
  - destruct (H a (or_introl eq_refl)) as (b & Eb). destruct IH as (t & Et & L & N); [intros x I; apply H; right; exact I|].
    exists (b :: t). cbn [mapM]. rewrite Eb. cbn [bind]. rewrite Et. cbn [bind]. repeat split; [cbn; lia|].
    intros [|i]; cbn [nth_error]; [eauto|]. apply N.
Qed.
Lemma coarsened_pos : forall A k (m : list (list A)), (0 < k)%Z -> exists r, coarsened k m = Ok r /\
  forall i j, at2 r i j = at2 m (Z.to_nat k * i) (Z.to_nat k * j).
Proof.
  intros A k m K. unfold coarsened. destruct (slice_pos _ k m K) as (rows & -> & N). cbn [bind].
  destruct (mapM_each _ _ (step_slice k) rows) as (r & -> & L & E).
  { intros x _. destruct (slice_pos _ k x K) as (y & Ey & _). eauto. }
  exists r. split; [reflexivity|]. intros i j. unfold at2. specialize (E i). rewrite N in E.
  destruct (nth_error m (Z.to_nat k * i)) as [x|].
  - destruct E as (y & -> & Ey). destruct (slice_pos _ k x K) as (y' & Ey' & Ny). rewrite Ey in Ey'. injection Ey' as <-. apply Ny.
  - rewrite E. reflexivity.
Qed.
Lemma coarsened_neg : forall A k n c (m : list (list A)), (k < 0)%Z -> rect n c m -> exists r, coarsened k m = Ok r /\
  forall i j, at2 r i j = if (Z.to_nat (- k) * i <? n) && (Z.to_nat (- k) * j <? c) then at2 m (n - 1 - Z.to_nat (- k) * i) (c - 1 - Z.to_nat (- k) * j) else None.
Proof.
  intros A k n c m K (LM & LR). unfold coarsened. destruct (slice_neg _ k m K) as (rows & -> & N & O). cbn [bind].
  destruct (mapM_each _ _ (step_slice k) rows) as (r & -> & L & E).
  { intros x _. destruct (slice_neg _ k x K) as (y & Ey & _). eauto. }
  exists r. split; [reflexivity|]. intros i j. unfold at2. specialize (E i). rewrite LM in *.
  destruct (Nat.ltb_spec (Z.to_nat (- k) * i) n) as [H|H].
  - rewrite N in E by exact H. destruct (nth_error m (n - 1 - Z.to_nat (- k) * i)) as [x|] eqn:X.
    + destruct E as (y & -> & Ey). destruct (slice_neg _ k x K) as (y' & Ey' & Ny & Oy). rewrite Ey in Ey'. injection Ey' as <-.
      assert (LX : List.length x = c) by (rewrite Forall_forall in LR; apply LR; eapply nth_error_In; eauto). rewrite LX in *.
      cbn [andb]. destruct (Nat.ltb_spec (Z.to_nat (- k) * j) c) as [J|J]; [apply Ny; exact J|apply Oy; exact J].
    + rewrite E. cbn [andb]. destruct (_ <? c); reflexivity.
  - rewrite O in E by exact H. rewrite E. reflexivity.
Qed.
Lemma coarsened_zero : forall A (m : list (list A)), coarsened 0 m = Raise ValueError.
Proof. reflexivity. Qed.

Lemma grid_at : forall g i j, at2 (fst (create_grid g)) i j = (if (i <? nx g) && (j <? ny g) then Some (node_x g i) else None) /\
  at2 (snd (create_grid g)) i j = (if (i <? nx g) && (j <? ny g) then Some (node_y g j) else None).
Proof.
  assert (S : forall n i, nth_error (seq 0 n) i = if i <? n then Some i else None).
  { intros n i. destruct (Nat.ltb_spec i n) as [H|H].
    - rewrite (nth_error_nth' _ 0) by (rewrite seq_length; exact H). rewrite seq_nth by exact H. reflexivity.
    - apply nth_error_None. rewrite seq_length. exact H. }
  intros g i j. unfold create_grid, create_vectors, meshgrid_ij. cbn [fst snd]. unfold at2. rewrite !nth_error_map, S.
  destruct (i <? nx g); cbn [option_map andb]; [|auto]. rewrite !nth_error_map, S. destruct (j <? ny g); auto.
Qed.

Section Content.
Variable to_stereo : list (list Q) * list (list Q) -> list (list Q) * list (list Q).
Lemma grid_runs : forall g ax holding k o, (exists cs, grid_plot to_stereo g ax holding k o = Ok cs) <-> k <> 0%Z.
Proof.
  intros g ax holding k o. unfold grid_plot. destruct (plot_coords to_stereo g o) as (xg, yg). split.
  - intros (cs & E) ->. rewrite coarsened_zero in E. discriminate.
  - intros K. assert (T : forall A (m : list (list A)), exists r, coarsened k m = Ok r).
    { intros A m. unfold coarsened. assert (S : forall B (l : list B), exists r, step_slice k l = Ok r).
      { intros B l. unfold step_slice. destruct (Z.eqb_spec k 0); [lia|]. destruct (0 <? k)%Z; eauto. }
      destruct (S _ m) as (rows & ->). cbn [bind]. destruct (mapM_each _ _ (step_slice k) rows) as (r & -> & _); eauto. }
    destruct (T _ xg) as (x & ->), (T _ yg) as (y & ->), (T _ (g_values g)) as (v & ->). eexists. reflexivity.
Qed.
Lemma grid_entries : forall g ax holding k o cs x y v kw, grid_plot to_stereo g ax holding k o = Ok cs -> (0 < k)%Z -> g_stereo o = false ->
  In (Pcolor x y v kw) (drawn cs) -> kw = g_kw o /\ forall i j, let a := Z.to_nat k * i in let b := Z.to_nat k * j in
  at2 x i j = (if (a <? nx g) && (b <? ny g) then Some (node_x g a) else None) /\
  at2 y i j = (if (a <? nx g) && (b <? ny g) then Some (node_y g b) else None) /\ at2 v i j = at2 (g_values g) a b.
Proof.
  intros g ax holding k o cs x y v kw E K S I. destruct (grid_shape _ _ _ _ _ _ _ E) as (x' & y' & v' & X & Y & V & ->).
  assert (D : In (Pcolor x y v kw) (grid_draws ax x' y' v' o)).
  { rewrite !drawn_app, drawn_on in I. apply in_app_or in I. destruct I as [I|I].
    - apply in_app_or in I. destruct I as [I|I]; [destruct ax; cbn in I; tauto|exact I].
    - apply in_app_or in I. destruct I as [I|I]; [destruct (g_filename o)|destruct holding]; cbn in I; tauto. }
  assert (Q : Pcolor x y v kw = Pcolor x' y' v' (g_kw o)).
  { unfold grid_draws in D. apply in_app_or in D. destruct D as [D|D]; [destruct ax; cbn in D; [tauto|destruct D as [D|[]]; discriminate]|].
    cbn [app] in D. destruct D as [D|D]; [auto|]. exfalso.
    repeat (apply in_app_or in D; destruct D as [D|D]; [match type of D with In _ (whend ?q _) => destruct q end; cbn in D; [destruct D as [D|[]]; discriminate|tauto]|]).
    match type of D with In _ (if ?q then _ else _) => destruct q end; cbn in D; [destruct D as [D|[]]; discriminate|tauto]. }
  injection Q as -> -> -> ->. split; [reflexivity|]. intros i j. cbn zeta.
  unfold plot_coords in X, Y. rewrite S in X, Y.
  destruct (coarsened_pos _ k (fst (create_grid g)) K) as (x2 & X2 & AX). destruct (coarsened_pos _ k (snd (create_grid g)) K) as (y2 & Y2 & AY).
  destruct (coarsened_pos _ k (g_values g) K) as (v2 & V2 & AV).
  rewrite X2 in X. rewrite Y2 in Y. rewrite V2 in V. injection X as <-. injection Y as <-. injection V as <-.
  rewrite AX, AY, AV. destruct (grid_at g (Z.to_nat k * i) (Z.to_nat k * j)) as (-> & ->). auto.
Qed.
Lemma grid_pcolor_in : forall g ax holding k o cs, grid_plot to_stereo g ax holding k o = Ok cs -> exists x y v, In (Pcolor x y v (g_kw o)) (drawn cs).
Proof.
  intros g ax holding k o cs E. destruct (grid_shape _ _ _ _ _ _ _ E) as (x & y & v & _ & _ & _ & ->). exists x, y, v.
  rewrite !drawn_app, drawn_on. apply in_or_app. left. apply in_or_app. right. unfold grid_draws. apply in_or_app. right. left. reflexivity.
Qed.
Lemma grid_settings : forall g ax holding k o cs, grid_plot to_stereo g ax holding k o = Ok cs ->
  last_set x_label (drawn cs) = g_xlabel o /\ last_set y_label (drawn cs) = g_ylabel o /\ last_set title_of (drawn cs) = g_title o /\
  last_set x_lim (drawn cs) = g_xlim o /\ last_set y_lim (drawn cs) = g_ylim o.
Proof.
  intros g ax holding k o cs E. destruct (grid_shape _ _ _ _ _ _ _ E) as (x & y & v & _ & _ & _ & ->).
  assert (K : drawn ((whenb (negb ax) [New_figure] ++ map On (grid_draws ax x y v o)) ++ when (g_filename o) Save ++ whenb (negb holding) [Show true]) =
    grid_draws ax x y v o).
  { rewrite !drawn_app, drawn_on. destruct ax, holding, (g_filename o); cbn [negb whenb when drawn flat_map app]; rewrite ?app_nil_r; reflexivity. }
  rewrite K. unfold grid_draws. destruct o as [xl yl ti cb cl st xm ym fn kw]. cbn.
  destruct ax, xl, yl, ti, cb, cl, xm, ym; cbn; auto 10.
Qed.
Lemma last_set_app : forall A (sel : draw -> option A) l r, last_set sel (l ++ r) = match last_set sel r with Some a => Some a | None => last_set sel l end.
Proof.
  intros A sel l r. unfold last_set. rewrite fold_left_app. generalize (fold_left (fun o d => match sel d with Some a => Some a | None => o end) l None).
  intros o. revert o. induction r as [|d r IH] using rev_ind; intros o; [destruct o; reflexivity|]. rewrite !fold_left_app. cbn [fold_left].
  destruct (sel d); [reflexivity|]. apply IH.
Qed.
Lemma dem_settings : forall g ax holding k o cs, dem_plot to_stereo g ax holding k o = Ok cs ->
  last_set x_label (drawn cs) = Some "X-coordinate"%string /\ last_set y_label (drawn cs) = Some "Y-coordinate"%string /\
  last_set title_of (drawn cs) = g_title o /\ last_set x_lim (drawn cs) = g_xlim o /\ last_set y_lim (drawn cs) = g_ylim o.
Proof.
  intros g ax holding k o cs E. destruct (dem_shape _ _ _ _ _ _ _ E) as (base & o' & B & _ & T & XL & YL & _ & _ & _ & ->).
  destruct (grid_settings _ _ _ _ _ _ B) as (_ & _ & S3 & S4 & S5).
  assert (Z : drawn (base ++ map On dem_extra ++ whenb (negb holding) [Show true]) = drawn base ++ dem_extra).
  { rewrite !drawn_app, drawn_on. destruct holding; cbn; rewrite ?app_nil_r; reflexivity. }
  rewrite Z, !last_set_app. cbn. rewrite S3, S4, S5. auto 10.
Qed.
Lemma dem_pcolor : forall g ax holding k o cs, dem_plot to_stereo g ax holding k o = Ok cs -> exists x y v,
  In (Pcolor x y v (("cmap", "terrain")%string :: g_kw o)) (drawn cs) /\
  ((0 < k)%Z -> g_stereo o = false -> forall i j, let a := Z.to_nat k * i in let b := Z.to_nat k * j in
  at2 x i j = (if (a <? nx g) && (b <? ny g) then Some (node_x g a) else None) /\
  at2 y i j = (if (a <? nx g) && (b <? ny g) then Some (node_y g b) else None) /\ at2 v i j = at2 (g_values g) a b).
Proof.
  intros g ax holding k o cs E. destruct (dem_shape _ _ _ _ _ _ _ E) as (base & o' & B & _ & _ & _ & _ & ST & KW & _ & ->).
  destruct (grid_pcolor_in _ _ _ _ _ _ B) as (x & y & v & I). exists x, y, v. rewrite KW in I. split.
  - rewrite drawn_app. apply in_or_app. left. exact I.
  - intros K S. rewrite <- ST in S. eapply grid_entries; eauto.
Qed.
End Content.

(** Shoreline.plot: settings, legend, box. *)
Lemma shore_drawn : forall mainland inner boubox a b c d ax o cs, shoreline_plot mainland inner boubox [a; b; c; d] ax o = Ok cs ->
  drawn cs = shore_draws ax mainland inner boubox a b c d o.
Proof.
  intros mainland inner boubox a b c d ax o cs E. destruct (shore_shape _ _ _ _ _ _ _ E) as (a' & b' & c' & d' & Eb & ->).
  injection Eb as <- <- <- <-. rewrite !drawn_app, drawn_on.
  destruct ax, (s_show o), (s_file o); cbn [negb whenb when drawn flat_map app]; rewrite ?app_nil_r; reflexivity.
Qed.
Lemma shore_settings : forall mainland inner boubox bbox ax o cs, shoreline_plot mainland inner boubox bbox ax o = Ok cs ->
  last_set x_label (drawn cs) = s_xlabel o /\ last_set y_label (drawn cs) = s_ylabel o /\ last_set title_of (drawn cs) = s_title o /\
  last_set x_lim (drawn cs) = None /\ last_set y_lim (drawn cs) = None.
Proof.
  intros mainland inner boubox bbox ax o cs E. destruct (shore_shape _ _ _ _ _ _ _ E) as (a & b & c & d & -> & _).
  rewrite (shore_drawn _ _ _ _ _ _ _ _ _ _ E). unfold shore_draws. destruct o as [xl yl ti fi sh xm ym]. cbn [s_xlabel s_ylabel s_title].
  destruct ax, (Nat.eqb (List.length mainland) 0), (Nat.eqb (List.length inner) 0), xl, yl, ti; cbn; auto 10.
Qed.
Lemma shore_limits : forall mainland inner boubox bbox ax o x y, shoreline_plot mainland inner boubox bbox ax
  {| s_xlabel := s_xlabel o; s_ylabel := s_ylabel o; s_title := s_title o; s_file := s_file o; s_show := s_show o; s_xlim := x; s_ylim := y |} =
  shoreline_plot mainland inner boubox bbox ax o.
Proof. reflexivity. Qed.
Lemma shore_legend : forall mainland inner boubox bbox ax o cs, shoreline_plot mainland inner boubox bbox ax o = Ok cs ->
  (mainland <> [] \/ inner <> [] -> exists es, In (Legend es) (drawn cs)) /\
  (forall es, In (Legend es) (drawn cs) -> NoDup (map fst es) /\ NoDup (map snd es) /\
    (forall name, In name (map snd es) <-> exists data, stands_for mainland inner boubox name data) /\
    forall f name, In (f, name) es -> exists data, stands_for mainland inner boubox name data /\ In (Line data f) (drawn cs)).
Proof.
  intros mainland inner boubox bbox ax o cs E. destruct (shore_shape _ _ _ _ _ _ _ E) as (a & b & c & d & -> & _).
  rewrite (shore_drawn _ _ _ _ _ _ _ _ _ _ E). clear E cs.
  assert (ND3 : NoDup ["k-"; "r-"; "g--"]%string /\ NoDup ["mainland"; "inner"; "outer"]%string).
  { split; repeat (constructor; [cbn; intuition discriminate|]); constructor. }
  assert (NDm : NoDup ["k-"; "g--"]%string /\ NoDup ["mainland"; "outer"]%string).
  { split; repeat (constructor; [cbn; intuition discriminate|]); constructor. }
  assert (NDi : NoDup ["r-"; "g--"]%string /\ NoDup ["inner"; "outer"]%string).
  { split; repeat (constructor; [cbn; intuition discriminate|]); constructor. }
  assert (L : forall es, In (Legend es) (shore_draws ax mainland inner boubox a b c d o) -> In (Legend es)
    (if Nat.eqb (List.length mainland) 0 then if Nat.eqb (List.length inner) 0 then [] else [Legend [("r-", "inner"); ("g--", "outer")]%string]
     else if Nat.eqb (List.length inner) 0 then [Legend [("k-", "mainland"); ("g--", "outer")]%string]
     else [Legend [("k-", "mainland"); ("r-", "inner"); ("g--", "outer")]%string])).
  { intros es I. unfold shore_draws in I.
    destruct ax, (Nat.eqb (List.length mainland) 0), (Nat.eqb (List.length inner) 0), (s_xlabel o), (s_ylabel o), (s_title o); cbn in I |- *;
      intuition discriminate. }
  assert (G : forall es, In (Legend es)
    (if Nat.eqb (List.length mainland) 0 then if Nat.eqb (List.length inner) 0 then [] else [Legend [("r-", "inner"); ("g--", "outer")]%string]
     else if Nat.eqb (List.length inner) 0 then [Legend [("k-", "mainland"); ("g--", "outer")]%string]
     else [Legend [("k-", "mainland"); ("r-", "inner"); ("g--", "outer")]%string]) -> In (Legend es) (shore_draws ax mainland inner boubox a b c d o)).
  { intros es I. unfold shore_draws. do 4 (apply in_or_app; right). apply in_or_app. left. exact I. }
  assert (LM : mainland <> [] -> In (Line mainland "k-") (shore_draws ax mainland inner boubox a b c d o)).
  { intros H. unfold shore_draws. apply in_or_app; right. apply in_or_app. left. destruct mainland; [congruence|left; reflexivity]. }
  assert (LI : inner <> [] -> In (Line inner "r-") (shore_draws ax mainland inner boubox a b c d o)).
  { intros H. unfold shore_draws. do 2 (apply in_or_app; right). apply in_or_app. left. destruct inner; [congruence|left; reflexivity]. }
  assert (LB : In (Line boubox "g--") (shore_draws ax mainland inner boubox a b c d o)).
  { unfold shore_draws. do 3 (apply in_or_app; right). left. reflexivity. }
  set (ds := shore_draws ax mainland inner boubox a b c d o) in *. clearbody ds. split.
  - intros H. destruct mainland as [|m ml], inner as [|n nl]; [destruct H; congruence|eexists; apply G; left; reflexivity..].
  - intros es I. apply L in I. unfold stands_for.
    destruct mainland as [|m ml], inner as [|n nl]; cbn [List.length Nat.eqb] in I; [destruct I|destruct I as [I|[]]; injection I as <-..].
    + split; [apply NDi|]. split; [apply NDi|]. cbn [map snd In]. split.
      * intros name. split.
        -- intros [<-|[<-|[]]]; [exists (n :: nl); right; left; repeat split; discriminate|exists boubox; auto].
        -- intros (data & [(_ & _ & H)|[(-> & _)|(-> & _)]]); [congruence|auto|auto].
      * intros f name [X|[X|[]]]; injection X as <- <-;
          [exists (n :: nl); split; [right; left; repeat split; discriminate|apply LI; discriminate]|exists boubox; auto].
    + split; [apply NDm|]. split; [apply NDm|]. cbn [map snd In]. split.
      * intros name. split.
        -- intros [<-|[<-|[]]]; [exists (m :: ml); left; repeat split; discriminate|exists boubox; auto].
        -- intros (data & [(-> & _)|[(_ & _ & H)|(-> & _)]]); [auto|congruence|auto].
      * intros f name [X|[X|[]]]; injection X as <- <-;
          [exists (m :: ml); split; [left; repeat split; discriminate|apply LM; discriminate]|exists boubox; auto].
    + split; [apply ND3|]. split; [apply ND3|]. cbn [map snd In]. split.
      * intros name. split.
        -- intros [<-|[<-|[<-|[]]]]; [exists (m :: ml); left; repeat split; discriminate|exists (n :: nl); right; left; repeat split; discriminate|exists boubox; auto].
        -- intros (data & [(-> & _)|[(-> & _)|(-> & _)]]); auto.
      * intros f name [X|[X|[X|[]]]]; injection X as <- <-;
          [exists (m :: ml); split; [left; repeat split; discriminate|apply LM; discriminate]
          |exists (n :: nl); split; [right; left; repeat split; discriminate|apply LI; discriminate]|exists boubox; auto].
Qed.
Lemma shore_box : forall mainland inner boubox a b c d ax o cs, shoreline_plot mainland inner boubox [a; b; c; d] ax o = Ok cs ->
  exists p wd ht, (forall q u v, In (Rect q u v) (drawn cs) <-> (q, u, v) = (p, wd, ht)) /\
  (fst p == a /\ fst p + wd == b /\ snd p == c /\ snd p + ht == d)%Q.
Proof.
  intros mainland inner boubox a b c d ax o cs E. rewrite (shore_drawn _ _ _ _ _ _ _ _ _ _ E).
  exists (a, c), (b - a)%Q, (d - c)%Q. split.
  - intros q u v. split.
    + intros I. unfold shore_draws in I.
      destruct ax, (Nat.eqb (List.length mainland) 0), (Nat.eqb (List.length inner) 0), (s_xlabel o), (s_ylabel o), (s_title o); cbn in I |- *;
        repeat (destruct I as [I|I]; [try discriminate; injection I; intros; subst; reflexivity|]); destruct I.
    + intros X. injection X as -> -> ->. unfold shore_draws. do 3 (apply in_or_app; right). right. left. reflexivity.
  - cbn [fst snd]. repeat split; ring.
Qed.

(** draw_edges. *)
Lemma zget_ok : forall A (l : list A) i, (exists a, zget l i = Ok a) <-> (- Z.of_nat (List.length l) <= i < Z.of_nat (List.length l))%Z.
Proof.
  intros A l i. unfold zget, get. destruct (Z.leb_spec 0 i) as [H|H].
  - destruct (nth_error l (Z.to_nat i)) as [a|] eqn:E.
    + split; [intros _|eauto]. assert (Z.to_nat i < List.length l) by (apply nth_error_Some; congruence). lia.
    + split; [intros (a & X); discriminate|]. apply nth_error_None in E. lia.
  - destruct (Z.leb_spec (- Z.of_nat (List.length l)) i) as [K|K].
    + destruct (nth_error l _) as [a|] eqn:E; [split; [intros _; lia|eauto]|]. apply nth_error_None in E. lia.
    + split; [intros (a & X); discriminate|lia].
Qed.
Lemma zget_pos : forall A (l : list A) i a, (0 <= i)%Z -> (zget l i = Ok a <-> nth_error l (Z.to_nat i) = Some a).
Proof.
  intros A l i a H. unfold zget, get. destruct (Z.leb_spec 0 i) as [_|]; [|lia]. destruct (nth_error l (Z.to_nat i)); split; congruence.
Qed.
Lemma zget_neg : forall A (l : list A) i a, (i < 0)%Z -> (zget l i = Ok a <-> (- Z.of_nat (List.length l) <= i)%Z /\ nth_error l (Z.to_nat (Z.of_nat (List.length l) + i)) = Some a).
Proof.
  intros A l i a H. unfold zget, get. destruct (Z.leb_spec 0 i) as [|_]; [lia|]. destruct (Z.leb_spec (- Z.of_nat (List.length l)) i) as [K|K].
  - destruct (nth_error l _); split; try tauto; intuition congruence.
  - split; [discriminate|lia].
Qed.
Lemma edges_drawn : forall poly es,
  ((exists cs, draw_edges poly es = Ok cs) <-> Forall (fun e => (- Z.of_nat (List.length poly) <= fst e < Z.of_nat (List.length poly))%Z /\
      (- Z.of_nat (List.length poly) <= snd e < Z.of_nat (List.length poly))%Z) es) /\
  forall cs, draw_edges poly es = Ok cs -> exists segs, cs = [New_figure; On (Segments segs); On Autoscale; Show true] /\
    List.length segs = List.length es /\
    forall i a b, nth_error es i = Some (a, b) -> exists p q, nth_error segs i = Some (p, q) /\
      nth_error poly (Z.to_nat (a mod Z.of_nat (List.length poly))) = Some p /\ nth_error poly (Z.to_nat (b mod Z.of_nat (List.length poly))) = Some q.
Proof.
  intros poly es. set (n := Z.of_nat (List.length poly)).
  assert (M : forall i p, zget poly i = Ok p -> nth_error poly (Z.to_nat (i mod n)) = Some p).
  { intros i p E. assert (R : (- n <= i < n)%Z) by (apply zget_ok; eauto). destruct (Z.leb_spec 0 i) as [H|H].
    - apply zget_pos in E; [|exact H]. rewrite Z.mod_small by lia. exact E.
    - apply zget_neg in E; [|exact H]. destruct E as (_ & E). fold n in E.
      replace (i mod n)%Z with (n + i)%Z; [exact E|]. rewrite <- (Z.mod_add i 1 n) by lia. rewrite Z.mod_small by lia. lia. }
  set (f := fun e : zedge => let! a := zget poly (fst e) in let! b := zget poly (snd e) in Ok (a, b)).
  assert (F : forall e, (exists s, f e = Ok s) <-> (- n <= fst e < n)%Z /\ (- n <= snd e < n)%Z).
  { intros e. unfold f, n. rewrite <- !zget_ok. split.
    - intros (s & E). destruct (zget poly (fst e)) as [a| |]; cbn in E; try discriminate.
      destruct (zget poly (snd e)) as [b| |]; cbn in E; try discriminate. eauto.
    - intros ((a & ->) & (b & ->)). cbn. eauto. }
  split.
  - unfold draw_edges. fold f. split.
    + intros (cs & E). destruct (mapM f es) as [segs| |] eqn:X; cbn in E; try discriminate. clear E cs. revert segs X.
      induction es as [|e es IH]; intros segs X; [constructor|]. cbn [mapM] in X. destruct (f e) as [s| |] eqn:Fe; cbn in X; try discriminate.
      destruct (mapM f es) as [ss| |] eqn:Y; cbn in X; try discriminate. constructor; [apply F; eauto|eapply IH; eauto].
    + intros H. destruct (mapM_each _ _ f es) as (segs & -> & _).
      { intros e I. apply F. rewrite Forall_forall in H. apply H. exact I. }
      cbn. eauto.
  - intros cs E. unfold draw_edges in E. fold f in E. destruct (mapM f es) as [segs| |] eqn:X; cbn in E; try discriminate. injection E as <-.
    exists segs. split; [reflexivity|]. clear n M F || idtac. revert segs X. induction es as [|e es IH]; intros segs X.
    + injection X as <-. split; [reflexivity|]. intros [|i] a b; discriminate.
    + cbn [mapM] in X. destruct (f e) as [s| |] eqn:Fe; cbn in X; try discriminate.
      destruct (mapM f es) as [ss| |] eqn:Y; cbn in X; try discriminate. injection X as <-. destruct (IH ss eq_refl) as (L & N).
      split; [cbn; lia|]. intros [|i] a b H; [|exact (N i a b H)]. cbn in H. injection H as ->. unfold f in Fe. cbn [fst snd] in Fe.
      destruct (zget poly a) as [p| |] eqn:Ea; cbn in Fe; try discriminate. destruct (zget poly b) as [q| |] eqn:Eb; cbn in Fe; try discriminate.
      injection Fe as <-. exists p, q. split; [reflexivity|]. split; apply M; assumption.
Qed.

(** The edges of get_poly_edges join rows that are no separators. *)
Lemma poly_edges_rows : forall col whole i p, (forall j, nth_error col j = nth_error whole (i + j)) ->
  (-1 <= p < Z.of_nat i)%Z -> (forall j, (p < Z.of_nat j < Z.of_nat i)%Z -> nth_error whole j = Some false) ->
  ((p + 1)%Z = Z.of_nat i -> nth_error col 0 <> Some true) -> (forall j, nth_error whole j = Some true -> nth_error whole (S j) <> Some true) ->
  forall a b, In (a, b) (poly_edges_from (p :: nan_positions (Z.of_nat i) col)) ->
    (0 <= a)%Z /\ (0 <= b)%Z /\ nth_error whole (Z.to_nat a) = Some false /\ nth_error whole (Z.to_nat b) = Some false.
Proof.
  induction col as [|x col IH]; intros whole i p W P B F C a b I; [destruct I|]. cbn [nan_positions] in I.
  assert (X : nth_error whole i = Some x) by (specialize (W 0); cbn in W; rewrite Nat.add_0_r in W; auto).
  assert (W' : forall j, nth_error col j = nth_error whole (S i + j)).
  { intros j. specialize (W (S j)). cbn in W. rewrite W. f_equal. lia. }
  replace (Z.of_nat i + 1)%Z with (Z.of_nat (S i)) in I by lia. destruct x.
  - cbn [poly_edges_from] in I. apply in_app_or in I. destruct I as [I|I].
    + assert (N : (p + 1)%Z <> Z.of_nat i) by (intros H; apply (F H); reflexivity).
      unfold feature_edges in I. apply in_app_or in I. destruct I as [I|[I|[]]].
      * assert (Ia := in_combine_l _ _ _ _ I). assert (Ib := in_combine_r _ _ _ _ I). unfold arange in Ia, Ib.
        apply in_map_iff in Ia. destruct Ia as (ka & Ea & Ka). apply in_seq in Ka. apply in_map_iff in Ib. destruct Ib as (kb & Eb & Kb). apply in_seq in Kb.
        split; [lia|]. split; [lia|]. split; apply B; lia.
      * injection I as <- <-. split; [lia|]. split; [lia|]. split; apply B; lia.
    + apply (IH whole (S i) (Z.of_nat i)); auto; try lia.
      * intros _. rewrite W'. rewrite Nat.add_0_r. apply C. exact X.
  - apply (IH whole (S i) p); auto; try lia.
    intros j H. destruct (Nat.eq_dec j i) as [->|N]; [exact X|apply B; lia].
Qed.
Lemma poly_drawing : forall poly, let col := map (fun p => M_Grid.is_nan (fst p)) poly in In true col -> parts_filled col ->
  (forall p, In p poly -> fst p <> NaN -> snd p <> NaN) -> exists es segs, get_poly_edges col = Ok es /\
  draw_edges poly es = Ok [New_figure; On (Segments segs); On Autoscale; Show true] /\
  List.length segs = List.length es /\ Forall (fun s => drawable (fst s) /\ drawable (snd s) /\ In (fst s) poly /\ In (snd s) poly) segs.
Proof.
  intros poly col T (F0 & FC) NY. destruct (get_poly_edges col) as [es| |] eqn:E.
  - assert (ROWS : forall a b, In (a, b) es -> (0 <= a)%Z /\ (0 <= b)%Z /\ nth_error col (Z.to_nat a) = Some false /\ nth_error col (Z.to_nat b) = Some false).
    { intros a b I. assert (Q : es = poly_edges_from ((-1)%Z :: nan_positions 0 col)).
      { unfold get_poly_edges in E. destruct (nan_positions 0 col) as [|z r]; congruence. }
      rewrite Q in I. apply (poly_edges_rows col col 0 (-1)); auto; try lia. }
    assert (LEN : List.length col = List.length poly) by apply map_length.
    assert (RNG : forall a, (0 <= a)%Z -> nth_error col (Z.to_nat a) = Some false -> (a < Z.of_nat (List.length poly))%Z).
    { intros a H N. assert (Z.to_nat a < List.length col) by (apply nth_error_Some; congruence). lia. }
    destruct (edges_drawn poly es) as (R & S).
    destruct R as (_ & R). destruct R as (cs & D).
    { apply Forall_forall. intros (a, b) I. destruct (ROWS a b I) as (Ha & Hb & Na & Nb). cbn [fst snd].
      pose proof (RNG a Ha Na). pose proof (RNG b Hb Nb). lia. }
    destruct (S cs D) as (segs & -> & L & N). exists es, segs. split; [reflexivity|]. split; [exact D|]. split; [exact L|].
    apply Forall_forall. intros s I. apply In_nth_error in I. destruct I as (i & I).
    destruct (nth_error es i) as [(a, b)|] eqn:Ei; [|apply nth_error_None in Ei; assert (i < List.length segs) by (apply nth_error_Some; congruence); lia].
    destruct (N i a b Ei) as (p & q & Es & Pp & Pq). rewrite Es in I. injection I as <-. cbn [fst snd].
    destruct (ROWS a b (nth_error_In _ _ Ei)) as (Ha & Hb & Na & Nb).
    rewrite Z.mod_small in Pp by (specialize (RNG a Ha Na); lia). rewrite Z.mod_small in Pq by (specialize (RNG b Hb Nb); lia).
    assert (DR : forall x p, nth_error col x = Some false -> nth_error poly x = Some p -> drawable p /\ In p poly).
    { intros x r Hc Hp. unfold col in Hc. rewrite nth_error_map, Hp in Hc. cbn in Hc. injection Hc as Hc.
      assert (In r poly) by (eapply nth_error_In; eauto). assert (fst r <> NaN) by (intros K; rewrite K in Hc; discriminate). unfold drawable. auto. }
    destruct (DR _ _ Na Pp), (DR _ _ Nb Pq). auto.
  - exfalso. unfold get_poly_edges in E. destruct (nan_positions 0 col) eqn:NP; [|discriminate].
    assert (K : forall c z, In true c -> nan_positions z c <> []).
    { induction c as [|x c IH]; intros z I; [destruct I|]. cbn. destruct x; [discriminate|]. destruct I as [I|I]; [discriminate|]. apply IH. exact I. }
    apply (K col 0%Z T NP).
  - exfalso. unfold get_poly_edges in E. destruct (nan_positions 0 col); discriminate.
Qed.

(** The figure of the ocean boundary. *)
Lemma first_seen_fresh : forall l seen, NoDup (first_seen seen l) /\ forall x, In x (first_seen seen l) -> ~ In x seen.
Proof.
  induction l as [|a l IH]; intros seen; [split; [constructor|intros x []]|]. cbn [first_seen].
  destruct (existsb (Nat.eqb a) seen) eqn:E; [apply IH|]. destruct (IH (a :: seen)) as (N & F). split.
  - constructor; [|exact N]. intros I. apply (F a I). left. reflexivity.
  - intros x [<-|I]; [|intros J; apply (F x I); right; exact J].
    intros J. assert (existsb (Nat.eqb a) seen = true) by (apply existsb_exists; exists a; split; [exact J|apply Nat.eqb_refl]). congruence.
Qed.
Lemma mapM_F2 : forall A B (f : A -> res B) l t, mapM f l = Ok t -> Forall2 (fun x y => f x = Ok y) l t.
Proof.
  induction l as [|a l IH]; intros t E; cbn in E; [injection E as <-; constructor|].
  destruct (f a) as [b| |] eqn:Fa; cbn in E; try discriminate. destruct (mapM f l) as [u| |] eqn:M; cbn in E; try discriminate.
  injection E as <-. constructor; auto.
Qed.
Lemma part_ends : forall (nodes : list nat) a b u v, nth_error nodes a = Some u -> nth_error nodes b = Some v ->
  let l := part nodes (Some a) (Some b) in l = [] \/ (hd_error l = Some u /\ consecutive nodes (l ++ [v]) a).
Proof.
  intros nodes a b u v Ha Hb. cbn zeta. unfold part, slice. destruct (Nat.le_gt_cases b a) as [H|H].
  - left. replace (b - a) with 0 by lia. reflexivity.
  - right. assert (LB : b < List.length nodes) by (apply nth_error_Some; congruence).
    assert (N : forall i, i < b - a -> nth_error (firstn (b - a) (skipn a nodes)) i = nth_error nodes (a + i)).
    { intros i Hi. clear Ha Hb. revert a nodes i H LB Hi. induction a as [|a IH]; intros nodes i H LB Hi.
      - cbn [skipn Nat.add]. rewrite Nat.sub_0_r in *. clear H. revert nodes i LB Hi. induction b as [|b IHb]; intros nodes i LB Hi; [lia|].
        destruct nodes as [|x nodes]; [cbn in LB; lia|]. destruct i as [|i]; [reflexivity|]. cbn. apply IHb; cbn in LB; lia.
      - destruct nodes as [|x nodes]; [cbn in LB; lia|]. destruct b as [|b]; [lia|]. cbn [skipn Nat.add nth_error Nat.sub].
        clear IH. revert b nodes H LB i Hi. induction a as [|a IH]; intros b nodes H LB i Hi.
        + cbn [skipn Nat.add]. rewrite Nat.sub_0_r in *. clear H. revert nodes i LB Hi. induction b as [|b IHb]; intros nodes i LB Hi; [lia|].
          destruct nodes as [|y nodes]; [cbn in LB; lia|]. destruct i as [|i]; [reflexivity|]. cbn. apply IHb; cbn in LB |- *; lia.
        + destruct nodes as [|y nodes]; [cbn in LB; lia|]. destruct b as [|b]; [lia|]. cbn [skipn Nat.add nth_error Nat.sub].
          apply IH; cbn in LB, Hi |- *; lia. }
    assert (LEN : List.length (firstn (b - a) (skipn a nodes)) = b - a) by (rewrite firstn_length, skipn_length; lia).
    set (l := firstn (b - a) (skipn a nodes)) in *. split.
    + specialize (N 0). destruct l as [|y l]; [cbn in LEN; lia|]. cbn in N |- *. rewrite N by lia. rewrite Nat.add_0_r. exact Ha.
    + intros i Hi. rewrite app_length, LEN in Hi. cbn in Hi. destruct (Nat.eq_dec i (b - a)) as [->|NE].
      * rewrite nth_error_app2 by lia. rewrite LEN, Nat.sub_diag. cbn. rewrite <- Hb. f_equal. lia.
      * rewrite nth_error_app1 by lia. apply N. lia.
Qed.
Lemma nodup_last : forall (nodes l : list nat) v a, NoDup nodes -> consecutive nodes (l ++ [v]) a -> ~ In v l.
Proof.
  intros nodes l v a ND C I. apply In_nth_error in I. destruct I as (i & I).
  assert (Li : i < List.length l) by (apply nth_error_Some; congruence).
  assert (Ci := C i). rewrite app_length in Ci. cbn in Ci. rewrite nth_error_app1 in Ci by exact Li.
  assert (Cl := C (List.length l)). rewrite app_length in Cl. cbn in Cl. rewrite nth_error_app2, Nat.sub_diag in Cl by lia. cbn in Cl.
  rewrite NoDup_nth_error in ND. assert (a + i = a + List.length l); [|lia]. apply ND.
  - apply nth_error_Some. rewrite <- Ci by lia. congruence.
  - rewrite <- Ci, <- Cl by lia. exact I.
Qed.
Lemma section_marks : forall points cells topo t m cs r, identify_and_plot points cells topo t m = Ok (cs, r) ->
  identify_ocean_boundary_sections cells topo t m = r /\
  (exists k, windows (run true cs {| figures := []; axes := None; current := None; files := []; windows := [] |}) = [Mesh points cells :: k]) /\
  forall secs, r = Ok secs -> exists nodes ls, boundary_nodes cells = Ok nodes /\ Forall2 (points_of points) ls (marks cs) /\
    Forall2 (fun s l => ~ In (snd s) l /\ (l = [] \/ (hd_error l = Some (fst s) /\ exists a, consecutive nodes (l ++ [snd s]) a))) secs ls.
Proof.
  intros points cells topo t m cs r. unfold identify_and_plot, identify_ocean_boundary_sections.
  destruct (boundary_nodes cells) as [nodes| |] eqn:BN; cbn [bind]; try discriminate.
  destruct (find_stops topo nodes t) as [stops| |]; cbn [bind]; try discriminate.
  destruct (mapM (draw_section points nodes) (scan_sections m stops)) as [dr| |] eqn:D; cbn [bind]; try discriminate.
  intros E. injection E as <- <-. split; [reflexivity|]. apply mapM_F2 in D.
  assert (ON : exists ds, List.concat dr = map On ds).
  { clear - D. induction D as [|s d ss dr Hd _ (ds & IH)]; [exists []; reflexivity|]. unfold draw_section in Hd.
    destruct (mapM (get points) (part nodes (fst s) (snd s))) as [ps| |]; cbn in Hd; try discriminate. injection Hd as <-.
    exists (Scatter ps "r" :: Title "Identified ocean boundary sections" :: ds). cbn. rewrite IH. reflexivity. }
  split.
  - destruct ON as (ds & ->). exists ds.
    match goal with |- windows (run true ?c _) = _ => replace c with (([New_figure] ++ map On (Mesh points cells :: ds)) ++ [Show true]) by reflexivity end.
    rewrite run_app. set (w0 := {| figures := [] |}).
    destruct (body true false (Mesh points cells :: ds) w0) as (n & A & L & DR & CU & _ & FI & WI & _); [discriminate|].
    cbn [negb whenb] in *. set (w1 := run true _ w0) in *. change (run true [Show true] w1) with (act true w1 (Show true)).
    destruct (showed true true w1) as (T1 & _). rewrite T1, WI, DR. reflexivity.
  - intros secs MS. apply mapM_F2 in MS. exists nodes. exists (map (fun s => part nodes (fst s) (snd s)) (scan_sections m stops)).
    split; [reflexivity|]. split.
    + match goal with |- Forall2 _ _ (marks ?c) => replace c with ([New_figure; On (Mesh points cells)] ++ List.concat dr ++ [Show true]) by reflexivity end.
      unfold marks. rewrite !drawn_app. cbn [drawn flat_map app]. rewrite app_nil_r.
      clear - D. induction D as [|s d ss dr Hd _ IH]; [constructor|]. unfold draw_section in Hd.
      destruct (mapM (get points) (part nodes (fst s) (snd s))) as [ps| |] eqn:P; cbn in Hd; try discriminate. injection Hd as <-.
      cbn. constructor; [|exact IH]. apply mapM_F2 in P. unfold points_of. clear - P. induction P as [|v p vs ps Hv _ IH]; constructor; [|exact IH].
      unfold get in Hv. destruct (nth_error points v); congruence.
    + assert (ND : NoDup nodes).
      { unfold boundary_nodes in BN. destruct (get_winded_boundary_edges cells None); cbn in BN; try discriminate. injection BN as <-. apply first_seen_fresh. }
      clear - MS ND. induction MS as [|s q ss qs Hs _ IH]; [constructor|]. cbn [map]. constructor; [|exact IH].
      unfold map_section, node_at in Hs. destruct s as (oa, ob). cbn [fst snd] in *.
      destruct oa as [a|]; cbn in Hs; [|discriminate]. unfold get in Hs. destruct (nth_error nodes a) as [u|] eqn:U; cbn in Hs; [|discriminate].
      destruct ob as [b|]; cbn in Hs; [|discriminate]. destruct (nth_error nodes b) as [v|] eqn:V; cbn in Hs; [|discriminate].
      injection Hs as <-. cbn [fst snd]. destruct (part_ends nodes a b u v U V) as [->|(H1 & H2)].
      * split; [intros []|auto].
      * split; [eapply nodup_last; eauto|]. right. eauto.
Qed.

(** Meshes. *)
Lemma mesh_plots : forall i points bathy cells show w cs,
  cs = plot_mesh_connectivity points cells show \/ cs = plot_mesh_bathy points bathy cells show -> let w' := run i cs w in
  drawing w' = drawn cs /\ files w' = files w /\ windows w' = windows w ++ (if i && show then [drawing w'] else []) /\
  (forall j, j < List.length (figures w) -> nth_error (figures w') j = nth_error (figures w) j) /\
  (cs = plot_mesh_connectivity points cells show -> current w' = axes w').
Proof.
  intros i points bathy cells show w cs C. cbn zeta.
  assert (S : exists ds wait, cs = ([New_figure] ++ map On ds) ++ whenb show [Show wait] /\ (cs = plot_mesh_connectivity points cells show -> show = true -> wait = false)).
  { destruct C as [->| ->].
    - exists [Mesh points cells; Aspect "equal"; Title "Mesh connectivity"], false. split; [reflexivity|auto].
    - exists [Contour points bathy cells; Colorbar None; Xlabel "Longitude"; Ylabel "Latitude"; Title "Mesh Topobathymetry"], true.
      split; [reflexivity|]. intros H ->. discriminate. }
  destruct S as (ds & wait & -> & WT). rewrite run_app.
  destruct (body i false ds w) as (n & A & L & D & CU & _ & FI & WI & FR); [discriminate|]. cbn [negb whenb] in *. set (w1 := run i _ w) in *.
  rewrite !drawn_app, drawn_on. destruct show; cbn [whenb].
  - change (run i [Show wait] w1) with (act i w1 (Show wait)). destruct (showed i wait w1) as (T1 & T2 & T3 & T4 & T5 & T6).
    rewrite T1, T2, T3, T4, T5, T6, WI, FI, andb_true_r. cbn [drawn flat_map app]. rewrite app_nil_r. split; [exact D|]. split; [reflexivity|].
    split; [reflexivity|]. split; [intros j H; apply FR; [exact H|discriminate]|]. intros H. rewrite (WT H eq_refl), andb_false_r. congruence.
  - change (run i [] w1) with w1. cbn [drawn flat_map app]. rewrite andb_false_r, !app_nil_r. split; [exact D|]. split; [exact FI|].
    split; [exact WI|]. split; [intros j H; apply FR; [exact H|discriminate]|]. congruence.
Qed.

(** The statements of T_Plot.v that join several of the above. *)
Lemma dem_file : forall st i g ax holding k o cs f w, dem_plot st g ax holding k o = Ok cs -> ready ax w ->
  g_filename o = Some f -> on_current ax w -> exists d, files (run i cs w) = files w ++ [(f, d)] /\
  drawing (run i cs w) = d ++ [Xlabel "X-coordinate"; Ylabel "Y-coordinate"; Aspect "equal"; Colorbar (Some "Topobathymetric depth (m)"%string)].
Proof.
  intros st i g ax holding k o cs f w E R F C. destruct (dem_run st i _ _ _ _ _ _ w E R) as (base & _ & D & _ & _ & _ & FS).
  exists ((if ax then drawing w else []) ++ drawn base). split; [exact (FS f F C)|]. rewrite D, <- app_assoc. reflexivity.
Qed.
Lemma no_file : forall st i ax w, ready ax w ->
  (forall g holding k o cs, g_filename o = None -> grid_plot st g ax holding k o = Ok cs \/ dem_plot st g ax holding k o = Ok cs -> files (run i cs w) = files w) /\
  (forall mainland inner boubox bbox o cs, s_file o = None -> shoreline_plot mainland inner boubox bbox ax o = Ok cs -> files (run i cs w) = files w).
Proof.
  intros st i ax w R. split.
  - intros g holding k o cs F [E|E]; [eapply grid_no_file; eauto|]. destruct (dem_run st i _ _ _ _ _ _ w E R) as (base & _ & _ & _ & _ & FN & _). auto.
  - intros mainland inner boubox bbox o cs F E. destruct (shore_run i _ _ _ _ _ _ _ w E R) as (_ & _ & _ & FN & _). auto.
Qed.
Lemma all_windows : forall st i ax w, ready ax w ->
  (forall g holding k o cs, grid_plot st g ax holding k o = Ok cs \/ dem_plot st g ax holding k o = Ok cs ->
    (if i && negb holding then window_complete w (run i cs w) else windows (run i cs w) = windows w) /\
    drawing (run i cs w) = (if ax then drawing w else []) ++ drawn cs /\
    forall j, j < List.length (figures w) -> (ax = true -> axes w <> Some j) -> nth_error (figures (run i cs w)) j = nth_error (figures w) j) /\
  (forall mainland inner boubox bbox o cs, shoreline_plot mainland inner boubox bbox ax o = Ok cs ->
    (if i && s_show o then window_complete w (run i cs w) else windows (run i cs w) = windows w) /\
    drawing (run i cs w) = (if ax then drawing w else []) ++ drawn cs /\
    forall j, j < List.length (figures w) -> (ax = true -> axes w <> Some j) -> nth_error (figures (run i cs w)) j = nth_error (figures w) j).
Proof.
  intros st i ax w R. split.
  - intros g holding k o cs [E|E].
    + destruct (grid_window st i _ _ _ _ _ _ w E R) as (W & D & F). split; [|auto].
      destruct (i && negb holding); [exact W|rewrite W; apply app_nil_r].
    + destruct (dem_run st i _ _ _ _ _ _ w E R) as (base & DC & D & W & F & _). rewrite DC. split; [|auto].
      destruct (i && negb holding); [exact W|rewrite W; apply app_nil_r].
  - intros mainland inner boubox bbox o cs E. destruct (shore_run i _ _ _ _ _ _ _ w E R) as (D & W & F & _). split; [|auto].
    destruct (i && s_show o); [exact W|rewrite W; apply app_nil_r].
Qed.
Lemma mesh_windows : forall i points bathy cells show w cs,
  cs = plot_mesh_connectivity points cells show \/ cs = plot_mesh_bathy points bathy cells show -> let w' := run i cs w in
  (if i && show then window_complete w w' else windows w' = windows w) /\ drawing w' = drawn cs /\ files w' = files w /\
  (forall j, j < List.length (figures w) -> nth_error (figures w') j = nth_error (figures w) j).
Proof.
  intros i points bathy cells show w cs C. destruct (mesh_plots i points bathy cells show w cs C) as (D & F & W & FR & _). cbn zeta. split; [|auto].
  destruct (i && show); [exact W|rewrite W; apply app_nil_r].
Qed.
Lemma then_save : forall points bathy cells w f,
  let a := run true (plot_mesh_connectivity points cells true ++ [Save f]) w in let b := run true (plot_mesh_bathy points bathy cells true ++ [Save f]) w in
  files a = files w ++ [(f, drawing a)] /\ files b = files w ++ [(f, [])] /\ drawing b <> [].
Proof.
  intros points bathy cells w f. cbn zeta. rewrite !run_app.
  change (plot_mesh_connectivity points cells true) with (([New_figure] ++ map On [Mesh points cells; Aspect "equal"; Title "Mesh connectivity"]) ++ [Show false]).
  change (plot_mesh_bathy points bathy cells true) with (([New_figure] ++ map On [Contour points bathy cells; Colorbar None; Xlabel "Longitude"; Ylabel "Latitude"; Title "Mesh Topobathymetry"]) ++ [Show true]).
  rewrite !run_app with (b := [Show _]).
  destruct (body true false [Mesh points cells; Aspect "equal"; Title "Mesh connectivity"] w) as (n & A & L & D & CU & _ & FI & WI & FR); [discriminate|].
  cbn [negb whenb] in *. match type of A with axes ?z = _ => set (w1 := z) in * end.
  destruct (body true false [Contour points bathy cells; Colorbar None; Xlabel "Longitude"; Ylabel "Latitude"; Title "Mesh Topobathymetry"] w)
    as (n' & A' & L' & D' & CU' & _ & FI' & WI' & FR'); [discriminate|]. cbn [negb whenb] in *. match type of A' with axes ?z = _ => set (w2 := z) in * end.
  change (run true [Show false] w1) with (act true w1 (Show false)). change (run true [Show true] w2) with (act true w2 (Show true)).
  destruct (showed true false w1) as (T1 & T2 & T3 & T4 & T5 & T6). destruct (showed true true w2) as (U1 & U2 & U3 & U4 & U5 & U6).
  set (w3 := act true w1 (Show false)) in *. set (w4 := act true w2 (Show true)) in *.
  change (run true [Save f] w3) with (act true w3 (Save f)). change (run true [Save f] w4) with (act true w4 (Save f)).
  cbn [andb] in T5, U5. split.
  - destruct (saved true w3 f n) as (S1 & S2 & _); [congruence|rewrite T3; exact L|congruence|]. unfold file_complete in S1. rewrite S1, T2, FI. reflexivity.
  - destruct (save_frame true w4 f) as (_ & _ & _ & S4 & S5). split.
    + rewrite S5, U5, U2, FI'. reflexivity.
    + rewrite (S4 n') by (congruence || (rewrite U3; exact L')). rewrite U6, D'. discriminate.
Qed.
Lemma grid_pcolor : forall st g ax holding k o cs, grid_plot st g ax holding k o = Ok cs -> exists x y v, In (Pcolor x y v (g_kw o)) (drawn cs) /\
  ((0 < k)%Z -> g_stereo o = false -> forall i j, let a := Z.to_nat k * i in let b := Z.to_nat k * j in
  at2 x i j = (if (a <? nx g) && (b <? ny g) then Some (node_x g a) else None) /\
  at2 y i j = (if (a <? nx g) && (b <? ny g) then Some (node_y g b) else None) /\ at2 v i j = at2 (g_values g) a b).
Proof.
  intros st g ax holding k o cs E. destruct (grid_pcolor_in st _ _ _ _ _ _ E) as (x & y & v & I). exists x, y, v. split; [exact I|].
  intros K S. eapply grid_entries; eauto.
Qed.
Lemma poly_leading : exists poly es segs, get_poly_edges (map (fun p => M_Grid.is_nan (fst p)) poly) = Ok es /\
  draw_edges poly es = Ok [New_figure; On (Segments segs); On Autoscale; Show true] /\ In ((NaN, NaN), (NaN, NaN)) segs.
Proof.
  exists [(NaN, NaN); (Fin 0, Fin 0); (Fin 1, Fin 0); (Fin 1, Fin 1); (NaN, NaN)]. do 2 eexists. split; [reflexivity|]. split; [reflexivity|]. cbn. auto.
Qed.
Lemma shore_file : forall i mainland inner boubox bbox ax o cs f w, shoreline_plot mainland inner boubox bbox ax o = Ok cs ->
  s_file o = Some f -> ready ax w -> on_current ax w -> i && s_show o = false -> file_complete w (run i cs w) f.
Proof. intros i mainland inner boubox bbox ax o cs f w E F R C S. exact (proj1 (proj2 (proj2 (proj2 (proj2 (shore_run i _ _ _ _ _ _ _ w E R))))) f F C S). Qed.
Lemma shore_file_blank : forall mainland inner boubox bbox ax o cs f w, shoreline_plot mainland inner boubox bbox ax o = Ok cs ->
  s_file o = Some f -> s_show o = true -> ready ax w -> files (run true cs w) = files w ++ [(f, [])].
Proof. intros mainland inner boubox bbox ax o cs f w E F S R. exact (proj2 (proj2 (proj2 (proj2 (proj2 (shore_run true _ _ _ _ _ _ _ w E R))))) f F S). Qed.
