(** Theorems about drawings (C175-C181). *)
From Coq Require Import List Arith Bool ZArith QArith String Lia.
From Verif Require Import M_Base M_Edges M_Sdf M_Grid M_Domains M_Boundary M_Plot S_Plot P_Boundary P_Plot.
Import ListNotations.
Open Scope nat_scope.
Open Scope list_scope.

(** A grid of 5 by 4 nodes, its options, and a world with two figures, the second current and the first holding our axes. *)
Definition g0 : grid :=
  {| g_bbox := (0, 4, 10, 13)%Q; g_dx := 1; g_dy := 1; g_values := map (fun i => map (fun j => Fin (inject_Z (Z.of_nat (10 * i + j)))) (seq 0 4)) (seq 0 5);
     g_hmin := None; g_extra := false; g_crs := 0; g_fill := None |}.
Definition opts (f : option string) : gopts :=
  {| g_xlabel := Some "lon"%string; g_ylabel := None; g_title := Some "depth"%string; g_colorbar := false; g_cbarlabel := Some "m"%string; g_stereo := false;
     g_xlim := Some (0, 2)%Q; g_ylim := None; g_filename := f; g_kw := [("alpha", "0.5")]%string |}.
Definition two_figures : world :=
  {| figures := [[Title "ours"]; [Title "other"]]; axes := Some 0; current := Some 1; files := []; windows := [] |}.
Definition blank : world := {| figures := []; axes := None; current := None; files := []; windows := [] |}.
Definition sopt (f : option string) (show : bool) : sopts :=
  {| s_xlabel := None; s_ylabel := None; s_title := Some "coast"%string; s_file := f; s_show := show; s_xlim := Some (0, 1)%Q; s_ylim := None |}.
Definition same (p : list (list Q) * list (list Q)) := p.

(** C175.  A plot of a grid with a file name writes one file holding the finished drawing, with or without a screen, if the axes
    given belong to the current figure. *)
Theorem C175_grid_partial : forall st i g ax holding k o cs f w, grid_plot st g ax holding k o = Ok cs -> g_filename o = Some f ->
  ready ax w -> on_current ax w -> file_complete w (run i cs w) f.
Proof. exact grid_file. Qed.
Print Assumptions C175_grid_partial.
Example C175_grid_case : exists cs, grid_plot same g0 false false 2 (opts (Some "a.png"%string)) = Ok cs /\
  map fst (files (run true cs two_figures)) = ["a.png"%string] /\ List.length (drawing (run true cs two_figures)) = 6.
Proof. eexists. split; [reflexivity|]. split; reflexivity. Qed.
(** Otherwise the file gets the other figure, without any of the drawing. *)
Theorem C175_grid_refuted : forall st i g holding k o cs f w n c, grid_plot st g true holding k o = Ok cs ->
  g_filename o = Some f -> axes w = Some n -> n < List.length (figures w) -> current w = Some c -> c < List.length (figures w) -> c <> n ->
  files (run i cs w) = files w ++ [(f, content w (Some c))].
Proof. exact grid_file_other. Qed.
Print Assumptions C175_grid_refuted.
Example C175_grid_refuted_case : exists cs, grid_plot same g0 true true 2 (opts (Some "a.png"%string)) = Ok cs /\
  files (run false cs two_figures) = [("a.png"%string, [Title "other"])].
Proof. eexists. split; reflexivity. Qed.
(** A plot of a shoreline: the file is complete if nothing is shown on a screen; else it is blank. *)
Theorem C175_shoreline_partial : forall i mainland inner boubox bbox ax o cs f w, shoreline_plot mainland inner boubox bbox ax o = Ok cs ->
  s_file o = Some f -> ready ax w -> on_current ax w -> i && s_show o = false -> file_complete w (run i cs w) f.
Proof. exact shore_file. Qed.
Print Assumptions C175_shoreline_partial.
Theorem C175_shoreline_refuted : forall mainland inner boubox bbox ax o cs f w, shoreline_plot mainland inner boubox bbox ax o = Ok cs ->
  s_file o = Some f -> s_show o = true -> ready ax w -> files (run true cs w) = files w ++ [(f, [])].
Proof. exact shore_file_blank. Qed.
Print Assumptions C175_shoreline_refuted.
Example C175_shoreline_case : exists cs cs', shoreline_plot [(Fin 1, Fin 2)] [] [(Fin 0, Fin 0); (NaN, NaN)] [0; 3; 0; 4]%Q false (sopt (Some "b.png"%string) true) = Ok cs /\
  files (run true cs blank) = [("b.png"%string, [])] /\ drawing (run true cs blank) <> [] /\
  shoreline_plot [(Fin 1, Fin 2)] [] [(Fin 0, Fin 0); (NaN, NaN)] [0; 3; 0; 4]%Q false (sopt (Some "b.png"%string) false) = Ok cs' /\
  files (run true cs' blank) = [("b.png"%string, drawing (run true cs' blank))].
Proof. do 2 eexists. split; [reflexivity|]. split; [reflexivity|]. split; [discriminate|]. split; reflexivity. Qed.
(** A plot of a DEM never writes the finished drawing: labels, aspect and colour bar come after the file. *)
Theorem C175_dem_refuted : forall st i g ax holding k o cs f w, dem_plot st g ax holding k o = Ok cs -> ready ax w ->
  g_filename o = Some f -> on_current ax w -> exists d, files (run i cs w) = files w ++ [(f, d)] /\
  drawing (run i cs w) = d ++ [Xlabel "X-coordinate"; Ylabel "Y-coordinate"; Aspect "equal"; Colorbar (Some "Topobathymetric depth (m)"%string)].
Proof. exact dem_file. Qed.
Print Assumptions C175_dem_refuted.
Example C175_dem_case : exists cs, dem_plot same g0 false false 1 (opts (Some "c.png"%string)) = Ok cs /\ List.length (drawing (run true cs blank)) = 10 /\
  map (fun p => (fst p, List.length (snd p))) (files (run true cs blank)) = [("c.png"%string, 6)].
Proof. eexists. split; [reflexivity|]. split; reflexivity. Qed.
(** Without a file name nothing is written. *)
Theorem C175_no_file : forall st i ax w, ready ax w ->
  (forall g holding k o cs, g_filename o = None -> grid_plot st g ax holding k o = Ok cs \/ dem_plot st g ax holding k o = Ok cs -> files (run i cs w) = files w) /\
  (forall mainland inner boubox bbox o cs, s_file o = None -> shoreline_plot mainland inner boubox bbox ax o = Ok cs -> files (run i cs w) = files w).
Proof. exact no_file. Qed.
Print Assumptions C175_no_file.

(** C176.  A window opens exactly if asked for and there is a screen, it shows the finished drawing, and no other figure is
    changed; what the axes given held stays. *)
Theorem C176_window : forall st i ax w, ready ax w ->
  (forall g holding k o cs, grid_plot st g ax holding k o = Ok cs \/ dem_plot st g ax holding k o = Ok cs ->
    (if i && negb holding then window_complete w (run i cs w) else windows (run i cs w) = windows w) /\
    drawing (run i cs w) = (if ax then drawing w else []) ++ drawn cs /\
    forall j, j < List.length (figures w) -> (ax = true -> axes w <> Some j) -> nth_error (figures (run i cs w)) j = nth_error (figures w) j) /\
  (forall mainland inner boubox bbox o cs, shoreline_plot mainland inner boubox bbox ax o = Ok cs ->
    (if i && s_show o then window_complete w (run i cs w) else windows (run i cs w) = windows w) /\
    drawing (run i cs w) = (if ax then drawing w else []) ++ drawn cs /\
    forall j, j < List.length (figures w) -> (ax = true -> axes w <> Some j) -> nth_error (figures (run i cs w)) j = nth_error (figures w) j).
Proof. exact all_windows. Qed.
Print Assumptions C176_window.
Theorem C176_mesh : forall i points bathy cells show w cs,
  cs = plot_mesh_connectivity points cells show \/ cs = plot_mesh_bathy points bathy cells show -> let w' := run i cs w in
  (if i && show then window_complete w w' else windows w' = windows w) /\ drawing w' = drawn cs /\ files w' = files w /\
  (forall j, j < List.length (figures w) -> nth_error (figures w') j = nth_error (figures w) j).
Proof. exact mesh_windows. Qed.
Print Assumptions C176_mesh.
(** A caller who wants to save the mesh can still do so after plot_mesh_connectivity, but gets a blank file after plot_mesh_bathy
    with its window. *)
Theorem C176_then_save : forall points bathy cells w f,
  let a := run true (plot_mesh_connectivity points cells true ++ [Save f]) w in let b := run true (plot_mesh_bathy points bathy cells true ++ [Save f]) w in
  files a = files w ++ [(f, drawing a)] /\ files b = files w ++ [(f, [])] /\ drawing b <> [].
Proof. exact then_save. Qed.
Print Assumptions C176_then_save.
Example C176_case : exists cs cs', dem_plot same g0 true false 1 (opts None) = Ok cs /\
  map (@List.length draw) (windows (run true cs two_figures)) = [10] /\ map (@List.length draw) (figures (run true cs two_figures)) = [10; 1] /\
  shoreline_plot [(Fin 1, Fin 2)] [(Fin 5, Fin 6)] [(Fin 0, Fin 0)] [0; 3; 0; 4]%Q true (sopt None true) = Ok cs' /\
  map (@List.length draw) (windows (run true cs' two_figures)) = [8].
Proof. do 2 eexists. split; [reflexivity|]. split; [reflexivity|]. split; [reflexivity|]. split; reflexivity. Qed.

(** C177.  Grid.plot returns for every coarsen but 0 (ValueError).  With coarsen = k > 0 it draws at entry (i, j) the value of node
    (k i, k j) at the coordinates of that node; DEM.plot does the same with its colour map, and a colour map of the caller's is a
    TypeError. *)
Theorem C177_returns : forall st g ax holding k o, (exists cs, grid_plot st g ax holding k o = Ok cs) <-> k <> 0%Z.
Proof. exact grid_runs. Qed.
Print Assumptions C177_returns.
Theorem C177_entries : forall st g ax holding k o cs, grid_plot st g ax holding k o = Ok cs -> exists x y v, In (Pcolor x y v (g_kw o)) (drawn cs) /\
  ((0 < k)%Z -> g_stereo o = false -> forall i j, let a := Z.to_nat k * i in let b := Z.to_nat k * j in
  at2 x i j = (if (a <? nx g) && (b <? ny g) then Some (node_x g a) else None) /\
  at2 y i j = (if (a <? nx g) && (b <? ny g) then Some (node_y g b) else None) /\ at2 v i j = at2 (g_values g) a b).
Proof. exact grid_pcolor. Qed.
Print Assumptions C177_entries.
Theorem C177_dem_entries : forall st g ax holding k o cs, dem_plot st g ax holding k o = Ok cs -> exists x y v,
  In (Pcolor x y v (("cmap", "terrain")%string :: g_kw o)) (drawn cs) /\
  ((0 < k)%Z -> g_stereo o = false -> forall i j, let a := Z.to_nat k * i in let b := Z.to_nat k * j in
  at2 x i j = (if (a <? nx g) && (b <? ny g) then Some (node_x g a) else None) /\
  at2 y i j = (if (a <? nx g) && (b <? ny g) then Some (node_y g b) else None) /\ at2 v i j = at2 (g_values g) a b).
Proof. exact dem_pcolor. Qed.
Print Assumptions C177_dem_entries.
Theorem C177_dem_cmap : forall st g ax holding k o, In "cmap"%string (map fst (g_kw o)) -> dem_plot st g ax holding k o = Raise TypeError.
Proof. exact dem_cmap. Qed.
Print Assumptions C177_dem_cmap.
(** Backwards for k < 0, from the last node. *)
Theorem C177_backwards : forall A k n c (m : list (list A)), (k < 0)%Z -> rect n c m -> exists r, coarsened k m = Ok r /\
  forall i j, at2 r i j = if (Z.to_nat (- k) * i <? n) && (Z.to_nat (- k) * j <? c) then at2 m (n - 1 - Z.to_nat (- k) * i) (c - 1 - Z.to_nat (- k) * j) else None.
Proof. exact coarsened_neg. Qed.
Print Assumptions C177_backwards.
Example C177_case : coarsened 2 (g_values g0) = Ok [[Fin 0; Fin 2]; [Fin 20; Fin 22]; [Fin 40; Fin 42]]%Q /\
  coarsened (-3) (g_values g0) = Ok [[Fin 43; Fin 40]; [Fin 13; Fin 10]]%Q /\ rect 5 4 (g_values g0) /\
  coarsened 2 (fst (create_grid g0)) = Ok (map (fun i => map (fun _ => node_x g0 i) [0; 2]) [0; 2; 4]).
Proof. split; [reflexivity|]. split; [reflexivity|]. split; [|reflexivity]. split; [reflexivity|]. repeat constructor. Qed.

(** C178.  Labels, title and limits asked for are those in force at the end: for a grid all of them; for a shoreline limits are
    ignored; for a DEM labels are replaced. *)
Theorem C178_grid : forall st g ax holding k o cs, grid_plot st g ax holding k o = Ok cs ->
  last_set x_label (drawn cs) = g_xlabel o /\ last_set y_label (drawn cs) = g_ylabel o /\ last_set title_of (drawn cs) = g_title o /\
  last_set x_lim (drawn cs) = g_xlim o /\ last_set y_lim (drawn cs) = g_ylim o.
Proof. exact grid_settings. Qed.
Print Assumptions C178_grid.
Theorem C178_shoreline_refuted : forall mainland inner boubox bbox ax o cs, shoreline_plot mainland inner boubox bbox ax o = Ok cs ->
  last_set x_label (drawn cs) = s_xlabel o /\ last_set y_label (drawn cs) = s_ylabel o /\ last_set title_of (drawn cs) = s_title o /\
  last_set x_lim (drawn cs) = None /\ last_set y_lim (drawn cs) = None.
Proof. exact shore_settings. Qed.
Print Assumptions C178_shoreline_refuted.
Theorem C178_dem_refuted : forall st g ax holding k o cs, dem_plot st g ax holding k o = Ok cs ->
  last_set x_label (drawn cs) = Some "X-coordinate"%string /\ last_set y_label (drawn cs) = Some "Y-coordinate"%string /\
  last_set title_of (drawn cs) = g_title o /\ last_set x_lim (drawn cs) = g_xlim o /\ last_set y_lim (drawn cs) = g_ylim o.
Proof. exact dem_settings. Qed.
Print Assumptions C178_dem_refuted.
Example C178_case : exists cs cs' cs'', grid_plot same g0 true true 1 (opts None) = Ok cs /\ last_set x_label (drawn cs) = Some "lon"%string /\
  dem_plot same g0 true true 1 (opts None) = Ok cs' /\ last_set x_label (drawn cs') <> Some "lon"%string /\
  shoreline_plot [] [] [(Fin 0, Fin 0)] [0; 3; 0; 4]%Q true (sopt None true) = Ok cs'' /\ last_set x_lim (drawn cs'') <> s_xlim (sopt None true).
Proof. do 3 eexists. split; [reflexivity|]. split; [reflexivity|]. split; [reflexivity|]. split; [discriminate|]. split; [reflexivity|discriminate]. Qed.

(** C179.  Shoreline.plot returns iff the box has four numbers.  It draws one rectangle, that of the box.  If there is a mainland or
    an island there is a legend, which names each of the lines drawn once, and each name has the format of its line. *)
Theorem C179_returns : forall mainland inner boubox bbox ax o, (exists cs, shoreline_plot mainland inner boubox bbox ax o = Ok cs) <-> List.length bbox = 4.
Proof. exact shore_raises. Qed.
Print Assumptions C179_returns.
Theorem C179_box : forall mainland inner boubox a b c d ax o cs, shoreline_plot mainland inner boubox [a; b; c; d] ax o = Ok cs ->
  exists p wd ht, (forall q u v, In (Rect q u v) (drawn cs) <-> (q, u, v) = (p, wd, ht)) /\
  (fst p == a /\ fst p + wd == b /\ snd p == c /\ snd p + ht == d)%Q.
Proof. exact shore_box. Qed.
Print Assumptions C179_box.
Theorem C179_legend : forall mainland inner boubox bbox ax o cs, shoreline_plot mainland inner boubox bbox ax o = Ok cs ->
  (mainland <> [] \/ inner <> [] -> exists es, In (Legend es) (drawn cs)) /\
  (forall es, In (Legend es) (drawn cs) -> NoDup (map fst es) /\ NoDup (map snd es) /\
    (forall name, In name (map snd es) <-> exists data, stands_for mainland inner boubox name data) /\
    forall f name, In (f, name) es -> exists data, stands_for mainland inner boubox name data /\ In (Line data f) (drawn cs)).
Proof. exact shore_legend. Qed.
Print Assumptions C179_legend.
Example C179_case : exists cs, shoreline_plot [] [(Fin 5, Fin 6)] [(Fin 0, Fin 0)] [0; 3; 0; 4]%Q true (sopt None false) = Ok cs /\
  In (Legend [("r-", "inner"); ("g--", "outer")]%string) (drawn cs) /\ In (Rect (0, 0)%Q (3 - 0)%Q (4 - 0)%Q) (drawn cs).
Proof. eexists. split; [reflexivity|]. split; cbn; auto 10. Qed.

(** C180.  draw_edges returns iff all indices are within the rows, counting from the end for negative ones; it draws one segment for
    every edge between its rows.  With the edges of get_poly_edges, if every part of the polygon has a row, it always returns and
    never draws to a separator row. *)
Theorem C180_segments : forall poly es,
  ((exists cs, draw_edges poly es = Ok cs) <-> Forall (fun e => (- Z.of_nat (List.length poly) <= fst e < Z.of_nat (List.length poly))%Z /\
      (- Z.of_nat (List.length poly) <= snd e < Z.of_nat (List.length poly))%Z) es) /\
  forall cs, draw_edges poly es = Ok cs -> exists segs, cs = [New_figure; On (Segments segs); On Autoscale; Show true] /\
    List.length segs = List.length es /\
    forall i a b, nth_error es i = Some (a, b) -> exists p q, nth_error segs i = Some (p, q) /\
      nth_error poly (Z.to_nat (a mod Z.of_nat (List.length poly))) = Some p /\ nth_error poly (Z.to_nat (b mod Z.of_nat (List.length poly))) = Some q.
Proof. exact edges_drawn. Qed.
Print Assumptions C180_segments.
Theorem C180_polygon_partial : forall poly, let col := map (fun p => M_Grid.is_nan (fst p)) poly in In true col -> parts_filled col ->
  (forall p, In p poly -> fst p <> NaN -> snd p <> NaN) -> exists es segs, get_poly_edges col = Ok es /\
  draw_edges poly es = Ok [New_figure; On (Segments segs); On Autoscale; Show true] /\
  List.length segs = List.length es /\ Forall (fun s => drawable (fst s) /\ drawable (snd s) /\ In (fst s) poly /\ In (snd s) poly) segs.
Proof. exact poly_drawing. Qed.
Print Assumptions C180_polygon_partial.
(** A separator in front makes an edge from the last row to the first. *)
Theorem C180_polygon_refuted : exists poly es segs, get_poly_edges (map (fun p => M_Grid.is_nan (fst p)) poly) = Ok es /\
  draw_edges poly es = Ok [New_figure; On (Segments segs); On Autoscale; Show true] /\ In ((NaN, NaN), (NaN, NaN)) segs.
Proof. exact poly_leading. Qed.
Print Assumptions C180_polygon_refuted.
Example C180_case : let poly := [(Fin 0, Fin 0); (Fin 1, Fin 0); (Fin 1, Fin 1); (Fin 0, Fin 0); (NaN, NaN)] in
  parts_filled (map (fun p => M_Grid.is_nan (fst p)) poly) /\ draw_edges poly [(0, 1); (-1, 2)]%Z =
    Ok [New_figure; On (Segments [((Fin 0, Fin 0), (Fin 1, Fin 0)); ((NaN, NaN), (Fin 1, Fin 1))]); On Autoscale; Show true] /\
  draw_edges poly [(0, 5)]%Z = Raise IndexError.
Proof.
  cbn zeta. split; [|split; reflexivity]. split; [discriminate|]. intros i H. do 5 (destruct i as [|i]; [discriminate|]). destruct i; discriminate.
Qed.

(** C181.  With plot=True identify_ocean_boundary_sections shows the mesh and gives the same result.  Of every section it marks
    consecutive boundary nodes from the first node on, but never the last node. *)
Theorem C181_marks_refuted : forall points cells topo t m cs r, identify_and_plot points cells topo t m = Ok (cs, r) ->
  identify_ocean_boundary_sections cells topo t m = r /\
  (exists k, windows (run true cs {| figures := []; axes := None; current := None; files := []; windows := [] |}) = [Mesh points cells :: k]) /\
  forall secs, r = Ok secs -> exists nodes ls, boundary_nodes cells = Ok nodes /\ Forall2 (points_of points) ls (marks cs) /\
    Forall2 (fun s l => ~ In (snd s) l /\ (l = [] \/ (hd_error l = Some (fst s) /\ exists a, consecutive nodes (l ++ [snd s]) a))) secs ls.
Proof. exact section_marks. Qed.
Print Assumptions C181_marks_refuted.
(** Points at (i, 0); the sections 0-2 and 6-9 are marked at 0, 1 and 6, 7, 8. *)
Example C181_case : exists cs, identify_and_plot (map (fun i => (inject_Z (Z.of_nat i), 0%Q)) (seq 0 12)) fan (topo_of 12 [0; 1; 2; 4; 6; 7; 8; 9; 11]) (-50) 2 =
    Ok (cs, Ok [(0, 2); (6, 9)]) /\ map (map fst) (marks cs) = [[0; 1]; [6; 7; 8]]%Q.
Proof. eexists. split; vm_compute; reflexivity. Qed.
