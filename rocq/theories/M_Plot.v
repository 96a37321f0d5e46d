(** Model of the drawing functions: Grid.plot (oceanmesh/grid.py:426-492), Shoreline.plot and DEM.plot (geodata.py:1133-1196,
    1264-1279), draw_edges (edges.py:40-62), plot_mesh_connectivity and plot_mesh_bathy (mesh_generator.py:205-277) and the figure
    of identify_ocean_boundary_sections (boundary.py:55-99).  A function yields the sequence of its matplotlib calls; what
    matplotlib makes of them is not modelled here (the state of figures, windows and files is in S_Plot.v).  Fonts, line widths,
    figure sizes, transparency and hatching are left out. *)
From Coq Require Import List Arith Bool ZArith QArith String.
From Verif Require Import M_Base M_Edges M_Sdf M_Grid M_Domains M_Boundary.
Import ListNotations.
Open Scope nat_scope.
Open Scope list_scope.

(** Calls on the axes of the drawing, or on their figure.  [Mesh] and [Contour] are triplot and tricontourf of the points and
    cells given; [Segments] a LineCollection; [Line] a plot call with its format; [Legend] pairs of a line and its name. *)
Inductive draw : Type :=
| Equal_axis
| Pcolor (x y : list (list Q)) (v : list (list num)) (kw : list (string * string))
| Xlabel (s : string) | Ylabel (s : string) | Title (s : string)
| Xlim (l : Q * Q) | Ylim (l : Q * Q)
| Colorbar (label : option string)
| Line (pts : list (num * num)) (format : string)
| Rect (corner : Q * Q) (width height : Q)
| Legend (entries : list (string * string))
| Aspect (s : string)
| Segments (l : list ((num * num) * (num * num)))
| Autoscale
| Mesh (pts : list (Q * Q)) (cells : list tri)
| Contour (pts : list (Q * Q)) (depths : list num) (cells : list tri)
| Scatter (pts : list (Q * Q)) (colour : string).
(** Calls of pyplot: a new figure with axes, a call on the axes, plt.savefig, and plt.show, which waits for the windows to be
    closed unless called with block=False. *)
Inductive cmd : Type := New_figure | On (d : draw) | Save (file : string) | Show (wait : bool).

(** Optional statements of Python. *)
Definition when {A} (o : option A) (f : A -> cmd) : list cmd := match o with None => [] | Some a => [f a] end.
Definition whenb (b : bool) (l : list cmd) : list cmd := if b then l else [].

(** a[::k] for k > 0: the entries 0, k, 2k, ...; [skip] entries are still to be passed over. *)
Fixpoint every {A} (k skip : nat) (l : list A) : list A :=
  match l with
  | [] => []
  | a :: r => match skip with O => a :: every k (k - 1) r | S s => every k s r end
  end.
(** a[::k] of numpy: k = 0 is a ValueError, k < 0 goes backwards from the last entry. *)
Definition step_slice {A} (k : Z) (l : list A) : res (list A) :=
  if (k =? 0)%Z then Raise ValueError
  else if (0 <? k)%Z then Ok (every (Z.to_nat k) 0 l) else Ok (every (Z.to_nat (- k)) 0 (rev l)).
(** a[::k, ::k] (grid.py:462-464). *)
Definition coarsened {A} (k : Z) (m : list (list A)) : res (list (list A)) := let! rows := step_slice k m in mapM (step_slice k) rows.

(** grid.py:426-442 the keyword arguments of Grid.plot but coarsen and holding; [g_kw] those passed on to pcolor. *)
Record gopts : Type := {
  g_xlabel : option string; g_ylabel : option string; g_title : option string; g_colorbar : bool; g_cbarlabel : option string;
  g_stereo : bool; g_xlim : option (Q * Q); g_ylim : option (Q * Q); g_filename : option string; g_kw : list (string * string) }.

Section GridPlot.
(** to_stereo of projections.py, which changes the coordinates drawn (modelled over the reals in M_Stereo.v). *)
Variable to_stereo : list (list Q) * list (list Q) -> list (list Q) * list (list Q).

(** grid.py:454-457: the coordinates drawn. *)
Definition plot_coords (g : grid) (o : gopts) : list (list Q) * list (list Q) :=
  if g_stereo o then to_stereo (create_grid g) else create_grid g.
(** grid.py:426-492 Grid.plot; [ax] tells whether axes are given. *)
Definition grid_plot (g : grid) (ax : bool) (holding : bool) (coarsen : Z) (o : gopts) : res (list cmd) :=
  let '(xg, yg) := plot_coords g o in
  let! x := coarsened coarsen xg in
  let! y := coarsened coarsen yg in
  let! v := coarsened coarsen (g_values g) in
  Ok (whenb (negb ax) [New_figure; On Equal_axis] ++
      [On (Pcolor x y v (g_kw o))] ++
      when (g_xlabel o) (fun s => On (Xlabel s)) ++
      when (g_ylabel o) (fun s => On (Ylabel s)) ++
      when (g_title o) (fun s => On (Title s)) ++
      when (g_xlim o) (fun l => On (Xlim l)) ++
      when (g_ylim o) (fun l => On (Ylim l)) ++
      whenb (g_colorbar o || match g_cbarlabel o with None => false | Some _ => true end) [On (Colorbar (g_cbarlabel o))] ++
      when (g_filename o) Save ++
      whenb (negb holding) [Show true]).
(** geodata.py:1264-1279 DEM.plot: a cmap among the keyword arguments is given twice to Grid.plot (TypeError). *)
Definition dem_plot (g : grid) (ax : bool) (holding : bool) (coarsen : Z) (o : gopts) : res (list cmd) :=
  if existsb (fun p => String.eqb (fst p) "cmap") (g_kw o) then Raise TypeError
  else
    let! base := grid_plot g ax true coarsen
      {| g_xlabel := g_xlabel o; g_ylabel := g_ylabel o; g_title := g_title o; g_colorbar := g_colorbar o; g_cbarlabel := g_cbarlabel o;
         g_stereo := g_stereo o; g_xlim := g_xlim o; g_ylim := g_ylim o; g_filename := g_filename o;
         g_kw := ("cmap"%string, "terrain"%string) :: g_kw o |} in
    Ok (base ++ [On (Xlabel "X-coordinate"); On (Ylabel "Y-coordinate"); On (Aspect "equal");
                 On (Colorbar (Some "Topobathymetric depth (m)"%string))] ++ whenb (negb holding) [Show true]).
End GridPlot.

(** geodata.py:1133-1144 the keyword arguments of Shoreline.plot. *)
Record sopts : Type := {
  s_xlabel : option string; s_ylabel : option string; s_title : option string; s_file : option string; s_show : bool;
  s_xlim : option (Q * Q); s_ylim : option (Q * Q) }.
(** geodata.py:1133-1196 Shoreline.plot.  The limits of lines 1171-1173 are set if [ax] is None, which it is not after line 1149;
    xlim and ylim are not read. *)
Definition shoreline_plot (mainland inner boubox : list (num * num)) (bbox : list Q) (ax : bool) (o : sopts) : res (list cmd) :=
  let flg1 := negb (Nat.eqb (List.length mainland) 0) in
  let flg2 := negb (Nat.eqb (List.length inner) 0) in
  match bbox with
  | [xmin; xmax; ymin; ymax] =>
      Ok (whenb (negb ax) [New_figure; On Equal_axis] ++
          whenb flg1 [On (Line mainland "k-")] ++
          whenb flg2 [On (Line inner "r-")] ++
          [On (Line boubox "g--"); On (Rect (xmin, ymin) (xmax - xmin) (ymax - ymin))] ++
          (if flg1 && flg2 then [On (Legend [("k-", "mainland"); ("r-", "inner"); ("g--", "outer")]%string)]
           else if flg1 && negb flg2 then [On (Legend [("k-", "mainland"); ("g--", "outer")]%string)]
           else if flg2 && negb flg1 then [On (Legend [("r-", "inner"); ("g--", "outer")]%string)] else []) ++
          when (s_xlabel o) (fun s => On (Xlabel s)) ++
          when (s_ylabel o) (fun s => On (Ylabel s)) ++
          when (s_title o) (fun s => On (Title s)) ++
          [On (Aspect "equal")] ++
          whenb (s_show o) [Show true] ++
          when (s_file o) Save)
  | _ => Raise ValueError
  end.

(** a[i] of numpy for any whole i: negative ones count from the end. *)
Definition zget {A} (l : list A) (i : Z) : res A :=
  let n := Z.of_nat (List.length l) in
  if (0 <=? i)%Z then get l (Z.to_nat i) else if (- n <=? i)%Z then get l (Z.to_nat (n + i)) else Raise IndexError.
(** edges.py:40-62 draw_edges. *)
Definition draw_edges (poly : list (num * num)) (edges : list zedge) : res (list cmd) :=
  let! lines := mapM (fun e => let! a := zget poly (fst e) in let! b := zget poly (snd e) in Ok (a, b)) edges in
  Ok [New_figure; On (Segments lines); On Autoscale; Show true].

(** mesh_generator.py:205-229 plot_mesh_connectivity. *)
Definition plot_mesh_connectivity (points : list (Q * Q)) (cells : list tri) (show_plot : bool) : list cmd :=
  [New_figure; On (Mesh points cells); On (Aspect "equal"); On (Title "Mesh connectivity")] ++ whenb show_plot [Show false].
(** mesh_generator.py:232-277 plot_mesh_bathy. *)
Definition plot_mesh_bathy (points : list (Q * Q)) (bathymetry : list num) (cells : list tri) (show_plot : bool) : list cmd :=
  [New_figure; On (Contour points bathymetry cells); On (Colorbar None); On (Xlabel "Longitude"); On (Ylabel "Latitude");
   On (Title "Mesh Topobathymetry")] ++ whenb show_plot [Show true].

(** a[s1:s2] with None for a missing bound (boundary.py:93-94). *)
Definition part {A} (l : list A) (s1 s2 : option nat) : list A :=
  slice l (match s1 with None => 0 | Some a => a end) (match s2 with None => List.length l | Some b => b end).
(** boundary.py:91-97, one section. *)
Definition draw_section (points : list (Q * Q)) (nodes : list nat) (s : option nat * option nat) : res (list cmd) :=
  let! ps := mapM (get points) (part nodes (fst s) (snd s)) in
  Ok [On (Scatter ps "r"); On (Title "Identified ocean boundary sections")].
(** boundary.py:9-106 identify_ocean_boundary_sections with plot=True: the calls made and then the result (which may raise after
    the figure has been shown). *)
Definition identify_and_plot (points : list (Q * Q)) (cells : list tri) (topo : list num) (threshold : Q) (m : Z) :
  res (list cmd * res (list (nat * nat))) :=
  let! nodes := boundary_nodes cells in
  let! stops := find_stops topo nodes threshold in
  let sections := scan_sections m stops in
  let! drawn := mapM (draw_section points nodes) sections in
  Ok ([New_figure; On (Mesh points cells)] ++ List.concat drawn ++ [Show true], mapM (map_section nodes) sections).
