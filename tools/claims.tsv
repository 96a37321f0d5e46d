C01	proved	unique_edges on int64 edges; std::sort and std::unique modelled by their specification on pairs
C02	proved	for every triangle list, degenerate or non-manifold triangles included
C03	proved	termination for every input; trail properties for meshes of proper triangles
C04	partial	closed loop and coverage of the linked boundary proved; coverage of the whole boundary is refuted (annulus)
C31	partial	exact segment list proved for every part list; ring closes iff its last two rows coincide; the intended closure of an ordinary ring is refuted
C12	proved	exact arithmetic; also characterises exactly when fix_mesh returns
C13	proved	for positive ptol; ptol=0 collapses the mesh and the third return value is not an index map with delete_unused=True (both shown)
C14	partial	proved in exact arithmetic; refuted on IEEE doubles (0.0 and -0.0)
C15	partial	refuted in general; proved when triangle corners are further apart than the tolerance
C05	proved	every tie-breaking of the unstable argsort; exact table for edge-manifold meshes, soundness, symmetry and connectivity for all
C06	proved	exact when every vertex is used; the misalignment with an unused vertex is shown
C07	proved	every start face and tie-breaking; termination included
C08	proved	exact arithmetic; also: whole components only for arbitrary orientations
C09	proved	for meshes of proper triangles with all vertices used; the choice rule at each vertex is characterised too
C10	proved	termination for every in-range mesh (returning or IndexError, see C55); traversability for edge-manifold meshes with points further apart than the merging tolerance, and for any result that is edge-manifold
C11	proved	edge-manifold meshes; rounds characterised one by one
C17	proved	quality function arbitrary
C18	partial	proved for meshes with a boundary and at least one pinned point, or none given, in exact arithmetic with an arbitrary stopping decision; refuted for an empty list of pinned points, which raises, and for pinned vertices given by number, which the code reads as coordinates
C55	partial	refuted with a row of twenty triangles and the fraction 1/20; proved for plane meshes of n faces and fractions below 1/n (C55_few_faces_partial, C55_no_ties_partial), which is sharp (C55_share_sharp); with an unstable sort and equal qualities everything may be deleted (C55_ties_refuted); failure characterised for meshes without a large component
C56	partial	well-formedness unconditional; traversability under the condition that smoothing keeps points further apart than the tolerance, unconditional without smoothing. False in general: smoothing can move two vertices of a good mesh to one point, and the result has a boundary vertex with three boundary sides (C56_traversable_refuted)
C19	proved	exact rationals; any value of the computed square root >= 1
C20	proved	exact rationals; the flag is the convergence the code does not report
C21	partial	refuted on the anti-diagonal with a 3x3 grid; twice the side bound holds
C22	proved	explicit bound on the number of passes
C23	proved
C57	proved
C24	proved	operands evaluate point by point
C25	proved
C26	proved	exact rationals
C27	partial	refuted for inverted domains; exact value for both settings
C58	partial	sign and covering proved; covering part refuted for inverted domains
C59	proved
C60	partial	refuted; failure characterised
C28	partial	both kernels follow the even-odd rule and agree at tolerance zero for rings and closed edge lists; refuted for open edge lists and for the default tolerance
C29	proved	both kernels, any tolerance, exact rationals
C30	proved	both kernels
C61	partial	proved for the compiled kernel, refuted for the ray caster
C32	partial	refuted; result described exactly for all inputs (C32_sections_all): when it raises, what it reports, and that it is right iff no pair of nodes has a run behind it and the last two runs are not both single nodes; node order proved to be a boundary loop
C62	partial	refuted; for all meshes a single stretch of three or more deep nodes is reported whatever the threshold (C62_threshold_ignored)
C63	partial	refuted; on a mesh with one boundary the sections at threshold 2 are exactly the deep stretches of the closed loop unless a stretch crosses the start or has fewer than three nodes (C63_one_loop_partial)
C16	partial	intended statement refuted (value is the documented one times the inscribed diameter); exact characterisation and consequences proved
C40	proved	world-like exception recorded as in the statement
C41	proved	over the reals; signed zeros of arctan2 not modelled
C42	partial	proved for all values other than NaN; a NaN passes the checks (witness)
C64	partial	proved for separable increasing transformations, refuted in general
C33	proved	finite coordinates, vertex numbers below 2^53
C34	partial	proved for write_to_t3s; refuted for write_to_fort14 (exact effect proved)
C65	proved	finite coordinates
C35	proved	exact real arithmetic; sizes may be nan or infinite
C36	proved	for a signed distance that is a function of the point; Delaunay answers and forces arbitrary
C66	partial	proved for fixed points among the initial points and not outside; refuted in general
C67	partial	proved for vertices that are not outside; refuted for the others
C68	partial	proved for affine distances with squared gradient at least deps; refuted below
C69	proved	stereo=False; finite sizes
C70	proved	exact real arithmetic
C37	partial	holds for boxes that do not span the globe; refuted for global boxes
C39	partial	holds for regional boxes and sizes that are not nan; refuted for nan sizes, global boxes and refused bands (not atomic)
C52	partial	proved for a base grid that does not span the globe; refuted for a global base
C53	proved	exact rational arithmetic
C71	partial	evaluation and range proved for regional grids with finite sizes; extrapolation to negative sizes refuted
C72	proved	regional grids with finite sizes; the function multiscale_sizing_function returns, not the blending before it
C38	proved	exact real arithmetic, natural exponent, no user weights; any correct neighbour search
C73	partial	values and range proved for nests that do not extrapolate; hmin as a lower bound refuted
C43	proved	
C44	proved	exact rational arithmetic; the mask of contains_points is arbitrary
C45	proved	exact rational arithmetic
C46	partial	refuted for (n,2) arrays, exact behaviour proved; holds for one-dimensional arrays
C47	partial	refuted for simple polygons; proved for points in convex position; exact decision rule proved
C74	proved	exact rational arithmetic
C75	proved	
C48	partial	proved for the rasterio path; refuted for the xarray fallback with ascending latitude, exact behaviour proved
C49	partial	refuted; exact choice proved, intended choice under a size condition
C76	partial	refuted (half-pixel shift), exact positions, CRS and extents proved
C77	proved	
C78	proved	real arithmetic instead of floats
C79	partial	refuted; proved for axis-aligned monotone transformations
C80	proved	
C50	partial	exact characterisation of the verdict and of every message proved; containment of the whole region refuted (only corners are projected)
C51	partial	refuted for six accepted options; proved for all others
C81	partial	refuted; what is enforced is proved exactly
C82	partial	refuted when all sizes exceed 9999; exact limit proved
C83	proved	
C54	proved	CGAL enters as any engine meeting the stated contract
C84	partial	refuted for repeated points over two insertions; proved otherwise
C85	proved	CGAL enters as any engine meeting the stated contract
C86	partial	refuted for chains; proved when new positions avoid old points
C87	proved	holds after get_finite_cells; numbers are stale before
C88	proved	stereo=False; exact arithmetic; finite sizes; box that does not span the globe
C89	proved	given that the limiter stops within 10000 passes (see C22 for when it does)
C90	partial	refuted with a witness; exact effect on global boxes proved
C91	partial	refuted; the result has the CRS argument
C92	proved	projections are arbitrary functions; sizes do not extrapolate
C93	proved	for every distance solver and nearest-node search; masked-array wrapper of the values not modelled
C94	proved	
C95	partial	short lines refused (refuted); proved for the others; non-positive edge lengths never end
C96	partial	proved when there are shoreline points; refuted otherwise
C97	proved	for every distance solver and medial axis; finite distances
C98	partial	refuted; proved when a minimum of at least h0 is given
C99	proved	for every smoothing (gaussian_filter is a parameter)
C100	partial	refuted: the short waves change sign; exact result and constants proved
C101	proved	for every smoothing that keeps the shape
C102	proved	
C103	proved	
C104	partial	values, lattice, hmin and refusals proved; extrapolation refuted
C105	partial	refuted; exact result proved
C106	partial	refuted: accepted, and failing on projected, global, polar and narrow lattices
C107	partial	refuted for bandstop; the names without effect are characterised
C108	proved	
C109	partial	refuted; for EPSG:4326 the error is at most 1.02 percent
C110	partial	refuted; proved when hmin does not exceed the maximum
C111	proved	
C112	proved	the geometry engine is a parameter with the contract faithful
C113	partial	proved for the ray caster and the compiled kernel; refuted for Shapely and Matplotlib
C114	partial	refuted; proved for settings in which the backend is fixed
C115	partial	refuted for holes; proved for one ring; contract: union of parts
C116	partial	refuted for closure and repetition; the rest proved
C117	partial	refuted for exact closure; the rest proved
C118	partial	proved for valid polygons with areal intersections; refuted otherwise; the geometry engine is a parameter
C119	partial	kinds, region and islands proved; refuted when land covers the box; contract set_like
C120	partial	refuted; the exact threshold is proved
C121	partial	refuted for an explicit default CRS; the rest proved
C122	partial	refuted; proved for coordinates of both signs
C123	proved	readers are parameters; the failure is an unbound local variable
C124	proved	masked arrays not modelled
C125	partial	refuted: the dimension is not checked; four entries proved right
C126	partial	refuted for a float count and an empty list; the rest proved
C127	partial	proved for the forces factor; refuted for the starting points factor
C128	partial	places and completeness proved; distinctness refuted
C129	proved	the interpolator is a parameter
C130	proved	global grids excluded; the interpolator is range-preserving
C131	partial	refuted for global grids and for flags; sizes of regional grids proved unchanged
C132	partial	proved in metres and degrees; refuted for feet
C133	partial	frame and values proved; the least size is refuted for a shared CRS
C134	partial	proved from two rows and columns up; refuted for one row
C135	proved	for files of lines and polygons, in exact coordinates
C136	partial	refuted for vertices with equal coordinates; proved otherwise
C137	partial	refuted: interior rings make no difference at all
C138	partial	proved for files with a CRS; refuted for files without
C139	partial	exact conditions proved; refuted for lines with a third coordinate
C140	proved	xarray is modelled by functions of labelled indices
C141	partial	refuted by three files; the KeyError and the ValueError for unnamed dimensions are characterised exactly
C142	partial	refuted; proved for the last two dimensions in either order (C140), the others characterised
C143	partial	mean, range, scaling proved; refuted for weights shaped as documented and for neighbours of weight 0 only
C144	partial	sums and order proved; refuted for calls with different numbers of neighbours
C145	proved	
C146	partial	sorted and first entry proved; strictly increasing refuted in general, proved for cells not too small
C147	proved	
C148	partial	refuted; proved up to a relative rounding error
C149	proved	
C150	partial	result and distances proved; orientation refuted in general, proved on grids and up to rounding
C151	proved	
C152	partial	points shown proved; saving to a file refuted for the method plot
C153	partial	proved for polygons and tuples; four numbers refuted
C154	proved	
C155	partial	refuted for clipped reads: masked pixels keep the nodata number, which is interpolated; proved for whole files; exact values and mask of clipped reads proved
C156	proved	
C157	partial	refuted when the first cell is nan: std::min_element answers nan, so does the tolerance, and every cell is returned as it was (proved for all such fields); with a number in the first cell it holds (C156)
C158	proved	
C159	partial	the box is refuted: a hub whose neighbours have abscissas 0.1 or the double below goes to the double above 0.1; proved that the box grows by at most drift (rounding errors of the sweeps)
C160	partial	refuted: line 481 takes the largest growth instead of the largest absolute change, so the loop stops at the default tolerance though an edge lost more than a quarter of its length; proved that no edge grew by the tolerance
C161	partial	Refuted as stated by edges that rise by less than about 2^-1024 of their width: the slope overflows to infinity, 0 times it is nan, the crossing is lost and a point outside is reported inside (C161_even_odd_refuted). Proved when every edge is level or rises by at least 2^-500 (C161_even_odd_partial).
C162	partial	Second half proved (C162_near). First half refuted at the default tolerance 5e-14 in degrees: a point exactly on an edge is reported outside and not on the boundary (C162_on_edge_refuted); proved for tolerances of at least 2^-46 times the coordinate size and edges not shorter than 2^-500 (C162_on_edge_partial).
C163	partial	Proved for tagged (C163_tagged, C163_describe_long), untagged (C163_untagged), foreign (C163_foreign) and missing (C163_no_git, C163_parent) repositories, with the branch (C163_branch, C163_detached) and the styles (C163_styles, C163_formats, C163_formats_untagged, C163_pre, C163_pre_plain, C163_unknown_style) and signature lines (C163_signed). Two parts are false: a git show or git rev-list that fails after git describe worked makes the import raise (C163_import_refuted), and the tag 'v' itself counts as no tag (C163_bare_tag_refuted). git's answers are arbitrary parameters.
C164	partial	Proved for tags without a plus sign (C164_identifies_partial) and for tags that are PEP 440 versions (C164_pep440_partial). False otherwise: tag 1.0+3.gab and three commits after tag 1.0 have one version (C164_identifies_refuted), and every tag that starts with v is taken, verified gives the version erified (C164_pep440_refuted).
C165	partial	Proved when release tags are listed (C165_tagged), when tags are listed but none of a release (C165_unsuitable), and when no reference looks like a release (C165_nothing). False otherwise: without tags a branch named like a release is taken for one (C165_untagged_refuted, C165_branch). Also: the newest of two tags on a commit is not what is taken (C165_newest_refuted), and an empty date raises (C165_empty_date).
C166	partial	Proved for arrays whose rings end with their first point twice (C166_values, C166_sea, C166_inverted, C166_covering, C166_no_outline), with either kernel at tolerance zero (C166_kernels). Shoreline makes such arrays from files whose rings do not start at a point with equal coordinates (C166_from_file_partial). False for a ring that does: remove_dup drops its first point and a side, and a point of the island counts as sea (C166_diagonal_refuted).
C167	partial	Proved for arrays whose rings end with their first point twice (C167_elements). False for an island whose ring starts at a point with equal coordinates: elements are returned that lie on it (C167_diagonal_refuted).
C168	proved	C168_distance. Distances are those skfmm returned, or 999 when it finds no level set; u = 2^-53. A missing distance gives a missing size (C168_nan).
C169	partial	C169_wavelength, with hmin a lower bound when it is not above the upper bound. False otherwise: hmin is taken before the upper bound is applied (C169_hmin_refuted). Missing data give missing sizes (C169_nan).
C170	proved	C170_slope; the formula with the double nearest to pi and with 1e-10. Missing data give missing sizes (C170_nan).
C171	partial	Proved for lines of at most 2^50 edge lengths (C171_resample). With 2^54 edge lengths, or an edge length of zero, the loop does not end (C171_ends_refuted, C171_zero).
C172	partial	C172_even_odd_partial: closed edges, each of length zero or at least 2^-100, level or rising by more than the tolerance. False otherwise (C172_even_odd_refuted, C172_open_refuted).
C173	partial	Found on an edge when the tolerance is at least 2^-48 of the coordinates (C173_on_edge_partial); false in metres with the default (C173_on_edge_refuted). Reports lie within the tolerance plus the tolerance divided by the edge length (C173_near), so a short edge puts distant queries on the boundary (C173_short_edge_refuted).
C174	partial	C174_kernels_agree_partial under the restrictions of C172. False at distance 1/5 of the polygon (C174_kernels_agree_refuted).
C175	partial	Grid: complete if the axes given belong to the current figure (C175_grid_partial), otherwise the other figure is written (C175_grid_refuted). Shoreline: complete unless shown on a screen (C175_shoreline_partial), then blank (C175_shoreline_refuted). DEM: never complete (C175_dem_refuted).
C176	proved	
C177	proved	
C178	partial	Holds for grids (C178_grid); shoreline plots ignore limits (C178_shoreline_refuted), DEM plots replace the labels (C178_dem_refuted).
C179	proved	
C180	partial	C180_polygon_partial: every part of the polygon has a row. False for a leading separator (C180_polygon_refuted).
C181	partial	C181_marks_refuted: same result, nodes marked are consecutive from the first on, the last node never is.
C182	proved	
C183	partial	C183_range_partial: nan or in range. nan for coincident corners (C183_coincident_refuted) and for some triangles with an area (C183_number_refuted).
C184	partial	C184_verdict_refuted: faces with coincident corners always stay (nan < min_qual is False); faces with slack are decided by their exact quality. C184_small_mesh: in a mesh of small faces exactly the nan faces stay on the boundary.
C185	proved	
C186	proved	
C187	partial	C187_never_missed_partial: a bundled library is always found. Members of other names pass too (C187_bundled_refuted).
C188	proved	other libraries are taken to import without error
C189	partial	refuted: exactly three names are missing (C189_missing); the lists of the single modules are complete (C189_modules)
C190	proved	
C191	partial	refuted for exactly two modules (C191_attributes)
C192	proved	what is asked of Cython is the hypothesis [faithful]
C193	partial	refuted for a .pyx file without Cython; exact condition proved (C193_builds_iff)
C194	partial	proved outside Windows and for complete prefixes; refuted for the fallback on Windows
C195	partial	refuted: affine and xarray are imported but not required directly; the rest proved
C196	partial	mesh_clean proved without poor faces; with a poor face it can return a dangling face (refuted)
C197	partial	proved up to rounding with error bounds for coordinates of ordinary size; exact balance and finiteness at extreme distances refuted
C198	partial	proved up to the rounding of the centroid; centroid inside the bounding box of its corners refuted
C199	partial	unchanged points proved for all distance functions; landing on the side proved up to a rounding bound, and exactly when the differences are exact; landing in general, beyond corners and far from the origin refuted
C200	partial	archive and build proved for all texts; import proved for texts without quotation marks, backslashes, control characters or three apostrophes, and refuted for those git allows in a tag
C201	partial	proved unless one of the three enclosing directories has a name that starts with None; refuted there, and for build_ext alone
C202	partial	proved for fixed points that are the same or 2^-500 apart; refuted for closer ones
C203	proved	
C204	proved	
C205	partial	proved for fixed points at which the last triangulation has a triangle that is deep enough inside; refuted in general
C206	partial	ends of the lattice proved up to 16 u M; exact ends refuted in both directions
C207	partial	proved for sizes between 2^-200 and 2^200; refuted for all positive sizes
C208	partial	proved up to 20 u M for the pieces and 60 u M for gaps; exact bounds refuted
C209	partial	proved when the first turn that is not straight exceeds 1e-8 and 40 u of the product of the extents; refuted without the second condition; LAPACK, log and exp are any functions within a contract, shown to be kept by division and by reciprocals
C210	partial	proved for finished files, a path of printable characters without white space and an __init__.py without the old lines; refuted for the others by four cases
C211	partial	proved for finished files; three refutations; configparser and the text of _version.py are parameters
C212	partial	exact condition on the text proved; two refutations of the intention
C213	partial	error bound for any order of summation and fused operations, decision outside the bound, nan; refuted inside the bound by two rings; the transformation to degrees and the other branch (area of shapely) are not modelled on doubles
C214	partial	error bound for any order of summation; closed rings and rings with ends clearly apart; the closing edge of nearly closed rings may be missing, refuted by a corner at 128 degrees east; nan
C215	partial	exact for values that are numbers, infinities included; nan characterised; refuted for nan and on the seam; one point at a time, the arrays are in C24 and M_Sdf
C216	partial	exact value and sign with the compiled kernel on doubles, one query at a time; the tree is any function with finite answers not below zero; in its covering for any rows and any query; refuted for a side that rises by the least double
