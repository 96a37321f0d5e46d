{"id": "C01", "title": "unique_edges returns the edge set, each edge once, in canonical order", "statement": "For every list of vertex pairs, unique_edges returns pairs (a,b) with a<=b, strictly increasing lexicographically (so no duplicates), and a pair {a,b} is returned exactly when it occurs in the input in either direction.", "quantifier": "all finite edge lists of any length and any vertex numbers", "why_tests_cant": "The input space is unbounded; a test fixes one mesh and one answer.", "anchors": ["oceanmesh/cpp/fast_geometry.cpp:unique_edges", "oceanmesh/cpp/fast_geometry.cpp:c_unique_edges"]}
{"id": "C02", "title": "Boundary edges are exactly the edges used by one triangle", "statement": "get_boundary_edges returns, each exactly once and with endpoints in increasing order, the undirected edges that occur in exactly one (triangle, side) incidence of the mesh, and nothing else.", "quantifier": "all triangle lists, including non-manifold and degenerate ones", "why_tests_cant": "The input space is unbounded; a test fixes one mesh and one answer.", "anchors": ["oceanmesh/edges.py:get_boundary_edges", "oceanmesh/edges.py:get_edges", "oceanmesh/edges.py:unique_row_view"]}
{"id": "C03", "title": "Boundary winding yields a walk on distinct boundary edges and always stops", "statement": "get_winded_boundary_edges terminates on every mesh without degenerate triangles; the edges it returns are boundary edges, none is repeated, and consecutive ones share a vertex.", "quantifier": "all triangle lists, all starting vertices vFirst (present, absent or None)", "why_tests_cant": "Termination and no-repeat quantify over every boundary graph shape.", "anchors": ["oceanmesh/edges.py:get_winded_boundary_edges"]}
{"id": "C04", "title": "Boundary winding covers the whole boundary", "statement": "On a mesh whose boundary is one closed curve the winded edges are all boundary edges, each once, and the walk closes. (The unrestricted claim that every boundary edge is returned fails for a mesh with an island: only one loop is returned.)", "quantifier": "all meshes in which every boundary vertex has exactly two boundary edges", "why_tests_cant": "Needs an argument about every 2-regular graph.", "anchors": ["oceanmesh/edges.py:get_winded_boundary_edges", "oceanmesh/boundary.py:identify_ocean_boundary_sections"]}
{"id": "C05", "title": "Face adjacency table is exact", "statement": "_face_to_face lists j in the row of face i exactly when i=j or faces i and j have a common side, provided no side is shared by more than two faces; for arbitrary meshes every listed pair shares a side, the relation is symmetric and its transitive closure is connectivity through sides.", "quantifier": "all triangle lists and every tie-breaking of the unstable sort used", "why_tests_cant": "numpy's unstable sort may order equal rows arbitrarily; tests see one order.", "anchors": ["oceanmesh/clean.py:_face_to_face", "oceanmesh/clean.py:_arg_sortrows"]}
{"id": "C06", "title": "Vertex-to-face table is exact when all vertices are used", "statement": "If every vertex 0..n-1 occurs in some face, the slice of _vertex_to_face for vertex v is exactly the faces containing v. With an unused vertex the slices are misaligned and name faces that do not contain v.", "quantifier": "all triangle lists, every sort tie-breaking", "why_tests_cant": "A table can be right on tested meshes and misaligned on a mesh with one hanging node.", "anchors": ["oceanmesh/clean.py:_vertex_to_face"]}
{"id": "C07", "title": "The flood fill finds exactly one edge-connected component", "statement": "_depth_first_search terminates and flags exactly the faces reachable from the start face through shared sides, for every choice of start face.", "quantifier": "all triangle lists, every random start face, every sort tie-breaking", "why_tests_cant": "The start face is random; reachability is unbounded.", "anchors": ["oceanmesh/clean.py:_depth_first_search"]}
{"id": "C08", "title": "delete_exterior_faces keeps exactly the large components whatever the random choices", "statement": "For a mesh with positive total area and non-negative triangle areas and 0<=min_disconnected_area<1, delete_exterior_faces terminates and the set of kept faces is exactly the union of the edge-connected components whose area is more than min_disconnected_area times the total, independent of the random seeds drawn.", "quantifier": "all meshes, all thresholds, all sequences of random draws", "why_tests_cant": "The function draws random faces; tests see one seed.", "anchors": ["oceanmesh/clean.py:delete_exterior_faces"]}
{"id": "C09", "title": "delete_interior_faces removes a face at every over-connected boundary vertex and nothing else", "statement": "Every boundary vertex with more than two boundary edges loses at least one incident face; every deleted face is incident to such a vertex; all other faces are returned in order; if no such vertex exists nothing changes. A mesh without any boundary edge ends in an IndexError.", "quantifier": "all meshes whose vertices are all used, all quality values including NaN ordering choices", "why_tests_cant": "The input space is unbounded; a test fixes one mesh and one answer.", "anchors": ["oceanmesh/clean.py:delete_interior_faces"]}
{"id": "C10", "title": "make_mesh_boundaries_traversable delivers a traversable boundary and terminates", "statement": "Whenever the loop exits on a mesh whose sides are shared by at most two faces, every boundary vertex has exactly two boundary edges; every pass that finds more boundary edges than boundary vertices deletes at least one face, so the loop cannot run forever. A result always has a boundary edge; a mesh without one ends in an IndexError.", "quantifier": "all edge-manifold meshes, all random draws, all quality values", "why_tests_cant": "Exit condition compares two counts; that it implies the vertex property is a counting argument over all meshes.", "anchors": ["oceanmesh/clean.py:make_mesh_boundaries_traversable", "oceanmesh/clean.py:_external_topology"]}
{"id": "C11", "title": "delete_faces_connected_to_one_face leaves no face with exactly one neighbour", "statement": "With max_iter unlimited the function terminates and no face of the result has exactly one side-neighbour; the result is a sub-collection of the input faces; with max_iter=k at most k rounds of deletion happen.", "quantifier": "all meshes, all max_iter", "why_tests_cant": "Cascading deletions of any length.", "anchors": ["oceanmesh/clean.py:delete_faces_connected_to_one_face"]}
{"id": "C12", "title": "fix_mesh output is well formed", "statement": "fix_mesh returns indices inside the returned point array, no two returned triangles have the same vertex set, every signed area is non-negative (exact arithmetic), and with delete_unused=True every returned point is used.", "quantifier": "all point clouds with non-zero extent, all triangle lists in range, all ptol>0", "why_tests_cant": "The input space is unbounded; a test fixes one mesh and one answer.", "anchors": ["oceanmesh/fix_mesh.py:fix_mesh", "oceanmesh/fix_mesh.py:unique_rows", "oceanmesh/fix_mesh.py:simp_vol"]}
{"id": "C13", "title": "fix_mesh keeps the geometry", "statement": "Every input triangle is represented in the output by a triangle whose corners are input points in the same snap cells, and every output triangle comes from an input one; with delete_unused=False the third return value maps each input point to an output point in its snap cell.", "quantifier": "all point clouds, all triangle lists, both delete_unused values", "why_tests_cant": "The input space is unbounded; a test fixes one mesh and one answer.", "anchors": ["oceanmesh/fix_mesh.py:fix_mesh"]}
{"id": "C14", "title": "fix_mesh merges coincident points", "statement": "Two input points whose coordinates are equal numbers are never both present in the output. (Fails for IEEE doubles: 0.0 and -0.0 are equal numbers but distinct byte rows.)", "quantifier": "all IEEE double point arrays", "why_tests_cant": "Needs a signed zero produced by rounding, e.g. a coordinate of -1e-20.", "anchors": ["oceanmesh/fix_mesh.py:fix_mesh", "oceanmesh/fix_mesh.py:unique_rows"]}
{"id": "C15", "title": "fix_mesh leaves no degenerate triangle", "statement": "After merging, every returned triangle has three distinct vertices. (Fails: triangles collapsed by merging are kept.)", "quantifier": "all meshes", "why_tests_cant": "The input space is unbounded; a test fixes one mesh and one answer.", "anchors": ["oceanmesh/fix_mesh.py:fix_mesh"]}
{"id": "C16", "title": "simp_qual is a scale-free quality in (0,1] equal to 1 exactly for equilateral triangles", "statement": "Documented: 'mesh quality metric where 1.0 is perfect', twice the ratio of inscribed to circumscribed radius. (Fails: the inradius is taken without its square root, the value scales linearly with the mesh.)", "quantifier": "all non-degenerate triangles over the reals", "why_tests_cant": "Needs all scales; a unit-size test triangle looks plausible.", "anchors": ["oceanmesh/fix_mesh.py:simp_qual"]}
{"id": "C17", "title": "delete_boundary_faces removes exactly the poor faces that touch the boundary", "statement": "On a mesh whose vertices are all used, the faces removed are exactly those with a vertex on a boundary edge and quality below min_qual; a mesh without any boundary edge ends in an IndexError.", "quantifier": "all meshes, all thresholds", "why_tests_cant": "The input space is unbounded; a test fixes one mesh and one answer.", "anchors": ["oceanmesh/clean.py:delete_boundary_faces", "oceanmesh/clean.py:get_boundary_entities"]}
{"id": "C18", "title": "laplacian2 keeps connectivity, boundary and pinned vertices, and the bounding box", "statement": "For any iteration count and stopping decision, laplacian2 returns the same triangles, the same position for each boundary vertex and each vertex closest to a pinned point, and every coordinate stays inside the bounding box of the input; this includes an empty list of pinned points and pinned points given as vertex numbers.", "quantifier": "all meshes, all iteration counts, all stopping decisions", "why_tests_cant": "Floating stopping rule; every number of sweeps.", "anchors": ["oceanmesh/clean.py:laplacian2"]}
{"id": "C19", "title": "Gradient limiter only lowers sizes, never below the smallest", "statement": "gradient_limit returns an array of the same size with every entry between the minimum of the input and its own input value; entries equal to the minimum are unchanged.", "quantifier": "all grids, all gradations >= 0, all iteration limits", "why_tests_cant": "The input space is unbounded; a test fixes one mesh and one answer.", "anchors": ["oceanmesh/cpp/HamiltonJacobi.cpp:c_gradient_limit"]}
{"id": "C20", "title": "Gradient limiter enforces the gradation on horizontal and vertical neighbours", "statement": "When the sweep converges (active set empties before imax) any two horizontally or vertically adjacent cells differ by at most elen*dfdx plus the tolerance, and so do (with the diagonal length) neighbours along the main diagonal.", "quantifier": "all grids with positive sizes, all sweep schedules produced by the active-set rule", "why_tests_cant": "Active-set bookkeeping must be right for every update order.", "anchors": ["oceanmesh/cpp/HamiltonJacobi.cpp:c_gradient_limit"]}
{"id": "C21", "title": "Gradient limiter enforces the gradation on all eight neighbours", "statement": "The comment in the code promises all diagonal neighbours. (Fails on the anti-diagonal: position 8 repeats position 5.)", "quantifier": "all grids", "why_tests_cant": "Only some update orders expose the missing stencil entry.", "anchors": ["oceanmesh/cpp/HamiltonJacobi.cpp:c_gradient_limit"]}
{"id": "C22", "title": "Gradient limiter converges", "statement": "With positive sizes each update lowers a value by more than the tolerance, so the number of sweeps is bounded by the input alone; a large enough imax always reaches convergence.", "quantifier": "all grids with positive sizes, all gradations >= 0", "why_tests_cant": "Termination for every input.", "anchors": ["oceanmesh/cpp/HamiltonJacobi.cpp:c_gradient_limit"]}
{"id": "C23", "title": "Gradient limiter never over-smooths", "statement": "Every output value equals some input value plus gradation times the length of a grid path joining the two cells; a field already within the limit is returned unchanged.", "quantifier": "all grids", "why_tests_cant": "The input space is unbounded; a test fixes one mesh and one answer.", "anchors": ["oceanmesh/cpp/HamiltonJacobi.cpp:c_gradient_limit"]}
{"id": "C24", "title": "Set operations on signed distance functions have set semantics", "statement": "Union is negative exactly where some operand is negative, Intersection exactly where all are, Difference exactly where the first is negative and every other operand is positive.", "quantifier": "all operand lists and all query points", "why_tests_cant": "The input space is unbounded; a test fixes one mesh and one answer.", "anchors": ["oceanmesh/signed_distance_function.py:Union", "oceanmesh/signed_distance_function.py:Intersection", "oceanmesh/signed_distance_function.py:Difference"]}
{"id": "C25", "title": "Nested multiscale domains do not overlap and lose nothing but the covered seams", "statement": "If each domain lies inside its own covering then the interiors of the nests of multiscale_signed_distance_function are pairwise disjoint, and the union is negative at x exactly when some domain contains x and no finer covering contains or touches it; so a point strictly inside a domain is meshed by at least one nest unless a later covering that touches it has no domain there.", "quantifier": "all lists of domains, all points", "why_tests_cant": "The input space is unbounded; a test fixes one mesh and one answer.", "anchors": ["oceanmesh/signed_distance_function.py:multiscale_signed_distance_function"]}
{"id": "C26", "title": "Rectangle domains are negative exactly strictly inside the box", "statement": "create_bbox(bbox).eval(p) is negative iff xmin<x<xmax and ymin<y<ymax, zero iff on the edge, positive iff outside.", "quantifier": "all boxes, all points", "why_tests_cant": "The input space is unbounded; a test fixes one mesh and one answer.", "anchors": ["oceanmesh/signed_distance_function.py:create_bbox"]}
{"id": "C27", "title": "Invalid query points are never inside a domain", "statement": "signed_distance_function(...).eval returns a positive value for a query with a non-finite coordinate. (Fails for invert=True: the value is -1e12.)", "quantifier": "all shorelines, all points, both invert values", "why_tests_cant": "Needs non-finite input together with invert.", "anchors": ["oceanmesh/signed_distance_function.py:signed_distance_function"]}
{"id": "C28", "title": "Both point-in-polygon kernels implement the same even-odd rule", "statement": "With zero tolerance the pure Python ray caster and the compiled kernel return the same STAT and BNDS for every finite query, every polygon with at least three nodes.", "quantifier": "all polygons, edge lists, queries (exact arithmetic)", "why_tests_cant": "Differential testing samples; the two half-open rules are written differently.", "anchors": ["oceanmesh/geometry/point_in_polygon.py:_inpoly_raycasting", "oceanmesh/geometry/point_in_polygon_.pyx:inpoly2_fast"]}
{"id": "C29", "title": "Point-in-polygon does not depend on edge order, edge direction or the other queries", "statement": "inpoly2 (ray casting) gives each query an answer that is unchanged by permuting the edge list, reversing edges, or changing the other queries; NaN queries give False/False.", "quantifier": "all polygons and queries", "why_tests_cant": "The input space is unbounded; a test fixes one mesh and one answer.", "anchors": ["oceanmesh/geometry/point_in_polygon.py:inpoly2", "oceanmesh/geometry/point_in_polygon.py:_inpoly_raycasting"]}
{"id": "C30", "title": "Points outside the bounding box of a closed polygon are outside; rectangle test is exact", "statement": "For edge lists that form closed rings every query outside the bounding box is reported outside, and for an axis-aligned rectangle STAT is True exactly on the closed rectangle and BNDS exactly on its perimeter.", "quantifier": "all closed rings, all rectangles, all queries (tolerance zero)", "why_tests_cant": "The input space is unbounded; a test fixes one mesh and one answer.", "anchors": ["oceanmesh/geometry/point_in_polygon.py:_inpoly_raycasting"]}
{"id": "C31", "title": "Polygon edges close the ring", "statement": "get_poly_edges returns for each NaN-terminated part edges that form a closed curve through its points. (Holds exactly when the last two points coincide; for an ordinary closed or open ring the last side is missing.)", "quantifier": "all NaN-separated polygon arrays", "why_tests_cant": "The existing test only draws the edges.", "anchors": ["oceanmesh/edges.py:get_poly_edges"]}
{"id": "C32", "title": "Sections of ocean boundary are found for every depth pattern", "statement": "identify_ocean_boundary_sections returns the first and last node of every maximal run of boundary nodes at or below the depth threshold (gaps smaller than min_nodes_per_section). (Fails: runs of two nodes and isolated nodes make it crash or disappear.)", "quantifier": "all boundaries, all depth patterns, all min_nodes_per_section", "why_tests_cant": "Needs particular spacings of deep nodes.", "anchors": ["oceanmesh/boundary.py:identify_ocean_boundary_sections"]}
{"id": "C33", "title": "fort.14 output can be read back", "statement": "For every mesh, parsing the file written by write_to_fort14 gives back the same number of nodes and elements, the same connectivity (1-based) and coordinates within half a unit of the sixth decimal.", "quantifier": "all meshes, all project names without a newline", "why_tests_cant": "The input space is unbounded; a test fixes one mesh and one answer.", "anchors": ["oceanmesh/mesh_generator.py:write_to_fort14"]}
{"id": "C34", "title": "Writing a mesh does not change it", "statement": "After write_to_fort14 the caller's arrays are unchanged and a second call writes the same file. (Fails: cells are incremented and the bathymetry negated in place.)", "quantifier": "all meshes, all call sequences", "why_tests_cant": "Needs a second call on the same array.", "anchors": ["oceanmesh/mesh_generator.py:write_to_fort14", "oceanmesh/mesh_generator.py:write_to_t3s"]}
{"id": "C35", "title": "Bar forces are internal and repulsive", "statement": "The forces returned by _compute_forces add up to zero over all points, and each bar pushes its two ends apart or not at all.", "quantifier": "all points, triangulations, sizing functions and bar-length values", "why_tests_cant": "The input space is unbounded; a test fixes one mesh and one answer.", "anchors": ["oceanmesh/mesh_generator.py:_compute_forces"]}
{"id": "C36", "title": "generate_mesh returns only elements inside the domain", "statement": "Every returned triangle comes from a triangulation face whose centroid has signed distance below -geps, is counter-clockwise, uses valid point indices, no duplicates, and all points are used; the loop ends after exactly max_iter triangulations.", "quantifier": "all domains, sizing functions, initial points, and Delaunay answers", "why_tests_cant": "The Delaunay result and the functions are arbitrary.", "anchors": ["oceanmesh/mesh_generator.py:generate_mesh", "oceanmesh/mesh_generator.py:_remove_triangles_outside"]}
{"id": "C37", "title": "Grid.build_interpolant does not change what the grid evaluates to", "statement": "Building the interpolant twice gives the same function as building it once. (Fails for grids spanning -180..180: the first and last rows are swapped on each call, so a multiscale sizing function alternates between calls.)", "quantifier": "all grids, all call histories", "why_tests_cant": "A test calls it once.", "anchors": ["oceanmesh/grid.py:build_interpolant", "oceanmesh/edgefx.py:multiscale_sizing_function"]}
{"id": "C38", "title": "Inverse-distance interpolation stays within the data range and reproduces data points", "statement": "Every interpolated value lies between the smallest and largest of the neighbour values, and equals the data value at a data point.", "quantifier": "all data sets, neighbour counts and positive distances", "why_tests_cant": "The input space is unbounded; a test fixes one mesh and one answer.", "anchors": ["oceanmesh/idw.py:Invdisttree"]}
{"id": "C39", "title": "Elevation bounds are enforced in each band", "statement": "After enforce_mesh_size_bounds_elevation with disjoint elevation bands every cell whose elevation lies in a band has a size within that band's limits and all other cells are unchanged.", "quantifier": "all grids, elevations (including NaN) and bound lists", "why_tests_cant": "The input space is unbounded; a test fixes one mesh and one answer.", "anchors": ["oceanmesh/edgefx.py:enforce_mesh_size_bounds_elevation"]}
{"id": "C40", "title": "Box containment is a sound order", "statement": "bbox_contains is reflexive and transitive; for a non-global outer box it is exactly geometric containment. (For boxes spanning >=300 by >=150 degrees it answers True for every inner box.)", "quantifier": "all boxes", "why_tests_cant": "The input space is unbounded; a test fixes one mesh and one answer.", "anchors": ["oceanmesh/region.py:bbox_contains", "oceanmesh/region.py:is_global_bbox"]}
{"id": "C41", "title": "Stereographic projection round-trips", "statement": "to_lat_lon(to_stereo(lon,lat)) = (lon,lat) for all lon in (-180,180], lat in (-90,90); to_stereo(to_lat_lon(u,v)) = (u,v) for all (u,v); stereo_to_3d lands on the sphere.", "quantifier": "all real coordinates in range, all radii > 0", "why_tests_cant": "The input space is unbounded; a test fixes one mesh and one answer.", "anchors": ["oceanmesh/region.py:to_stereo", "oceanmesh/region.py:to_lat_lon", "oceanmesh/region.py:stereo_to_3d", "oceanmesh/region.py:to_3d"]}
{"id": "C42", "title": "A Region always holds an ordered box and a failed transform leaves it unchanged", "statement": "Every Region that can be constructed has xmin<=xmax and ymin<=ymax; transform_to either updates both box and CRS or raises with both unchanged.", "quantifier": "all inputs, all coordinate transformations including failing ones", "why_tests_cant": "Quantifies over arbitrary CRS transformations and failures.", "anchors": ["oceanmesh/region.py:Region"]}
{"id": "C43", "title": "NaN-separated arrays and lists of parts round-trip", "statement": "Splitting a NaN-terminated array into parts and concatenating returns the array; concatenating parts and splitting returns the parts.", "quantifier": "all arrays of non-empty NaN-terminated parts", "why_tests_cant": "The input space is unbounded; a test fixes one mesh and one answer.", "anchors": ["oceanmesh/geodata.py:_convert_to_array", "oceanmesh/geodata.py:_convert_to_list"]}
{"id": "C44", "title": "Densified shorelines keep every vertex and bound every gap", "statement": "_densify keeps all original points in order and splits each segment whose end lies in the radius so that consecutive coordinates differ by at most maxdiff.", "quantifier": "all polylines, all maxdiff>0, all masks", "why_tests_cant": "The input space is unbounded; a test fixes one mesh and one answer.", "anchors": ["oceanmesh/geodata.py:_densify"]}
{"id": "C45", "title": "Chaikin smoothing keeps the end points and the bounding box and doubles the count", "statement": "After k refinements of n points there are n*2^k points, the first and last are unchanged and all coordinates stay in the original range.", "quantifier": "all polylines, all k", "why_tests_cant": "The input space is unbounded; a test fixes one mesh and one answer.", "anchors": ["oceanmesh/geodata.py:_chaikins_corner_cutting"]}
{"id": "C46", "title": "remove_dup removes repeated points and nothing else", "statement": "For a polyline remove_dup returns the points without consecutive repeats. (Fails for (n,2) arrays: it removes the points with x=y and repeats the last one; repeats stay.)", "quantifier": "all point arrays", "why_tests_cant": "The shapefile tests contain no point with equal coordinates.", "anchors": ["oceanmesh/geodata.py:remove_dup"]}
{"id": "C47", "title": "Orientation test agrees with the polygon's signed area", "statement": "_is_path_ccw is True exactly for counter-clockwise simple polygons. (Holds for convex polygons with at least four path points; fails when the first corner is reflex.)", "quantifier": "all simple polygons", "why_tests_cant": "The input space is unbounded; a test fixes one mesh and one answer.", "anchors": ["oceanmesh/geodata.py:_is_path_ccw"]}
{"id": "C48", "title": "DEM values sit at the right grid index", "statement": "DEM stores raster[row][col] at index (col, nrows-1-row) for the rasterio path, so a higher second index is further north, for every raster. (The xarray fallback with ascending latitude stores the raster upside down.)", "quantifier": "all rasters", "why_tests_cant": "The input space is unbounded; a test fixes one mesh and one answer.", "anchors": ["oceanmesh/geodata.py:DEM", "oceanmesh/geodata.py:_read_dem_array_and_meta", "oceanmesh/geodata.py:_xr_subset_to_outputs"]}
{"id": "C49", "title": "NetCDF sub-dataset choice prefers overlapping data", "statement": "_pick_netcdf_open_target returns an overlapping sub-dataset whenever one exists. (Fails: the largest area wins regardless of overlap.)", "quantifier": "all lists of sub-datasets", "why_tests_cant": "The input space is unbounded; a test fixes one mesh and one answer.", "anchors": ["oceanmesh/geodata.py:_pick_netcdf_open_target"]}
{"id": "C50", "title": "Multiscale domain validation is sound", "statement": "If _validate_multiscale_domains reports success then the lists have equal length, at most one domain is stereographic, it comes first, and each regional box is contained in the global box; failures never depend on domain functions.", "quantifier": "all lists of domains and sizing functions with arbitrary metadata", "why_tests_cant": "The input space is unbounded; a test fixes one mesh and one answer.", "anchors": ["oceanmesh/mesh_generator.py:_validate_multiscale_domains", "oceanmesh/mesh_generator.py:_validate_global_domain_and_regions"]}
{"id": "C51", "title": "Every documented option of generate_multiscale_mesh can be used", "statement": "Passing any accepted keyword does not make generate_multiscale_mesh fail. (Fails: lock_boundary, stereo, min_edge_length and points collide with arguments it passes itself, after all nests have been meshed.)", "quantifier": "all accepted option names", "why_tests_cant": "The input space is unbounded; a test fixes one mesh and one answer.", "anchors": ["oceanmesh/mesh_generator.py:generate_multiscale_mesh", "oceanmesh/mesh_generator.py:_parse_kwargs"]}
{"id": "C52", "title": "compute_minimum is the pointwise minimum with a valid hmin", "statement": "The returned grid is at every cell the minimum of the inputs interpolated to the first grid, never larger than any of them, and its hmin is the smallest positive finite value or an error is raised.", "quantifier": "all lists of grids", "why_tests_cant": "The input space is unbounded; a test fixes one mesh and one answer.", "anchors": ["oceanmesh/grid.py:compute_minimum"]}
{"id": "C53", "title": "Finite differences are exact for planes", "statement": "_earth_gradient returns the exact slopes of every plane at every cell including the edges.", "quantifier": "all planes, all grid sizes >= 2, all spacings > 0", "why_tests_cant": "The input space is unbounded; a test fixes one mesh and one answer.", "anchors": ["oceanmesh/edgefx.py:_earth_gradient"]}
{"id": "C54", "title": "Delaunay wrapper hands out consistent indices", "statement": "After any history of inserts, removals and moves, get_finite_vertices followed by get_finite_cells returns in-range indices whose points are the face corners. (Without the first call the indices can be stale or out of range.)", "quantifier": "all histories of operations, all triangulation engines", "why_tests_cant": "Quantifies over call histories.", "anchors": ["oceanmesh/cpp/delaunay_class.cpp", "oceanmesh/mesh_generator.py:_get_topology"]}
{"id": "C55", "title": "make_mesh_boundaries_traversable returns for every valid mesh", "statement": "For every in-range edge-manifold mesh of proper triangles make_mesh_boundaries_traversable returns a mesh. (Fails: when the boundary needs repair and no component has more than min_disconnected_area of the area, all faces are deleted and an empty float array is used as an index.)", "quantifier": "all meshes, all random draws", "why_tests_cant": "The input space is unbounded; a test fixes one mesh and one answer.", "anchors": ["oceanmesh/clean.py:make_mesh_boundaries_traversable", "oceanmesh/clean.py:delete_exterior_faces"]}
{"id": "C56", "title": "mesh_clean returns a well-formed mesh with a traversable boundary", "statement": "Whatever mesh_clean returns uses every vertex, has no repeated face or point and no clockwise face; each boundary vertex has exactly two boundary edges unless smoothing moved two points to within the merging tolerance; without smoothing every face is a face of the input.", "quantifier": "all meshes, all options, all random draws, all quality functions", "why_tests_cant": "Composition of six passes with random choices.", "anchors": ["oceanmesh/clean.py:mesh_clean"]}
{"id": "C57", "title": "Gradient limiter keeps every admissible field", "statement": "Any size field that lies below the input and obeys the gradation on all eight neighbours lies below the output as well, whatever the iteration limit; so sizes are lowered no more than the gradation requires.", "quantifier": "all grids, all admissible fields, all iteration limits", "why_tests_cant": "The input space is unbounded; a test fixes one mesh and one answer.", "anchors": ["oceanmesh/cpp/HamiltonJacobi.cpp:c_gradient_limit"]}
{"id": "C58", "title": "A shoreline domain has the sign of its polygons and lies inside its covering", "statement": "At finite points the signed distance is negative exactly inside both the shoreline and the bounding polygon (outside for invert=True) and zero exactly at polygon vertices; where it is negative the covering is negative too. (The last part fails for invert=True, and then the nests of a multiscale domain overlap.)", "quantifier": "all point-in-polygon tests and nearest-vertex distances, all points", "why_tests_cant": "The input space is unbounded; a test fixes one mesh and one answer.", "anchors": ["oceanmesh/signed_distance_function.py:signed_distance_function"]}
{"id": "C59", "title": "The box of a combined domain contains its interior", "statement": "If the interior of every operand lies in that operand's bbox, the interior of the Union, Intersection or Difference lies in the combined bbox; for Difference the first operand's box is enough.", "quantifier": "all operand lists", "why_tests_cant": "The input space is unbounded; a test fixes one mesh and one answer.", "anchors": ["oceanmesh/signed_distance_function.py:_compute_bbox"]}
{"id": "C60", "title": "A multiscale domain can be evaluated whatever kind of domains it is built from", "statement": "multiscale_signed_distance_function returns domains that can be evaluated. (Fails: a domain without covering, such as create_bbox or a Union, in any place but the first is accepted, and every later evaluation raises TypeError.)", "quantifier": "all lists of domains, all query points", "why_tests_cant": "Accepted at construction and fails only when meshing starts.", "anchors": ["oceanmesh/signed_distance_function.py:multiscale_signed_distance_function"]}
{"id": "C61", "title": "A query is reported on the boundary only if it is within ftol of an edge", "statement": "BNDS is True only for queries whose distance to some edge is at most ftol. (Holds for the compiled kernel; the ray caster compares ftol with a dot product and accepts points far beyond the end of a short edge.)", "quantifier": "all polygons, tolerances and queries", "why_tests_cant": "The input space is unbounded; a test fixes one mesh and one answer.", "anchors": ["oceanmesh/geometry/point_in_polygon.py:_inpoly_raycasting", "oceanmesh/geometry/point_in_polygon_.pyx:inpoly2_fast"]}
{"id": "C62", "title": "Reported ocean sections have at least min_nodes_threshold nodes", "statement": "Documented: min_nodes_threshold is the minimum number of nodes to be considered a boundary section. (Fails: the parameter is only used as a gap length; three-node sections are returned with threshold 10.)", "quantifier": "all boundaries, depth patterns and thresholds", "why_tests_cant": "The input space is unbounded; a test fixes one mesh and one answer.", "anchors": ["oceanmesh/boundary.py:identify_ocean_boundary_sections"]}
{"id": "C63", "title": "Ocean sections are found on the whole boundary", "statement": "Every boundary loop is examined and a run of deep nodes that passes through the first node of the loop is one section. (Fails: only the loop of the first boundary edge is examined, and the loop is cut open at its first node.)", "quantifier": "all meshes and depth patterns", "why_tests_cant": "The input space is unbounded; a test fixes one mesh and one answer.", "anchors": ["oceanmesh/boundary.py:identify_ocean_boundary_sections"]}
{"id": "C64", "title": "Transforming a Region keeps covering the transformed area", "statement": "After transform_to the new box contains the image of every point of the old box. (Only two corners are transformed: true for separable increasing transformations, false in general; an axis-swapping transformation makes the call raise.)", "quantifier": "all coordinate transformations, all boxes", "why_tests_cant": "The input space is unbounded; a test fixes one mesh and one answer.", "anchors": ["oceanmesh/region.py:Region"]}
{"id": "C65", "title": "t3s output can be read back", "statement": "For every mesh, reading the file written by write_to_t3s gives back the same numbers of nodes and elements, the coordinates within half a unit of the sixth decimal and the connectivity as stored (counted from 0).", "quantifier": "all meshes, all dates", "why_tests_cant": "The input space is unbounded; a test fixes one mesh and one answer.", "anchors": ["oceanmesh/mesh_generator.py:write_to_t3s"]}
{"id": "C66", "title": "Fixed points are kept", "statement": "Every point of pfix is a vertex of the generated mesh. (Holds, up to the snapping of fix_mesh, for fixed points that are among the initial points, not outside, and on a kept face; fails when two fixed points have the same nearest vertex.)", "quantifier": "all domains, fixed points, initial points, Delaunay answers, forces", "why_tests_cant": "The loop state is arbitrary.", "anchors": ["oceanmesh/mesh_generator.py:generate_mesh"]}
{"id": "C67", "title": "Locked boundary vertices do not move", "statement": "With lock_boundary the vertices on the boundary of the triangulation keep their positions. (Holds for vertices that are not outside the domain; the projection still moves the others.)", "quantifier": "all domains, points and Delaunay answers", "why_tests_cant": "The input space is unbounded; a test fixes one mesh and one answer.", "anchors": ["oceanmesh/mesh_generator.py:generate_mesh", "oceanmesh/mesh_generator.py:_project_points_back"]}
{"id": "C68", "title": "Projection puts outside points on the boundary and leaves the others", "statement": "_project_points_back changes no point with signed distance <= 0, never changes the number of points, and moves an outside point to distance 0 when the signed distance is affine near it. (Fails when the squared gradient is below deps.)", "quantifier": "all points and distance functions", "why_tests_cant": "The input space is unbounded; a test fixes one mesh and one answer.", "anchors": ["oceanmesh/mesh_generator.py:_project_points_back"]}
{"id": "C69", "title": "Initial points lie on the lattice of the box and inside the domain", "statement": "_generate_initial_points returns the fixed points followed by lattice points of the box (which may exceed it by less than one step) with signed distance below geps; lattice points with the smallest size are never dropped.", "quantifier": "all boxes, sizing functions, domains and random draws", "why_tests_cant": "All random draws are covered.", "anchors": ["oceanmesh/mesh_generator.py:_generate_initial_points"]}
{"id": "C70", "title": "Forces depend on relative sizes only", "statement": "Multiplying the sizing function by a positive constant does not change the result of _compute_forces.", "quantifier": "all points, triangulations and sizing functions, both coordinate systems", "why_tests_cant": "The input space is unbounded; a test fixes one mesh and one answer.", "anchors": ["oceanmesh/mesh_generator.py:_compute_forces"]}
{"id": "C71", "title": "Grid evaluation is bilinear, exact at nodes and stays within the stored range", "statement": "For a regional grid with finite sizes the interpolant is the bilinear blend of the four surrounding nodes, equals the stored value at each node and lies within the range of the stored values at covered points; outside it returns 999999 or extrapolates. (Extrapolation of positive sizes can be negative.)", "quantifier": "all grids, all points", "why_tests_cant": "The input space is unbounded; a test fixes one mesh and one answer.", "anchors": ["oceanmesh/grid.py:build_interpolant", "oceanmesh/grid.py:create_vectors"]}
{"id": "C72", "title": "The multiscale sizing function is the minimum of its grids", "statement": "The function returned by multiscale_sizing_function gives the minimum of the grids' sizes, where the first grid extrapolates and the nests count only inside their own extent; within the first grid it stays in the range of the stored sizes.", "quantifier": "all lists of regional grids, all points", "why_tests_cant": "The input space is unbounded; a test fixes one mesh and one answer.", "anchors": ["oceanmesh/edgefx.py:multiscale_sizing_function"]}
{"id": "C73", "title": "Blending a nest into a coarser grid", "statement": "blend_into keeps the coarse sizes outside the padded nest, takes the nest's sizes at nodes nearest to the nest, interpolates exactly the remaining nodes from all others, stays within the range of both grids and records the smallest size as hmin. (The recorded hmin ignores every node that was not interpolated, so it can exceed the smallest size.)", "quantifier": "all pairs of grids, all pad widths, all interpolation engines", "why_tests_cant": "The input space is unbounded; a test fixes one mesh and one answer.", "anchors": ["oceanmesh/grid.py:blend_into"]}
{"id": "C74", "title": "Polygon areas", "statement": "_poly_area is half the absolute shoelace sum of the closed polygon through the points; the signed area does not depend on the starting point or on a repeated closing point and changes sign when the path is reversed.", "quantifier": "all polygons", "why_tests_cant": "The input space is unbounded; a test fixes one mesh and one answer.", "anchors": ["oceanmesh/geodata.py:_poly_area"]}
{"id": "C75", "title": "Shoreline parts are selected by overlap with the box", "statement": "_is_overlapping is True exactly when the extent of a geometry (possibly flat) has a point strictly inside the box.", "quantifier": "all boxes with positive extent, all geometry extents", "why_tests_cant": "The input space is unbounded; a test fixes one mesh and one answer.", "anchors": ["oceanmesh/geodata.py:_is_overlapping", "oceanmesh/geodata.py:Shoreline._read"]}
{"id": "C76", "title": "DEM grid nodes sit at the pixel centres and the grid keeps the file's CRS", "statement": "For a georeferenced raster read as a whole, node (c, nrows-1-r) of the DEM lies at the centre of pixel (r, c), every point of the raster's extent has an elevation, and the CRS is the file's. (Fails: nodes lie at the south-west pixel corners, points in the last pixel column or row evaluate to 999999.)", "quantifier": "all georeferenced rasters", "why_tests_cant": "The input space is unbounded; a test fixes one mesh and one answer.", "anchors": ["oceanmesh/geodata.py:DEM", "oceanmesh/geodata.py:_read_dem_array_and_meta", "oceanmesh/grid.py:Grid.build_interpolant"]}
{"id": "C77", "title": "Geographic coordinates are recognised by magnitude", "statement": "_infer_crs_from_coordinates answers True exactly when no coordinate exceeds 180 in magnitude.", "quantifier": "all boxes", "why_tests_cant": "The input space is unbounded; a test fixes one mesh and one answer.", "anchors": ["oceanmesh/geodata.py:_infer_crs_from_coordinates"]}
{"id": "C78", "title": "create_circle_coords draws a circle", "statement": "All points lie on the circle, one every arc_res degrees counter-clockwise from angle 0 up to the first at or beyond 360 degrees; the ring is closed exactly when arc_res divides 360.", "quantifier": "all radii, centres and positive rational resolutions", "why_tests_cant": "The input space is unbounded; a test fixes one mesh and one answer.", "anchors": ["oceanmesh/geodata.py:create_circle_coords"]}
{"id": "C79", "title": "A region transformed to the raster's CRS is still covered by its box", "statement": "_transform_bbox_to_src returns a box that contains the image of every point of the region. (Fails in general: only two corners are transformed; holds for transformations that treat the axes separately and monotonically.)", "quantifier": "all boxes and coordinate transformations", "why_tests_cant": "The input space is unbounded; a test fixes one mesh and one answer.", "anchors": ["oceanmesh/geodata.py:_transform_bbox_to_src"]}
{"id": "C80", "title": "DEM.flip negates the elevations in place", "statement": "flip changes the sign of every value and moves none (on a box of exactly +-180 degrees the outer columns change places again).", "quantifier": "all grids", "why_tests_cant": "The input space is unbounded; a test fixes one mesh and one answer.", "anchors": ["oceanmesh/geodata.py:DEM.flip", "oceanmesh/grid.py:Grid.build_interpolant"]}
{"id": "C81", "title": "The documented requirements on multiscale domains are enforced", "statement": "generate_multiscale_mesh documents that regional-only domains share a CRS and that, with a global domain, all domains and sizing grids carry CRS metadata. (Not enforced: mixed regional CRSs and missing CRSs pass; what is enforced is stated exactly.)", "quantifier": "all lists of domains and sizing functions", "why_tests_cant": "The input space is unbounded; a test fixes one mesh and one answer.", "anchors": ["oceanmesh/mesh_generator.py:_validate_multiscale_domains", "oceanmesh/mesh_generator.py:generate_multiscale_mesh"]}
{"id": "C82", "title": "The blending step works with the smallest size of the nests", "statement": "min_edge_length passed to the final generate_mesh is the smallest hmin of the nests. (Fails when all exceed 9999: then it is 9999.)", "quantifier": "all lists of nests", "why_tests_cant": "The input space is unbounded; a test fixes one mesh and one answer.", "anchors": ["oceanmesh/mesh_generator.py:generate_multiscale_mesh"]}
{"id": "C83", "title": "Smoothed sizing grids get a valid hmin", "statement": "_sanitize_smoothed_sizing_grid leaves a grid with positive finite hmin alone, otherwise sets hmin to the smallest positive finite value, and raises ValueError exactly when there is none.", "quantifier": "all grids", "why_tests_cant": "The input space is unbounded; a test fixes one mesh and one answer.", "anchors": ["oceanmesh/mesh_generator.py:_sanitize_smoothed_sizing_grid"]}
{"id": "C84", "title": "Cells of freshly inserted points index the inserted points", "statement": "After insertions only, get_finite_cells alone returns positions in the list of all inserted points in input order, when the points are all different or there is one insertion. (Fails for repeated points and two insertions: numbering restarts at number_of_vertices.)", "quantifier": "all triangulation engines and insertion histories", "why_tests_cant": "The input space is unbounded; a test fixes one mesh and one answer.", "anchors": ["oceanmesh/cpp/delaunay_class.cpp:insert", "oceanmesh/cpp/delaunay_class.cpp:get_finite_cells"]}
{"id": "C85", "title": "Delaunay remove deletes exactly the vertices named", "statement": "remove(idx) deletes exactly the vertices at those positions of the vertex table and touches no dead handle, exactly when the indices are in range and different.", "quantifier": "all triangulation engines, histories and index lists", "why_tests_cant": "The input space is unbounded; a test fixes one mesh and one answer.", "anchors": ["oceanmesh/cpp/delaunay_class.cpp:remove"]}
{"id": "C86", "title": "Delaunay move puts the named vertices at their new positions", "statement": "move(idx, positions) puts each named vertex at its position and keeps all others, if the positions after the call are all different. (Fails when a position is the old one of a vertex moved later: a vertex is lost.)", "quantifier": "all triangulation engines, histories, index lists and positions", "why_tests_cant": "The input space is unbounded; a test fixes one mesh and one answer.", "anchors": ["oceanmesh/cpp/delaunay_class.cpp:move"]}
{"id": "C87", "title": "Face neighbours refer to rows of the cell table", "statement": "get_finite_face_neighbors after get_finite_cells gives for every face and corner the row of the opposite face, or -1 outside.", "quantifier": "all triangulation engines and histories", "why_tests_cant": "The input space is unbounded; a test fixes one mesh and one answer.", "anchors": ["oceanmesh/cpp/delaunay_class.cpp:get_finite_face_neighbors"]}
{"id": "C88", "title": "Enforcing a gradation only lowers sizes", "statement": "enforce_mesh_gradation keeps nodes, stored minimum and extrapolation flag of the grid; no size grows, none falls below the smallest size, and the smallest is kept. Negative gradations and non-square cells are refused.", "quantifier": "all grids of finite non-negative sizes on regional boxes, gradations, CRS arguments", "why_tests_cant": "The input space is unbounded; a test fixes one mesh and one answer.", "anchors": ["oceanmesh/edgefx.py:enforce_mesh_gradation"]}
{"id": "C89", "title": "The enforced gradation holds at and between nodes", "statement": "If the limiter stops within its passes, sizes at side neighbours differ by at most dx * gradation (plus the solver's tolerance), and the interpolated size changes by at most gradation per unit of axis distance anywhere in the grid; sizes that already obey the gradation are kept.", "quantifier": "all grids of finite non-negative sizes on regional boxes, gradations, pairs of points", "why_tests_cant": "The input space is unbounded; a test fixes one mesh and one answer.", "anchors": ["oceanmesh/edgefx.py:enforce_mesh_gradation", "oceanmesh/grid.py:build_interpolant"]}
{"id": "C90", "title": "Gradation on boxes around the globe", "statement": "enforce_mesh_gradation lowers sizes and enforces the gradation on a global box too. (Fails: first and last column are exchanged afterwards.)", "quantifier": "all grids on global boxes", "why_tests_cant": "The input space is unbounded; a test fixes one mesh and one answer.", "anchors": ["oceanmesh/edgefx.py:enforce_mesh_gradation", "oceanmesh/grid.py:build_interpolant"]}
{"id": "C91", "title": "Enforcing a gradation keeps the coordinate system", "statement": "The grid returned by enforce_mesh_gradation has the coordinate system of its argument. (Fails: it gets the crs argument, by default EPSG:4326.)", "quantifier": "all grids and CRS", "why_tests_cant": "The input space is unbounded; a test fixes one mesh and one answer.", "anchors": ["oceanmesh/edgefx.py:enforce_mesh_gradation"]}
{"id": "C92", "title": "The stereographic pass", "statement": "With stereo=True, nodes north of the equator take the size of a limited grid on the projection plane (999999 where it does not reach), all others keep the limited size, and the result is at most these sizes.", "quantifier": "all grids on regional boxes, projections, gradations", "why_tests_cant": "The input space is unbounded; a test fixes one mesh and one answer.", "anchors": ["oceanmesh/edgefx.py:enforce_mesh_gradation"]}
{"id": "C93", "title": "Distance sizes", "statement": "The distance sizing functions mark exactly the nodes nearest to the points and give each node h0 + rate * distance, limited by the maximum; distance 999 if there is no contour.", "quantifier": "all point sets, boxes, rates, distance solvers", "why_tests_cant": "The input space is unbounded; a test fixes one mesh and one answer.", "anchors": ["oceanmesh/edgefx.py:distance_sizing_from_point_function", "oceanmesh/edgefx.py:distance_sizing_from_line_function", "oceanmesh/grid.py:find_indices"]}
{"id": "C94", "title": "Distance sizes respect their bounds", "statement": "Every size lies between h0, the stored minimum, and the given maximum.", "quantifier": "all point sets, boxes, non-negative rates, maxima not below h0, distance solvers", "why_tests_cant": "The input space is unbounded; a test fixes one mesh and one answer.", "anchors": ["oceanmesh/edgefx.py:distance_sizing_from_point_function"]}
{"id": "C95", "title": "Lines are sampled densely", "statement": "_resample_line takes samples so that each place of the line is within half the edge length of one. (Fails for lines not longer than half the edge length, which are refused.)", "quantifier": "all lines and edge lengths", "why_tests_cant": "The input space is unbounded; a test fixes one mesh and one answer.", "anchors": ["oceanmesh/edgefx.py:_resample_line"]}
{"id": "C96", "title": "Nodes outside the bounding polygon are masked", "statement": "distance_sizing_function uses the shoreline points inside the bounding polygon and masks exactly the nodes outside. (Fails without shoreline points: all are masked.)", "quantifier": "all point sets, polygons, boxes, distance solvers", "why_tests_cant": "The input space is unbounded; a test fixes one mesh and one answer.", "anchors": ["oceanmesh/edgefx.py:distance_sizing_function"]}
{"id": "C97", "title": "Feature sizes", "statement": "feature_sizing_function gives each node 2 (distance to medial axis + distance to shoreline) / r of the coinciding node of the half-step grid, raised to the minimum and lowered to the maximum; r <= 0 is refused.", "quantifier": "all point sets, boxes, solvers, medial axes", "why_tests_cant": "The input space is unbounded; a test fixes one mesh and one answer.", "anchors": ["oceanmesh/edgefx.py:feature_sizing_function"]}
{"id": "C98", "title": "The stored minimum bounds the feature sizes", "statement": "hmin of the feature sizing grid is a lower bound of its sizes. (Fails when no minimum is given.)", "quantifier": "all point sets, boxes, solvers, medial axes", "why_tests_cant": "The input space is unbounded; a test fixes one mesh and one answer.", "anchors": ["oceanmesh/edgefx.py:feature_sizing_function"]}
{"id": "C99", "title": "Filters of elevation data", "statement": "With resolution d, lowpass at wavelength w smooths at scale w/(2 pi d), highpass subtracts that, bandpass smooths at the smaller wavelength what highpass at the larger leaves; capitals do not matter; other names, an array of wavelengths for low/highpass, or anything but two wavelengths for band filters is a TypeError.", "quantifier": "all arrays, resolutions, wavelengths, names, smoothings", "why_tests_cant": "The input space is unbounded; a test fixes one mesh and one answer.", "anchors": ["oceanmesh/filterfx.py:filt2"]}
{"id": "C100", "title": "Bandstop filter keeps both sides of the band", "statement": "Bandstop yields lowpass at the larger wavelength plus highpass at the smaller. (Fails: the highpass part is subtracted.)", "quantifier": "all arrays, resolutions, wavelengths, smoothings", "why_tests_cant": "The input space is unbounded; a test fixes one mesh and one answer.", "anchors": ["oceanmesh/filterfx.py:filt2"]}
{"id": "C101", "title": "Slope sizes at every node", "statement": "Without coarsening, the size at each node is 2 pi / param times depth over (slope + 1e-10), in the DEM's unit, with the slope taken from the depths cut off and filtered as asked by central (one-sided at edges) differences, and within the limits; lattice, crs and extrapolation as documented.", "quantifier": "all DEMs, parameters, limits, pass filters, smoothings", "why_tests_cant": "The input space is unbounded; a test fixes one mesh and one answer.", "anchors": ["oceanmesh/edgefx.py:bathymetric_gradient_sizing_function", "oceanmesh/edgefx.py:_earth_gradient"]}
{"id": "C102", "title": "Slope sizes over a plane sea bed", "statement": "Over a plane sea bed with gradient (p, q) in a projected DEM, the size is 2 pi / param times depth over sqrt(p^2+q^2) (plus 1e-10), within the limits.", "quantifier": "all planes, lattices, parameters, limits", "why_tests_cant": "The input space is unbounded; a test fixes one mesh and one answer.", "anchors": ["oceanmesh/edgefx.py:bathymetric_gradient_sizing_function"]}
{"id": "C103", "title": "Slope sizes within the limits", "statement": "Whenever the slope sizing function returns, hmin is the requested minimum (in the DEM's unit; the DEM's resolution if none), no size is below it, and none exceeds the maximum unless the maximum is below the minimum.", "quantifier": "all DEMs, parameters, limits, filters, coarsenings", "why_tests_cant": "The input space is unbounded; a test fixes one mesh and one answer.", "anchors": ["oceanmesh/edgefx.py:bathymetric_gradient_sizing_function"]}
{"id": "C104", "title": "Coarsened slope sizes", "statement": "A coarsening of c gives a lattice c times coarser carrying the fine sizes at shared nodes, with the same hmin, crs and extrapolation; coarsenings that are not positive whole numbers are refused with ValueError. (Extrapolation is lost.)", "quantifier": "all DEMs, parameters, coarsenings", "why_tests_cant": "The input space is unbounded; a test fixes one mesh and one answer.", "anchors": ["oceanmesh/edgefx.py:bathymetric_gradient_sizing_function"]}
{"id": "C105", "title": "Rossby radius filters smooth the sea bed", "statement": "The Rossby radius filters yield slopes of the sea bed smoothed at the Rossby radius. (Fails: the outcome is always the unsmoothed slopes, by blocks of columns.)", "quantifier": "all DEMs, lattices, quotients, smoothings", "why_tests_cant": "The input space is unbounded; a test fixes one mesh and one answer.", "anchors": ["oceanmesh/edgefx.py:rossby_radius_filter"]}
{"id": "C106", "title": "Rossby radius filters are refused or work everywhere", "statement": "The Rossby radius filters, marked not implemented, are refused, or else return on every lattice. (Neither.)", "quantifier": "all DEMs, lattices, quotients", "why_tests_cant": "The input space is unbounded; a test fixes one mesh and one answer.", "anchors": ["oceanmesh/edgefx.py:bathymetric_gradient_sizing_function", "oceanmesh/edgefx.py:rossby_radius_filter"]}
{"id": "C107", "title": "Each documented filter name takes effect", "statement": "Each documented type_of_filter other than off takes effect in the slope sizing function. (Fails for bandstop.)", "quantifier": "all DEMs, parameters, names", "why_tests_cant": "The input space is unbounded; a test fixes one mesh and one answer.", "anchors": ["oceanmesh/edgefx.py:bathymetric_gradient_sizing_function"]}
{"id": "C108", "title": "Wavelength sizes", "statement": "For a crs other than EPSG:4326, the size at each node is period times sqrt(gravity times depth, at least 1 m) over wl, within the limits; lattice, crs, extrapolation and hmin as documented.", "quantifier": "all DEMs, wl, periods, limits", "why_tests_cant": "The input space is unbounded; a test fixes one mesh and one answer.", "anchors": ["oceanmesh/edgefx.py:wavelength_sizing_function"]}
{"id": "C109", "title": "Wavelength sizes in the DEM's unit", "statement": "Wavelength sizes are in degrees for geographic DEMs and in metres for others. (Fails: the crs argument decides, and the latitude is taken for radians.)", "quantifier": "all DEMs, wl, periods", "why_tests_cant": "The input space is unbounded; a test fixes one mesh and one answer.", "anchors": ["oceanmesh/edgefx.py:wavelength_sizing_function"]}
{"id": "C110", "title": "The stored minimum bounds the wavelength sizes", "statement": "hmin of the wavelength sizing grid is a lower bound of its sizes. (Fails when the maximum is below all wavelength sizes.)", "quantifier": "all DEMs, wl, periods, limits", "why_tests_cant": "The input space is unbounded; a test fixes one mesh and one answer.", "anchors": ["oceanmesh/edgefx.py:wavelength_sizing_function"]}
{"id": "C111", "title": "Edges are split into rings exactly", "statement": "When every edge end has two edges, _edges_to_rings terminates and its rings run through every vertex once and every edge once; otherwise it raises ValueError.", "quantifier": "all node arrays and edge lists with valid indices", "why_tests_cant": "The input space is unbounded; a test fixes one mesh and one answer.", "anchors": ["oceanmesh/geometry/point_in_polygon.py:_edges_to_rings"]}
{"id": "C112", "title": "The Shapely backend follows the even-odd rule", "statement": "For well-formed rings and a geometry engine that decides them rightly, the Shapely backend reports exactly the queries off the boundary with an odd number of crossed sides, and flags boundary queries.", "quantifier": "all engines meeting the contract, node arrays, edge lists, queries", "why_tests_cant": "The input space is unbounded; a test fixes one mesh and one answer.", "anchors": ["oceanmesh/geometry/point_in_polygon.py:_inpoly_shapely"]}
{"id": "C113", "title": "Boundary queries count as inside", "statement": "Whenever BNDS is True so is STAT, as the docstring of inpoly2 says. (Fails for the Shapely and Matplotlib backends.)", "quantifier": "all backends, node arrays, edge lists, queries, tolerances", "why_tests_cant": "The input space is unbounded; a test fixes one mesh and one answer.", "anchors": ["oceanmesh/geometry/point_in_polygon.py:inpoly2"]}
{"id": "C114", "title": "A query's answer does not depend on the other queries", "statement": "inpoly2 answers each query as a function of that query, the nodes, the edges and the environment. (Fails when the number of queries selects the backend.)", "quantifier": "all environments, node arrays, edge lists, queries", "why_tests_cant": "The input space is unbounded; a test fixes one mesh and one answer.", "anchors": ["oceanmesh/geometry/point_in_polygon.py:_select_method"]}
{"id": "C115", "title": "The Matplotlib backend follows the even-odd rule", "statement": "Off the boundary the Matplotlib backend reports a query as inside exactly when an odd number of sides are crossed. (Fails in holes.)", "quantifier": "all path engines that take the union of parts, node arrays, edge lists, queries", "why_tests_cant": "The input space is unbounded; a test fixes one mesh and one answer.", "anchors": ["oceanmesh/geometry/point_in_polygon.py:_inpoly_matplotlib"]}
{"id": "C116", "title": "Simplification keeps what is inside", "statement": "_nth_simplify keeps every point of a part inside the box, in order, and its first and last points, adds no others, and leaves rings closed and without repeated points. (The last two fail.)", "quantifier": "all parts, all masks", "why_tests_cant": "The input space is unbounded; a test fixes one mesh and one answer.", "anchors": ["oceanmesh/geodata.py:_nth_simplify"]}
{"id": "C117", "title": "Clipping to corners", "statement": "_clip_polys_2 leaves rings inside the inflated box unchanged, drops rings outside, and of others keeps the inside points in order and adds at most the four corners, closing the line. (Closure holds up to numpy's tolerance only; if all rings are outside it raises ValueError.)", "quantifier": "all parts, boxes, masks right off the box's sides", "why_tests_cant": "The input space is unbounded; a test fixes one mesh and one answer.", "anchors": ["oceanmesh/geodata.py:_clip_polys_2"]}
{"id": "C118", "title": "Clipping gives the rings of the intersections", "statement": "_clip_polys writes each ring contained in the inflated box once, and else the exterior rings of its intersection with the box. (Fails for invalid polygons, written once per part of their buffer, and raises for polygons that only touch the box.)", "quantifier": "all parts, boxes, geometry engines", "why_tests_cant": "The input space is unbounded; a test fixes one mesh and one answer.", "anchors": ["oceanmesh/geodata.py:_clip_polys"]}
{"id": "C119", "title": "Shorelines are classified rightly", "statement": "_classify_shoreline takes as islands the large enough parts inside what is left of the box, as mainland those that overlap it, and its region is the box without land. (The last fails when a polygon covers the box.)", "quantifier": "all parts, boxes, geometry engines that behave like sets; not stereo", "why_tests_cant": "The input space is unbounded; a test fixes one mesh and one answer.", "anchors": ["oceanmesh/geodata.py:_classify_shoreline"]}
{"id": "C120", "title": "Small islands are removed at the documented size", "statement": "A Shoreline removes islands of area below minimum_area_mult * h0**2 and only those, and refuses parameters that are not positive. (Fails: the threshold is a quarter of that.)", "quantifier": "all shorelines, h0, multipliers", "why_tests_cant": "The input space is unbounded; a test fixes one mesh and one answer.", "anchors": ["oceanmesh/geodata.py:Shoreline.__init__"]}
{"id": "C121", "title": "The CRS given for a box is used", "statement": "A Shoreline uses the CRS given with a tuple or array, and a Region's with a Region; the box of an array is the box around it. (Fails for EPSG:4326 given with a projected-looking tuple.)", "quantifier": "all boxes and CRSs", "why_tests_cant": "The input space is unbounded; a test fixes one mesh and one answer.", "anchors": ["oceanmesh/geodata.py:Shoreline.__init__"]}
{"id": "C122", "title": "The stereographic box lies in the extent", "statement": "The box of a stereographic Shoreline is its extent scaled by 0.99 and lies within the extent. (The latter fails unless coordinates take both signs.)", "quantifier": "all shorelines", "why_tests_cant": "The input space is unbounded; a test fixes one mesh and one answer.", "anchors": ["oceanmesh/geodata.py:Shoreline.__init__"]}
{"id": "C123", "title": "Polygon files are read by extension", "statement": "get_polygon_coordinates reads .shp, .geojson and .gpkg as vector files, .csv as text, and fails on every other name.", "quantifier": "all file names", "why_tests_cant": "The input space is unbounded; a test fixes one mesh and one answer.", "anchors": ["oceanmesh/geodata.py:get_polygon_coordinates"]}
{"id": "C124", "title": "The minimum edge length is positive and finite", "statement": "For a Grid, generate_mesh uses the grid's own minimum when it is positive and finite, otherwise the least positive finite value of the grid, and fails with ValueError when there is none; for a function the given minimum must be positive.", "quantifier": "all grids and option values", "why_tests_cant": "The input space is unbounded; a test fixes one mesh and one answer.", "anchors": ["oceanmesh/mesh_generator.py:_unpack_sizing", "oceanmesh/mesh_generator.py:generate_mesh"]}
{"id": "C125", "title": "Boxes are two-dimensional", "statement": "generate_mesh accepts exactly boxes of two intervals and starts from points in the box. (It fails: every even number of entries is accepted.)", "quantifier": "all box values", "why_tests_cant": "The input space is unbounded; a test fixes one mesh and one answer.", "anchors": ["oceanmesh/mesh_generator.py:_check_bbox", "oceanmesh/mesh_generator.py:_generate_initial_points"]}
{"id": "C126", "title": "Documented arguments are accepted", "statement": "A call of generate_mesh with documented arguments makes the initial points and runs the loop. (It fails for a float max_iter and for an empty list of fixed points.)", "quantifier": "all arguments", "why_tests_cant": "The input space is unbounded; a test fixes one mesh and one answer.", "anchors": ["oceanmesh/mesh_generator.py:generate_mesh", "oceanmesh/mesh_generator.py:_unpack_pfix"]}
{"id": "C127", "title": "Distortion factors follow the projection", "statement": "Both stereographic distortion factors are constant multiples of the local scale of to_stereo. (True of the one used for forces; false of the one used for starting points.)", "quantifier": "all places off the south pole", "why_tests_cant": "The input space is unbounded; a test fixes one mesh and one answer.", "anchors": ["oceanmesh/mesh_generator.py:_stereo_distortion", "oceanmesh/mesh_generator.py:_stereo_distortion_dist", "oceanmesh/region.py:to_stereo"]}
{"id": "C128", "title": "Starting points of a global mesh", "statement": "With stereo=True the starting points are the fixed points followed by projections of distinct lattice places of the globe where the distance is below geps. (Distinctness fails on the date line.)", "quantifier": "all steps, sizing and distance functions and draws", "why_tests_cant": "The input space is unbounded; a test fixes one mesh and one answer.", "anchors": ["oceanmesh/mesh_generator.py:_generate_initial_points"]}
{"id": "C129", "title": "Multiscale grids are taken from coarse to fine", "statement": "multiscale_sizing_function refuses a list whose steps increase; otherwise it ends, with one grid per grid given, each in the place, with the steps and the CRS of the one given, the finest unchanged.", "quantifier": "all lists of grids, widths and interpolators", "why_tests_cant": "The input space is unbounded; a test fixes one mesh and one answer.", "anchors": ["oceanmesh/edgefx.py:multiscale_sizing_function"]}
{"id": "C130", "title": "Blending keeps sizes in range", "statement": "If all sizes given to multiscale_sizing_function lie in a range, so do the sizes of the blended grids and the values of the function returned.", "quantifier": "all lists of regional grids", "why_tests_cant": "The input space is unbounded; a test fixes one mesh and one answer.", "anchors": ["oceanmesh/edgefx.py:multiscale_sizing_function", "oceanmesh/grid.py:blend_into"]}
{"id": "C131", "title": "Blending leaves the grids given alone", "statement": "multiscale_sizing_function does not change the grids of its caller. (It fails: flags are changed, and the rows of a global grid are exchanged.)", "quantifier": "all lists of grids", "why_tests_cant": "The input space is unbounded; a test fixes one mesh and one answer.", "anchors": ["oceanmesh/edgefx.py:multiscale_sizing_function", "oceanmesh/grid.py:build_interpolant"]}
{"id": "C132", "title": "The blending zone has the width asked for", "statement": "The blending zone has as many cells of the finer grid as fit in blend_width metres. (It fails for systems in feet.)", "quantifier": "all widths and grids", "why_tests_cant": "The input space is unbounded; a test fixes one mesh and one answer.", "anchors": ["oceanmesh/edgefx.py:multiscale_sizing_function"]}
{"id": "C133", "title": "Reprojection keeps the sizes of the source", "statement": "reproject_to returns a grid with the frame of the target, and the sizes and the least size of the source. (The least size is that of the target when both have one CRS.)", "quantifier": "all pairs of grids and transformations", "why_tests_cant": "The input space is unbounded; a test fixes one mesh and one answer.", "anchors": ["oceanmesh/grid.py:reproject_to"]}
{"id": "C134", "title": "The border of an array is one round trip", "statement": "get_border visits each border cell exactly once, going from neighbour to neighbour and back to the start. (It fails for arrays of one row.)", "quantifier": "all arrays", "why_tests_cant": "The input space is unbounded; a test fixes one mesh and one answer.", "anchors": ["oceanmesh/grid.py:get_border"]}
{"id": "C135", "title": "Shoreline parts that meet the box are read, in order", "statement": "From a file of lines and polygons in the CRS asked for, _read returns exactly the parts whose bounding rectangle meets the inside of the box, in the order of the file, multi-part geometries as their parts; a larger box returns these parts too; ValueError if there are none.", "quantifier": "all files, boxes and CRSs", "why_tests_cant": "The input space is unbounded; a test fixes one mesh and one answer.", "anchors": ["oceanmesh/geodata.py:Shoreline._read", "oceanmesh/geodata.py:_is_overlapping"]}
{"id": "C136", "title": "Shoreline vertices are read unchanged", "statement": "What later steps take from a part read by _read is the list of its vertices in the file. (Vertices with equal coordinates are lost.)", "quantifier": "all files, boxes and CRSs", "why_tests_cant": "The input space is unbounded; a test fixes one mesh and one answer.", "anchors": ["oceanmesh/geodata.py:Shoreline._read", "oceanmesh/geodata.py:remove_dup"]}
{"id": "C137", "title": "All rings of the polygons that meet the box are read", "statement": "_read returns the interior rings of a polygon as well as its exterior. (It never reads interior rings.)", "quantifier": "all files and boxes", "why_tests_cant": "The input space is unbounded; a test fixes one mesh and one answer.", "anchors": ["oceanmesh/geodata.py:Shoreline._read"]}
{"id": "C138", "title": "Shoreline geometries are used in the CRS asked for", "statement": "transform_to leaves a file in the CRS asked for as it is and reprojects any other from its own CRS to that CRS, once; a file without CRS is taken to be in the CRS given. (A file without CRS is refused with AttributeError.)", "quantifier": "all files and CRSs", "why_tests_cant": "The input space is unbounded; a test fixes one mesh and one answer.", "anchors": ["oceanmesh/geodata.py:Shoreline.transform_to", "oceanmesh/geodata.py:Shoreline._read"]}
{"id": "C139", "title": "When reading a shoreline fails", "statement": "_read fails exactly when no part meets the box or one that does is neither line nor polygon, with ValueError. (Lines with a third coordinate fail too, polygons with one do not.)", "quantifier": "all files, boxes and CRSs", "why_tests_cant": "The input space is unbounded; a test fixes one mesh and one answer.", "anchors": ["oceanmesh/geodata.py:Shoreline._read"]}
{"id": "C140", "title": "The NetCDF fallback reads the right variable", "statement": "If rasterio's bounds are of no use, what is cut to the region is the first variable of two or more dimensions, at index 0 of its leading dimensions, with the coordinates named first in the lists of known names; nothing is found without such a variable or without known names.", "quantifier": "all data sets with labelled dimensions and coordinates", "why_tests_cant": "The input space is unbounded; a test fixes one mesh and one answer.", "anchors": ["oceanmesh/geodata.py:_try_subset_netcdf_with_xarray", "oceanmesh/geodata.py:_xr_pick_first_raster_data_array", "oceanmesh/geodata.py:_xr_reduce_to_2d", "oceanmesh/geodata.py:_xr_pick_coord_name"]}
{"id": "C141", "title": "Other variables and coordinates of a NetCDF file do not disturb the fallback", "statement": "A file with an elevation on (lat, lon) can be read whatever other variables and coordinates it has. (KeyError if the cell bounds come first or a second grid has coordinates x.)", "quantifier": "all data sets with labelled dimensions and coordinates", "why_tests_cant": "The input space is unbounded; a test fixes one mesh and one answer.", "anchors": ["oceanmesh/geodata.py:_try_subset_netcdf_with_xarray", "oceanmesh/geodata.py:_xr_pick_coord_name"]}
{"id": "C142", "title": "The order of dimensions in a NetCDF file does not matter", "statement": "A variable with dimensions lat, lon and others is reduced to lat and lon in whatever order they stand. (If one of them is not among the last two, nothing is found.)", "quantifier": "all data sets with labelled dimensions and coordinates", "why_tests_cant": "The input space is unbounded; a test fixes one mesh and one answer.", "anchors": ["oceanmesh/geodata.py:_xr_reduce_to_2d"]}
{"id": "C143", "title": "Weights of inverse-distance weighting multiply the inverse distances", "statement": "With weights the result is the mean weighted by weights / distance**p: it lies between the data of the neighbours of positive weight, a common factor of the weights does not matter, and equal weights are none. Weights have the shape of the query, as documented. (They must have the shape of the data; neighbours that all have weight 0 give nan.)", "quantifier": "all data, weights and answers of the tree", "why_tests_cant": "The input space is unbounded; a test fixes one mesh and one answer.", "anchors": ["oceanmesh/idw.py:Invdisttree.__call__"]}
{"id": "C144", "title": "Statistics of inverse-distance weighting add up", "statement": "With stat set, wn counts the points interpolated, the entries of wsum add up to wn and do not increase with distance; without stat nothing is counted. Calls with any numbers of neighbours can follow each other. (A different number raises ValueError.)", "quantifier": "all data, weights and sequences of answers", "why_tests_cant": "The input space is unbounded; a test fixes one mesh and one answer.", "anchors": ["oceanmesh/idw.py:Invdisttree.__call__"]}
{"id": "C145", "title": "Box distance on doubles has the exact sign", "statement": "Evaluated in IEEE binary64, the distance function of a bounding box is negative exactly inside, positive exactly outside, never nan for finite arguments, and its value is the exact one rounded to nearest.", "quantifier": "all finite doubles", "why_tests_cant": "The input space is unbounded; a test fixes one mesh and one answer.", "anchors": ["oceanmesh/signed_distance_function.py:create_bbox"]}
{"id": "C146", "title": "Grid coordinate vectors on doubles", "statement": "The coordinate vectors of a grid computed in binary64 start at the corner, are non-decreasing, and are strictly increasing. (The last only when the cell size is not too small against the coordinates.)", "quantifier": "all finite corners, cell sizes and lengths without overflow", "why_tests_cant": "The input space is unbounded; a test fixes one mesh and one answer.", "anchors": ["oceanmesh/grid.py:create_vectors"]}
{"id": "C147", "title": "create_circle's loop on doubles", "statement": "The angle loop of create_circle, in binary64, ends after 63 points at angles 0, 0.1, ..., 6.2 up to 1e-14, for every centre and radius. (The ring is not closed.)", "quantifier": "all centres, radii and any sine and cosine", "why_tests_cant": "The input space is unbounded; a test fixes one mesh and one answer.", "anchors": ["oceanmesh/signed_distance_function.py:create_circle"]}
{"id": "C148", "title": "Inverse-distance weighting of constants on doubles", "statement": "Interpolating equal data gives that datum. (In binary64 it may be above or below; the value is within the range of the data up to a factor (1+2^-53)^2k.)", "quantifier": "all positive data and distances of moderate size, up to 1000 neighbours", "why_tests_cant": "The input space is unbounded; a test fixes one mesh and one answer.", "anchors": ["oceanmesh/idw.py:Invdisttree.__call__"]}
{"id": "C149", "title": "Rounding and orientation test of fix_mesh on doubles", "statement": "In binary64 np.round gives the nearest integer, ties to even, keeping the sign; the computed orientation of a triangle is the exact one whenever the area exceeds the rounding error bound, and always for coordinates that are small integers times a power of two.", "quantifier": "all finite doubles; coordinates up to 2^500", "why_tests_cant": "The input space is unbounded; a test fixes one mesh and one answer.", "anchors": ["oceanmesh/fix_mesh.py:fix_mesh", "oceanmesh/fix_mesh.py:simp_vol"]}
{"id": "C150", "title": "fix_mesh on doubles", "statement": "In binary64 fix_mesh returns a well-formed mesh, moves points by no more than the tolerance and a few roundings, and orients every triangle counter-clockwise. (The last can fail for thin triangles: a triangle of coordinates of size ten is returned clockwise in every order of its points; no triangle is clockwise by more than 2^-50 of the squared extent.)", "quantifier": "all finite doubles of moderate size, all byte orders", "why_tests_cant": "The input space is unbounded; a test fixes one mesh and one answer.", "anchors": ["oceanmesh/fix_mesh.py:fix_mesh"]}
{"id": "C151", "title": "CRS and projection flag of combined domains", "statement": "Union, intersection and difference exist for every non-empty list of domains; the result has the CRS of the first domain that has one and is stereographic exactly if one of the domains is. In a multiscale domain the union has the CRS and flag so chosen from all the domains, and nest i those chosen from domain i and its successors.", "quantifier": "all lists of domains", "why_tests_cant": "The input space is unbounded; a test fixes one mesh and one answer.", "anchors": ["oceanmesh/signed_distance_function.py:Union", "oceanmesh/signed_distance_function.py:Intersection", "oceanmesh/signed_distance_function.py:Difference", "oceanmesh/signed_distance_function.py:multiscale_signed_distance_function"]}
{"id": "C152", "title": "Sampling and plotting of a domain", "statement": "A plot shows exactly those of the N samples, drawn from the box grown by 0.01, at which the distance is below 0.0001 in size; it is saved if a file name is given. (The method plot drops the file name and always shows.)", "quantifier": "all domains, numbers of samples and draws", "why_tests_cant": "The input space is unbounded; a test fixes one mesh and one answer.", "anchors": ["oceanmesh/signed_distance_function.py:_generate_samples", "oceanmesh/signed_distance_function.py:_plot", "oceanmesh/signed_distance_function.py:Domain.plot"]}
{"id": "C153", "title": "Total bounds of a region", "statement": "The total bounds are four numbers: those given, or for a polygon the least and greatest coordinates of its vertices. (A tuple of more than four numbers is accepted and returned; nan vertices give nan.)", "quantifier": "all regions", "why_tests_cant": "The input space is unbounded; a test fixes one mesh and one answer.", "anchors": ["oceanmesh/region.py:Region.total_bounds"]}
{"id": "C154", "title": "Coordinate arrays of a grid", "statement": "create_grid gives two arrays of shape (nx, ny), whose entries (i, j) are the coordinates of node (i, j); coordinates increase with the index for a positive dx and a non-zero dy.", "quantifier": "all grids", "why_tests_cant": "The input space is unbounded; a test fixes one mesh and one answer.", "anchors": ["oceanmesh/grid.py:Grid.create_vectors", "oceanmesh/grid.py:Grid.create_grid"]}
{"id": "C155", "title": "Missing elevations are nan", "statement": "A DEM never presents the file's nodata number as an elevation: at and around missing pixels eval returns nan, whether the file is read as a whole or clipped to a region.", "quantifier": "all rasters, regions and masks", "why_tests_cant": "The input space is unbounded; a test fixes one mesh and one answer.", "anchors": ["oceanmesh/geodata.py:_read_dem_array_and_meta", "oceanmesh/geodata.py:DEM.__init__", "oceanmesh/grid.py:Grid.build_interpolant"]}
{"id": "C156", "title": "The gradient limiter keeps its guarantees on doubles", "statement": "With every sum and product rounded to binary64, and with overflow, gradient_limit returns finite sizes between the smallest input and the cell's own; the number of passes is bounded; at convergence side and main-diagonal neighbours obey the gradation as rounded; no field that obeys it is cut; nan cells stay nan and are ignored unless the first cell is one.", "quantifier": "all grids of finite non-negative doubles and nan with a number in the first cell, all finite non-negative spacings and gradations", "why_tests_cant": "The input space is unbounded; a test fixes one mesh and one answer.", "anchors": ["oceanmesh/cpp/HamiltonJacobi.cpp:c_gradient_limit"]}
{"id": "C157", "title": "A nan in the sizes does not switch the gradient limiter off", "statement": "If some cells are nan, the other cells of the returned field still obey the gradation.", "quantifier": "all grids of finite non-negative doubles and nan", "why_tests_cant": "The input space is unbounded; a test fixes one mesh and one answer.", "anchors": ["oceanmesh/cpp/HamiltonJacobi.cpp:c_gradient_limit"]}
{"id": "C158", "title": "Corner cutting of shorelines on doubles", "statement": "With every product and sum rounded to binary64, Chaikin corner cutting of a line of finite points never overflows, keeps both end points bit by bit (so a closed ring stays closed), and puts each new point in the box of its two points and within two units in the last place of the exact one.", "quantifier": "all lines of finite doubles, all numbers of passes", "why_tests_cant": "The input space is unbounded; a test fixes one mesh and one answer.", "anchors": ["oceanmesh/geodata.py:_chaikins_corner_cutting"]}
{"id": "C159", "title": "Mesh smoothing on doubles", "statement": "With every sum, product and quotient rounded to binary64, laplacian2 keeps the faces, the boundary vertices and the vertex nearest to every pinned point bit by bit, moves every other vertex in each sweep to the mean of its neighbours up to a few units in the last place, and keeps all vertices in the bounding box.", "quantifier": "all meshes of doubles whose vertices are all used and that have a boundary, all pins and numbers of sweeps", "why_tests_cant": "The input space is unbounded; a test fixes one mesh and one answer.", "anchors": ["oceanmesh/clean.py:laplacian2"]}
{"id": "C160", "title": "Smoothing stops only when the edges no longer change", "statement": "If laplacian2 stops before the last sweep, no edge changed its length in the last sweep by more than the tolerance.", "quantifier": "all meshes of doubles", "why_tests_cant": "The input space is unbounded; a test fixes one mesh and one answer.", "anchors": ["oceanmesh/clean.py:laplacian2"]}
{"id": "C161", "title": "Compiled point-in-polygon on doubles, away from the edges", "statement": "On IEEE doubles, for coordinates up to 2^500 and every tolerance, the compiled point-in-polygon kernel gives a query that is further than the tolerance plus 2^-48 of the coordinate size from every edge the exact even-odd answer (parity of the edges that the ray to the right crosses, in real arithmetic), and never reports it on the boundary; queries that are not finite get (False, False).", "quantifier": "all polygons given by nodes and edges, all tolerances, all queries", "why_tests_cant": "The input space is unbounded; a test fixes one mesh and one answer.", "anchors": ["oceanmesh/geometry/point_in_polygon_.pyx:inpoly2_fast"]}
{"id": "C162", "title": "Compiled point-in-polygon on doubles, on the edges", "statement": "On IEEE doubles, a query that lies exactly on an edge is reported on the boundary, and whatever is reported on the boundary is within the tolerance plus 2^-48 of the coordinate size of some edge.", "quantifier": "all polygons given by nodes and edges, all tolerances, all queries", "why_tests_cant": "The input space is unbounded; a test fixes one mesh and one answer.", "anchors": ["oceanmesh/geometry/point_in_polygon_.pyx:inpoly2_fast"]}
{"id": "C163", "title": "Version of a checkout", "statement": "At import the version of a checkout is read from git: whatever hyphens the closest tag has, git describe's TAG-N-gHASH[-dirty] is taken apart into the right tag, distance, hash and dirtiness, the version text is built from them as documented, the commit date becomes ISO 8601, an untagged checkout gives 0+untagged.N.gHASH, a directory outside git gives 0+unknown, and the lookup never makes the import fail.", "quantifier": "all answers of git, all tags, distances, hashes and dates", "why_tests_cant": "The input space is unbounded; a test fixes one mesh and one answer.", "anchors": ["oceanmesh/_version.py:git_pieces_from_vcs", "oceanmesh/_version.py:render_pep440", "oceanmesh/_version.py:get_versions"]}
{"id": "C164", "title": "Version texts identify checkouts and follow PEP 440", "statement": "Two checkouts with the same version text have the same tag, distance, dirtiness and, away from the tag, the same abbreviated hash; and every version text is a PEP 440 version.", "quantifier": "all tags, distances, hashes and dirtiness", "why_tests_cant": "The input space is unbounded; a test fixes one mesh and one answer.", "anchors": ["oceanmesh/_version.py:render_pep440", "oceanmesh/_version.py:plus_or_dot"]}
{"id": "C165", "title": "Version of an archive", "statement": "For an archive made by git archive the version is one of the release tags listed for the commit, the alphabetically first, with the full hash and ISO date; if no release tag is listed the version is 0+unknown with an error.", "quantifier": "all lists of references, hashes and dates", "why_tests_cant": "The input space is unbounded; a test fixes one mesh and one answer.", "anchors": ["oceanmesh/_version.py:git_versions_from_keywords"]}
{"id": "C166", "title": "Signed distance function of a shoreline", "statement": "For a shoreline with closed rings signed_distance_function returns a domain whose value at a point is in size the distance to the nearest shoreline row and is negative exactly in the outline and off the islands, up to the kernel tolerance beside a side; inverting flips the sign; the covering is the same for the outline alone; and the arrays that Shoreline makes from a vector file are of this kind.", "quantifier": "all lists of rings, all query points, all answers of the tree", "why_tests_cant": "The input space is unbounded; a test fixes one mesh and one answer.", "anchors": ["oceanmesh/signed_distance_function.py:signed_distance_function", "oceanmesh/edges.py:get_poly_edges", "oceanmesh/geodata.py:Shoreline._read"]}
{"id": "C167", "title": "Elements of a generated mesh are at sea", "statement": "The elements generate_mesh returns for the domain of a shoreline stand for triangles of the last triangulation whose centroid is in the outline, on no island and further than geps from every shoreline row, and every such triangle is returned.", "quantifier": "all shorelines with closed rings, all triangulations, forces, fixed points and iteration counts", "why_tests_cant": "The input space is unbounded; a test fixes one mesh and one answer.", "anchors": ["oceanmesh/mesh_generator.py:generate_mesh", "oceanmesh/signed_distance_function.py:signed_distance_function"]}
{"id": "C168", "title": "Distance sizes in double precision", "statement": "Sizes from distances to the shoreline are on IEEE doubles no larger than the bound, no smaller than h0 unless the bound is, exactly h0 at distance zero, never smaller further away, and within 4u (h0 + rate d) + 2^-1074 of min(h0 + rate d, bound).", "quantifier": "all doubles h0, rate >= 0, bounds and finite distances", "why_tests_cant": "The input space is unbounded; a test fixes one mesh and one answer.", "anchors": ["oceanmesh/edgefx.py:distance_sizing_function", "oceanmesh/edgefx.py:distance_sizing_from_point_function", "oceanmesh/edgefx.py:distance_sizing_from_line_function"]}
{"id": "C169", "title": "Wavelength sizes in double precision", "statement": "Sizes from wavelengths are on IEEE doubles within the bounds, never smaller over deeper water and within 8u of the bounded formula, and hmin is the lower bound, or without one no larger than any size. (Fails when all sizes exceed the upper bound.)", "quantifier": "all positive doubles, bounds and finite depths", "why_tests_cant": "The input space is unbounded; a test fixes one mesh and one answer.", "anchors": ["oceanmesh/edgefx.py:wavelength_sizing_function"]}
{"id": "C170", "title": "Slope sizes in double precision", "statement": "Sizes from slopes are on IEEE doubles within the bounds, never smaller over deeper water or flatter ground and within 8u of the bounded formula, and hmin is the lower bound or the larger spacing of the DEM.", "quantifier": "all finite elevations and cutoffs, all slopes up to 2^1000, all bounds", "why_tests_cant": "The input space is unbounded; a test fixes one mesh and one answer.", "anchors": ["oceanmesh/edgefx.py:bathymetric_gradient_sizing_function"]}
{"id": "C171", "title": "Resampling a line in double precision", "statement": "The loop of _resample_line ends on IEEE doubles; its positions start at 0, are 1/4 to 3/4 of an edge length apart and end within 3/4 of an edge length of the end. (Fails for lines of 2^54 edge lengths.)", "quantifier": "all lengths up to 2^1000 and edge lengths from 2^-1000 to 2^1000", "why_tests_cant": "The input space is unbounded; a test fixes one mesh and one answer.", "anchors": ["oceanmesh/edgefx.py:_resample_line"]}
{"id": "C172", "title": "Python point in polygon in double precision", "statement": "On IEEE doubles _inpoly_raycasting answers by the exact even-odd rule for every query away from the edges. (Fails for edges rising by less than the tolerance and for edges that do not close.)", "quantifier": "all finite nodes and queries up to 2^100 in absolute value, all tolerances up to 2^100", "why_tests_cant": "The input space is unbounded; a test fixes one mesh and one answer.", "anchors": ["oceanmesh/geometry/point_in_polygon.py:_inpoly_raycasting"]}
{"id": "C173", "title": "Boundary reports of the python kernel in double precision", "statement": "On IEEE doubles _inpoly_raycasting reports a query on an edge on the boundary, and every query it reports there is within the tolerance and the rounding of an edge. (The first fails for small tolerances; the second fails for short edges.)", "quantifier": "all finite nodes and queries up to 2^100 in absolute value, all tolerances up to 2^100", "why_tests_cant": "The input space is unbounded; a test fixes one mesh and one answer.", "anchors": ["oceanmesh/geometry/point_in_polygon.py:_inpoly_raycasting"]}
{"id": "C174", "title": "The two point-in-polygon kernels agree in double precision", "statement": "On IEEE doubles _inpoly_raycasting and the compiled kernel give the same answer for every query away from the edges. (Fails for edges rising by less than the tolerance and for short edges.)", "quantifier": "all finite nodes and queries up to 2^100 in absolute value, all tolerances up to 2^100", "why_tests_cant": "The input space is unbounded; a test fixes one mesh and one answer.", "anchors": ["oceanmesh/geometry/point_in_polygon.py:_inpoly_raycasting", "oceanmesh/geometry/point_in_polygon_.pyx:inpoly2_fast"]}
{"id": "C175", "title": "Files of plots", "statement": "Grid.plot, DEM.plot and Shoreline.plot with a file name write one file that holds the finished drawing. (Fails for a grid drawn on axes of another figure than the current one, for a shoreline that is also shown, and always for a DEM.)", "quantifier": "all grids, shorelines and options, all states of pyplot, with and without a screen", "why_tests_cant": "The input space is unbounded; a test fixes one mesh and one answer.", "anchors": ["oceanmesh/grid.py:Grid.plot", "oceanmesh/geodata.py:Shoreline.plot", "oceanmesh/geodata.py:DEM.plot"]}
{"id": "C176", "title": "Windows of plots", "statement": "A plot opens a window exactly if asked for and there is a screen; the window shows the finished drawing and no other figure is changed.", "quantifier": "all grids, shorelines, meshes and options, all states of pyplot", "why_tests_cant": "The input space is unbounded; a test fixes one mesh and one answer.", "anchors": ["oceanmesh/grid.py:Grid.plot", "oceanmesh/geodata.py:Shoreline.plot", "oceanmesh/geodata.py:DEM.plot", "oceanmesh/mesh_generator.py:plot_mesh_connectivity", "oceanmesh/mesh_generator.py:plot_mesh_bathy"]}
{"id": "C177", "title": "What is drawn of a grid", "statement": "With coarsen = k > 0 Grid.plot and DEM.plot draw at entry (i, j) the value of node (k i, k j) at the coordinates of that node; k = 0 raises and k < 0 goes backwards.", "quantifier": "all grids, all whole numbers k, all options", "why_tests_cant": "The input space is unbounded; a test fixes one mesh and one answer.", "anchors": ["oceanmesh/grid.py:Grid.plot", "oceanmesh/geodata.py:DEM.plot"]}
{"id": "C178", "title": "Labels, titles and limits of plots", "statement": "Labels, titles and limits asked for are in force in the finished drawing. (Fails for the limits of a shoreline and the labels of a DEM.)", "quantifier": "all grids, shorelines and options", "why_tests_cant": "The input space is unbounded; a test fixes one mesh and one answer.", "anchors": ["oceanmesh/grid.py:Grid.plot", "oceanmesh/geodata.py:Shoreline.plot", "oceanmesh/geodata.py:DEM.plot"]}
{"id": "C179", "title": "Legend and box of a shoreline plot", "statement": "Shoreline.plot draws the rectangle of the bounding box, and its legend names each line drawn once with the format of that line.", "quantifier": "all shorelines and options", "why_tests_cant": "The input space is unbounded; a test fixes one mesh and one answer.", "anchors": ["oceanmesh/geodata.py:Shoreline.plot"]}
{"id": "C180", "title": "draw_edges", "statement": "draw_edges draws one segment for every edge between its rows; with the edges of get_poly_edges it always returns and draws no segment to a separator row. (The last fails for an empty part.)", "quantifier": "all polygons and edges", "why_tests_cant": "The input space is unbounded; a test fixes one mesh and one answer.", "anchors": ["oceanmesh/edges.py:draw_edges", "oceanmesh/edges.py:get_poly_edges"]}
{"id": "C181", "title": "Figure of the ocean boundary", "statement": "With plot=True identify_ocean_boundary_sections returns the same sections and marks the nodes of every section. (Fails: the last node of a section is never marked.)", "quantifier": "all meshes, depths and thresholds", "why_tests_cant": "The input space is unbounded; a test fixes one mesh and one answer.", "anchors": ["oceanmesh/boundary.py:identify_ocean_boundary_sections"]}
{"id": "C182", "title": "Accuracy of triangle quality in doubles", "statement": "For a triangle whose triangle inequality holds with d perimeters to spare (d at least 2^-40), the quality simp_qual computes in IEEE doubles differs from the exact value of its formula by at most a relative 2^-47 / d.", "quantifier": "all triangles with corners up to 2^60 whose coordinates agree or differ by at least 2^-60", "why_tests_cant": "The input space is unbounded; a test fixes one mesh and one answer.", "anchors": ["oceanmesh/fix_mesh.py:simp_qual"]}
{"id": "C183", "title": "Range of triangle quality in doubles", "statement": "The quality simp_qual computes in IEEE doubles is a number between 0 and perimeter / (3 sqrt 3) up to rounding. (Fails: it is nan for two corners in the same place and for some slivers.)", "quantifier": "all triangles with corners up to 2^60 whose coordinates agree or differ by at least 2^-60", "why_tests_cant": "The input space is unbounded; a test fixes one mesh and one answer.", "anchors": ["oceanmesh/fix_mesh.py:simp_qual"]}
{"id": "C184", "title": "Boundary faces removed in doubles", "statement": "delete_boundary_faces with qualities in IEEE doubles removes the faces at the boundary whose exact quality is below the threshold by more than rounding. (Fails: faces with two corners in the same place always stay.)", "quantifier": "all meshes of such triangles, all thresholds", "why_tests_cant": "The input space is unbounded; a test fixes one mesh and one answer.", "anchors": ["oceanmesh/clean.py:delete_boundary_faces", "oceanmesh/fix_mesh.py:simp_qual"]}
{"id": "C185", "title": "Verdict of the wheel check", "statement": "tools/verify_manylinux_wheels.py exits with 0 exactly if the directory has a Linux x86_64 wheel (not musl) and every such wheel has a manylinux tag, no symbol version above the limit and members named like both libraries; each is reported, without complaint exactly if acceptable.", "quantifier": "all directories of wheels, all limits, all outputs of auditwheel", "why_tests_cant": "The input space is unbounded; a test fixes one mesh and one answer.", "anchors": ["tools/verify_manylinux_wheels.py:main"]}
{"id": "C186", "title": "Newest symbol version", "statement": "_parse_glibc_symbols returns the newest version named in the text, compared as numbers, or None if there is none.", "quantifier": "all texts", "why_tests_cant": "The input space is unbounded; a test fixes one mesh and one answer.", "anchors": ["tools/verify_manylinux_wheels.py:_parse_glibc_symbols"]}
{"id": "C187", "title": "Accepted wheels bundle the libraries", "statement": "A wheel is accepted only if it contains the shared libraries libgmp and libmpfr. (Fails: libgmpxx passes for libgmp.)", "quantifier": "all wheels", "why_tests_cant": "The input space is unbounded; a test fixes one mesh and one answer.", "anchors": ["tools/verify_manylinux_wheels.py:_wheel_contains_shared_lib"]}
{"id": "C188", "title": "The package can be imported", "statement": "Importing oceanmesh succeeds unless on Windows without CGAL_BIN; afterwards every exported name that is defined is a function or class of that name; cyclic imports come to an end.", "quantifier": "all operating systems, environment variables, built or missing kernel; all sets of files for the last part", "why_tests_cant": "The input space is unbounded; a test fixes one mesh and one answer.", "anchors": ["oceanmesh/__init__.py"]}
{"id": "C189", "title": "Every exported name exists", "statement": "Every name in __all__ of the package is defined, so that from oceanmesh import * works. (Fails: SizeFunction, crate_bbox and slope_sizing_function are not defined anywhere.)", "quantifier": "all environments", "why_tests_cant": "The input space is unbounded; a test fixes one mesh and one answer.", "anchors": ["oceanmesh/__init__.py:__all__"]}
{"id": "C190", "title": "Switch of the compiled kernel", "statement": "The compiled point-in-polygon kernel is used exactly when it has been built and OCEANMESH_INPOLY_ACCEL is not 0, false, no or off in any mixture of capitals.", "quantifier": "all values of the variable", "why_tests_cant": "The input space is unbounded; a test fixes one mesh and one answer.", "anchors": ["oceanmesh/geometry/point_in_polygon.py:_COMPILED_KERNEL_AVAILABLE"]}
{"id": "C191", "title": "Modules can be reached through the package", "statement": "Every module oceanmesh.m is the attribute m of the package after import. (Fails: fix_mesh and signed_distance_function are hidden by the functions of the same name.)", "quantifier": "all environments", "why_tests_cant": "The input space is unbounded; a test fixes one mesh and one answer.", "anchors": ["oceanmesh/__init__.py"]}
{"id": "C192", "title": "Every compiled module that is imported is built", "statement": "With pybind11, setup.py builds each module the package imports from the file that defines it, each once; a build never ends well without one of them.", "quantifier": "all operating systems, environment variables, directories, installed packages and results of Cython", "why_tests_cant": "The input space is unbounded; a test fixes one mesh and one answer.", "anchors": ["setup.py:ext_modules", "oceanmesh/cpp/HamiltonJacobi.cpp", "oceanmesh/cpp/fast_geometry.cpp", "oceanmesh/cpp/delaunay_class.cpp"]}
{"id": "C193", "title": "The compiled point-in-polygon kernel is optional", "statement": "The kernel is built when its sources can be used and left out otherwise. (Fails: with the .pyx file, without Cython and without the .c file the build fails.)", "quantifier": "all environments", "why_tests_cant": "The input space is unbounded; a test fixes one mesh and one answer.", "anchors": ["setup.py:maybe_add_cython_extensions"]}
{"id": "C194", "title": "Headers and libraries are taken from existing directories of the prefix", "statement": "OCEANMESH_PREFIX, or else CONDA_PREFIX, names the prefix; exactly its existing include and lib directories are used, with a run path for the libraries. (On Windows both have to exist, and the directories of vcpkg used otherwise are not looked up.)", "quantifier": "all environment variables and directories", "why_tests_cant": "The input space is unbounded; a test fixes one mesh and one answer.", "anchors": ["setup.py:_get_prefix_paths", "setup.py:ext_modules"]}
{"id": "C195", "title": "Requirements of the package", "statement": "The requirements are the words of install_requires, before Python 3.9 with fiona<1.10 for fiona; every package imported is required. (Fails for affine and xarray, and for a fiona entry with a version.)", "quantifier": "all texts of setup.cfg and Python versions", "why_tests_cant": "The input space is unbounded; a test fixes one mesh and one answer.", "anchors": ["setup.py:get_requirements", "setup.cfg"]}
{"id": "C196", "title": "Clean-up steps compose", "statement": "Removing dangling faces keeps a traversable boundary traversable, and mesh_clean returns a mesh with a traversable boundary and no dangling face. (Fails for dangling faces when a poor face is deleted.)", "quantifier": "all meshes, thresholds, qualities, draws and sort orders", "why_tests_cant": "The input space is unbounded; a test fixes one mesh and one answer.", "anchors": ["oceanmesh/clean.py:delete_faces_connected_to_one_face", "oceanmesh/clean.py:mesh_clean"]}
{"id": "C197", "title": "Bar forces in double precision", "statement": "With every rounding counted, _compute_forces returns finite forces that are the sums over the bars of the repulsive forces up to stated multiples of the rounding error, and that add up to zero. (Exactly zero fails, and extreme distances give nan.)", "quantifier": "all double coordinates up to 2^60 that are equal or 2^-60 apart, all sizes, all triangulations up to 2^23 faces", "why_tests_cant": "The input space is unbounded; a test fixes one mesh and one answer.", "anchors": ["oceanmesh/mesh_generator.py:_compute_forces", "oceanmesh/mesh_generator.py:_dense"]}
{"id": "C198", "title": "Centroids and removal of outside elements in double precision", "statement": "_remove_triangles_outside on a box keeps, in order, the faces whose true centroid is deeper inside than geps, up to the rounding of the centroid. (The computed centroid may lie outside the face's own bounding box.)", "quantifier": "all double coordinates up to 2^900, all boxes, tolerances and connectivities", "why_tests_cant": "The input space is unbounded; a test fixes one mesh and one answer.", "anchors": ["oceanmesh/mesh_generator.py:_remove_triangles_outside"]}
{"id": "C199", "title": "Projection of outside points in double precision", "statement": "_project_points_back leaves every point that is not outside as it is, bit for bit, and moves a point outside a box onto the side it is farthest beyond, up to the rounding of the difference quotient. (It can end outside by rounding; beyond a corner it ends half way; where coordinates exceed 2^28 nothing moves.)", "quantifier": "all point arrays and distance functions; boxes and points with coordinates up to 2^22, exactly representable differences up to 2^26", "why_tests_cant": "The input space is unbounded; a test fixes one mesh and one answer.", "anchors": ["oceanmesh/mesh_generator.py:_project_points_back"]}
{"id": "C200", "title": "The version file keeps the version", "statement": "The _version.py that a build writes says the build's version: a later build from an archive with that file finds the same information, whatever the texts are, and writes the same file; the package says it at import. (False at import for a tag with a quotation mark, which git allows; three apostrophes in a tag end the literal, and the rest of the tag becomes code.)", "quantifier": "all version information; at import, texts without quotation marks, backslashes, control characters and three apostrophes in a row", "why_tests_cant": "The input space is unbounded; a test fixes one mesh and one answer.", "anchors": ["versioneer.py:write_to_version_file", "versioneer.py:versions_from_file", "versioneer.py:get_versions"]}
{"id": "C201", "title": "The build and the package in place agree on the version", "statement": "The build reads the keywords that _version.py declares and finds the version that _version.py finds itself, and an installed package says the same at import. (False below a directory whose name starts with None, the configured parent directory prefix of _version.py only; build_ext alone, not in place, raises because there is no version file to replace.)", "quantifier": "all files that declare the three keywords on lines of their own, all answers of git, all directories without such a name", "why_tests_cant": "The input space is unbounded; a test fixes one mesh and one answer.", "anchors": ["versioneer.py:get_versions", "versioneer.py:git_get_keywords", "versioneer.py:get_cmdclass", "oceanmesh/_version.py:get_config"]}
{"id": "C202", "title": "Fixed points survive the iterations in double precision", "statement": "Fixed points that are among the initial points and not outside the domain are among the points of the last iteration of generate_mesh, in the arithmetic of doubles. (False for fixed points so close that the square of their distance rounds to 0.)", "quantifier": "all numbers of iterations, forces, sizes, locked points and triangulations that keep points; fixed points with coordinates up to 2^500 that are the same or at least 2^-500 apart", "why_tests_cant": "The input space is unbounded; a test fixes one mesh and one answer.", "anchors": ["oceanmesh/mesh_generator.py:generate_mesh", "oceanmesh/mesh_generator.py:_closest_node"]}
{"id": "C203", "title": "One move of the vertices in double precision", "statement": "In one iteration of generate_mesh a fixed vertex that is not outside keeps its coordinates, and a free vertex moves by pseudo_dt times its force up to a rounding bound, before the projection.", "quantifier": "all points and forces with coordinates up to 2^500, steps up to 2^300", "why_tests_cant": "The input space is unbounded; a test fixes one mesh and one answer.", "anchors": ["oceanmesh/mesh_generator.py:generate_mesh"]}
{"id": "C204", "title": "The returned mesh in double precision", "statement": "The mesh that generate_mesh returns, in the arithmetic of doubles: valid indices, no repeated triangle, no unused point, every point from the last triangulation or a fixed point; max_iter = 0 and no points are rejected; in a box the true centroid of every triangle is deeper inside than geps and no triangle is clockwise, up to stated bounds of rounding and merging, and corners of triangles deeper inside than that are kept.", "quantifier": "all triangulations, sizes, forces and numbers of iterations; boxes and last points with coordinates up to 2^440 and extent of at least 2^-340 for the numerical part", "why_tests_cant": "The input space is unbounded; a test fixes one mesh and one answer.", "anchors": ["oceanmesh/mesh_generator.py:generate_mesh", "oceanmesh/fix_mesh.py:fix_mesh"]}
{"id": "C205", "title": "Fixed points in the returned mesh in double precision", "statement": "Every fixed point in the box that is among the initial points has a vertex of the returned mesh in its place, up to the merging tolerance, in the arithmetic of doubles. (False if all triangles at the fixed point have their centroid outside.)", "quantifier": "all numbers of iterations, forces, sizes and triangulations that keep points", "why_tests_cant": "The input space is unbounded; a test fixes one mesh and one answer.", "anchors": ["oceanmesh/mesh_generator.py:generate_mesh", "oceanmesh/fix_mesh.py:fix_mesh"]}
{"id": "C206", "title": "The lattice of initial points in double precision", "statement": "Along each axis np.mgrid gives lo + k h, k = 0, 1, ..., strictly increasing, the last at least hi and less than hi + h, in the arithmetic of doubles. The start has the fixed points, then lattice points with distance below geps; lattice points of smallest size with distance below geps are all in it. (The ends hold up to a bound of rounding; exactly they fail.)", "quantifier": "all boxes with coordinates up to 2^400 and steps of at least 2^-40 times that", "why_tests_cant": "The input space is unbounded; a test fixes one mesh and one answer.", "anchors": ["oceanmesh/mesh_generator.py:_generate_initial_points"]}
{"id": "C207", "title": "Thinning of initial points in double precision", "statement": "A lattice point of size r is kept exactly for draws below the square of the ratio of the smallest size to r, up to four roundings, and always kept if its size is the smallest, in the arithmetic of doubles. (Fails for sizes whose squares underflow.)", "quantifier": "all sizes between 2^-200 and 2^200 and all draws", "why_tests_cant": "The input space is unbounded; a test fixes one mesh and one answer.", "anchors": ["oceanmesh/mesh_generator.py:_generate_initial_points"]}
{"id": "C208", "title": "Densified shorelines in double precision", "statement": "_densify keeps all rows in order and cuts each segment whose end is in the box into the fewest equal pieces of span at most maxdiff, in the arithmetic of doubles. (Holds up to a bound of rounding; exactly, gaps can be larger than maxdiff and there can be a piece too many.)", "quantifier": "all polylines of up to 2^30 rows with delimiters, all masks, all maxdiff of at least 2^-20 of the largest coordinate", "why_tests_cant": "The input space is unbounded; a test fixes one mesh and one answer.", "anchors": ["oceanmesh/geodata.py:_densify", "oceanmesh/geodata.py:_create_ranges"]}
{"id": "C209", "title": "Orientation of outlines in double precision", "statement": "_is_path_ccw tells counter-clockwise from clockwise convex outlines whose first corner has an area above its tolerance, in the arithmetic of doubles. (Holds when the corner also exceeds a bound of rounding that grows with the size of the outline; fails for a convex outline of 600 km in metres whose second point is nearly on a side; a nan counts as clockwise.)", "quantifier": "all outlines of finite points of size at most 2^400, all linear algebra libraries that keep a contract of accuracy", "why_tests_cant": "The input space is unbounded; a test fixes one mesh and one answer.", "anchors": ["oceanmesh/geodata.py:_is_path_ccw"]}
{"id": "C210", "title": "Setup of versioneer run twice", "statement": "Running `python versioneer.py setup` a second time changes no file. (Holds for a configured project whose MANIFEST.in, .gitattributes and __init__.py end in a line break, whose path has no white space and whose __init__.py lacks the lines of old versions; fails for two adjacent copies of the old lines, for unfinished last lines, and adds a line on every run for a path with a space.)", "quantifier": "all texts of setup.cfg, __init__.py, MANIFEST.in and .gitattributes, all readers of setup.cfg", "why_tests_cant": "The input space is unbounded; a test fixes one mesh and one answer.", "anchors": ["versioneer.py:do_setup", "versioneer.py:do_vcs_install"]}
{"id": "C211", "title": "Setup of versioneer adds what is missing and keeps the rest", "statement": "After setup __init__.py assigns the version, MANIFEST.in includes versioneer.py and the version file, .gitattributes marks the version file for substitution, and everything else in them is kept. (Holds for files that end in a line break; an unfinished include line loses its last file; a longer file name that is marked hides the version file; the lines of this project's __init__.py are not recognised and written again; a version control system other than git empties the version file.)", "quantifier": "all texts of __init__.py, MANIFEST.in and .gitattributes", "why_tests_cant": "The input space is unbounded; a test fixes one mesh and one answer.", "anchors": ["versioneer.py:do_setup", "versioneer.py:do_vcs_install"]}
{"id": "C212", "title": "Check of setup.py by versioneer", "statement": "Setup ends with status 0 exactly when setup.py imports versioneer, passes its version and commands, and assigns neither of the former settings. (Holds of the phrases in the text; a file of comments passes, a space in a call fails.)", "quantifier": "all texts of setup.py", "why_tests_cant": "The input space is unbounded; a test fixes one mesh and one answer.", "anchors": ["versioneer.py:scan_setup_py"]}
{"id": "C213", "title": "Areas of rings in double precision", "statement": "In stereographic regions islands are kept exactly when their area in degrees is at least the least area, in the arithmetic of doubles and for every order in which the products are added. (Holds when the area differs from the limit by more than (n + 2) u times the sum of the sizes of the products, below 4e-6 square degrees for 1000 points; fails closer to the limit; a ring with a nan is dropped.)", "quantifier": "all rings of finite points of size at most 2^400, all libraries that round each product and sum or both at once, in any order", "why_tests_cant": "The input space is unbounded; a test fixes one mesh and one answer.", "anchors": ["oceanmesh/geodata.py:_poly_area", "oceanmesh/geodata.py:_classify_shoreline"]}
{"id": "C214", "title": "Circumference of rings in double precision", "statement": "_poly_length returns the length of the closed line through the points, in the arithmetic of doubles and for every order of summation, whether or not the last point repeats the first. (Holds up to (2n + 10) u when the ends are equal or further apart than np.isclose forgives; otherwise the closing edge may be missing, which is nearly half of the length for small rings far from the origin; a nan makes the answer nan. The package never calls this function.)", "quantifier": "all rings of finite points of size at most 2^400, all libraries that add in any order and grouping", "why_tests_cant": "The input space is unbounded; a test fixes one mesh and one answer.", "anchors": ["oceanmesh/geodata.py:_poly_length"]}
{"id": "C215", "title": "Set operations on domains in double precision", "statement": "Unions, intersections and differences of domains, nested in any way, and the domains of a multiscale mesh hold exactly the points that logic says, in the arithmetic of doubles and at every threshold; nests do not overlap and cover the parts. (Holds for functions whose values are not nan; a nan anywhere makes the result nan, which loses points of the other domains; on the seam of two nests a point is in neither at threshold zero; the common box is nan or not according to the order of the domains.)", "quantifier": "all trees of domains, all functions, all points and thresholds; numpy's minimum and maximum up to the sign of zeros", "why_tests_cant": "The input space is unbounded; a test fixes one mesh and one answer.", "anchors": ["oceanmesh/signed_distance_function.py:Union", "oceanmesh/signed_distance_function.py:Intersection", "oceanmesh/signed_distance_function.py:Difference", "oceanmesh/signed_distance_function.py:multiscale_signed_distance_function", "oceanmesh/signed_distance_function.py:_compute_bbox"]}
{"id": "C216", "title": "Signed distance to a shoreline in double precision", "statement": "For rings of doubles that end with their first point twice, the signed distance function returns exactly the distance the tree reports, negative exactly where the point is in the outline and, counting islands, in an odd number of rings; the inverted domain returns the negative and the covering knows the outline only. Off the outline a point of the domain is in its covering, whatever the rows. (Holds for points further than the kernel's tolerance and the rounding from every side that is level or rises by at least 2^-500; fails for flatter sides; queries that are nan or infinite are 10^12 outside, or inside an inverted domain.)", "quantifier": "all shorelines of finite rings of size at most 2^500, all query points clear of the sides, all tolerances up to 2^500", "why_tests_cant": "The input space is unbounded; a test fixes one mesh and one answer.", "anchors": ["oceanmesh/signed_distance_function.py:signed_distance_function", "oceanmesh/edges.py:get_poly_edges", "oceanmesh/geometry/point_in_polygon.py:inpoly2"]}
