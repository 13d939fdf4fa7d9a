{"id": "C01", "title": "Cell numbers enumerate the grid exactly once", "statement": "cell_number is a bijection from the nx*ny*nz grid cells onto 0..nx*ny*nz-1; the evolving cells (mxg <= x < nx-mxg) get exactly the numbers 0..N_evolving-1 where N_evolving is the reported count.", "quantifier": "all nx, ny, nz, mxg with 0 <= mxg, 2*mxg <= nx and all sub-sample maps", "why_tests_cant": "tests use a handful of small grids; a numbering clash or gap for another size would silently alias two cells of the simulation.", "anchors": ["zoidberg/weights.py:assign_cell_space_numbers"]}
{"id": "C02", "title": "Boundary cells are numbered consecutively, once, exactly where a leg hits", "statement": "forward_cell_number / backward_cell_number is >= 0 at (x,y,z) iff the cell is evolving and at least one sub-sample of that direction leaves the evolving radial range; all those numbers are pairwise distinct, distinct from cell_number, and fill nx*ny*nz .. N_cells-1 without a gap.", "quantifier": "all sizes, guard widths, numbers of sub-samples and map values", "why_tests_cant": "depends on the interleaving of forward/backward hits over all cells; there are infinitely many hit patterns.", "anchors": ["zoidberg/weights.py:assign_cell_space_numbers", "zoidberg/weights.py:hits_radial_boundary"]}
{"id": "C03", "title": "Leg rows form a gap-free enumeration, one or two per evolving cell", "statement": "For each direction the interior and boundary leg numbers that are present are pairwise distinct and fill 0..n_legs-1; an evolving cell has an interior leg iff some sub-sample stays inside, a boundary leg iff some sub-sample hits, so always one or two; guard cells have none.", "quantifier": "all sizes and map values, both directions", "why_tests_cant": "needs the numbering invariant over the whole sweep, for any hit pattern.", "anchors": ["zoidberg/weights.py:build_leg_space_metadata", "zoidberg/weights.py:classify_leg_contributions"]}
{"id": "C04", "title": "Leg weights of a cell split its area exactly", "statement": "The weights of the leg rows of a cell add up to the sum of the sub-cell weights for a split cell and to exactly 1 for an unsplit one, hence to 1 within 1e-8; each present leg of a cell has positive weight when the sub-cell weights are positive.", "quantifier": "all maps and all accepted sub-cell weights", "why_tests_cant": "a conservation law over arbitrary weights and hit patterns.", "anchors": ["zoidberg/weights.py:build_leg_weight_vector", "zoidberg/weights.py:_get_subcell_weights"]}
{"id": "C05", "title": "Operator construction never fails on valid maps and yields well-formed CSR", "statement": "For every valid map dictionary calculate_parallel_map_operators returns (raises nothing); rows pointer starts at 0, is non-decreasing, has n_legs+1 entries and ends at the number of stored entries; every column is a valid cell number; decoding the CSR gives back the rows that were assembled.", "quantifier": "all valid maps (positive sub-cell weights summing to 1)", "why_tests_cant": "absence of exceptions and out-of-range indices over all inputs.", "anchors": ["zoidberg/weights.py:calculate_parallel_map_operators", "zoidberg/weights.py:build_leg_destination_operator", "zoidberg/weights.py:SparseRowMatrixBuilder"]}
{"id": "C06", "title": "A boundary leg row addresses its own boundary cell", "statement": "The row of a boundary leg has exactly one entry, with value 1, in the column of the boundary cell number of the same cell and direction.", "quantifier": "all valid maps, cells and directions", "why_tests_cant": "must hold for every hit pattern and leg numbering.", "anchors": ["zoidberg/weights.py:build_leg_destination_operator"]}
{"id": "C07", "title": "Interior leg rows preserve constants", "statement": "The entries of every interior leg row sum to 1 (up to the documented dropping of x-weights below 1e-10 in magnitude, at most 4e-10 in total).", "quantifier": "all valid maps and interior legs", "why_tests_cant": "partition of unity for a continuum of map values and any number of sub-samples.", "anchors": ["zoidberg/weights.py:accumulate_interior_stencil", "zoidberg/weights.py:catmull_rom_weights", "zoidberg/weights.py:shift_weights_out_of_x_boundaries"]}
{"id": "C08", "title": "Interior leg rows only couple to evolving cells on the neighbouring slice", "statement": "Every column of an interior leg row is the number of an evolving cell whose y index is y+1 (forward) or y-1 (backward) modulo ny and within the 4x4 stencil around a mapped point; no column occurs twice in a row.", "quantifier": "all valid maps and interior legs", "why_tests_cant": "radial weight shifting must be right for every mapped position, guard width and grid size.", "anchors": ["zoidberg/weights.py:accumulate_interior_stencil", "zoidberg/weights.py:shift_weights_out_of_x_boundaries", "zoidberg/weights.py:SparseRowMatrixBuilder.add_to_entry"]}
{"id": "C09", "title": "Interior leg rows are Catmull-Rom interpolation", "statement": "Applying an interior leg row to any field equals the weighted average over the inside sub-samples of the tensor-product Catmull-Rom interpolant at the mapped index position, with radially out-of-range weights moved to the nearest evolving cell; fields linear in the indices are reproduced exactly when the stencil does not touch the radial edge or the periodic seam.", "quantifier": "all valid maps, all fields", "why_tests_cant": "an operator identity over all fields and positions.", "anchors": ["zoidberg/weights.py:accumulate_interior_stencil", "zoidberg/weights.py:catmull_rom_weights"]}
{"id": "C10", "title": "The operators only depend on the mapped z modulo the period", "statement": "Adding nz to a mapped z index does not change the operator.", "quantifier": "all mapped positions", "why_tests_cant": "continuum of positions, including negative ones produced by index search near the seam.", "anchors": ["zoidberg/weights.py:accumulate_interior_stencil", "zoidberg/poloidal_grid.py:RectangularPoloidalGrid.findIndex"]}
{"id": "C11", "title": "Without partial boundaries no cell is split", "statement": "After modify_maps(partial_boundaries=False) every evolving cell has, per direction, either all or none of its sub-samples hitting; sub-samples of cells that were not split are untouched; consequently each evolving cell has exactly one leg of weight 1.", "quantifier": "all maps", "why_tests_cant": "any hit pattern", "anchors": ["zoidberg/weights.py:modify_maps"]}
{"id": "C12", "title": "With partial boundaries the centre map agrees with the leg operators", "statement": "After modify_maps(partial_boundaries=True) the centre map of an evolving cell is marked as boundary iff the cell received a boundary cell number in that direction; cells with no hitting sub-sample keep their map.", "quantifier": "all maps", "why_tests_cant": "any hit pattern", "anchors": ["zoidberg/weights.py:modify_maps"]}
{"id": "C13", "title": "Parallel-slice variable names are unique", "statement": "parallel_slice_field_name maps distinct (field, offset) pairs written to a grid file to distinct names, and rejects offset 0.", "quantifier": "all integer offsets (and +-0.5) and all field names used by the library", "why_tests_cant": "infinitely many offsets; string encodings can collide.", "anchors": ["zoidberg/zoidberg.py:parallel_slice_field_name"]}
{"id": "C14", "title": "Integer slice lookup", "statement": "getPoloidalGrid(i) for an integer i in a periodic grid returns slice i mod ny at y = ycoords[i mod ny] + (i div ny)*Ly; in a non-periodic grid it returns slice i at ycoords[i] inside the range, (None, 0) below it and (None, Ly) above it.", "quantifier": "all integers i, all grids", "why_tests_cant": "unbounded index range.", "anchors": ["zoidberg/grid.py:Grid.getPoloidalGrid"]}
{"id": "C15", "title": "Neighbouring slices bracket y", "statement": "For ycoords increasing within [0, Ly) the y positions returned for i-1, i, i+1 are non-decreasing for every integer i.", "quantifier": "all integers i and all admissible grids", "why_tests_cant": "unbounded index range and arbitrary coordinates.", "anchors": ["zoidberg/grid.py:Grid.getPoloidalGrid"]}
{"id": "C16", "title": "Fractional slice lookup interpolates y", "statement": "getPoloidalGrid(i+f) for 0<f<1 returns no grid and the y position at fraction f between slices i and i+1.", "quantifier": "all indices", "why_tests_cant": "continuum of indices; only 0.5 is used in tests.", "anchors": ["zoidberg/grid.py:Grid.getPoloidalGrid"]}
{"id": "C17", "title": "Cell lengths dy are periodic and add up to Ly", "statement": "On a periodic grid the metric's dy at slice j is half the distance between the neighbouring slices, so that the dy over one period add up to Ly.", "quantifier": "all admissible y coordinates", "why_tests_cant": "arbitrary spacings", "anchors": ["zoidberg/grid.py:Grid.metric"]}
{"id": "C18", "title": "Maps store each cell's own traced end point", "statement": "make_maps stores in R/Z/xt_prime/zt_prime of offset o at (x,j,z) the end point reached by tracing from cell (x,j,z) to slice j+o, converted by that slice's index search, and -1 where the boundary is hit or the slice does not exist.", "quantifier": "all grids, tracers, boundaries, nslice >= 1", "why_tests_cant": "index bookkeeping across slices/offsets for arbitrary sizes and arbitrary tracer results.", "anchors": ["zoidberg/zoidberg.py:make_maps"]}
{"id": "C19", "title": "Sub-sample maps are filled for every parallel slice", "statement": "make_maps fills the *_xt_primes / *_zt_primes arrays of every offset with traced sub-sample positions.", "quantifier": "all nslice", "why_tests_cant": "tests use nslice 1 for sub-samples.", "anchors": ["zoidberg/zoidberg.py:make_maps"]}
{"id": "C20", "title": "Sub-sample start points and weights form a quadrature of the cell", "statement": "The sub-cell weights are the outer product of the one-dimensional rule and sum to 1; the sub-sample s starts at the cell's position offset by the node pair of the same s in x and z.", "quantifier": "all sample counts", "why_tests_cant": "all orders of the rule, all grids.", "anchors": ["zoidberg/zoidberg.py:make_maps"]}
{"id": "C21", "title": "The Jacobian does not depend on the number of chunks", "statement": "make_maps gives the same J, Ly and By arrays for every n_chunks.", "quantifier": "all n_chunks, sizes", "why_tests_cant": "all partition sizes.", "anchors": ["zoidberg/zoidberg.py:make_maps"]}
{"id": "C22", "title": "Parallel integral windows and the uniform-field Jacobian", "statement": "The three integration windows used for ylow, centre and yup each consist of 2*refine+1 consecutive points that run between the neighbouring half-way/slice positions, and in a field with constant By and R the Jacobian equals the perpendicular Jacobian times R.", "quantifier": "all refinements, all grids", "why_tests_cant": "all refinements", "anchors": ["zoidberg/zoidberg.py:make_maps"]}
{"id": "C23", "title": "get_metric is idempotent", "statement": "Calling get_metric repeatedly on the same grid and field returns the same metric.", "quantifier": "all call histories", "why_tests_cant": "history-dependent through a cache.", "anchors": ["zoidberg/zoidberg.py:get_metric", "zoidberg/grid.py:Grid.metric"]}
{"id": "C24", "title": "Poloidal metric tensors are consistent", "statement": "Co- and contravariant poloidal metric are inverse to each other, symmetric positive definite, and sqrt(det)*dx*dz is the area spanned by the index derivatives.", "quantifier": "all non-degenerate grids", "why_tests_cant": "continuum of geometries", "anchors": ["zoidberg/poloidal_grid.py:StructuredPoloidalGrid.metric", "zoidberg/poloidal_grid.py:RectangularPoloidalGrid.metric", "zoidberg/grid.py:Grid.metric"]}
{"id": "C25", "title": "No non-finite array is ever written through the writer", "statement": "Whatever sequence of write_dict/add_field/add_maps calls is made and wherever one raises, every array stored by them in the file is finite.", "quantifier": "all histories", "why_tests_cant": "all call sequences and failures", "anchors": ["zoidberg/zoidberg.py:MapWriter.write_dict"]}
{"id": "C26", "title": "Every map is read back from the file", "statement": "After write_maps the file contains each entry of the maps dictionary under its own name and with its own value, together with grid sizes and metrics.", "quantifier": "all maps/metrics/fields", "why_tests_cant": "name collisions between several written dictionaries", "anchors": ["zoidberg/zoidberg.py:MapWriter.add_maps", "zoidberg/zoidberg.py:write_maps", "zoidberg/zoidberg.py:update_metric_names"]}
{"id": "C27", "title": "Interrupted DAGP computation can be resumed", "statement": "If add_dagp is interrupted at any point any number of times and restarted on the same file with the same grid, the final file content equals that of an uninterrupted run, and finished slices are not recomputed.", "quantifier": "all crash points and histories", "why_tests_cant": "all crash points", "anchors": ["zoidberg/zoidberg.py:MapWriter.add_dagp"]}
{"id": "C28", "title": "Updating provenance attributes loses nothing", "statement": "_final(update=True) keeps every previous attribute value under some name and always finds a fresh name.", "quantifier": "all attribute histories", "why_tests_cant": "unbounded number of previous updates", "anchors": ["zoidberg/zoidberg.py:MapWriter._final"]}
{"id": "C29", "title": "Parallel-slice metric uses unwrapped y positions", "statement": "The y positions used for the metric of offset o are those of slices j+o up to a common multiple of Ly, strictly increasing, so that the written dy is positive.", "quantifier": "all offsets, sizes", "why_tests_cant": "all offsets and sizes", "anchors": ["zoidberg/zoidberg.py:MapWriter._write_par_metric"]}
{"id": "C30", "title": "Rectangular grid index and position are inverse", "statement": "getCoordinate and findIndex of RectangularPoloidalGrid are mutually inverse affine maps; the evolving cells tile exactly the requested Lx by Lz box centred on (Rcentre, Zcentre); findIndex of a position outside that box returns an index outside the range of the evolving cells, on the side where the position lies.", "quantifier": "all positions, sizes", "why_tests_cant": "continuum of positions", "anchors": ["zoidberg/poloidal_grid.py:RectangularPoloidalGrid"]}
{"id": "C31", "title": "Rectangular grid derivatives", "statement": "getCoordinate(dx=a, dz=b) returns the corresponding mixed derivative of position with respect to index.", "quantifier": "all derivative orders", "why_tests_cant": "all orders", "anchors": ["zoidberg/poloidal_grid.py:RectangularPoloidalGrid.getCoordinate"]}
{"id": "C32", "title": "Structured grid index search contract", "statement": "If StructuredPoloidalGrid.findIndex returns, each result is either the inner mark -1, the outer mark nx, or an index inside the radial range whose position is within tolerance of the requested point; it performs at most 1000 iterations and never evaluates the splines outside their radial range.", "quantifier": "all geometries, start indices, targets", "why_tests_cant": "Newton iteration on arbitrary splines", "anchors": ["zoidberg/poloidal_grid.py:StructuredPoloidalGrid.findIndex"]}
{"id": "C33", "title": "Annulus grids interpolate between their boundary lines", "statement": "grid_annulus returns an nx by nz grid whose first and last rows are on the inner and outer lines and whose points lie equally spaced on the straight segments between corresponding points; sizes nx < 2 or nz < 2 are rejected.", "quantifier": "all sizes and lines", "why_tests_cant": "all sizes", "anchors": ["zoidberg/poloidal_grid.py:grid_annulus"]}
{"id": "C34", "title": "Elliptic grids keep their boundary and solve the elliptic equation", "statement": "Throughout grid_elliptic's iteration the inner and outer boundary rows stay fixed; the result has nx by nz points including guards; a state left unchanged by the iteration satisfies the discretised elliptic equations.", "quantifier": "all sizes, boundaries and iteration counts", "why_tests_cant": "iteration of unbounded length", "anchors": ["zoidberg/poloidal_grid.py:grid_elliptic"]}
{"id": "C35", "title": "Elliptic grid coarsening terminates", "statement": "The recursive coarse-grid start of grid_elliptic reaches a base case for every grid size and passes sizes below the current ones, for every restrict_factor above 1.", "quantifier": "all sizes", "why_tests_cant": "all recursion depths", "anchors": ["zoidberg/poloidal_grid.py:grid_elliptic"]}
{"id": "C36", "title": "Lines are oriented anticlockwise without moving points", "statement": "RZline stores the given points either in the given or in reversed order, with positive enclosed (shoelace) area, and rejects only degenerate input.", "quantifier": "all point lists", "why_tests_cant": "all polygons", "anchors": ["zoidberg/rzline.py:RZline.__init__"]}
{"id": "C37", "title": "Polygon position is linear interpolation of the vertices", "statement": "positionPolygon(theta) lies on the segment between the two neighbouring vertices, at the fraction given by theta, for all theta (periodic).", "quantifier": "all theta", "why_tests_cant": "continuum", "anchors": ["zoidberg/rzline.py:RZline.positionPolygon"]}
{"id": "C38", "title": "Arc length table", "statement": "distance(spline_order=1) has one more entry than the line has points, starts at 0, is non-decreasing and ends with the perimeter.", "quantifier": "all lines", "why_tests_cant": "all lines", "anchors": ["zoidberg/rzline.py:RZline.distance"]}
{"id": "C39", "title": "Reordering points neither loses nor duplicates points", "statement": "line_from_points returns the given points in some order, obtained by always going to the nearest remaining point, and is the shortest of these greedy paths over all starting points.", "quantifier": "all point sets", "why_tests_cant": "all point sets", "anchors": ["zoidberg/rzline.py:line_from_points"]}
{"id": "C40", "title": "2-opt keeps the tour and never lengthens it", "statement": "The 2-opt optimisation returns a permutation of the points that still begins with the first point, whose closed path length does not exceed the initial one, and terminates.", "quantifier": "all point sets", "why_tests_cant": "termination and all inputs", "anchors": ["zoidberg/rzline.py:_two_opt"]}
{"id": "C41", "title": "Polygon insertion keeps all points", "statement": "line_from_points_poly returns exactly the given points, each inserted after the segment of the current line nearest to it.", "quantifier": "all point sets", "why_tests_cant": "all point sets", "anchors": ["zoidberg/rzline.py:line_from_points_poly"]}
{"id": "C42", "title": "Outlier neighbourhoods are grouped into maximal runs", "statement": "generate_points_tosmooth returns the sorted set of indices within the bound of an outlier (below the length), split into maximal runs of consecutive integers.", "quantifier": "all outlier lists", "why_tests_cant": "all lists", "anchors": ["zoidberg/smooth.py:generate_points_tosmooth"]}
{"id": "C43", "title": "rollup replaces exactly the cyclic window", "statement": "rollup returns an array of the same length in which the cyclic window starting at the given index holds the replacement and all other entries are unchanged.", "quantifier": "all arrays and windows", "why_tests_cant": "all arrays", "anchors": ["zoidberg/smooth.py:rollup"]}
{"id": "C44", "title": "Smoothing never runs off the line", "statement": "Smoothing a line does not raise an index error, whichever indices are outliers.", "quantifier": "all lines and outliers", "why_tests_cant": "depends on the outlier position", "anchors": ["zoidberg/smooth.py:gen_newr", "zoidberg/smooth.py:smooth"]}
{"id": "C45", "title": "Field-line results are independent of chunking and layout", "statement": "follow_field_lines returns, for every start point of any array shape and for every chunk count, that point's own trace, in the documented layout [y, ..., (x,z)].", "quantifier": "all shapes, chunk counts", "why_tests_cant": "all sizes", "anchors": ["zoidberg/fieldtracer.py:FieldTracer.follow_field_lines"]}
{"id": "C46", "title": "Field tracers leave the caller's arrays alone", "statement": "follow_field_lines does not modify the start position arrays passed to it.", "quantifier": "all inputs", "why_tests_cant": "aliasing", "anchors": ["zoidberg/fieldtracer.py:FieldTracer.follow_field_lines", "zoidberg/fieldtracer.py:FieldTracerReversible.follow_field_lines"]}
{"id": "C47", "title": "The reversible integrator is reversible", "statement": "If a step of FieldTracerReversible solves its implicit equation from (x,z) to (x',z'), then the backward step from (x',z') solves to (x,z), for any number of steps; on a sheared slab it reproduces the exact field line.", "quantifier": "all fields, step counts", "why_tests_cant": "all fields", "anchors": ["zoidberg/fieldtracer.py:FieldTracerReversible"]}
{"id": "C48", "title": "Poincare samples are taken at the requested toroidal positions", "statement": "trace_poincare returns for revolution n and slice k the field-line position at y_slices[k] + n*yperiod, for every oversampling factor.", "quantifier": "all numbers of revolutions, slices", "why_tests_cant": "all sizes", "anchors": ["zoidberg/fieldtracer.py:trace_poincare"]}
{"id": "C49", "title": "Web tracing retries without mixing up chunks", "statement": "For every schedule of request failures FieldTracerWeb either raises or returns the concatenation of all chunk results in input order; it raises exactly if the number of failures reaches the retry count.", "quantifier": "all failure schedules and chunk sizes", "why_tests_cant": "all failure schedules", "anchors": ["zoidberg/fieldtracer.py:FieldTracerWeb.follow_field_lines"]}
{"id": "C50", "title": "Caching does not change tracing results", "statement": "CachingFieldTracer returns what the wrapped tracer would return, for every history of calls.", "quantifier": "all call histories", "why_tests_cant": "all histories, key collisions", "anchors": ["zoidberg/fieldtracer.py:CachingFieldTracer"]}
{"id": "C51", "title": "EMC3 meshes are looked up in the fundamental period", "statement": "The toroidal angle used for lookup differs from the requested one by an integer number of periods and lies inside the stored range, for every angle.", "quantifier": "all angles", "why_tests_cant": "unbounded angle", "anchors": ["zoidberg/fieldtracer.py:EMC3FieldTracer"]}
{"id": "C52", "title": "Rectangular boundary test", "statement": "RectangularBoundaryXZ.outside is true exactly for positions not in the closed box.", "quantifier": "all positions", "why_tests_cant": "continuum", "anchors": ["zoidberg/boundary.py:RectangularBoundaryXZ"]}
{"id": "C53", "title": "Polygon boundary test", "statement": "PolygonBoundaryXZ.outside is true exactly for positions outside the polygon.", "quantifier": "all polygons and positions", "why_tests_cant": "continuum of positions and polygons", "anchors": ["zoidberg/boundary.py:PolygonBoundaryXZ"]}
{"id": "C54", "title": "Second-order difference", "statement": "c2 is exact for quadratic data, at every point including the ends in the non-periodic case; its periodic version sums to zero.", "quantifier": "all data", "why_tests_cant": "all data and sizes", "anchors": ["zoidberg/diff.py:c2"]}
{"id": "C55", "title": "Fourth-order difference", "statement": "c4 is exact for quartic data at every point including the non-periodic ends; its periodic version sums to zero.", "quantifier": "all data", "why_tests_cant": "all data and sizes", "anchors": ["zoidberg/diff.py:c4"]}
{"id": "C56", "title": "The perpendicular operator is conservative", "statement": "The flux-form operator from the DAGP coefficients sums to zero over the grid (apart from the flux through the radial edges) and annihilates constants.", "quantifier": "all fields and coefficients", "why_tests_cant": "all fields", "anchors": ["zoidberg/stencil_dagp_fv.py:test", "zoidberg/stencil_dagp_fv.py:doit"]}
{"id": "C57", "title": "The perpendicular operator annihilates linear functions on slabs", "statement": "With coefficients computed from any structured slab geometry, the operator applied to a function that is linear in R and Z is zero in every interior cell.", "quantifier": "all geometries", "why_tests_cant": "all geometries", "anchors": ["zoidberg/stencil_dagp_fv.py:doit", "zoidberg/stencil_dagp_fv.py:test"]}
{"id": "C58", "title": "Cell volumes", "statement": "The cell volume computed for the operator equals the polygon area of the cell (slab) and is positive for right-handed cells; for a rectangular grid it is dR*dZ (times R otherwise).", "quantifier": "all geometries", "why_tests_cant": "all geometries", "anchors": ["zoidberg/stencil_dagp_fv.py:doit"]}
{"id": "C59", "title": "Storing and loading operator coefficients round-trips", "statement": "Loading coefficients stored by write gives back the coefficients of all internal faces.", "quantifier": "all sizes", "why_tests_cant": "all sizes", "anchors": ["zoidberg/stencil_dagp_fv.py:write", "zoidberg/stencil_dagp_fv.py:load"]}
{"id": "C60", "title": "Field-line direction is consistent with the field", "statement": "field_direction returns R*Bx/By and R*Bz/By point-wise (R=1 for Cartesian fields) and refuses a vanishing By; hence B x (direction) = 0.", "quantifier": "all fields and positions", "why_tests_cant": "all fields", "anchors": ["zoidberg/field.py:MagneticField.field_direction"]}
{"id": "C61", "title": "Stellarator coil fields derive from their flux function", "statement": "For the coil field Bx = -dA/dz and Bz = dA/dx, so field lines conserve A between coil positions and the field is divergence free.", "quantifier": "all positions away from the coils and all coil currents", "why_tests_cant": "continuum", "anchors": ["zoidberg/field.py:StraightStellarator"]}
{"id": "C62", "title": "VMEC Fourier sums", "statement": "The real-space arrays equal the sum of the Fourier modes rmnc*cos(m*theta - or + n*zeta) over all modes.", "quantifier": "all mode lists", "why_tests_cant": "all modes", "anchors": ["zoidberg/field.py:VMEC"]}
{"id": "C63", "title": "Fields do not share attributes", "statement": "Creating one magnetic field does not change the attributes written for another one.", "quantifier": "all creation histories", "why_tests_cant": "history dependent", "anchors": ["zoidberg/field.py:MagneticField", "zoidberg/field.py:GEQDSK"]}
{"id": "C64", "title": "Field damping factor is a proper blend", "statement": "smooth_field_line's factor lies in [0,1], is 1 inside the inner box and 0 outside the outer box.", "quantifier": "all positions", "why_tests_cant": "continuum", "anchors": ["zoidberg/field.py:SmoothedMagneticField.smooth_field_line"]}
{"id": "C65", "title": "Times are formatted without loss", "statement": "format_time splits a time in whole seconds into days, hours, minutes and seconds that add up to it, with each part in range.", "quantifier": "all times", "why_tests_cant": "unbounded", "anchors": ["zoidberg/progress.py:format_time"]}
{"id": "C66", "title": "Grid.metric gathers every slice's own metric", "statement": "Each component of Grid.metric at slice y equals the corresponding component of that slice's poloidal metric; J is present exactly if every slice has one, and a mixture of slices with and without J raises an AssertionError.", "quantifier": "all grids and slice metrics", "why_tests_cant": "arbitrary number of slices and any pattern of slices with/without J", "anchors": ["zoidberg/grid.py:Grid.metric"]}
{"id": "C67", "title": "rectangular_grid builds an admissible grid", "statement": "rectangular_grid(ny, Ly) always gives strictly increasing y coordinates in [0, Ly), evenly spaced by Ly/ny, periodic or not.", "quantifier": "all ny >= 1, Ly > 0", "why_tests_cant": "unbounded sizes", "anchors": ["zoidberg/grid.py:rectangular_grid"]}
{"id": "C68", "title": "Smoothing of the inner angles terminates exactly when they wind forwards", "statement": "The loop in grid_elliptic's laplace that smooths the angles on the inner boundary until they increase monotonically ends if and only if the angles go round a positive number of times (no two neighbours exactly opposite); the result is monotonic and winds as often as the input.", "quantifier": "all point numbers and angles", "why_tests_cant": "unbounded while loop; non-termination", "anchors": ["zoidberg/poloidal_grid.py:grid_elliptic"]}
{"id": "C69", "title": "Equal spacing in the distance table", "statement": "equallySpaced(n) puts point j at the angle where the piecewise linear interpolant of the distance table reaches j/n of the total distance.", "quantifier": "all lines with positive segment lengths and all n", "why_tests_cant": "all tables and sizes", "anchors": ["zoidberg/rzline.py:RZline.equallySpaced"]}
{"id": "C70", "title": "closestPoint is no worse than the nearest vertex", "statement": "closestPoint returns an angle in [0, 2 pi) whose polygon position is at most as far from the target as every vertex.", "quantifier": "all lines, targets and numbers of iterations", "why_tests_cant": "all lines and targets; refinement loop", "anchors": ["zoidberg/rzline.py:RZline.closestPoint"]}
{"id": "C71", "title": "Progress bars keep their width and never overflow", "statement": "update_progress prints a bar of exactly barLength characters for any progress value (numbers out of range and non-numbers included), filled from the left by round(barLength*progress) characters, which never decreases with the progress; the percentage is between 0 and 100. The zoidberg bar has a constant width too, and the remaining time Progress shows is non-negative and consistent with the elapsed time.", "quantifier": "all progress values and bar lengths", "why_tests_cant": "continuum of values, all lengths", "anchors": ["zoidberg/progress.py:update_progress", "zoidberg/progress.py:Progress"]}
{"id": "C72", "title": "The operator is only built from grids that fit together", "statement": "doit returns coefficients only for a non-empty list of grids of one size (at least four radial and three poloidal points), either all rectangular with one Lz or none rectangular; anything else raises.", "quantifier": "all lists of grids", "why_tests_cant": "all combinations of grids", "anchors": ["zoidberg/stencil_dagp_fv.py:doit", "zoidberg/stencil_dagp_fv.py:getSame"]}
{"id": "C73", "title": "Straight stellarator field lines lie on helical surfaces", "statement": "Along every field line of the straight stellarator, with its turning coils, A - iota/2*r^2 is constant (r the distance from the axis), away from the coils.", "quantifier": "all stellarators, all field lines", "why_tests_cant": "continuum of lines; exact invariant", "anchors": ["zoidberg/field.py:StraightStellarator"]}
{"id": "C74", "title": "G-EQDSK field lines stay on flux surfaces", "statement": "Along every field line of a GEQDSK field the poloidal flux psi is constant, and the field is divergence free, whatever the splines for psi and f, as long as they are differentiable.", "quantifier": "all equilibria and field lines", "why_tests_cant": "continuum; arbitrary equilibria", "anchors": ["zoidberg/field.py:GEQDSK"]}
{"id": "C75", "title": "Screw pinch field lines are circles and A is its flux function", "statement": "Field lines of the Screwpinch stay at a constant distance from its centre, Bx = -dA/dz, Bz = dA/dx, and the field is divergence free.", "quantifier": "all screw pinches and positions", "why_tests_cant": "continuum", "anchors": ["zoidberg/field.py:Screwpinch"]}
{"id": "C76", "title": "VMEC's radial average is exact for linear profiles", "statement": "The average between half meshes in VMEC's rolling_average gives the value at the full mesh point for coefficients linear in the radial index, in every column.", "quantifier": "all radial sizes and coefficients", "why_tests_cant": "all sizes", "anchors": ["zoidberg/field.py:VMEC"]}
{"id": "C77", "title": "Dommaschk potentials give vacuum fields", "statement": "Every Dommaschk potential, and so every field made from any table of coefficients, is harmonic: its gradient is divergence free in cylindrical coordinates for all mode numbers m and l.", "quantifier": "all mode numbers, coefficients and positions with R > 0", "why_tests_cant": "unbounded mode numbers; continuum of positions", "anchors": ["zoidberg/field.py:DommaschkPotentials"]}
{"id": "C78", "title": "W7X coil configurations", "statement": "Every named configuration gives exactly the documented coil currents (one per coil, in order), unknown names raise, and a request that fails is repeated once.", "quantifier": "all names and histories of failing requests", "why_tests_cant": "all histories", "anchors": ["zoidberg/field.py:W7X_vacuum"]}
{"id": "C79", "title": "Cylindrical components keep the field strength", "statement": "The change from Cartesian to cylindrical field components is a rotation: it keeps the modulus of B and is invertible at every toroidal angle.", "quantifier": "all vectors and angles", "why_tests_cant": "continuum", "anchors": ["zoidberg/field.py:W7X_vacuum", "zoidberg/field.py:FusionSCField"]}
{"id": "C80", "title": "circle and shaped_line give the anticlockwise line of their formula", "statement": "circle(R0, r, n) gives a line exactly for n >= 3 and r != 0, with the points (R0 + r cos(2 pi k/n), r sin(2 pi k/n)) in this order; shaped_line gives the points of its formula in this order, starting at the outboard midplane R0 + a and passing R0 - a, whenever (1 + elong) a > 0 and the radius decreases from the outboard to the inboard side (any triangularity in [-1, 1] without indentation, any indentation up to a/2 without triangularity); it is symmetric about the midplane, no higher than (1 + elong) a, and the circle without shaping.", "quantifier": "all radii, shapes and numbers of points", "why_tests_cant": "continuum of shapes, all sizes", "anchors": ["zoidberg/rzline.py:circle", "zoidberg/rzline.py:shaped_line"]}
{"id": "C81", "title": "SpectralLine recovers curves of few harmonics", "statement": "The fit of SpectralLine(line, num) to n > 2 num points is the table of discrete Fourier coefficients; a curve with at most num harmonics sampled at equally spaced angles is recovered, Rvalue(theta), Zvalue(theta) being its point at theta.", "quantifier": "all lines, num and least squares solvers", "why_tests_cant": "all sizes, arbitrary solver", "anchors": ["zoidberg/spectralline.py:SpectralLine"]}
{"id": "C82", "title": "Equally spaced points of a spectral line are distinct", "statement": "equallySpaced(num) of a SpectralLine hands num points of the curve to RZline, at equally spaced angles, no point twice.", "quantifier": "all spectral lines and num >= 2", "why_tests_cant": "all curves", "anchors": ["zoidberg/spectralline.py:SpectralLine.equallySpaced"]}
{"id": "C83", "title": "Field line lengths", "statement": "field_line_length returns a length exactly for two or more strictly increasing angles with one position each; it is at least the length of the polygon through the traced points (so at least the distance of the ends), invariant under rotation about and shifts along the axis, and for a helix below the length of the arc by at most a fraction (d/refine)^2/24.", "quantifier": "all traces, refinements and splines through the points", "why_tests_cant": "continuum of traces, arbitrary interpolation", "anchors": ["zoidberg/diff.py:field_line_length"]}
{"id": "C84", "title": "FusionSCTracer converts and passes on", "statement": "follow_field_lines of FusionSCTracer returns the start positions as first slice and the backend's points in cylindrical coordinates as the others; rtol, if passed, overwrites targetError.", "quantifier": "all start positions, angles, backends and keyword arguments", "why_tests_cant": "arbitrary backend", "anchors": ["zoidberg/fieldtracer.py:FusionSCTracer"]}
{"id": "C85", "title": "line_from_points_fast restores polygons from shuffled corners", "statement": "line_from_points_fast, given the corners of a convex polygon (or of any polygon around the mean of its corners) in any order, returns the polygon's corners in their cyclic order, anticlockwise. For any points it returns a line exactly if they are not all on a straight line; the line has every point once, ordered by the angle seen from their mean.", "quantifier": "all point sets, all orders, all sorting algorithms", "why_tests_cant": "all polygons and permutations, ties in the sorting", "anchors": ["zoidberg/rzline.py:line_from_points_fast"]}
{"id": "C86", "title": "upscale keeps the slices and fills in along the field lines", "statement": "upscale(field, maps, f) has f slices for each slice of the field: slice y*f is the field's slice y, and slice y*f+m holds the values interpolated linearly at the fraction m/f along the field lines from slice y to the next one (the first after the last), brought to the grid points. Only fields of the maps' shape are accepted.", "quantifier": "all fields, maps, factors, interpolators exact at their data", "why_tests_cant": "continuum of maps, all sizes", "anchors": ["zoidberg/zoidberg.py:upscale"]}
{"id": "C87", "title": "The maps of a slab", "statement": "For a Slab or CurvedSlab field on a rectangular grid, make_maps with exact tracing stores, for every offset o and every slice, xt_prime = i and zt_prime = k + pitch(x_i)*(o*Ly/ny)/dz, also across the end of a period, and -1 in both where there is no slice; following the map of o1 and then that of o2 is following that of o1+o2, following o and then -o leads back; By is stored at the slices and between them, and J of the curved slab is Jperp times x.", "quantifier": "all slabs with |By| >= 1e-8, all sizes of grids, numbers of slices, offsets and chunks", "why_tests_cant": "all sizes and offsets, continuum of fields", "anchors": ["zoidberg/zoidberg.py:make_maps", "zoidberg/grid.py:rectangular_grid", "zoidberg/poloidal_grid.py:RectangularPoloidalGrid", "zoidberg/field.py:Slab", "zoidberg/field.py:CurvedSlab"]}
{"id": "C88", "title": "calc_iota finds the rotational transform", "statement": "calc_iota returns 2 pi divided by the distance of the first two maxima of the line's major radius; for every line whose major radius is a cosine of iota*phi + phase this period differs from 2 pi/iota by less than one sampling distance, and a line that is too short raises.", "quantifier": "all tracers, transforms, phases and amplitudes", "why_tests_cant": "continuum of transforms; ties between samples", "anchors": ["zoidberg/examples/common.py:calc_iota"]}
{"id": "C89", "title": "calc_curvilinear_curvature is the curl of b/B", "statement": "bxcvx, bxcvy and bxcvz are the contravariant components of the curl of the unit vector over B in the grid's coordinates, from the covariant components of the field at the grid points.", "quantifier": "all fields and curvilinear grids, all sizes", "why_tests_cant": "continuum of fields and grids", "anchors": ["zoidberg/examples/common.py:calc_curvilinear_curvature"]}
{"id": "C90", "title": "smooth_metric replaces curvature and metric by filtered ones", "statement": "smooth_metric with write_to_file replaces J, the curvature and the metric components by their values filtered along z with an odd window of half the points, keeps the other variables and the two metric tensors inverse to each other; grids with too few points are refused.", "quantifier": "all filters, files, sizes and orders", "why_tests_cant": "all sizes and contents", "anchors": ["zoidberg/examples/common.py:smooth_metric"]}
{"id": "C91", "title": "rotating_ellipse aligns the boundaries it is asked to align", "statement": "For every combination of its switches rotating_ellipse makes a grid whose inner (outer) boundary in each slice is the flux surface traced to this slice exactly if curvilinear_inner_aligned (curvilinear_outer_aligned) is set, and with return_iota returns iota.", "quantifier": "all combinations of switches, all numbers of slices", "why_tests_cant": "all combinations and sizes", "anchors": ["zoidberg/examples/rotating_ellipse.py:rotating_ellipse"]}
{"id": "C92", "title": "The curve that replaces a corner", "statement": "In gen_newr the equations A x = b say exactly that the curve starts at the first point of the run, ends at its last point, and is parallel there to the line before and after it; the fitted curve meets them, in the direction of the line, and lenofs is the mean speed.", "quantifier": "all runs, neighbours and coefficients", "why_tests_cant": "continuum of runs; least squares optimum", "anchors": ["zoidberg/smooth.py:gen_newr"]}
{"id": "C93", "title": "EMC3 positions are put into the cell that has them or the nearest corner", "statement": "rz_to_ab finds a position in the first zone that has it; a position outside of all zones is put into a cell that has the nearest corner of a zone, if that is within 1 m, and raises otherwise.", "quantifier": "all meshes, zones, hints and positions", "why_tests_cant": "all sizes and positions", "anchors": ["zoidberg/fieldtracer.py:EMC3FieldTracer.rz_to_ab"]}
{"id": "C94", "title": "The operators made from the maps follow the field lines", "statement": "calculate_parallel_map_operators and modify_maps accept every dictionary that make_maps returns; the rows made from it interpolate at the positions where the lines of the sub-samples meet the next slice, and for a slab applied to a linear field give its value at the end of the line through the centre of the cell, so that their central difference is the derivative along the lines, for every number of slices.", "quantifier": "all grids, fields, numbers of slices and sub-samples, sizes, cells and linear fields", "why_tests_cant": "continuum of fields; all sizes and numbers of slices", "anchors": ["zoidberg/zoidberg.py:make_maps", "zoidberg/weights.py:calculate_parallel_map_operators", "zoidberg/weights.py:modify_maps"]}
{"id": "C95", "title": "fci_to_vtk shows the field of a grid file", "statement": "fci_to_vtk writes the vector field (scale*bx, 1, scale*bz) on the points of the grid: dx apart in x, dy apart in y, and dx*nx/nz apart in z, x and z stretched by scale; without the components in the file it uses the displacements of the maps. Without pyevtk it does nothing.", "quantifier": "all files, shapes and scales", "why_tests_cant": "all sizes and contents of files", "anchors": ["zoidberg/zoidberg.py:fci_to_vtk"]}
{"id": "C96", "title": "plot_forward_map and plot_backward_map mark the boundary points", "statement": "The plots of the maps of a slice show the points of the next (last) slice, the end of every line once, and mark as inner (outer) boundary exactly those of lines that leave through the inner (outer) boundary, for every slice that has a next (last) one.", "quantifier": "all maps, grids and slices", "why_tests_cant": "all sizes and maps; sides of the boundary", "anchors": ["zoidberg/plot.py:plot_forward_map", "zoidberg/plot.py:plot_backward_map"]}
{"id": "C97", "title": "Poincare and 3d plots show the traced lines", "statement": "plot_poincare draws every slice in a colour of its own, the one of its entry in the legend, with the points where the lines meet it, one for each revolution; clicks show the lines through their places, added to or instead of those shown. plot_3d_field_line draws for each cycle the points of the lines at their y within the period.", "quantifier": "all fields, starting points, slices, revolutions and sequences of clicks", "why_tests_cant": "all histories of clicks, all sizes", "anchors": ["zoidberg/plot.py:plot_poincare", "zoidberg/plot.py:plot_3d_field_line"]}
{"id": "C98", "title": "make_surfaces and write_Bfield_to_vtk show flux surfaces and the field", "statement": "make_surfaces numbers the surfaces through nsurfaces positions between the centre and the edge of the grid from 0 to 1 and interpolates these numbers, in every slice, from the points where the lines meet it; the result is between 0 and 1. write_Bfield_to_vtk writes it with the components of the field, x and z stretched by scale, for every Grid and MagneticField.", "quantifier": "all grids, fields, numbers of surfaces and revolutions, interpolations", "why_tests_cant": "all sizes; continuum of fields; objects of other classes", "anchors": ["zoidberg/zoidberg.py:make_surfaces", "zoidberg/zoidberg.py:write_Bfield_to_vtk"]}
{"id": "C99", "title": "plot_streamlines and AnimateVectorField show the components slice by slice", "statement": "plot_streamlines hands the components of the field in the slice to matplotlib with z along the rows and x along the columns, and lines of a width proportional to the field in the plane, for every Grid and MagneticField. AnimateVectorField shows every frame in order.", "quantifier": "all grids, fields, slices and widths", "why_tests_cant": "all sizes and contents", "anchors": ["zoidberg/plot.py:plot_streamlines", "zoidberg/plot.py:AnimateVectorField"]}
{"id": "C100", "title": "The Dommaschk invariant is constant along field lines to first order", "statement": "Along every field line of a DommaschkPotentials field Sfunc changes only in second order of the coefficients: multiplying a table by a small eps, the change per toroidal angle is at most a constant times eps^2 in every bounded region with R > 0; Sfunc is periodic in the toroidal angle.", "quantifier": "all tables of coefficients, regions, field lines", "why_tests_cant": "continuum of lines; unbounded mode numbers; order of smallness", "anchors": ["zoidberg/field.py:DommaschkPotentials.Sfunc", "zoidberg/field.py:DommaschkPotentials.V_hat", "zoidberg/field.py:DommaschkPotentials.U_hat"]}
{"id": "C101", "title": "A saved W7-X field is the one that was asked for", "statement": "field_values of W7X_vacuum returns, from a saved file or from the service, the field of the configuration asked for at the points asked for, in any history of calls in one directory; the file of one configuration and set of points is never taken for another; a failing call leaves the files as they are.", "quantifier": "all histories of calls, configurations, ranges, numbers of points and answers of the service", "why_tests_cant": "all histories; continuum of ranges; web service", "anchors": ["zoidberg/field.py:W7X_vacuum.field_values"]}
{"id": "C102", "title": "The W7-X field functions interpolate the samples", "statement": "The samples are on nx, ny, nz equally spaced points between the ends of the ranges. Bxfunc, Byfunc and Bzfunc return the samples at these points, reproduce every field that is affine in each coordinate, stay between the samples, have the period 2 pi and are (0, 1, 0) outside of the box; with phimax set to a period of the field they return the field at every angle, and the default ranges contain the plasma evenly.", "quantifier": "all sizes, ranges, samples and positions", "why_tests_cant": "continuum of positions and fields; web service", "anchors": ["zoidberg/field.py:W7X_vacuum.__init__", "zoidberg/field.py:W7X_vacuum.Bxfunc", "zoidberg/field.py:W7X_vacuum.Byfunc", "zoidberg/field.py:W7X_vacuum.Bzfunc"]}
{"id": "C103", "title": "The plasma's field is added, and that of the equilibrium asked for", "statement": "With include_plasma_field the samples are the sums of the vacuum and the plasma field at the same points, the plasma field being that of wout_file, from the file saved for these points or from the service; W7X_VMEC gives the field of the equilibrium vmec_id.", "quantifier": "all sizes, ranges, directories and answers of the services", "why_tests_cant": "all contents of directories; web service", "anchors": ["zoidberg/field.py:W7X_vacuum.plasma_field", "zoidberg/field.py:W7X_VMEC.__init__"]}
{"id": "C104", "title": "magnetic_axis gives the axis at the angle asked for", "statement": "magnetic_axis returns radius and height of the first vertex of the axis whose toroidal angle is within three percent of phi_axis, for every angle.", "quantifier": "all lists of vertices, angles and configurations", "why_tests_cant": "continuum of angles; web service", "anchors": ["zoidberg/field.py:W7X_vacuum.magnetic_axis"]}
{"id": "C105", "title": "Bmag of an EMC3 field fills gaps from the known values of the column", "statement": "Bmag keeps every known value and replaces every nan by the spline through the known values of the same column, as a function of the length along the column; it is exact for values that are linear in it, and works for positions of every shape with at least one known value.", "quantifier": "all arrays, sizes, patterns of gaps, splines", "why_tests_cant": "all patterns of gaps and sizes", "anchors": ["zoidberg/field.py:EMC3.Bmag"]}
{"id": "C106", "title": "SmoothedMagneticField gives a field that can be traced", "statement": "Bxfunc of SmoothedMagneticField looks up the two planes of the grid that enclose phi, and the field, damped towards the edges of the box, can be traced.", "quantifier": "all grids, fields and positions", "why_tests_cant": "all grids; continuum of positions", "anchors": ["zoidberg/field.py:SmoothedMagneticField.Bxfunc", "zoidberg/field.py:SmoothedMagneticField.smooth_field_line"]}
{"id": "C107", "title": "GEQDSK gives the equilibrium of the file", "statement": "The field of a G-EQDSK file has the file's axes, at their points its flux, Bx and Bz made from this flux alone, and the entries of the profiles for the normalised flux: the last entries at every point outside of the core boundary, whatever the flux there, those of the flux at every point in it, so that R*By and the pressure are functions of the flux in the core. The limiter, if there is one, is the boundary. Files that cannot be used are refused.", "quantifier": "all files, sizes, polygons and splines through their points", "why_tests_cant": "continuum of files and polygons; all sizes; arbitrary interpolation", "anchors": ["zoidberg/field.py:GEQDSK.__init__", "zoidberg/field.py:GEQDSK.Byfunc", "zoidberg/field.py:GEQDSK.pressure"]}
{"id": "C108", "title": "Fields on demand give the service's field in cylindrical components", "statement": "With a service that evaluates a field, W7X_vacuum_on_demand and FusionSCField return at every position the components of this field along the radius, the toroidal angle and the height, in the shape of the positions, and Bmag their modulus; the samples of W7X_vacuum are the values of W7X_vacuum_on_demand at the points of the mesh; a symmetry of the field under turns about the axis is one of the components. Every combination of arrays and scalars is accepted.", "quantifier": "all services and fields, shapes and positions", "why_tests_cant": "continuum of fields; arbitrary service; all shapes", "anchors": ["zoidberg/field.py:W7X_vacuum_on_demand", "zoidberg/field.py:FusionSCField", "zoidberg/field.py:W7X_vacuum._calc_B"]}
{"id": "C109", "title": "The check of the toroidal weights never raises", "statement": "In double precision, rounding to nearest, with a power function accurate to one unit in the last place, the four toroidal weights of every position are within 128 rounding units of the exact ones and their sum within 600 of one, so that the assertion on their sum never fails.", "quantifier": "all positions of any size, all power functions of this accuracy", "why_tests_cant": "all doubles; accumulation of rounding errors", "anchors": ["zoidberg/weights.py:catmull_rom_weights", "zoidberg/weights.py:calculate_parallel_map_operators"]}
{"id": "C110", "title": "Rows depend continuously on the maps", "statement": "Two sets of maps of the same sizes whose lines inside of the domain end at positions that differ by at most delta, with the same lines leaving, give rows that act on a field bounded by M with a difference of at most (10 delta + 1e-9) M, also where a position passes from one cell to the next.", "quantifier": "all maps, fields, cells, distances", "why_tests_cant": "continuum of maps; all sizes; passages between cells", "anchors": ["zoidberg/weights.py:calculate_parallel_map_operators"]}
{"id": "C111", "title": "Points of a rectangular grid are at their own indices in double precision", "statement": "In double precision findIndex of RectangularPoloidalGrid at a point of the grid is its index to a rounding error; lines that stay at their R and Z end in their own column, for every column of the domain.", "quantifier": "all sizes, centres and numbers of points", "why_tests_cant": "all doubles; accumulation of rounding errors; decided by the last bit", "anchors": ["zoidberg/poloidal_grid.py:RectangularPoloidalGrid.__init__", "zoidberg/poloidal_grid.py:RectangularPoloidalGrid.findIndex", "zoidberg/poloidal_grid.py:RectangularPoloidalGrid.getCoordinate", "zoidberg/weights.py:classify_leg_contributions"]}
{"id": "C112", "title": "Remainders in double precision stay in the period", "statement": "np.remainder(a, b) in double precision is at least 0 and below b, the exact remainder for a >= 0 and within a rounding unit of it otherwise; W7X_vacuum finds every angle in its table.", "quantifier": "all angles and periods", "why_tests_cant": "all doubles", "anchors": ["zoidberg/field.py:W7X_vacuum.Bxfunc", "zoidberg/rzline.py:RZline.positionPolygon"]}
{"id": "C113", "title": "Integer quotients that go through floats are the integer quotients", "statement": "np.floor(yindex/float(ny)), int(len/1000), int(v/2) and the window of smooth_metric give, in double precision, the integer quotients for all numbers below 2^53 (2^52 for the window).", "quantifier": "all integers of this size", "why_tests_cant": "all pairs of integers", "anchors": ["zoidberg/grid.py:Grid.getPoloidalGrid", "zoidberg/fieldtracer.py:FieldTracer", "zoidberg/examples/common.py:smooth_metric"]}
{"id": "C114", "title": "positionPolygon gives the vertices at their own angles in double precision", "statement": "In double precision positionPolygon at the angles theta of the line gives its points to a rounding error.", "quantifier": "all lines and vertices", "why_tests_cant": "all doubles; decided by the last bit", "anchors": ["zoidberg/rzline.py:RZline.positionPolygon", "zoidberg/rzline.py:RZline.__init__"]}
{"id": "C115", "title": "The index search converges on curved grids", "statement": "findIndex of StructuredPoloidalGrid, started at the nearest grid point away from the boundary rows, returns after at most 12 steps an index within twice the inverse bound times the first mismatch and within the tolerance, if the Kantorovich condition holds around that point; with a quarter of that bound the index is within twice the inverse bound times the root of the tolerance of the true one. Targets nearest to a boundary row are marked at once. No RuntimeError is raised.", "quantifier": "all grids (splines), targets, tolerances, lists of targets of both kinds", "why_tests_cant": "continuum of grids and targets; convergence of an iteration with changing relaxation", "anchors": ["zoidberg/poloidal_grid.py:StructuredPoloidalGrid.findIndex"]}
{"id": "C116", "title": "The slices of the example grids are even around the period", "statement": "In the grids of the examples slice i is i/n of a period from the start, for all i around the period, and dy is the distance of neighbouring slices and adds up to the period.", "quantifier": "all numbers of slices, periods and indices", "why_tests_cant": "all indices around the period", "anchors": ["zoidberg/examples/screwpinch.py:screwpinch", "zoidberg/examples/rotating_ellipse.py:rotating_ellipse", "zoidberg/grid.py:Grid.getPoloidalGrid", "zoidberg/grid.py:Grid.metric", "examples/straight-stellarator-curvilinear.py", "examples/rotating-ellipse.py", "test/mms/poloidal_grid.py", "test/mms/radial_grid.py"]}
{"id": "C117", "title": "FieldTracerReversible converges and follows the field lines of every smooth field", "statement": "With steps H and a direction of Lipschitz constant L in x and z, H L at most 1/4, every Newton iteration of FieldTracerReversible.follow_field_lines ends, whatever the positions, and every step satisfies the trapezoidal rule up to (3/2) L sigma times the step, sigma^2 the tolerance. If the field lines have third derivatives of at most M the positions at distance S are within exp(3 L S / 2) (e + (8/7)(3/2 L sigma + M H^2/12) S) of the field lines, e the error at the start.", "quantifier": "all fields, positions, shapes, lists of y, numbers of steps, tolerances, finite difference steps", "why_tests_cant": "continuum of fields; unbounded iteration; accumulation of errors", "anchors": ["zoidberg/fieldtracer.py:FieldTracerReversible.follow_field_lines"]}
{"id": "C118", "title": "FieldTracerReversible is reversible up to its tolerance", "statement": "With the steps of the previous property, following the field from the end points back along the same y gives at every one of them the position on the way there, within exp(3 L S / 2) (24/7) L sigma S at distance S from the end.", "quantifier": "all fields, positions, shapes, lists of y, numbers of steps, tolerances", "why_tests_cant": "continuum of fields; unbounded iteration; accumulation of errors", "anchors": ["zoidberg/fieldtracer.py:FieldTracerReversible.follow_field_lines"]}
{"id": "C119", "title": "Rows interpolate smooth fields with an error of third order", "statement": "Applied to the values of a field with third derivatives of at most Mx along x and Mz along z (lengths in cells, the period of z that of the grid) a row gives the average of the field over the ends of the lines inside, up to 3/32 Mx + 15/128 Mz, 25/16 of the error of the values, and the dropped weights; at the true ends, if the maps are off by e, up to twice the slope times e more; for lines that end next to the radial boundary up to an eighth of a cell's variation more. On cubics the error is not zero.", "quantifier": "all maps, sub-samples, weights, cells, smooth fields, errors of values and maps", "why_tests_cant": "continuum of fields and positions; all sizes; order of an error", "anchors": ["zoidberg/weights.py:calculate_parallel_map_operators", "zoidberg/weights.py:catmull_rom_weights", "zoidberg/weights.py:accumulate_interior_stencil", "zoidberg/weights.py:shift_weights_out_of_x_boundaries"]}
{"id": "C120", "title": "From any tracer to the derivative along the field lines", "statement": "On rectangular grids, with any tracer whose lines end within e of the field lines, the rows made by weights.py from the maps of make_maps give, for a field with bounded third derivatives, the weighted average of the field over the ends of the field lines through the sub-samples of the cell, up to third powers of the distances of the grid points, 2 L e, the error of the values and the dropped weights; the difference of the two rows over the distance of their slices is the derivative of the field along the field lines, averaged over the sub-samples, up to this error over the distance and the square of the distance.", "quantifier": "all tracers of the given accuracy, rectangular grids, sub-samples, quadrature rules, chunks, guard cells, smooth fields, cells whose lines stay inside", "why_tests_cant": "continuum of fields and tracers; all sizes; order of an error through the whole pipeline", "anchors": ["zoidberg/zoidberg.py:make_maps", "zoidberg/weights.py:calculate_parallel_map_operators", "zoidberg/poloidal_grid.py:RectangularPoloidalGrid.findIndex"]}
{"id": "C121", "title": "The perpendicular operator is a diffusion operator", "statement": "The operator stencil_dagp_fv.py makes, applied as its own test does, is a diffusion operator: it is symmetric for fields that are zero in the first and last radial row, it makes the sum of their squares fall, the largest value of a field it is not negative on is in these rows, the values there and those of the operator inside determine the field, and over the cell volumes it is the Laplacian to second order in the distances of the grid points.  Proved on rectangular grids; false on structured grids.", "quantifier": "all rectangular grids with positive distances (slab or torus), fields, planes; smooth fields with errors of the values", "why_tests_cant": "continuum of fields; sums over grids of all sizes; order of an error", "anchors": ["zoidberg/stencil_dagp_fv.py:doit", "zoidberg/stencil_dagp_fv.py:test"]}
{"id": "C122", "title": "Order of the differences on smooth functions", "statement": "On samples of a smooth function with known error, c2 is second order accurate at every point and c4 fourth order, periodic or not, ends included.", "quantifier": "all smooth functions, sizes, spacings, errors of the samples", "why_tests_cant": "order of an error for all functions; test_diff.py looks at the sine and cosine, whose second or odd derivatives vanish at the end it tests", "anchors": ["zoidberg/diff.py:c2", "zoidberg/diff.py:c4"]}
{"id": "C123", "title": "The length of a field line converges to the arc length", "statement": "field_line_length returns the length of a polygon along the curve the spline draws through a trace: not larger than the arc length of this curve and smaller by at most twice the bound of its second derivatives over the number of steps, so that it converges to the arc length as refine grows, with second order if the curve never stands still; a multiple of the refinement never makes it smaller.", "quantifier": "all splines, traces, refinements; curves with bounded second derivatives", "why_tests_cant": "continuum of curves; order of an error", "anchors": ["zoidberg/diff.py:field_line_length"]}
{"id": "C124", "title": "Centres of the cells", "statement": "toCent returns, for nx rows of nz points, nx - 1 rows of nz points, each the mean of four corners, with the poloidal index periodic, inside every box around them; on rectangular grids it is the position of the index (i + 1/2, j - 1/2). False for the height of the column j = 0, whose corners are at both ends of the period.", "quantifier": "all arrays, rectangular grids", "why_tests_cant": "all shapes and values", "anchors": ["zoidberg/stencil_dagp_fv.py:toCent"]}
