# Formal model of zoidberg (Rocq/Coq 8.16.1)

Source: `/repo` (boutproject/zoidberg, pinned). It is read as text only; nothing
of it is run. Properties: `properties.jsonl`. Status per property:
`MANIFEST.json`. Wrong-program experiments: `seeded/LOG.jsonl`.

## 1. Modelling conventions (and what they leave out)

* **Numbers.** Python/numpy floats are modelled as exact rationals `Q`
  (computable, axiom free; equality is `==`) wherever the code only uses field
  operations, comparisons, `int()`, `floor` and remainders. Where the code uses
  `sqrt`, trigonometric functions, `pi` or derivatives the model uses `R`.
  Overflow, NaN and infinities are *not* modelled, except where a
  property is about them (file writer: an explicit "finite" flag; division by
  zero in Newton's method: explicit error). Rounding is modelled in the `Float*`
  files only, where `b64 : Q -> Q` is IEEE binary64, to nearest, ties to even, with
  subnormals and without a largest number (C109_nearest), and an operation is the
  exact one followed by `b64`; all other theorems are about exact arithmetic. Python
  ints are `Z`.
* **Arrays.** An n-d array is a total function of integer indices together with
  its shape kept separately; 1-d arrays are lists. No theorem looks at entries outside the
  shape; code paths that would index outside give an explicit `Err IndexError`
  in the model where that can happen.
* **Exceptions** are values: `res A := Ok a | Err e`, with the Python exception
  class kept in `e`.
* **Loops** are structural recursion / `fold_left` over the list of indices the
  Python `range` yields, in the same nesting order; `while` loops carry explicit
  fuel and the theorems show that the fuel is irrelevant or enough, or that the loop
  does not terminate.
* **Oracles.** Library calls (ODE solver, splines, linear solver, web service,
  roots of Jacobi polynomials, field functions) are section variables, so every
  theorem holds for all of their behaviours, or states the needed assumption.
* **Mutation.** Where in-place mutation is observable (caller's arrays, cached
  metric, class-level dictionaries, files) the state is explicit.

File layout (`rocq/theories`): `Prelude*.v` (lists, rationals, results);
`<Part>Model.v` (definitions, each citing file and lines); `<Part>Proofs.v`
(lemmas); `<Part>Props.v` (the property theorems, stated with small independent
specifications, `Print Assumptions` and non-vacuity `Example`s).

## 2. Trusted base

* Coq's kernel (and `vm_compute` used in examples and witnesses).
* The axioms printed by `Print Assumptions`: for theorems over `Z`, `Q`, lists,
  strings: none ("Closed under the global context"). For theorems over `R`: the
  axioms of Coq's standard reals only (`ClassicalDedekindReals.sig_forall_dec`,
  `ClassicalDedekindReals.sig_not_dec`,
  `FunctionalExtensionality.functional_extensionality_dep`, and possibly
  `Classical_Prop.classic`), listed per theorem in section 5.
* The correspondence model <-> Python text, documented by the comment at each
  definition.

## 3. Plan per property

| id | what is modelled | how it is proved |
|----|------------------|------------------|
| C01-C03 | `assign_cell_space_numbers`, `build_leg_space_metadata` as folds over the cell sweep | loop invariant "numbers handed out so far = 0..next-1, injective", closed forms |
| C04 | `build_leg_weight_vector`, `_get_subcell_weights` | invariant over the weight sweep, sum split by mask |
| C05-C09 | `SparseRowMatrixBuilder`, `accumulate_interior_stencil`, `build_leg_destination_operator`, `to_csr` | invariant on builder rows; row = specification sum; CSR decode lemma |
| C10 | same | positive part for z >= 0; refutation witness for negative z (int() truncates) |
| C11-C12 | `modify_maps` | pointwise characterisation of the sweep |
| C13 | `parallel_slice_field_name` on real strings with decimal printing | injectivity of decimal printing + suffix analysis; refutation for arbitrary names |
| C14-C16 | `Grid.getPoloidalGrid` on rational indices | arithmetic of div/mod; refutation for fractions other than 1/2 |
| C17 | `Grid.metric` (dy) | `np.gradient` on the list; uniform case; refutation for non-uniform |
| C18-C20 | `make_maps` main loop with tracer/index-search/boundary oracles | frame reasoning on the dictionary of arrays; refutations |
| C21-C22 | `make_maps` J loop | array_split partition lemma; window arithmetic |
| C23 | `get_metric` + metric cache as state | state equation; refutation for Cartesian fields |
| C24 | metric formulas | algebra over R/Q |
| C25-C29 | `MapWriter` as a state machine over a file (variables, attributes) with crash points | invariants over histories |
| C30-C31 | `RectangularPoloidalGrid` | field arithmetic; refutation for second derivatives |
| C32 | `StructuredPoloidalGrid.findIndex` loop over oracle splines | loop invariant |
| C33-C35 | `grid_annulus`, `grid_elliptic` | list/array lemmas, invariants; termination by size |
| C36-C41 | `rzline.py` | shoelace algebra; permutation invariants; refutations |
| C42-C44 | `smooth.py` | list induction; refutation |
| C45-C51 | `fieldtracer.py` | list/reshape lemmas, induction over schedules/histories; refutations |
| C52-C53 | `boundary.py` | case analysis; parity of crossings = parity of covering fan triangles; refutation at vertices |
| C54-C55 | `diff.py` | polynomial identities by `ring`; refutation at ends of c2 |
| C56-C59 | `stencil_dagp_fv.py` | telescoping sums over arbitrary sizes |
| C60-C64 | `field.py` | algebra / derivatives over R; attribute heap |
| C65, C71 | `format_time`, `update_progress`, `Progress` | integer division; list lengths |
| C66-C67 | `Grid.metric`, `rectangular_grid` | pointwise characterisation |
| C68 | inner angles in `grid_elliptic` | winding number invariant; the smoothing contracts |
| C69-C70 | `equallySpaced`, `closestPoint` | piecewise linear interpolation; loop invariant; refutation |
| C72 | guards of `doit` | case analysis |
| C73-C75 | field lines of `StraightStellarator`, `GEQDSK`, `Screwpinch` | invariants of an arbitrary solution, mean value theorem |
| C76 | `__rolling_average` | slices of lists |
| C77 | `DommaschkPotentials` with a syntax tree for sympy expressions | derivative rules proved correct; recurrences of the radial functions by convolution identities |
| C86 | `upscale` with scipy's interpolations as oracles | list induction; cubic spline on two points in closed form |
| C87 | `make_maps` on a rectangular grid with the slab fields | composition of C14, C18, C22, C60 |
| C88 | `calc_iota`, the tracer an oracle | the samples nearest to a maximum of a cosine; strictness over the window of ten |
| C89 | `calc_curvilinear_curvature`, derivatives as an oracle | algebra; witnesses with a vacuum field |
| C90 | `smooth_metric`, the filter as an oracle | induction over the loops; computation |
| C91 | the switches of `rotating_ellipse` | case analysis |
| C92 | the residuals of `gen_newr` | algebra; scaling down an exact curve improves it |
| C93 | `rz_to_ab` with its search | list induction; division with remainder |
| C94 | `make_maps` and `weights.py` together | composition of the theorems about both; sums over the sub-samples factorise |
| C95 | `fci_to_vtk` | by computation; the names of the writer's variables are disjoint from `bx` |
| C96-C97 | `plot.py` with `make_maps` and the tracer | from C18, C45 and C48; induction over the clicks |
| C98-C99 | `make_surfaces`, `write_Bfield_to_vtk`, `plot_streamlines`, `AnimateVectorField`, attributes optional, griddata an oracle | from C45 and the lists of C48; induction over the slices |
| C100 | `Sfunc`, `V_hat`, `U_hat` as expressions | chain rule along curves; the potentials and all derivatives are bounded by a closure property of the expressions; mean value theorem |
| C101-C103 | `W7X_vacuum`, `W7X_VMEC`, directories as maps from names to samples, services as oracles | the names are injective up to rounding; induction over the history; the interpolation axis by axis |
| C104 | `magnetic_axis` over R | first of a filter; bounds of arctan |
| C105 | `EMC3.Bmag`, spline as an oracle | induction over the columns |
| C106 | `SmoothedMagneticField` | the nearest position is a neighbour |
| C107 | the constructor of `GEQDSK`, the file as a record, splines as oracles | from C53 and the interpolation conditions |
| C108 | `_calc_B`, `W7X_vacuum_on_demand`, `FusionSCField` over R, services as oracles | entry by entry; addition theorems |
| C115 | the index search on curved grids | Newton-Kantorovich: quadratic decrease of the residual for 9 full steps, linear with the relaxed ones, residual monotone so that `extra` never meets a failure |
| C116 | slices of the example grids | periodic lookup of integer indices; dy of evenly spaced coordinates |
| C117, C118 | `FieldTracerReversible` on Lipschitz fields | the finite difference matrix is diagonally dominant, the residual falls by 5/8 per iteration; the error of the rule from the third derivative (mean value theorem), a discrete Gronwall inequality |
| C119 | rows of `calculate_parallel_map_operators` on smooth fields | Taylor's theorem from the mean value theorem; the four weights reproduce quadratics, the sums of their moduli are at most 5/4; C09 |
| C120 | `make_maps` followed by `calculate_parallel_map_operators`, any tracer, rectangular grids, smooth fields | the maps of `make_maps` (C94), rows on smooth fields (C119), Taylor's theorem along the line |
| C121 | the operator made by `doit`, applied as in `test`, rectangular grids | the five-point form of C57, summation by parts in both directions, the discrete maximum principle, Taylor's theorem; two twisted grids with computed entries |
| C122 | `c2`, `c4` of diff.py on samples of smooth functions | the formulas of C54 and C55 at every point, Taylor's theorem to fifth order from the mean value theorem |
| C123 | `field_line_length` on curves with second derivatives | chords against the arc by Cauchy-Schwarz and the mean value theorem; Taylor's theorem for each step |
| C124 | `toCent` of stencil_dagp_fv.py (CentModel.v) | rows and entries of the sums of shifted lists |
| C109, C111-C114 | double precision in `catmull_rom_weights`, `RectangularPoloidalGrid`, `np.remainder`, integer quotients, `positionPolygon` | error bounds from five facts about rounding, which binary64 has; witnesses by computation |
| C110 | two sets of maps in `weights.py` | the cubic is Lipschitz in a cell and continuous between cells |
| C85 | `line_from_points_fast`, argsort any function that sorts | shoelace sum in polar form; the mean of the corners balances them, so no gap is above pi |
| C83-C84 | `field_line_length` with the spline as an oracle, `FusionSCTracer` | triangle inequality; closed form for helices |
| C80-C82 | `circle`, `shaped_line`, `SpectralLine` with the least squares solver as an oracle | shoelace sum by symmetry and telescoping; discrete orthogonality of sines and cosines |
| C78-C79 | `_set_config`, `_calc_chunk`, change of components | computation; algebra |

Not expressible: accuracy of the ODE solver and of spline interpolation (no model of
scipy numerics), floating point outside of C109 and C111-C114, the drawing itself,
reading of equilibrium files.

What is modelled of each file, and what is not:

| file | modelled | not modelled |
|---|---|---|
| `weights.py` | all of it (numbering, legs, weights, stencils, CSR, `modify_maps`) | rounding but for the toroidal weights |
| `zoidberg.py` | `parallel_slice_field_name`, `make_maps`, `update_metric_names`, `get_metric`, `MapWriter`, `write_maps`, `upscale` (interpolations as oracles), `fci_to_vtk`, `write_Bfield_to_vtk` (up to the call of pyevtk), `make_surfaces` | |
| `grid.py` | `Grid`, `rectangular_grid` | printing |
| `poloidal_grid.py` | `RectangularPoloidalGrid`, `StructuredPoloidalGrid` (splines as oracles), `grid_annulus`, `grid_elliptic` | plotting |
| `rzline.py` | `RZline`, `circle`, `shaped_line`, `line_from_points`, `_poly`, `_fast`, `_two_opt` | `_convex_hull`, `_alphashape` (other libraries) |
| `spectralline.py` | all of it, with the least squares fit as an oracle | plotting |
| `smooth.py` | all of it, with the least squares fit as an oracle | plotting |
| `fieldtracer.py` | `FieldTracer`, `FieldTracerReversible`, `trace_poincare`, `FieldTracerCached`, web tracer, EMC3 tracer, FusionSC wrapper | the integrators themselves |
| `boundary.py` | all of it | |
| `diff.py` | all of it, splines as oracles | |
| `progress.py` | all of it | writing to the terminal |
| `stencil_dagp_fv.py` | all of it but plotting and printing | |
| `field.py` | `field_direction`, slabs, stellarators, Dommaschk potentials with their approximate invariant, screw pinch, VMEC sums, damping factor, GEQDSK with its constructor, W7X configurations, retries, files, interpolation and axis, `W7X_VMEC` up to the failure, EMC3 `Bmag`, `SmoothedMagneticField`, change of components | contents of files, the services, spline fits |
| `examples/common.py` | `calc_iota`, `calc_curvilinear_curvature`, `smooth_metric`; `get_lines` as a name | files, tracing |
| `examples/rotating_ellipse.py` | the switches (also of `main`) and the grids they choose | numerical command line options |
| `examples/screwpinch.py`, scripts in `examples/`, grids in `test/mms` | the slices | the rest |
| `plot.py` | what `plot_poincare` (with its clicks), `plot_3d_field_line`, `plot_streamlines`, `AnimateVectorField`, `plot_forward_map` and `plot_backward_map` hand to matplotlib | labels |

## 4. Findings

Every entry is a theorem about the model; the model's comments give the lines of
the code. "Witness" means a concrete input computed in Coq.

### Wrong results

| where | what happens | theorem |
|---|---|---|
| `weights.py:451-452` | `int()` truncates towards zero, so the operator rows for a mapped z in (-1, 0) (and, in general, negative z) differ from those for z + nz | C10_z_period_refuted |
| `weights.py` `modify_maps` | a cell whose centre leaves the domain while no sub-sample does keeps its boundary mark in the map but gets no boundary leg | C12_centre_without_subsample_refuted |
| `zoidberg.py:34-54` | with arbitrary field names two (field, offset) pairs share a variable name: ("R_2", 1) and ("R", 2) | C13_arbitrary_fields_refuted |
| `grid.py:102-107` | a fractional index i + f gives the position at fraction 1 - f; right for f = 1/2 only | C16_quarter_refuted, C16_fraction_partial |
| `grid.py:98-102` | an index a rounding error below an integer is taken as that integer's slice, one period away | C16_tolerance_refuted |
| `examples/straight-stellarator-curvilinear.py:29`, `examples/rotating-ellipse.py:34` | `np.linspace(0, yperiod, nslices)` takes both ends of the period as slices of a periodic grid: the map from the last slice of a period to the first of the next one has length zero, dy adds up to more than the period | C116_scripts, C116_scripts_refuted |
| `test/mms/poloidal_grid.py:56`, `test/mms/radial_grid.py:29` | the length of the grid is 5, the slices are over 2 pi / 5: the last step is longer than the others | C116_mms |
| `grid.py:193` | `np.gradient` of the middle period only: dy of the first and last slice is one-sided, does not add up to Ly for unevenly spaced slices | C17_dy_uneven_refuted |
| `zoidberg.py:225-229` | the boundary test of all slices of a direction is made at the y of the outermost slice | C18_own_y_boundary_refuted |
| `zoidberg.py:234-243` | sub-sample maps are filled for the outermost slice only; with nslice >= 2 those of the inner slices stay zero | C19_inner_slices_refuted |
| `zoidberg.py:244-` | the sub-samples' second node shifts Z along x, nothing is shifted along z: the quadrature points are not in the cell's z range | C20_starts_refuted, C20_no_z_sampling_refuted |
| `zoidberg.py:432-470` | for Cartesian fields each `get_metric` call multiplies the cached `g_yy` again | C23_cartesian_refuted, C23_cartesian_calls_accumulate |
| `zoidberg.py:544-582` | a finished file keeps its perpendicular operators when the grid changes | C27_changed_grid_refuted |
| `zoidberg.py:657-700` | parallel metric of non-periodic grids: y is rotated, not unwrapped, and not monotonic; unevenly spaced periodic grids are rejected by the assertion | C29_nonperiodic_refuted, C29_uneven_rejected |
| `fieldtracer.py:272-311` | the round trip of the reversible tracer is exact for affine fields only; otherwise it returns within the tolerance | C118_exact_refuted, C118_round_trip |
| `poloidal_grid.py:187` | `dx + dz > 2` instead of `>= 2`: second derivatives of a rectangular grid are returned as if of lower order | C31_second_order_refuted |
| `poloidal_grid.py` `grid_elliptic` | the default `dz_relax` of 10/3 changes the equation that is solved, not only how fast | C34_documented_equation_refuted |
| `rzline.py:158-` `positionPolygon` | the fraction along a segment is not divided by dtheta: the point need not be on the segment; negative angles use another segment | C37_fraction_refuted, C37_segment_refuted, C37_negative_refuted |
| `rzline.py:269-` `closestPoint` | the point found can be farther than the nearest vertex | C70_closest_refuted |
| `rzline.py:396-` | a point on the first side of a triangle is not inserted between its ends | C41_nearest_refuted |
| `rzline.py` `line_from_points` | points of a convex polygon are rejected if one greedy path encloses no area | C39_convex_refuted |
| `spectralline.py:22-24` | `_err` overwrites its angles with uniform ones starting at -pi: the distances of the line are not used and the curve is turned by half a revolution (Rvalue(0) is the opposite point) | C81_angle_refuted, C81_distances_refuted |
| `spectralline.py:56-58` | `equallySpaced` samples 0 and 2 pi: the last point repeats the first | C82_repeats_refuted |
| `fieldtracer.py:164-` | `FieldTracerReversible` overwrites the caller's start positions with the end positions | C46_overwritten_refuted, C46_arrays_after |
| `fieldtracer.py:417-456` | different start points can share a cache file; tracer and options are not part of the name | C50_collision_refuted, C50_shared_file_refuted |
| `fieldtracer.py:762-` (EMC3) | the mapping of the lookup angle to the fundamental period is counted, but not used when the line is placed at the end of the period | C51_crossing_refuted, C51_crossing_ignored |
| `fieldtracer.py:947-974` | `FusionSCTracer.follow_field_lines` ignores `rtol` | C84_rtol_refuted |
| `boundary.py:118-139` | below a vertex two sides are counted for one crossing: the centre of a diamond is "outside", points far below the tip of a triangle are "inside"; in convex polygons exactly the positions below a vertex are wrong inside | C53_everywhere, C53_interior, C53_exterior, C53_vertex_refuted, C53_below_tip_refuted |
| `boundary.py:127` | sides narrower than 1e-6 in x are skipped | C53_narrow_refuted |
| `zoidberg.py:1010-1015` `upscale` | "linear" interpolation along field lines is by a cubic spline on two values: the fraction t becomes 3t^2 - 2t^3, right for t = 1/2 only | C86_linear_refuted |
| `zoidberg.py:969-973` `upscale` | a field of another shape with the same number of values is reordered instead of refused | C86_shape_refuted |
| `smooth.py:185-191` `gen_newr` | length and curvature are summed with the conditions, so the optimum never ends exactly at the last point of the run | C92_exact_refuted |
| `smooth.py:92-107, 185-193` `gen_newr` | `signs` is not used: a tangent along the line and one against it are the same | C92_direction_refuted |
| `zoidberg.py:227-302`, `weights.py:72-95` | with `nslice` > 1 the sub-sample maps are made for the outermost slices only and stay zero for the first, which are the ones that `weights.py` reads: all legs of the operators end at the boundary, and `modify_maps(partial_boundaries=True)` makes all lines of the first slices leave the domain; with MXG = 0 all rows read one corner | C94_two_slices_refuted, C94_modify_refuted, C94_corner_refuted |
| `zoidberg.py:844-871` | `fci_to_vtk`: `linspace` has the end point in x, so the points are nx/(nx-1)*dx apart; a file without `bx` (every file of `write_maps`) raises AttributeError, because `f.read` returns None and the shape is taken from it before the code for such files | C95_spacing_refuted, C95_maps_refuted, C95_written_refuted |
| `plot.py:353, 424`, `zoidberg.py:243-245` | `plot_forward_map`/`plot_backward_map` take negative x indices for the inner boundary, but `make_maps` stores -1 for every line that ends outside of the field's boundary: those that left on the outer side are marked as inner boundary too | C96_outer_refuted |
| `plot.py:76-78` | `colours * np.floor(...)` multiplies a list with a float: more than six slices raise TypeError | C97_many_refuted |
| `plot.py:83-90` | starting points given as a grid are traced but cannot be drawn: ValueError from matplotlib | C97_grid_refuted |
| `plot.py:187` | the result is reshaped for one line: arrays of starting points, which the documentation allows, raise ValueError | C97_3d_array_refuted |
| `plot.py:57` and in every function | `warnings.warning` does not exist: without matplotlib AttributeError instead of a warning | C96_unavailable_refuted, C97_unavailable_refuted |
| `zoidberg.py:824-839, 897-933`, `plot.py:236-247` | `make_surfaces`, `write_Bfield_to_vtk` and `plot_streamlines` read attributes (`xcentre`, `xarray`, `zarray`, `x_3d`, `bx`, ...) that neither `Grid` nor `MagneticField` has any more: AttributeError for every grid | C98_grid_refuted, C99_grid_refuted |
| `zoidberg.py:897` | the surfaces start between the centre and the centre plus *half the largest x*, not half the width of the grid: outside of the grid whenever the centre is beyond half of the largest x | C98_outside_refuted |
| `zoidberg.py:917` | `float(nsurfaces - 1)`: one surface raises ZeroDivisionError | C98_single_refuted |
| `zoidberg.py:833` | `write_Bfield_to_vtk` does not look at `have_evtk`: NameError without pyevtk | C98_not_installed |
| `field.py:846-850, 875-877` | `V_hat` shifts the angle by pi/2, which for n = 0 leaves `-b` and `-d` as the factors of phi instead of `a` and `c`: with axisymmetric modes `Sfunc` is no invariant, not even to first order | C100_axisymmetric_refuted |
| as before | the coefficients b and d of an axisymmetric mode do not enter the field, but make `Sfunc` grow with every turn | C100_secular_refuted |
| `field.py:614-628` | the documentation of `Sfunc` (and `Rfunc`) asks for x in units of R_0 and the angle in turns; the code takes metres and radians | C100_value |
| `fieldtracer.py:859-866` `rz_to_ab` | outside of the meshes the number of the nearest corner is used as the number of a cell, which has one column less: the cell in row i is i columns away | C93_wrong_cell_refuted |
| `examples/common.py:204` `calc_iota` | a maximum midway between two samples is not a strict maximum and is missed: lines started at a maximum with iota = 100/(2j+1) get iota/2 | C88_half_refuted |
| `examples/common.py:9-86` `calc_curvilinear_curvature` | the toroidal component is multiplied by g_yy = R^2 instead of R: a vacuum field at R = 2 has curvature 13/2 instead of 2 | C89_toroidal_refuted |
| `examples/common.py:9-86` `calc_curvilinear_curvature` | the field functions (x, z, phi) are called with (R, number of the slice, Z) | C89_arguments_refuted |
| `examples/common.py:181-190` `smooth_metric` | the smoothed curvature is never written to the file | C90_curvature_refuted |
| `examples/common.py:155-190` `smooth_metric` | co- and contravariant components are filtered separately and are not inverse afterwards | C90_inverse_refuted |
| `examples/rotating_ellipse.py:66-78` | outer boundary aligned without the inner one: the traced surface is not used | C91_outer_refuted |
| `examples/rotating_ellipse.py:94-101` | `return_iota` prints and returns None | C91_returns_refuted |
| `examples/rotating_ellipse.py:114-117, 137` `main` | `store_false`: `--curvilinear`, `--curvilinear_inner_aligned`, `--curvilinear_outer_aligned`, `--calc_curvature` switch off what they name | C91_switches_refuted |
| `diff.py:4-32` | the first and last value of `c2` are the derivative at the neighbouring point | C54_ends_refuted |
| `diff.py:20-28` | c2 is first order at the ends; `test_diff.py:49-58` expects order two there, which it finds because the second derivative of the sine vanishes at 0 and `slice(-1)` leaves the last point out | C122_c2_ends_refuted |
| `diff.py:64-96` | decimal coefficients: one-sided ends of `c4` are exact up to 1/3 * 1e-16 only | C55_quartic_partial |
| `stencil_dagp_fv.py:115-123` | toroidal cell volumes use the midpoint rule per edge: a thin right-handed cell can have a negative volume | C58_toroidal_refuted |
| `stencil_dagp_fv.py:91` | first and last radial row of the volume written to file are uninitialised memory | C58_edge_rows_refuted |
| `stencil_dagp_fv.py:206-274` | on twisted structured grids the perpendicular operator is not a diffusion operator: it makes a field negative where it is zero and smallest (right-handed cells), it is not symmetric, and it makes the sum of the squares grow (positive volumes) | C121_minimum_refuted, C121_dissipates_refuted |
| `field.py:428-536` | `RotatingEllipse` uses the planar coil field in cylindrical coordinates: its divergence is Bx/R | C61_rotating_ellipse_refuted |
| `field.py:990-1041` | asymmetric VMEC equilibria: rmnc is added instead of rmns, the derivatives have wrong signs | C62_asymmetric_refuted, C62_asymmetric_slope_refuted |
| `field.py:56, 1262` | `attributes` is a class-level dictionary: a GEQDSK field gives its psi to every other field | C63_all_fields_refuted, C63_history_refuted |
| `field.py:882-905` | `Screwpinch`: A is not the flux function of the field (factor r/2) and the divergence is Bx/R | C75_flux_function_refuted, C75_divergence |
| `field.py:1437-1462` | the names of the saved W7-X files carry the ranges with two decimals only: ranges that agree to two decimals share one file, the second call gets the field of the first | C101_close_ranges_refuted |
| `field.py:1437-1449, 1471-1479` | files of the old kind do not say for which configuration they are; one of them answers for every configuration and is then saved under that configuration's name | C101_old_refuted |
| `field.py:1362, 1661-1672` | `phimax` below 2 pi does not make the field periodic in phimax: beyond it the field is (0, 1, 0) | C102_phimax_refuted |
| `field.py:1339, 1822` | `z_range=(-1.35, 1, 35)` has a comma for a point: 118 of 128 planes are above 1.35, the last is at 35 m | C102_default_range_refuted |
| `field.py:1540-1616` | `wout_file` has no effect on the plasma field | C103_wout_refuted |
| `field.py:1865-1878` | `W7X_VMEC` reads `self.nx`, which is never set: AttributeError for all arguments | C103_vmec_refuted |
| `field.py:1651-1659` | `arctan(y / x)` takes vertices on opposite sides of the torus for one another; negative angles and angles beyond 93 degrees raise IndexError, and for the default angle 0 the window has no width | C104_opposite_refuted, C104_range_refuted, C104_zero_refuted |
| `field.py:1934-1946` | Bmag of the EMC3 field: one column with fewer than two known values makes the whole call fail; IndexError for one-dimensional arrays | C105_refused_refuted, C105_one_dimension_refuted |
| `field.py:1273-1280` | GEQDSK: at mesh points straight below a corner of the core boundary the polygon test is wrong, so points of the core get the edge values and points below the core those of the plasma | C107_below_tip_refuted, C107_hole_refuted |
| `field.py:1272-1274` | a G-EQDSK file without boundary points raises ValueError although one without limiter points is accepted; attributes["psi"] has been set by then | C107_no_core_refuted |
| `field.py:1266` | `sibdry = simagx` gives nan in the core without an error | C107_flat_refuted |
| `poloidal_grid.py:203, 231`, `weights.py` | in double precision the first column of the domain of a rectangular grid can get an index below MXG (16 points, size 1, centre 0, MXG 2: 2 - 4.4e-16): all of its lines count as leaving the domain although they stay at their R; likewise the last column (9 points) | C111_edge_refuted, C111_edge_column |
| `rzline.py:175-183` | in double precision `trunc(theta/dtheta)` and `remainder(theta, dtheta)` can disagree: positionPolygon at the angle of the last vertex of a hexagon has the index of the vertex and the fraction of a whole segment (so also closestPoint, which starts from these points) | C114_vertices_refuted, C114_rounded_down |
| `np.remainder` | gives the period itself for small negative numbers | C112_below_refuted |
| `field.py:1679-1682` | `_calc_B` makes one array of the three coordinates: a scalar height beside arrays, or heights beside scalars, raise ValueError | C108_scalar_refuted |
| `field.py:1151-1207` | `SmoothedMagneticField.Bxfunc` returns None and the box attributes are never set: every use raises | C106_direction_refuted, C106_line_refuted |
| `field.py:926-931` | `__rolling_average`: the first two and last two columns are wrong, a constant profile becomes a/2, 0, ..., 0, a | C76_ends_refuted |
| `progress.py:87-98` | "60s" can be printed (59.7 s; 59m60s) | C65_sixty_seconds_refuted |
| `stencil_dagp_fv.py:22-25` `toCent` | on rectangular grids, periodic in z, the heights of the first column of centres are means over both ends of the period: all are at the middle of the grid (the function is not called) | C124_seam_refuted |

### Failures and loops without end

| where | what happens | theorem |
|---|---|---|
| `poloidal_grid.py:348-` | `findIndex` with an empty array raises ValueError; a singular Jacobian at the boundary rows makes it fail | C32_empty, C32_singular_boundary_fails |
| `poloidal_grid.py` `grid_elliptic` | `restrict_factor` 1: recursion without end; three radial and more than twenty poloidal points: no grid ever | C35_factor_one_refuted, C35_thin_grid_refuted |
| `poloidal_grid.py` `laplace` | two poloidal points: the smoothing loop never ends | C68_two_points_refuted |
| `rzline.py:485-531` | 2-opt with up to three points or a negative threshold never ends | C40_three_points_refuted, C40_negative_threshold_refuted |
| `smooth.py` | IndexError when a run reaches the last point; IndexError for lines shorter than 2 * bounds; NameError (`plt`) when no fit succeeds | C44_index_error_refuted, C44_short_line_refuted, C44_outcomes, C44_no_fit |
| `smooth.py:15-20` `find_outliers` | the angle is taken at the end of the three points, so it is half the turn: `cutoff` is compared with the cosine of half the angle, not of the angle; where the line turns back on itself it is NaN and no corner is found | C44_half_angle, C44_cosine_refuted, C44_hairpin |
| `fieldtracer.py:30-` | a single number given with more dimensions than the other argument is refused | C45_extra_dimensions_refuted |
| `fieldtracer.py:164-` | one array as x and z runs forever; a singular Newton step is never left | C46_same_array_refuted, C47_singular_step_refuted |
| `fieldtracer.py:320-` | one revolution with one slice raises ValueError | C48_single_sample_refuted |
| `fieldtracer.py:523-` | without the worker pool nothing is tried again, whatever `retry` | C49_no_pool_refuted |
| `fieldtracer.py:523-` | with the pool and `retry=0` the submitted results are never fetched: ValueError | C49_no_retry_refuted |
| `fieldtracer.py:433-456` | the cache never works for a single x with several z | C50_scalar_refuted |
| `fieldtracer.py:888-` (EMC3) | a single stored angle: the loops that shift the angle never end; scalar start positions raise TypeError | C51_single_angle_refuted, C51_scalar_refuted |
| `zoidberg.py:1049-1050` `upscale` | showing progress raises: NameError if `tqdm` is installed, else ZeroDivisionError for a single slice | C86_quiet_refuted |
| `fieldtracer.py:859-866` `rz_to_ab` | next to the last corners this is not a cell: AssertionError | C93_last_refuted |
| `examples/common.py:144-178` `smooth_metric` | `np.int` does not exist in the numpy the package requires: AttributeError on every call | C90_numpy_refuted |
| `examples/common.py:205` `calc_iota` | less than about one poloidal turn: IndexError | C88_short |
| `examples/rotating_ellipse.py:40-81` | neither rectangular nor curvilinear: UnboundLocalError | C91_no_grid |
| `stencil_dagp_fv.py` | one or two poloidal points: LinAlgError | C72_few_points |

### Seen while reading, not (or not fully) modelled

* `MapWriter.write_dict` with a two-dimensional metric changes the caller's dictionary,
  `add_maps` the caller's maps; `metric_done` is never set.
* `add_dagp` stores its operators without the check for finite values that every other
  variable gets (C25 is about the others).
* `upscale` imports `map_coordinates` from `scipy.ndimage.interpolation`, a name that newer
  versions of SciPy do not have.
* `smooth(..., plot=True)` raises NameError.
* `W7X_vacuum.field_values` and `plasma_field` connect to the web service before they look for
  a saved file, so saved fields cannot be used without a network.
* `_calc_chunk` has a bare `except:`, which also catches Ctrl-C.
* `StraightStellarator` and `RotatingEllipse` ignore `smooth` and `smooth_args`,
  `Screwpinch` ignores `yperiod`.
* `RZline.distance` samples the spline weights at k/(N+1) of the way (C38).
* `trace_poincare` sorts the caller's `y_slices` array in place.

## 5. Assumptions per theorem

From `Print Assumptions`, for the property theorems (all files `*Props.v`).

### Closed under the global context (443 theorems)

* `BoundaryProps.v`: C52_rectangle, C52_no_boundary, C52_arrays, C53_even_odd_partial, C53_convex_partial, C53_defined, C53_empty, C53_everywhere, C53_right, C53_interior, C53_exterior, C53_vertex_refuted, C53_below_tip_refuted, C53_narrow_refuted
* `CentProps.v`: C124_means, C124_inside, C124_rectangular_partial, C124_seam_refuted
* `DagpProps.v`: C56_flux_form, C56_conservative, C56_constants, C57_linear, C57_toroidal, C57_rectangular, C58_polygon, C58_rectangular, C58_toroidal_refuted, C58_edge_rows_refuted, C59_roundtrip, C72_refuses, C72_few_points, C72_same_values
* `DiffProps.v`: C54_quadratic_partial, C54_periodic, C54_short, C54_ends_refuted, C55_quartic_partial, C55_ends_refuted, C55_periodic, C55_short
* `EllipseProps.v`: C91_aligned_partial, C91_outer_refuted, C91_grid_used, C91_no_grid, C91_returns_refuted, C91_switches_refuted, C91_main_fails
* `EllipticProps.v`: C34_refused, C34_boundary_and_guards, C34_last_step_partial, C35_recursion_terminates, C35_only_convergence_fails, C34_fixed_point_partial, C34_documented_equation_refuted, C35_sizes, C35_factor_one_refuted, C35_thin_grid_refuted, C68_whole_turns, C68_terminates, C68_result, C68_two_points_refuted
* `FieldProps.v`: C60_direction, C60_refuses, C60_flatten, C60_interleave, C60_odd, C60_odd_arrays, C60_slab, C63_not_geqdsk, C63_own_dict, C63_no_gfile, C63_all_fields_refuted, C63_history_refuted, C64_range, C64_inner, C64_outer, C64_between, C76_inner, C76_ends_refuted, C76_short, C78_coils, C78_numbers, C78_windings, C78_unknown, C78_retry
* `FloatProps.v`: C109_nearest, C109_weights, C109_sum, C109_check_quiet, C110_rows_continuous, C111_coordinate_near, C111_index_near, C111_inner_columns_partial, C111_edge_refuted, C111_edge_column, C112_range, C112_exact, C112_near, C112_below_refuted, C112_table_covers, C113_floor, C113_int, C113_window, C114_vertices_partial, C114_rounded_down, C114_vertices_refuted
* `GeqdskProps.v`: C107_axes, C107_flux, C107_poloidal, C107_components, C107_inside, C107_flux_function, C107_outside, C107_convex_partial, C107_limiter, C107_lengths, C107_below_tip_refuted, C107_hole_refuted, C107_no_core_refuted, C107_flat_refuted
* `GridProps.v`: C14_constructor, C14_periodic_lookup, C14_nonperiodic_lookup, C14_recursion_depth, C15_bracketing, C16_fraction_partial, C16_midpoint, C16_quarter_refuted, C16_tolerance_refuted, C17_dy_interior_partial, C17_dy_uniform_partial, C17_dy_uneven_refuted, C66_metric_gathers_slices, C66_mixed_J_rejected, C67_rectangular_grid
* `KantorProps.v`: C115_converges, C115_accuracy
* `MapsProps.v`: C18_half_positions, C18_half_dropped, C21_zero_chunks, C18_never_fails, C18_plain_entries, C18_end_points_partial, C18_outermost_slice, C18_y_independent_boundary, C19_outermost_subsamples_partial, C19_inner_slices_refuted, C20_weights, C21_chunk_independence, C21_other_entries, C22_integrals, C22_uniform_J, C22_windows, C22_spacing, C18_own_y_boundary_refuted, C20_starts_refuted, C20_no_z_sampling_refuted, C20_interpolation
* `MetricProps.v`: C23_cylindrical_partial, C23_cartesian_calls_accumulate, C23_cartesian_refuted, C24_rectangular_metric, C24_structured_accepted, C24_structured_metric
* `NamingProps.v`: C13_names_unique, C13_library_fields_clash_free, C13_names_exist, C13_offset_zero_rejected, C13_arbitrary_fields_refuted
* `PerpProps.v`: C121_symmetric, C121_dissipates, C121_maximum, C121_unique, C121_minimum_refuted, C121_dissipates_refuted
* `PipeProps.v`: C94_never_fails, C94_interpolation, C94_ends, C94_two_slices_refuted, C94_modify_refuted, C94_corner_refuted, C94_slab_partial, C94_slab_derivative
* `PlotProps.v`: C96_shows, C96_no_slice, C96_no_row, C96_unavailable_refuted, C96_make_maps_partial, C96_outer_refuted, C97_poincare_partial, C97_many_refuted, C97_grid_refuted, C97_click, C97_clicks, C97_only_right, C97_3d_partial, C97_3d_array_refuted, C97_unavailable_refuted
* `PolProps.v`: C30_inverse, C30_affine, C30_cells_tile_box, C30_outside, C31_derivatives_partial, C31_second_order_refuted, C31_negative, C32_result, C32_terminates_in_range, C32_empty, C32_singular_boundary_fails, C32_newton, C32_masked, C32_relaxation, C32_affine_exact, C32_arithmetic, C33_annulus, C33_accepts, C33_area
* `ProgressProps.v`: C65_whole, C65_two_digits, C65_read_back, C65_rounding, C65_ties, C65_sixty_seconds_refuted, C71_bar, C71_percent, C71_monotone, C71_checked, C71_clamped, C71_zoidberg, C71_claws, C71_remaining
* `RestProps.v`: C105_filled_partial, C105_length, C105_linear, C105_complete, C105_refused_refuted, C105_one_dimension_refuted, C106_plane, C106_enclosed, C106_direction_refuted, C106_line_refuted
* `RevLipProps.v`: C117_solves_rule, C118_exact_refuted
* `RzProps.v`: C36_orientation, C36_lengths, C36_as_given, C37_position_partial, C37_vertices, C37_fraction_refuted, C37_segment_refuted, C37_negative_refuted, C38_polygon_distance, C38_weights, C38_spline_distance, C39_greedy_partial, C39_failures, C39_convex_refuted, C40_result, C40_optimal, C40_terminates, C40_three_points_refuted, C40_negative_threshold_refuted, C41_all_points, C41_insertion_partial, C41_nearest_refuted, C69_equal_spacing, C70_closest_partial, C70_range, C70_closest_refuted
* `SearchProps.v`: C93_inside, C93_nearest, C93_far, C93_first_row_partial, C93_wrong_cell_refuted, C93_last_refuted, C93_degenerate
* `SlabProps.v`: C87_tracer, C87_run, C87_maps, C87_compose, C87_back, C87_By, C87_J
* `SlicesProps.v`: C116_even, C116_even_single, C116_scripts, C116_scripts_refuted, C116_mms
* `SmoothMetricProps.v`: C90_window, C90_default, C90_written_partial, C90_refused, C90_numpy_refuted, C90_curvature_refuted, C90_inverse_refuted
* `SmoothProps.v`: C42_runs, C42_defined, C42_no_outliers, C42_errors, C43_window, C44_search, C44_in_range_partial, C44_replaced, C44_not_replaced, C44_outcomes, C44_terminates, C44_no_corners, C44_bounds_find, C44_straight, C44_outliers, C44_half_angle, C44_cosine_refuted, C44_hairpin, C44_last_point, C44_index_error_refuted, C44_short_line_refuted, C44_no_fit
* `SurfProps.v`: C98_surfaces_partial, C98_succeeds, C98_single_refuted, C98_range, C98_outside_refuted, C98_written, C98_not_installed, C98_grid_refuted, C99_streams_partial, C99_grid_refuted, C99_unavailable_refuted, C99_no_slice, C99_animated, C99_no_frames, C99_no_matplotlib
* `TracerProps.v`: C45_own_trace, C45_chunks, C45_refused, C45_extra_dimensions_refuted, C46_arrays_after, C46_copied_partial, C46_overwritten_refuted, C46_same_array_refuted, C46_refused, C47_reversed, C47_solves_rule, C47_round_trip, C47_slab, C47_singular_step_refuted, C48_samples, C48_given_slices, C48_even_slices, C48_refused, C48_increasing, C48_single_sample_refuted, C49_retries, C49_own_trace, C49_follow, C49_refused, C49_no_points, C49_no_retry_refuted, C49_no_pool_refuted, C50_histories_partial, C50_field_tracer_partial, C50_collision_refuted, C50_shared_file_refuted, C50_scalar_refuted, C51_ends, C51_in_range, C51_single_angle_refuted, C51_cell_tolerance, C51_newton_step, C51_iterations, C51_parallelogram, C51_cell_edges, C51_one_period, C51_crossing_ignored, C51_crossing_refuted, C51_scalar_refuted
* `VtkProps.v`: C95_fields_partial, C95_spacing_refuted, C95_maps_refuted, C95_written_refuted, C95_not_installed, C95_incomplete
* `W7xProps.v`: C101_history_partial, C101_close_ranges_refuted, C101_old_refuted, C101_names, C101_hundredths, C101_saved, C101_failing, C101_no_points, C102_nodes, C102_affine, C102_between, C102_outside, C102_period, C102_mesh, C102_refused, C102_phimax_refuted, C102_default_range_refuted, C103_sum, C103_saved, C103_wout_refuted, C103_vmec_refuted
* `WeightsProps.v`: C01_cell_numbers_bijective, C01_evolving_count, C01_evolving_number_closed_form, C02_boundary_numbers, C03_leg_rows, C03_at_least_one_leg, C04_leg_weights, C05_never_fails, C05_csr_well_formed, C06_boundary_row, C07_interior_row_sum, C08_interior_row_columns, C08_no_duplicate_columns, C09_interpolation, C09_interpolation_exact, C09_linear_fields, C09_interpolant_at_nodes, C10_z_period_partial, C10_z_period_refuted, C11_no_partial_boundaries, C11_untouched, modify_maps_never_fails, C12_partial_boundaries_partial, C12_centre_without_subsample_refuted
* `WriterProps.v`: C25_only_finite_arrays, C25_finite_accepted, C25_stops_at_nonfinite, C26_maps_read_back, C26_nothing_else, C26_make_maps_keys, C27_resumable, C27_only_missing_slices, C27_run_content, C27_changed_grid_refuted, C28_update_keeps_values, C28_histories, C29_periodic_positions_partial, C29_uniform_accepted, C29_nonperiodic_refuted, C29_uneven_rejected

### `ClassicalDedekindReals.sig_forall_dec` (2 theorems)

* `DemandProps.v`: C108_pressure
* `UpscaleProps.v`: C86_shape_refuted

### `ClassicalDedekindReals.sig_forall_dec`, `FunctionalExtensionality.functional_extensionality_dep` (16 theorems)

* `CoilProps.v`: C74_divergence_free, C74_components
* `CurvProps.v`: C89_curl_partial, C89_slanted, C89_toroidal_refuted
* `DiffSmoothProps.v`: C122_c2_ends_refuted
* `FitProps.v`: C92_start, C92_curvature
* `UpscaleProps.v`: C86_slices_partial, C86_fraction, C86_linear_refuted, C86_kept, C86_straight, C86_shape, C86_quiet_refuted
* `WeightsSmoothProps.v`: C119_cubics_refuted

### `ClassicalDedekindReals.sig_forall_dec`, `ClassicalDedekindReals.sig_not_dec`, `FunctionalExtensionality.functional_extensionality_dep` (56 theorems)

* `CoilProps.v`: C62_cfunct, C62_sfunct, C62_refused, C62_positions, C62_derivatives, C62_tangent, C62_asymmetric_refuted, C62_asymmetric_slope_refuted, C79_strength, C79_inverse
* `CurvProps.v`: C89_arguments_refuted
* `DemandProps.v`: C108_on_demand, C108_fusionsc, C108_samples, C108_turned, C108_retry, C108_configuration, C108_size, C108_scalar_refuted
* `FitProps.v`: C92_conditions, C92_speed, C92_close_partial, C92_exact_refuted, C92_direction_refuted
* `IotaProps.v`: C88_accuracy_partial, C88_half_refuted, C88_short, C88_positive
* `LengthProps.v`: C83_polygon, C83_chord, C83_defined, C83_helix, C83_invariant, C84_trace, C84_cylindrical, C84_single, C84_rtol_refuted
* `LengthSmoothProps.v`: C123_refine_zero, C123_refined
* `ShapeProps.v`: C80_circle, C80_circle_fails, C80_circle_radius, C80_shaped, C80_indented, C80_shaped_circle, C80_symmetric, C80_extents, C81_exists, C81_coefficients, C81_recovers_partial, C81_passes, C81_angle_refuted, C81_distances_refuted, C82_repeats_refuted, C82_on_curve_partial, C82_line_partial

### `ClassicalDedekindReals.sig_forall_dec`, `ClassicalDedekindReals.sig_not_dec`, `Classical_Prop.classic`, `FunctionalExtensionality.functional_extensionality_dep` (57 theorems)

* `CoilProps.v`: C61_flux_function, C61_divergence_free, C61_frozen, C61_rotating_ellipse, C61_rotating_ellipse_refuted, C73_helical_surfaces, C73_quarter, C74_flux_surfaces, C74_toroidal, C75_circles, C75_ratio, C75_flux_function_refuted, C75_divergence
* `DiffSmoothProps.v`: C122_c2, C122_c2_periodic, C122_c4, C122_c4_periodic
* `DomHatProps.v`: C100_second_order_partial, C100_axisymmetric_refuted, C100_secular_refuted, C100_value, C100_axis, C100_periodic, C100_empty
* `DomProps.v`: C77_dirichlet, C77_neumann, C77_neumann_below, C77_superposition, C77_curl_free, C77_divergence_free, C77_axis, C77_periodic, C77_axisymmetric, C77_empty
* `FastProps.v`: C85_convex, C85_around, C85_order, C85_defined, C85_straight
* `LengthProps.v`: C83_helix_accuracy
* `LengthSmoothProps.v`: C123_arc_length, C123_converges, C123_second_order
* `PerpProps.v`: C121_second_order
* `PipeSmoothProps.v`: C120_rows, C120_derivative
* `RestProps.v`: C104_first, C104_angle_partial, C104_opposite_refuted, C104_range_refuted, C104_zero_refuted
* `RevLipProps.v`: C117_accuracy, C118_round_trip
* `ShapeProps.v`: C80_triangular
* `WeightsSmoothProps.v`: C119_smooth_fields, C119_true_ends, C119_next_to_boundaries
