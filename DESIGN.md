# Formal model of IMTreatment in Rocq (Coq 8.16.1)

## Approach

The Python code is modelled by small, total, computable Gallina functions that follow it branch by
branch. Exceptions are values (`res`: `Ok x` or `Err kind`). Nothing of /repo is run.
Every definition cites the file and lines it models.

Conventions of the model (also the list of simplifications):

* **Numbers.** numpy float64 numbers are modelled by canonical rationals `Qc` (exact arithmetic, decidable
  equality and order). Every finite float is a rational; rounding, overflow and `inf` are *not* modelled,
  so theorems state what the algorithm computes up to rounding. NaN is `None` in `option Qc` where NaN can occur.
  The vortex systems use the real numbers `R` of the standard library.
* **Arrays.** 1-D arrays are lists. 2-D arrays are a shape and an index function; two arrays are equal
  when the shapes are and they agree inside of the shape.
* **Units** (library `unum`). A unit is a dimension vector and a positive scale; conversion between units
  of equal dimension multiplies by the quotient of the scales, and raises otherwise.
* **Mutation / aliasing.** An in-place method is a function from the old to the new state. Where the
  property is about aliasing or about operands being modified, the model returns all the objects reachable.
* **External libraries** (numpy, scipy, unum, matplotlib): the array primitives used (slicing, searchsorted,
  argsort, argmin, rot90, gradient, trapz...) are modelled by their documented behaviour. What cannot be
  computed (square roots, arctan2, scipy interpolation, SVD) is a Section variable, quantified in the theorem, with the
  needed facts as explicit premises of the theorem.

## Layout

`theories/Num.v`, `Res.v`, `ListLib.v`, `Arr.v`: base. `*Model.v`: models, no proofs. `*Spec.v`: small
specifications that do not use model helpers. `*Proofs.v`: proofs. `Prop*.v`: only the property theorems
(`exact lemma`), `Print Assumptions`, and satisfiability examples.

When the faithful model violates a property, the violation is proved (`..._refuted`, a concrete witness) and
what does hold is proved as `..._partial`; MANIFEST.json then says `partial`.

## Plan and result per property

| id | modelled | proof idea | result |
|----|----------|------------|--------|
| C01 Axis lookup brackets the value | `get_indice_on_axe`, searchsorted | induction on the axis list, searchsorted specification | proved |
| C02 Nearest axis lookup is optimal | same, kind nearest | from the bracket: monotonicity of the axis | proved |
| C03 Decimal axis lookup inverts linear interpolation | same, kind decimal | field arithmetic on the bracket | proved |
| C04 Value crop keeps exactly the in-interval points | `Field.crop`, `ScalarField.crop`, `VectorField.crop` | searchsorted specification on both ends; crop = filter on axis | proved |
| C05 Index crop is the inclusive sub-grid | `Field.crop(ind=True)` | slices; the guard `interv[1]==0` is a suspected violation | partial (with refutation) |
| C06 Rotation carries data with position | `rotate` on Field/ScalarField/VectorField, np.rot90 | index algebra per quarter turn, physical position map | proved (with refutation) |
| C07 Rotations compose and four quarter turns are the identity | same | induction on number of quarter turns | proved |
| C08 Unit changes preserve the physical quantity | `change_unit` with unit model | field arithmetic | proved |
| C09 Origin shifts are exact translations | `set_origin` | list map lemmas | proved |
| C10 Scaling carries data with position, also for negative factors | `scale` | index algebra; suspected violation for vector mask and temporal fields | partial (with refutation) |
| C11 Extending a field keeps its data in place | `extend` | index algebra; inplace=False suspected violation | proved |
| C12 Neighbourhood query is the disc | `get_points_around` | r/sqrt 2 inner square lies in the disc; NoDup of meshgrid | proved |
| C13 Masked and NaN agree after any operation sequence | values/mask setters and getters as a state machine | induction on operation list | partial (with refutation) |
| C14 Field addition is pointwise and commutative | `ScalarField.__add__` same axes | pointwise | proved |
| C15 Adding fields on different grids works on the common points | `ScalarField.__add__` different axes | filter/intersection lemmas | partial (with refutation) |
| C16 Field division masks zero divisors | `__truediv__`, `__rtruediv__` | pointwise; suspected violation in the array branch | partial (with refutation) |
| C17 Soft border cropping never loses data | `crop_masked_border(hard=False)` | first/last non masked line lemmas | partial (with refutation) |
| C18 Hard border cropping ends with clean borders | `crop_masked_border(hard=True)` with fuel | measure = number of lines; clean borders at exit | partial (with refutation) |
| C19 Scatter export lists every unmasked cell once | `export_to_scatter`, `__iter__` | NoDup + membership | proved |
| C20 Import accepts any axis direction | `import_from_arrays` | index algebra; suspected violation for the mask | partial (with refutation) |
| C21 Point evaluation is exact on the grid and bounded between | `get_value` | bracket lemma + linear interpolation bounds; suspected violation on the mask test | proved |
| C22 Profile stays sorted and aligned | Profile state machine | invariant by induction; argsort permutation | partial (with refutation) |
| C23 Profile value crop keeps exactly the in-interval points | `Profile.crop` loop | suspected violation; characterise what it keeps | partial (with refutation) |
| C24 Profile interpolation is exact on nodes and bounded | `_get_interpolated_single_value` | bracket + interpolation bounds | proved |
| C25 Profile sums respect units | `Profile.__add__` | suspected violation (conversion inverted) | partial (with refutation) |
| C26 Operators leave their operands unchanged | `Profile.__truediv__`, `Points.__add__` returning operands too | suspected violation | partial (with refutation) |
| C27 Trapezoidal integral is additive and monotone | `get_integral` (np.trapz) | induction on the list | proved |
| C28 Point-set crop is a filter | `Points.crop` | filter lemmas | proved |
| C29 Point-set sort is a permutation | `Points.sort` | permutation + sortedness | proved |
| C30 Removing points keeps the values of the others | `Points.remove`, `cut` | suspected violation (v lost) | partial (with refutation) |
| C31 Failed point insertion has no effect | `Points.add` | suspected violation | partial (with refutation) |
| C32 Point density conserves the number of points | `get_points_density2` cell assignment | count over disjoint cells | proved |
| C33 Temporal fields stay sorted and aligned | TemporalFields state machine | invariant by induction | proved |
| C34 Removing several fields removes those fields | `remove_fields` | suspected violation (index shift) | partial (with refutation) |
| C35 Temporal crop keeps exactly the in-interval frames | `TemporalFields.crop` | filter = slice on sorted times | proved |
| C36 Mean field averages the available values | `get_mean_field` | fold lemmas; suspected violation (off by one) | partial (with refutation) |
| C37 Temporal downsampling averages consecutive groups | `reduce_temporal_resolution` | suspected violation (last group) | partial (with refutation) |
| C38 Frames added share one grid | `add_field` guard | suspected violation | partial (with refutation) |
| C39 Time units are converted when adding frames | `add_field` conversion | suspected violation | partial (with refutation) |
| C40 Scalar multiplication keeps the time axis | `__mul__`, `__truediv__` | suspected violation | partial (with refutation) |
| C41 Interpolated field is between its neighbours | `get_interpolated_field` | arithmetic | partial (with refutation) |
| C42 Recurrence map is a symmetric distance map | `get_recurrence_map` | symmetry of the double loop | proved |
| C43 Cropping a copy of temporal points leaves the original alone | `TemporalPoints.crop` with both objects as state | suspected violation | partial (with refutation) |
| C44 Oriented points iterate over themselves | `OrientedPoints.__iter__` | suspected violation | partial (with refutation) |
| C45 Critical point sets stay sorted with unique times | CritPoints: constructor, add_point, remove_point, __add__, compute_traj, clean_traj, set_origin, scale, crop (CritModel.v) | invariant by induction over the inductive `built` | proved |
| C46 Trajectories partition the points | compute_traj, _get_cp_time_evolution with the greedy matching (CritModel.v) | the matching is a partial injection; permutation invariant of the open and closed lines over the times | proved |
| C47 Trajectory steps respect the threshold | the same | each link is sound; the greedy matching is stable; counterexamples | partial (with refutation) |
| C48 Trajectories do not outlive the points they come from | add_point, remove_point, _remove_trajectories, clean_traj | case analysis on the operations; counterexample | partial (with refutation) |
| C49 Topological simplification conserves the total index | TopoPoints.import_from_arrays, import_from_CP, simplify (both kinds), CritPoints.topo_simplify (CritModel.v) | invariants with ghost groups and ghost pairs; measures: active points and remaining finite distances | partial (with refutation) |
| C50 Poincare-Bendixson index is an integer, additive, and the winding number of the velocity | get_pbi in both directions, with np.rot90, wrapping and rounding; VectorField.theta with acos (PbiModel) | telescoping sums and a discrete Stokes theorem; the angle lemmas of the standard library | proved |
| C51 The zero-level pre-filter misses no critical cell | the sign filter and the loop of get_cp_cell_position (PbiModel) | a half-plane lemma: velocities in a closed half plane make no turn | partial (with refutation) |
| C52 Vortex ids stay contiguous | VortexSystem.add_vortex, remove_vortex | invariant by induction over histories | partial (with refutation) |
| C53 Image vortices enforce the wall condition | images by walls, get_vector; real numbers | mirror symmetry of the induced field, by induction on the walls | partial (with refutation) |
| C54 Velocity is the superposition of contributions | get_vector, get_compounded_vector, get_vector_field | images up to date as an invariant; permutation of the set of reflections | proved |
| C55 File collections stay aligned | Files: add_file, `__add__`, remove_files | invariant by induction over histories; refutations for lists and regular expressions | partial (with refutation) |
| C56 Memoized functions return the function's value | memoize with disk state and crash points | invariant: cache entries are correct; crash during write | partial (with refutation) |
| C57 Type checking decorator is transparent | TypeTest / ReturnTest wrappers over an abstract function | case analysis on argument lists | partial (with refutation) |
| C58 Progress counter tells the progress | ProgressCounter loop | arithmetic | proved |
| C59 Displayed frame index stays in range | ButtonManager state machine | invariant by induction; suspected violation | partial (with refutation) |
| C60 Every frame is reachable and shown | goto, timer_play, save_animation | suspected violations | partial (with refutation) |
| C61 Modal base cropping keeps modes aligned | crop_modal_base (PodModel.v) | places of the selected modes; profiles built by successive add_point | partial (with refutation) |
| C62 Modal reconstruction is the linear combination | reconstruct (PodModel.v) | fold over the modes = mean + sum; interpolation of the coefficients | proved |
| C63 Gradients are exact on linear fields | get_gradients for scalar fields, vector fields and evenly spaced profiles (GradModel.v); numpy.gradient on masked arrays written out | case analysis on first, inner and last points; field arithmetic | partial (with refutation) |
| C64 Vorticity of a rotation is twice its rate | get_vorticity, get_stokes_vorticity (GradModel.v) | gradients of linear fields; telescoping sums for the circulation | partial (with refutation) |
| C65 Vortex criteria are bounded | get_q_criterion (GradModel.v), get_gamma and get_kappa (CriterionModel.v, over R) | Cauchy-Schwarz for each term of the mean | partial (with refutation) |
| C66 Filling a profile keeps its valid points | `Profile.fill` linear/nearest | bracket lemmas on the unmasked samples | partial (with refutation) |
| C67 Inverse interpolation reports every crossing | `get_interpolated_values(y=...)` | crossing lemmas on successive samples | partial (with refutation) |
| C68 Point values stay aligned with the points | Points state machine | invariant by induction on the call list; refuted by add with a value on a set without | partial (with refutation) |
| C69 The sum of two point sets is their union | `Points.__add__` with both operands as state | list append; conversion factor inverted: refuted | partial (with refutation) |
| C70 Rotating a point set is a rigid motion | `Points.rotate` with (cos, sin) rational | ring identities | proved |
| C71 Decomposing a point set loses nothing | `Points.decompose` | list lemmas; raises without values: refuted | partial (with refutation) |
| C72 Exporting points to a profile keeps each pair | `export_to_profile` | permutation from the profile constructor | proved |
| C73 Velocity along a trajectory | `get_velocity`, any argsort | strided differences, sortedness of distinct times | proved |
| C74 Evolution of a field along the points | `get_evolution_on_sf` | always raises: refuted | partial (with refutation) |
| C75 Oriented points keep their own directions | OrientedPoints add/remove/crop/sort/cut | position-wise selection; sort, cut and failed add refuted | partial (with refutation) |
| C76 Temporal point sets stay sorted and aligned | TemporalPoints add_pts/remove_pts | permutation + sortedness; time conversion, add after remove, list removal refuted | partial (with refutation) |
| C77 Geometric operations on a series act on every frame | TemporalFields rotate/extend/set_origin/reduce_spatial_resolution over any frame kind (record of frame operations) | map lemmas; reduce_spatial_resolution refuted | partial (with refutation) |
| C78 Scaling a series scales every frame and the times | TemporalFields.scale | map lemmas; negative factors refuted | partial (with refutation) |
| C79 Fluctuations are frame minus mean and average to zero | get_fluctuant_fields | sum of differences to the mean | proved |
| C80 Augmenting the temporal resolution keeps the frames | augment_temporal_resolution | block indexing of the new times; interpolation theorem | proved |
| C81 Time profile at a position | get_time_profile at a position | filter by window = selected indices | proved |
| C82 Time profile along dated points | get_time_profile along points | alignment of sorted times; window refuted | partial (with refutation) |
| C83 Extremal fields | get_min_field, get_max_field | fold invariant; first frame masked refuted | partial (with refutation) |
| C84 Sum of two series | TemporalFields.__add__ | frame by frame; other times refuted | partial (with refutation) |
| C85 Unit changes of a series preserve the physical quantity | TemporalFields.change_unit, unit_times | field arithmetic; string setter refuted | partial (with refutation) |
| C86 Loading a directory finds the matching files | load_files_from_regex over directory trees (os.walk) | induction on trees; depth refuted | partial (with refutation) |
| C87 Deleting files deletes the listed files only | delete_existing_files with a disk | induction on the deleted paths; refutations | partial (with refutation) |
| C88 Printed durations tell the elapsed time | `_format_time` | integer division | partial (with refutation) |
| C89 Linked displays show the same frame | `_update_linked_graphs` as a recursive update over a graph | measure: displays with another index | partial (with refutation) |
| C90 Free vortices conserve their impulse | FreeVortex.get_vector, get_evolution, get_vortex_evolution | antisymmetry of pairwise contributions; induction over steps | proved |
| C91 Each vortex has the velocity law of its kind | _get_theta, _get_r, _cyl_to_cart, get_vector of each kind | polar coordinates lemma (four quadrants), closed forms | proved |
| C92 A time step and the velocity map use the velocity of the system | get_evolution, get_velocity_map | add then remove restores the system (invariant) | proved |
| C93 Detailed contributions are complete | get_compounded_vector(detailed=True) | suspected violation: no refresh | partial (with refutation) |
| C94 The critical points found in the cells add up to the index of the border | same as C50 and C51 | sum over the cells of their indices, each -1, 0 or 1 | proved |
| C95 The critical point of a linear field is found in its cell, with its type | same, with the mean gradients of _get_jacobian_matrix; numpy.linalg.eig is a parameter supposed to give the eigenvalues | positive cross products around the cell of the point, half planes for the other cells | partial (with refutation) |
| C96 Cumulated mask of a series | mask_cum and get_mean_field over series of scalar fields (TemporalModel.v) | the intersection is computed by a fold over frames; induction on the frames | proved |
| C97 Cleaning trajectories keeps exactly the long ones | compute_traj then clean_traj and _traj_to_pts (CritModel.v) | sums of points are concatenations; grouping by time is a permutation | proved |
| C98 Moving or scaling critical points moves their trajectories | set_origin and scale (CritModel.v) | the changes commute with listing the points | partial (with refutation) |
| C99 Cropping critical points | crop with ind=False (CritModel.v) | filters commute with listing the points; case analysis on the containers of trajectories | partial (with refutation) |
| C100 Filling replaces the masked cells only | ScalarField.fill, VectorField.fill (GradModel.v); scipy's interpolators are parameters | cell by cell | proved |
| C101 Divergence of a linear flow, vorticity of a holed field | get_divergence, get_vorticity (GradModel.v) | gradients of linear fields; filling twice is filling once | proved |
| C102 Vorticity by circulation | get_stokes_vorticity (GradModel.v) | the trapezes of inner edges cancel (double induction) | proved |
| C104 A non local criterion uses a full disc | _non_local_criterion_precomputation (GradModel.v) | the disc of get_points_around is symmetric, so that the middle of the list is its centre; a disc leaves the field iff its axis points do | partial (with refutation) |
| C106 Local enstrophy | get_enstrophy (GradModel.v) | sum over the neighbours of C104 | proved |
| C103 Residual and shear vorticity | get_residual_vorticity, get_shear_vorticity (CriterionModel.v, over R) | real arithmetic at each cell; the gradients are those of C63 | partial (with refutation) |
| C105 Invariances of the gamma and kappa criteria | get_gamma, get_kappa (CriterionModel.v, over R) | each term of the mean is invariant; the disc is symmetric, so that the mean velocity of a linear flow is the one of the cell | proved |
| C107 Criteria from the velocity gradient | get_swirling_strength, get_Nk_criterion, get_lambda2, get_delta_criterion for fields without mask (CriterionModel.v, over R) | characteristic polynomial of a matrix of order 2; least root and quadratic form | partial (with refutation) |
| C108 Energies of the modes | get_modes_energy, modal_decomposition (PodModel.v) | sums of squares; modes of norm 1; trace of the matrix of scalar products | proved |
| C109 Decomposition then reconstruction gives the series back | modal_decomposition, crop_masked_border, fill, get_fluctuant_fields, reconstruct (PodModel.v) | sum over the eigenvectors of projections = identity, the null eigenvalues carry null modes | proved |
| C110 Decomposition on some modes only | modal_decomposition (PodModel.v) | selected columns of the eigenvectors | partial (with refutation) |
| C111 Crop and scale of a modal base commute with the reconstruction | ModalFields.crop, scale (PodModel.v) | cells, evolutions and mean of the new base related to the old ones; frames of C62 on both | partial (with refutation) |
| C112 Reynolds stresses are averages of products of fluctuations | get_reynolds_stress (TurbModel.v) | sum over the frames of C79's fluctuations, induction on the frames | partial (with refutation) |
| C113 Reynolds stresses form a non-negative tensor | get_reynolds_stress (TurbModel.v) | sums of squares, Cauchy-Schwarz by a discriminant | proved |
| C114 Turbulent kinetic energy | get_tke, get_mean_tke, get_mean_kinetic_energy, __pow__ (TurbModel.v) | cells of differences, sums and squares; expansion of the squares around the mean | proved |
| C115 Time auto-correlation | get_time_auto_correlation (TurbModel.v) | mean of a list of known values; a NaN absorbs the sum | partial (with refutation) |
| C116 Turbulent intensity | get_turbulent_intensity, magnitude_as_sf, __pow__ of series (TurbModel.v) | times of the operands of the division | partial (with refutation) |
| C117 Boundary layer thickness | get_bl_thickness, Profile.max (BlModel.v) | first crossing of the list of samples, by induction on the samples below | partial (with refutation) |
| C118 Displacement and momentum thicknesses | get_displ_thickness, get_momentum_thickness, get_shape_factor (BlModel.v) | crop (C26), comparison of trapezoidal sums term by term | partial (with refutation) |
| C119 Thicknesses do not depend on the units | the same (BlModel.v) | each step commutes with positive factors | proved |
| C120 Thicknesses along a scalar field | the same on scalar fields (BlModel.v) | the first call of get_profile raises; pointwise for 'y' | partial (with refutation) |
| C121 Profiles of a scalar field | get_profile (BlModel.v) | C21's interpolation on the lines, first bracket of a sorted axis, means of lists | proved |
| C122 Profiles over an interval of indices, and of a one-line field | get_profile (BlModel.v) | evaluation | partial (with refutation) |
| C123 Mirroring keeps the data and adds their images | mirroring, extend, crop_masked_border (MirrorModel.v) | invariant of the loop over the cells, line by line: each cell already visited shows the value of the kept part at its image | proved |
| C124 How many rows mirroring adds | the same | bounds of the ceiling of the count | partial (with refutation) |
| C125 Filling the gap at the plane of symmetry | the same, with the filling of the gap | reduction to mirroring without filling, then pointwise | partial (with refutation) |
| C126 Mirroring of a vector field | VectorField.mirroring (MirrorModel.v) | C123 on the components; the grid and the mask depend only on the grid and the mask | proved |
| C127 Mirroring of a series | TemporalFields.mirroring (MirrorModel.v) | map over the frames; counterexample by evaluation | partial (with refutation) |
| C128 A field written to a text file is read back | export_to_ascii, genfromtxt, import_sf_from_ascii, import_vf_from_ascii (AsciiModel.v) | the list of the lines indexed by cells; C130 and C131 on it | proved |
| C129 A profile or a set of points written to a text file is read back | export and import of profiles and points (AsciiModel.v) | composition of the export and the import line by line | partial (with refutation) |
| C130 The order of the lines of a file of vectors does not matter | import_vf_from_ascii (AsciiModel.v) | induction over the lines: a cell holds the last value given for it | proved |
| C131 The order of the lines of a file of scalars does not matter | import_sf_from_ascii (AsciiModel.v) | the means of groups of abscissae for each layout; induction over the lines for the last branch; counterexamples by evaluation | partial (with refutation) |
| C132 Every place where a profile takes a value is found | Profile.get_value_position (Prof2Model.v) | induction over the samples, with the sign of the products of consecutive differences | partial (with refutation) |
| C133 Cropping the masked border removes the masked ends only | Profile.crop_masked_border (Prof2Model.v) | least and greatest valid abscissae, then cropping | proved |
| C134 Marginal values are masked, and the others untouched | Profile.remove_marginal_values (Prof2Model.v) | squares instead of roots; Chebyshev's inequality by induction over the values | proved |
| C135 Doublons are merged by abscissa | Profile.remove_doublons (Prof2Model.v) | sorted unique values; filter of each group | proved |
| C136 An evenly spaced profile follows the polyline | Profile.evenly_space (Prof2Model.v) | linspace between the ends; linear interpolation lies on the polyline | partial (with refutation) |
| C137 Augmenting the resolution keeps the samples and adds points on the polyline | Profile.augment_resolution (Prof2Model.v) | interpolation in index between consecutive valid samples | proved |
| C138 The dephasage of a shifted profile is the shift | Profile.get_convolution_of_difference, get_dephasage (Prof2Model.v) | the sum of the differences is 0 at the shift and positive elsewhere, by the first or the last value that is not 0 | partial (with refutation) |
| C139 The auto-correlation is the normalised sum of the products of shifted windows | Profile.get_auto_correlation (Prof2Model.v) | re-indexing of sums | partial (with refutation) |
| C140 The convolution of profiles is the discrete convolution | Profile.get_convolution (Prof2Model.v) | re-indexing of sums; induction over the lengths | partial (with refutation) |
| C141 The gradient of a profile is made of centred differences | Profile.get_gradient (Prof2Model.v) | centred differences cell by cell; telescoping sum for the mean step | proved |
| C142 The background shows what each pixel shows most of the time | TemporalScalarFields.get_background (Series2Model.v) | the clipping keeps a convex choice of values and decreases the variance; induction over the turns of the loop; a majority stays a majority | partial (with refutation) |
| C143 Subtracting a background replaces the pixels near it, and no other | TemporalScalarFields.substract_background (Series2Model.v) | cell by cell | proved |
| C144 Soft cropping removes the border masked in every frame, and nothing else | TemporalFields.crop_masked_border (Series2Model.v) | first and last line and column with a shown cell; generic in the type of the fields | partial (with refutation) |
| C145 Hard cropping leaves no cell masked in every frame at the border | TemporalFields.crop_masked_border(hard=True) (Series2Model.v) | measure: number of lines and columns; composition of parts | partial (with refutation) |
| C146 Weird fields are replaced or removed, and the others kept | TemporalFields.remove_weird_fields (Series2Model.v), the power .5 is a function parameter | squares instead of standard deviations; invariant over the replaced frames | partial (with refutation) |
| C147 Filling in time puts masked cells on the line joining the frames showing them | TemporalVectorFields.fill, TemporalScalarFields.fill (Series2Model.v) | invariant over the filled cells: each turn reads and writes one cell; linear interpolation lies on the polyline | partial (with refutation) |
| C148 An injected time profile is read back at its point | TemporalFields.inject_time_profile, get_time_profile (Series2Model.v) | frame by frame | proved |
| C149 The circulation is the vorticity summed over the zone of the vortex | get_vortex_circulation (VpropModel.v); skimage label as the closure of adjacency, computed by iterated growth | growth reaches a fixed point after as many turns as cells; fixed point = joined cells | proved |
| C150 An opposite vorticity has the opposite circulation | get_vortex_circulation (VpropModel.v) | zones of opposite fields are the same; sums are opposite | proved |
| C151 The radius is the one of a disk with the area of the vortex | get_vortex_radius (VpropModel.v) | the two successive zones; counterexamples | partial (with refutation) |
| C152 The centre of a vortex is the mean of the positions of its cells | get_vortex_radius, scipy center_of_mass (VpropModel.v) | weighted means; regular axes are affine in the index | partial (with refutation) |
| C153 A property of a vortex is an integral over its cells | get_vortex_property, scipy simps (even='avg') (VpropModel.v) | weights of Simpson's rule by induction over the number of nodes; sums over zones | partial (with refutation) |
| C154 Evolutions give the property of the frame at the time of the trajectory | get_vortex_radius_time_evolution, get_vortex_property_time_evolution (VpropModel.v) | induction over the frames and the positions | proved |
| C155 A set of fields keeps the content of every field added to it | SpatialFields.add_field (SpatialModel.v), generic in the kind of field: the field after the call, the set after the call and the exception | conversion and cropping preserve the content; induction over the history | partial (with refutation) |
| C156 The value of a set at a point is the mean over the fields covering it | SpatialFields.get_value (SpatialModel.v) | partition of the fields at the point; the mean is unique, so the order does not matter | partial (with refutation) |
| C157 A set of fields sampled on a grid has the values of the set at the nodes | get_values_on_grid of both classes (SpatialModel.v) | cell by cell | partial (with refutation) |
| C158 A profile of a set of fields joins the profiles of its fields | SpatialFields.get_profile (SpatialModel.v) | case analysis of all the branches | partial (with refutation) |
| C159 The extents of a set are those of the union of its fields | the properties x_min, x_max, y_min, y_max (SpatialModel.v) | minimum of the first values and maximum of the last ones, on sorted axes | proved |
| C160 Opposites and multiples of sets are taken field by field | __neg__, __mul__ (SpatialModel.v) | add_field of a field without masked border is the identity | partial (with refutation) |
| C161 Sums and differences of vector fields add the vectors found at the same place | VectorField.__add__, __sub__ between vector fields (Vf2Model.v) | the approximate comparison of coordinates is equality for separated axes; reduction to the scalar case by components | partial (with refutation) |
| C162 Cropping the masked borders of a vector field never loses a vector, and its hard version leaves none masked | VectorField.crop_masked_border, soft and hard, both inplace modes (Vf2Model.v) | simulation: the mask and the grid decide, so the run follows the run of ScalarField.crop_masked_border (C17, C18) | partial (with refutation) |
| C163 Arithmetic of a vector field with numbers, vectors, arrays, quantities and scalar fields acts on each vector | VectorField arithmetic with non fields and with scalar fields (Vf2Model.v) | cell by cell | partial (with refutation) |
| C164 Equality of vector fields is equality of what they show | VectorField.__eq__ (Vf2Model.v) | the booleans are equivalent to the equality of the shown vectors | proved |
| C165 Equality of scalar fields is an equivalence relation | ScalarField.__eq__ with numpy.allclose (Vf2Model.v) | cell by cell; concrete counterexamples | partial (with refutation) |
| C166 Vector fields can be imported whatever the direction of their axes | VectorField.import_from_arrays (VectorFieldModel.v) | reversal of the indices | partial (with refutation) |
| C167 Reducing the spatial resolution replaces blocks of cells by their mean | reduce_spatial_resolution of both classes (ScalarFieldModel.v, Vf2Model.v) | the two nested loops enumerate the block; the reduced axes are increasing | partial (with refutation) |
| C168 The norm of a field is a norm | get_norm of both classes (NormModel.v, in Coq's reals) | Minkowski's inequality by convexity of powers; permutation of the cells | proved |
| C169 The integral of a scalar field along a line is that of the values met along it | integrate_over_line (Sf2Model.v) on the profiles of C121 | the trapezoidal area of the profile | proved |
| C170 The integral over a rectangle is the mean of the field times the area | integrate_over_surface (Sf2Model.v) | sums over the cropped grid | proved |
| C171 make_evenly_spaced gives regular axes over the same area, with the smallest step of the field | make_evenly_spaced (Sf2Model.v), the interpolator being a parameter | arithmetic of linspace and floor | partial (with refutation) |
| C172 get_zones_centers gives one point for each zone of values between the bounds | get_zones_centers (Sf2Model.v) with scipy.ndimage.label, extrema, center_of_mass, including the change in place of the bounds | connected components as in C149; centre of indices = centre of positions on regular axes; Bernoulli's inequality for the drift | partial (with refutation) |
| C173 The histogram counts the values in each bin | get_histogram (Sf2Model.v) with numpy.histogram for an integer number of bins | the bin index is the floor of the scaled value; counting over cells | proved |
| C174 A string given as a unit is refused before any evaluation when it contains forbidden words or begins with a call | make_unit (UnitStrModel.v) on Coq strings; exec is a parameter | substring and prefix lemmas | proved |
| C175 The norm per point does not depend on the number of points of a uniform field | get_norm per point (NormModel.v) | two concrete fields | partial (with refutation) |
| C176 The integral along a line has the unit of the values times the unit of the axis followed | unit of integrate_over_line (Sf2Model.v) | case analysis; concrete counterexample | partial (with refutation) |
| C177 Integrals over adjacent rectangles add up | integrate_over_surface (Sf2Model.v) | concrete counterexample | partial (with refutation) |
| C178 The abscissas of a histogram are the middles of its bins, and masked places are ignored | get_histogram (Sf2Model.v) | corollaries of the counting theorem | partial (with refutation) |
| C179 A string given as a unit cannot call a function | make_unit (UnitStrModel.v) | concrete string | partial (with refutation) |
| C180 Paths are checked before use | check_path (StoreModel.v) on a disk as a function from paths to nodes | induction on the components | proved |
| C181 The object read in a file is the last one saved in it | export_to_file, import_from_file (StoreModel.v) with all the intermediate states; histories with crashes | frame lemma, induction over histories | proved |
| C182 An object is read back with the path it was saved with | as C181, with path.splitext on Coq strings | extension lemma: name ends with the extension after something else than dots | partial (with refutation) |
| C183 An export touches its file alone and never leaves a wrong object, even interrupted | the list of all the states of export_to_file (StoreModel.v) | case analysis on the state | proved |
| C184 An export that fails or is interrupted keeps what was in the file | as C183 | two concrete disks | partial (with refutation) |
| C185 Saving and loading leave the garbage collector as it was | the state of the garbage collector in StoreModel.v | case analysis; concrete counterexamples | partial (with refutation) |
| C186 imts_to_imt puts all the fields of a directory in one series | imts_to_imt (StoreModel.v) on top of add_field of TemporalModel | induction over the listing | partial (with refutation) |
| C187 Exactly the files asked for are removed, after a confirmation | remove_files_in_dirs (StoreModel.v) on the walk and removal of FilesModel | walk_spec and the removal lemma of C141 | proved |
| C188 The depth and the kind of removal asked for are respected | as C187 | the model does not depend on the arguments; concrete disk | partial (with refutation) |
| C189 The folders found are those with a file asked for | find_file_in_path (StoreModel.v), with the variable match unbound at the beginning | induction over the walk | partial (with refutation) |
| C190 The tree of names holds the files of the collection in their folders | build_tree (StoreModel.v) on nested dictionaries | induction over the collection and over paths | partial (with refutation) |
| C191 Each detected cell holds exactly one zero of the interpolated velocity | the index of PbiModel and the bilinear interpolation of CellSpec (real numbers) | subdivision (Cousin) argument for the additivity of the index; algebra of two zeros | proved |
| C192 The position reported is that of the zero of the interpolated velocity | get_sol and get_cp_position (CellModel.v), with infinities and NaN | the two solutions are the roots of a quadratic; C191 for uniqueness | proved |
| C193 No detected critical point is lost when its position is refined | as C192 | case analysis on the degenerate formulas; theorem for all linear fields | partial (with refutation) |
| C194 A refined point stays in its cell and keeps its type | as C192 | case analysis of the choice of the solutions | proved |
| C195 A refined position is a zero of the field, on all axes | as C192 | two concrete fields | partial (with refutation) |
| C196 A memoized function returns what the function returns | memoize_to_file (MemoModel.v): histories of decorators, calls, crashes and modifications over one file | invariant by induction over histories: the file and the caches hold results of the function | proved |
| C197 A result is computed once, and kept for the next processes | as C196 | induction over histories; invariant 'the file holds the cache' | proved |
| C198 An interrupted save does not prevent the next processes from working | as C196 | invariant 'the file cannot be read and no process is alive', for all later histories | partial (with refutation) |
| C199 A file can be shared | as C196 | execution for all functions and codecs | partial (with refutation) |
| C200 A failure to save, or a modification of a result by the caller, has no effect on the next calls; the garbage collector is left as it was | as C196 | execution for all functions, caches and codecs | partial (with refutation) |
| C201 The orientation of a panel gives its unit normal, and its influence is that of sources along it | Panel and integral (PotModel.v), over the reals | trigonometry of acos in both branches | proved |
| C202 Each point of a wall is taken as on the wall, and its velocity is tangent | Panel.on_panel, compute_velocity | algebra over the reals | proved |
| C203 Only points of a panel are taken as on it | as C202 | counterexample for every panel | partial (with refutation) |
| C204 The flow does not cross the walls | solving_sigma, compute_velocity | row extraction from the linear system, linearity of the integral | proved |
| C205 The velocity does not depend on what was asked before | System with its refresh flag, histories | simulation by induction over histories | proved |
| C206 Reversing the normals of a solid is taken into account | as C205, with inverse_normals | execution for every solid; a square for the difference | partial (with refutation) |
| C207 A solid keeps its shape when it is cut in panels | object_2D, refine, panels | induction over paths (inductive specification cut_in_parts) | proved |
| C208 A boundary can be open | object_1D | execution for all boundaries | partial (with refutation) |
| C209 Sources can be added | add_object, get_solid_panels | execution for all systems | partial (with refutation) |
| C210 The abscissa of a velocity profile is the distance along the line | compute_velocity_on_line (positions) | algebra over the reals, minimum of linspace | proved |
| C211 The abscissa of a velocity profile is a distance for every line | as C210 | counterexample for all such lines | partial (with refutation) |
| C212 The pressure coefficient follows Bernoulli and does not depend on the scale of the free stream | pressure, compute_velocity | algebra; uniqueness of the solution | proved |
| C213 The velocity field shows at each point the velocity at this point | compute_velocity_on_grid | indexing of the transposed rows | proved |
| C214 The protocol can be stopped between two saves, its results removed, and started again | POD_CP_protocol (ProtModel.v): programs over eight files, with the disks they go through; histories of runs, kills, removals and replacements | invariant over the disks of every program, then induction over histories; presence of the results at the end | proved |
| C215 What is computed is not computed again | POD_CP_protocol (ProtModel.v): programs over eight files, with the disks they go through; histories of runs, kills, removals and replacements | presence of the results at the end; execution when all are there | proved |
| C216 recompute_everything repairs everything | POD_CP_protocol (ProtModel.v): programs over eight files, with the disks they go through; histories of runs, kills, removals and replacements | execution from any disk | proved |
| C217 recompute_everything also recomputes the detailed results | POD_CP_protocol (ProtModel.v): programs over eight files, with the disks they go through; histories of runs, kills, removals and replacements | frame of recompute_everything | partial (with refutation) |
| C218 The protocol recovers from a kill during a save | POD_CP_protocol (ProtModel.v): programs over eight files, with the disks they go through; histories of runs, kills, removals and replacements | execution from the source only, then frame of compute_everything when the previous files are there, induction over later runs | partial (with refutation) |
| C219 The mean field is saved in the end | as C218 | as C218 | partial (with refutation) |
| C220 The results are those of the current source and parameters | as C214 | as C215 | partial (with refutation) |
| C221 A protocol can be created with the default number of threads | make_proto (ProtModel.v) | execution | partial (with refutation) |
| C222 The number of threads is limited by the memory | thread_limit (ProtModel.v) | integer arithmetic | proved |
| C223 The detection works whatever the free memory is | as C222 | execution | partial (with refutation) |
| C224 There is one stream line per starting point that is inside the field, starting there | get_streamlines (StreamModel.v) with the solver, the velocity and the mask as parameters | scaling and its inverse; induction over the steps | proved |
| C225 With resolution_kind='length' a stream line stays inside the field and out of the mask | get_streamlines (StreamModel.v) with the solver, the velocity and the mask as parameters | induction over the steps | proved |
| C226 With resolution_kind='time' a stream line is stopped by the boundary | get_streamlines (StreamModel.v) with the solver, the velocity and the mask as parameters | exact solver for a uniform flow, induction over the steps, archimedean property | partial (with refutation) |
| C227 With boundary_tr='hide' the lines that leave the field are not returned | as C226 | execution | partial (with refutation) |
| C228 Starting points can be integers | get_streamlines (StreamModel.v) with the solver, the velocity and the mask as parameters | integer part | partial (with refutation) |
| C229 The lines follow the velocity, or are orthogonal to it | dimensionless, followed (StreamModel.v) | real algebra | proved |
| C230 get_tracklines can be reversed | as C229 | real algebra | partial (with refutation) |
| C231 The points of a fast stream line are evenly spaced along the velocity | get_streamlines_fast (StreamModel.v) | invariant of the loop; norm of a unit vector | proved |
| C232 A fast stream line stops for a reason, and the loop ends | get_streamlines_fast (StreamModel.v) | invariant of the loop; fuel monotonicity | proved |
| C233 A reversed fast stream line is that of the opposite field | get_streamlines_fast (StreamModel.v) | induction over the loop | proved |
| C234 A displaced particle has travelled for the time asked, or has left the field | get_pts_displacement (FtleModel.v), with infinite and NaN steps and a bound on the loop | invariant of the loop | proved |
| C235 The integration is of fourth order, in both directions of time | rkf45 (FtleModel.v) | linear combinations of iterates of the linear part, field identities | proved |
| C236 In a uniform flow particles go exactly where they should | get_pts_displacement (FtleModel.v), with infinite and NaN steps and a bound on the loop | execution of two steps, convexity | proved |
| C237 The time loop ends | get_pts_displacement (FtleModel.v), with infinite and NaN steps and a bound on the loop | lower bound on the steps kept by the adaptation; archimedean property | proved |
| C238 dampl can be any number between 0 and 1 | get_pts_displacement (FtleModel.v), with infinite and NaN steps and a bound on the loop | execution | partial (with refutation) |
| C239 rel_err is the greatest relative error | get_pts_displacement (FtleModel.v), with infinite and NaN steps and a bound on the loop | execution with exact rationals; derivative of 1/(1-t) | partial (with refutation) |
| C240 The particles form a regular grid inside the field | generate_point_field, arange (FtleModel.v) | integer part | proved |
| C241 A fluid at rest has no Lyapunov exponent | get_FTLE (FtleModel.v): masked gradient, greatest eigenvalue | C236, diagonal matrices, logarithms | partial (with refutation) |
| C242 With equal spacings the exponents are right up to one constant | as C241 | homogeneity of gradient and eigenvalue; variational characterisation of the eigenvalue | proved |
| C243 Tracked points move as one rigid body, following the frames | Stabilizer (StabModel.v): opencv, the estimation and the smoothing are parameters | induction on the transforms; sin^2+cos^2=1; invariant over histories of calls | proved |
| C244 Without rotation, tracking from the first frame gives the estimated displacement | Stabilizer (StabModel.v): opencv, the estimation and the smoothing are parameters | telescoping sums | proved |
| C245 Tracking from the first frame follows rotations | Stabilizer (StabModel.v): opencv, the estimation and the smoothing are parameters | execution with a rotation of pi | partial (with refutation) |
| C246 In the stabilised video an object follows the smoothed trajectory | Stabilizer (StabModel.v): opencv, the estimation and the smoothing are parameters | execution for all smoothings keeping constants; contracts of padding and warping | partial (with refutation) |
| C247 A video without motion is not changed by the stabilisation | Stabilizer (StabModel.v): opencv, the estimation and the smoothing are parameters | contracts of padding and warping; integer parts for the axes | proved |
| C248 get_stabilized_obj works for all videos | Stabilizer (StabModel.v): opencv, the estimation and the smoothing are parameters | length of numpy.arange by integer part | partial (with refutation) |
| C249 The result does not depend on the previous calls | Stabilizer (StabModel.v): opencv, the estimation and the smoothing are parameters | invariant over histories of calls | proved |
| C250 A field is recovered exactly from gradients that the trapezoid rule integrates exactly | reconstruct_from_gradients (RecoModel.v) | induction on the loops of the four directions; invariance of means under a shift | proved |
| C251 The reconstruction has zero mean and is linear in the gradients | reconstruct_from_gradients (RecoModel.v) | linear relation preserved by every loop | proved |
| C252 maxiter limits the iterations of the least squares | reconstruct_from_gradients (RecoModel.v) | the argument is not used | partial (with refutation) |
| C253 A field is extrapolated down to a wall on its left or below it | extrapolate_until_wall for scalar and vector fields (WallModel.v) | composition of the theorems on extend and fill; floor of a quotient | proved |
| C254 A field is extrapolated up to a wall on its right or above it | extrapolate_until_wall for scalar and vector fields (WallModel.v) | position of the wall on even axes for all sizes | partial (with refutation) |
| C255 Extrapolating until a wall keeps the measured values | extrapolate_until_wall for scalar and vector fields (WallModel.v) | the wall line is below the first coordinate exactly when a line is added | partial (with refutation) |
| C256 A wall on the edge of the field is accepted | extrapolate_until_wall for scalar and vector fields (WallModel.v) | evaluation of the checks | partial (with refutation) |
| C257 Points ordered on a line are the same points on the shortest traversal | order_on_line, get_evolution_on_tsf, get_streamlines_from_orientations (Pts3Model.v) | invariant of the search of the minimum; a traversal of a connected graph is a permutation | proved |
| C258 Points ordered on a line keep their values | order_on_line, get_evolution_on_tsf, get_streamlines_from_orientations (Pts3Model.v) | witness of three points; the value list by cases | partial (with refutation) |
| C259 Ordering points on a line loses none of them | order_on_line, get_evolution_on_tsf, get_streamlines_from_orientations (Pts3Model.v) | invariant of reachability: the group of a point | partial (with refutation) |
| C260 The evolution along a trajectory is read in the field of the time of each point | order_on_line, get_evolution_on_tsf, get_streamlines_from_orientations (Pts3Model.v) | induction on the points; theorem on the constructor of profiles | proved |
| C261 The evolution along a trajectory refuses the times it does not know | order_on_line, get_evolution_on_tsf, get_streamlines_from_orientations (Pts3Model.v) | first failure of the loop | proved |
| C262 Stream lines issued from oriented points | order_on_line, get_evolution_on_tsf, get_streamlines_from_orientations (Pts3Model.v) | membership in the nested loops | proved |
| C263 Stream lines from oriented points start at a quarter of a cell | order_on_line, get_evolution_on_tsf, get_streamlines_from_orientations (Pts3Model.v) | witness with cells twice as high as wide | partial (with refutation) |
| C264 The gradient field holds the slopes of the asked component | get_grad_field, get_shear_stress of a field and of a profile (ShearModel.v) | theorems on get_gradients and on the masked gradient; slopes of linear arrays | proved |
| C265 The gradient field has the unit of a gradient | get_grad_field, get_shear_stress of a field and of a profile (ShearModel.v) | witness | partial (with refutation) |
| C266 The shear stress of a field holds the crossed slopes | get_grad_field, get_shear_stress of a field and of a profile (ShearModel.v) | theorems on np.gradient and on import_from_arrays | proved |
| C267 Missing values are filled before the shear stress is computed | get_grad_field, get_shear_stress of a field and of a profile (ShearModel.v) | witness: linear flow with one missing value | partial (with refutation) |
| C268 The shear stress of a field has the unit of a gradient | get_grad_field, get_shear_stress of a field and of a profile (ShearModel.v) | witness | partial (with refutation) |
| C269 The simple wall shear stress is the viscosity times the slope | get_grad_field, get_shear_stress of a field and of a profile (ShearModel.v) | theorems on Profile.get_gradient and on the constructor of profiles | proved |
| C270 The linear law of the wall gives rho nu u / x above the wall | get_grad_field, get_shear_stress of a field and of a profile (ShearModel.v) | theorem on the constructor of profiles; induction for the selection | proved |
| C271 A viscosity which is not positive is refused | get_grad_field, get_shear_stress of a field and of a profile (ShearModel.v) | first test of the function | proved |
| C272 The laminar layer of Blasius | BlasiusBL and ThwaitesBL over the reals (LayModel.v) | algebra on Rpower | proved |
| C273 The boundary layer grows along the plate | BlasiusBL and ThwaitesBL over the reals (LayModel.v) | monotony of Rpower; bound at the transition | proved |
| C274 The position of a laminar layer is found back from its thickness | BlasiusBL and ThwaitesBL over the reals (LayModel.v) | algebra; witness | partial (with refutation) |
| C275 The position of a turbulent layer is found back from its thickness | BlasiusBL and ThwaitesBL over the reals (LayModel.v) | algebra on exp and ln; bound on the laminar guess | proved |
| C276 The laminar layer satisfies the momentum equation | BlasiusBL and ThwaitesBL over the reals (LayModel.v) | derivative of the square root | proved |
| C277 The thicknesses are positive and ordered | BlasiusBL and ThwaitesBL over the reals (LayModel.v) | witness; comparison of squares | partial (with refutation) |
| C278 The 95 % thickness is refused for turbulent layers | BlasiusBL and ThwaitesBL over the reals (LayModel.v) | induction on the list | proved |
| C279 Confinement reduces the thickness | BlasiusBL and ThwaitesBL over the reals (LayModel.v) | algebra | proved |
| C280 The confined thickness is not negative | BlasiusBL and ThwaitesBL over the reals (LayModel.v) | witness | partial (with refutation) |
| C281 Laminar profiles are those of Blasius | BlasiusBL and ThwaitesBL over the reals (LayModel.v) | contract of odeint | proved |
| C282 The velocity at a point does not depend on the other points asked | BlasiusBL and ThwaitesBL over the reals (LayModel.v) | derivative at the wall gives a point with positive velocity | partial (with refutation) |
| C283 Turbulent profiles are available | BlasiusBL and ThwaitesBL over the reals (LayModel.v) | by computation | partial (with refutation) |
| C284 The momentum thickness of Thwaites | BlasiusBL and ThwaitesBL over the reals (LayModel.v) | contract of quad, mean value theorem | proved |
| C285 The pressure gradient parameter of Thwaites | BlasiusBL and ThwaitesBL over the reals (LayModel.v) | induction on the positions; witness with u = 1 + x | partial (with refutation) |
| C286 The shape factor of Thwaites | BlasiusBL and ThwaitesBL over the reals (LayModel.v) | cases on lambda | proved |
| C287 The similarity variable and the height are inverse of each other | FalknerSkanBL over the reals (FsModel.v) | algebra on Rpower; witness | partial (with refutation) |
| C288 Growth of the layer of Falkner and Skan | FalknerSkanBL over the reals (FsModel.v) | monotony of Rpower | proved |
| C289 The search for f''(0) starts from two integrated guesses around the target | FalknerSkanBL over the reals (FsModel.v) | induction on the guesses | proved |
| C290 A starting interval is found whenever guesses lie on both sides of the target | FalknerSkanBL over the reals (FsModel.v) | witness | partial (with refutation) |
| C291 The shooting method ends with an answer around the target | FalknerSkanBL over the reals (FsModel.v) | invariant of the loop: the ends of the interval are on both sides of 1, or the first one is a root | proved |
| C292 The verbose option only changes what is displayed | FalknerSkanBL over the reals (FsModel.v) | witness; induction on the turns | partial (with refutation) |
| C293 The profiles of Falkner and Skan satisfy Prandtl's equations | FalknerSkanBL over the reals (FsModel.v) | derivatives of the stream function by the chain rule, algebra | proved |
| C294 Eigenvalues of the velocity gradient | eigenproperties over the reals, from the gradients of GradModel (JacModel.v) | cases on the order of the eigenvalues, algebra | proved |
| C295 Eigenvectors of the velocity gradient | eigenproperties over the reals, from the gradients of GradModel (JacModel.v) | a rotation has no real eigenvector; algebra | partial (with refutation) |
| C296 The unit of the eigenvalues | eigenproperties over the reals, from the gradients of GradModel (JacModel.v) | by computation | partial (with refutation) |
| C297 Masks of the eigenvalue fields | eigenproperties over the reals, from the gradients of GradModel (JacModel.v) | masks of the gradients | proved |
| C298 Eigenvalues of linear fields | eigenproperties over the reals, from the gradients of GradModel (JacModel.v) | gradients of linear fields | proved |
| C299 Kenwright's fields are null on lines where the velocity keeps its direction | eigenproperties over the reals, from the gradients of GradModel (JacModel.v) | coordinates in the basis of the eigenvectors; witness | partial (with refutation) |
| C300 Masks and unit of Kenwright's fields | eigenproperties over the reals, from the gradients of GradModel (JacModel.v) | cases | proved |
| C301 The text of a collection of files shows everything once | text, averages and bases (RepModel.v) | induction on the dictionaries | partial (with refutation) |
| C302 The heading is the deepest folder above everything | text, averages and bases (RepModel.v) | induction on the dictionaries | partial (with refutation) |
| C303 Conditional averages along a mean trajectory | text, averages and bases (RepModel.v) | induction on the real times | partial (with refutation) |
| C304 The modes as a series | text, averages and bases (RepModel.v) | induction on the additions | proved |
| C305 Smoothing of the temporal evolutions | text, averages and bases (RepModel.v) | induction | proved |
| C306 Smoothing of the modes | text, averages and bases (RepModel.v) | induction | partial (with refutation) |
| C307 The critical energy decreases with the number of points | text, averages and bases (RepModel.v) | monotony of exp and powers | proved |
| C308 The field around a point | surroundings, local marginal values, text files, consistency (CloModel.v) | induction on lines and columns | proved |
| C309 The number of lines around a point | surroundings, local marginal values, text files, consistency (CloModel.v) | order on the indices | partial (with refutation) |
| C310 Local marginal values | surroundings, local marginal values, text files, consistency (CloModel.v) | induction and Chebyshev's inequality | proved |
| C311 Vector fields from text files | surroundings, local marginal values, text files, consistency (CloModel.v) | case analysis, for all arguments | partial (with refutation) |
| C312 What check_consistency accepts | surroundings, local marginal values, text files, consistency (CloModel.v) | boolean reflection | proved |
| C313 Imported vector fields are consistent | surroundings, local marginal values, text files, consistency (CloModel.v) | case analysis on the import | partial (with refutation) |
| C314 The profile of a confined layer | confined profiles (LayModel.v) | real algebra | partial (with refutation) |
| C315 The temporal field of a system of vortices | temporal fields of systems, VF objects, masks (EvoModel.v) | induction on the iterations | proved |
| C316 VF objects and back | temporal fields of systems, VF objects, masks (EvoModel.v) | case analysis on the import | partial (with refutation) |
| C317 Masks as fields | temporal fields of systems, VF objects, masks (EvoModel.v) | case analysis on the import | proved |
| C318 The vortices of a field are the zones of its criterion | positions of vortices from a criterion (VposModel.v) | from the zones of scalar fields (C172) | proved |
| C319 The vortices of temporal fields, time by time | positions of vortices from a criterion (VposModel.v) | induction on the fields, from add_point (C45) | partial (with refutation) |
| C320 Every relative threshold from 0 to 1 is accepted | positions of vortices from a criterion (VposModel.v) | computation; case analysis | partial (with refutation) |
| C321 Asking for coherences leaves the modal fields unchanged | coherences of modal fields (CohModel.v) | case analysis; computation | partial (with refutation) |
| C322 The coherences are those of the present modal fields | coherences of modal fields (CohModel.v) | induction on the calls; computation | partial (with refutation) |
| C323 Clauser's thickness | Clauser's thickness (ClauModel.v) | from the bounds of C118; computation | partial (with refutation) |
| C324 Components of temporal vector fields as temporal scalar fields | components and masks of series as fields (CompsModel.v) | from add_field in the order of time; case analysis | proved |
| C325 Places that are always masked, as a field | components and masks of series as fields (CompsModel.v) | case analysis | proved |

## Findings

Violations of the listed properties by the code, as proved about the model (theorems `..._refuted`). The remaining
theorems of the same property say what does hold.

* **C05** Index crop is the inclusive sub-grid. Proved for every index pair except hi = 0; the code rejects the pair (0, 0) (C05_first_column_refuted). Theorems: `C05_first_column_refuted`.
* **C06** Rotation carries data with position. All fields with two points per axis (the property's quantifier). C06_single_line_refuted shows that the restriction is needed. For vector fields NaN components come in pairs (kept by import and mask). Theorems: `C06_single_line_refuted`.
* **C10** Scaling carries data with position, also for negative factors. Proved for scalar fields and for the components of vector fields; the mask of a vector field is not reversed with a negative factor (C10_vector_mask_refuted). Theorems: `C10_vector_mask_refuted`.
* **C13** Masked and NaN agree after any operation sequence. Masked implies NaN always. NaN implies masked, and unmasked values are those last assigned, when no mask assignment reveals a masked cell; otherwise refuted (C13_reveal_refuted). Theorems: `C13_reveal_refuted`.
* **C15** Adding fields on different grids works on the common points. Proved when each axis has two common coordinates; a single common line raises IndexError (C15_single_line_refuted), and axes in different length units are compared as bare numbers (C15_axis_units_refuted). Theorems: `C15_single_line_refuted`, `C15_axis_units_refuted`.
* **C16** Field division masks zero divisors. Proved for field/field and field/array; number/field and array/field do not mask zeros (refuted). Theorems: `C16_number_by_field_refuted`, `C16_array_by_field_refuted`.
* **C17** Soft border cropping never loses data. Proved when something is masked and there is an unmasked cell off the first row and one off the first column; refuted otherwise (returns None, or ValueError). Theorems: `C17_unmasked_field_refuted`, `C17_first_row_refuted`.
* **C18** Hard border cropping ends with clean borders. Termination and cleanness of every returned field proved; the code raises ValueError on some masks (C18_raises_refuted). Theorems: `C18_raises_refuted`.
* **C20** Import accepts any axis direction. Proved for increasing axes, for decreasing axes without mask, and for transposed arrays; the mask is not reversed (C20_mask_refuted). Theorems: `C20_mask_refuted`.
* **C22** Profile stays sorted and aligned. Construction, every operation (with its exact effect on the samples; a raised exception leaves the profile unchanged) and every run, for assignments of the right length. An assignment of the wrong length raises after x was replaced (C22_wrong_length_refuted). Theorems: `C22_wrong_length_refuted`.
* **C23** Profile value crop keeps exactly the in-interval points. Exact when the lower bound is a stored x (or below all of them) and the upper bound is in (first, last]; other intervals lose points or keep points outside (refuted). Index crop exact. Theorems: `C23_lost_point_refuted`, `C23_outside_point_refuted`.
* **C25** Profile sums respect units. Proved for equal scale factors; with different ones the conversion factor is inverted (C25_scales_refuted). Theorems: `C25_scales_refuted`.
* **C26** Operators leave their operands unchanged. Profiles: the divisor is unchanged when it has no zero, otherwise refuted. Points: the second operand is unchanged when the scales agree, otherwise its coordinates are multiplied in place (refuted). Theorems: `C26_points_add_refuted`, `C26_profile_div_refuted`.
* **C30** Removing points keeps the values of the others. The designated points are removed and the others keep their position; the values of all the points are lost (C30_values_lost_refuted, C30_cut_values_refuted). Theorems: `C30_values_lost_refuted`, `C30_cut_values_refuted`, `C30_cut_nothing_refuted`.
* **C31** Failed point insertion has no effect. The failing call has already added the point (C31_refuted); the successful call is characterised. Theorems: `C31_refuted`.
* **C34** Removing several fields removes those fields. Right for strictly decreasing index lists; otherwise other frames are removed, or times and frames lose their alignment (refuted). Theorems: `C34_list_refuted`, `C34_misaligned_refuted`.
* **C36** Mean field averages the available values. Averages proved for scalar and vector series, but the mask is set where at most nmb_min values exist instead of fewer than nmb_min (C36_min_values_refuted). Theorems: `C36_min_values_refuted`.
* **C37** Temporal downsampling averages consecutive groups. Means and times of the groups proved (scalar; mean=False for all kinds); when n divides the number of frames the last complete group is dropped and a single group is refused (refuted). Theorems: `C37_last_group_refuted`, `C37_one_group_refuted`.
* **C38** Frames added share one grid. The guard only refuses another x axis with the same y axis; other axes are accepted (refuted). Theorems: `C38_refuted`, `C38_shapes_refuted`.
* **C39** Time units are converted when adding frames. Same unit proved; the conversion is inverted (C39_refuted). Theorems: `C39_refuted`.
* **C40** Scalar multiplication keeps the time axis. The product multiplies the frames but loses the times and their unit; the quotient by a number always raises (refuted). Theorems: `C40_refuted`, `C40_division_refuted`.
* **C41** Interpolated field is between its neighbours. Stored times, outside, and between two frames proved (increasing times). After augment_temporal_resolution a stored time raises TypeError (refuted). Theorems: `C41_list_refuted`.
* **C43** Cropping a copy of temporal points leaves the original alone. In place: exact. For a copy: right when only a time interval is given; with a spatial interval the copy is left uncropped and the original is cropped (C43_refuted). Theorems: `C43_refuted`.
* **C44** Oriented points iterate over themselves. The iteration is right exactly when all the points are equal; refuted in general. Theorems: `C44_refuted`.
* **C47** Trajectory steps respect the threshold. The code compares the squared distance with epsilon itself: with epsilon below 1 points farther than epsilon are linked, with epsilon above 1 points nearer than epsilon are not. Proved: squared distances are at most epsilon, the matching is stable for that threshold, and distances are at most epsilon when epsilon is at least 1. Theorems: `C47_refuted`, `C47_unlinked_refuted`.
* **C48** Trajectories do not outlive the points they come from. add_point and remove_point only forget epsilon: the old trajectories stay available and no longer match the points. Proved: clean_traj refuses to run until compute_traj is called again. Theorems: `C48_add_refuted`, `C48_remove_refuted`, `C48_refuted`.
* **C49** Topological simplification conserves the total index. Proved: termination, the groups merged and their centres, distances after simplification, conservation of the index by only_delete and by replacement when no group has an index beyond 1 in absolute value. Refuted: two close foci become a point of type 0, which loses their index. CritPoints.topo_simplify raises TypeError as soon as there is a time (numpy integers are refused), and simplify raises on an empty set. Theorems: `C49_index_refuted`, `C49_crit_points_refuted`, `C49_empty_refuted`.
* **C51** The zero-level pre-filter misses no critical cell. Every reported point is sound, for every field. Completeness is proved for fields without masked value whose interpolated velocity does not vanish on the grid lines; it is refuted when two neighbours have exactly opposite velocities (a cell of index 1 is skipped). Theorems: `C51_refuted`.
* **C52** Vortex ids stay contiguous. Ids and the id counter proved over all histories; the removed vortex is the designated one. nmb_vortex is not updated by remove_vortex (refuted, right without removals), and an index between -2n and -n-1 removes a vortex instead of raising (refuted). Theorems: `C52_number_refuted`, `C52_negative_index_refuted`.
* **C53** Image vortices enforce the wall condition. Proved for the axisymmetric kinds (solid, free, Burger, Lamb-Oseen, Rankine, Perso) on any wall followed only by perpendicular walls; refuted for the Hill vortex; parallel walls need infinitely many images (refuted). The Lamb-Chaplygin vortex is modelled but not covered. Theorems: `C53_hill_refuted`, `C53_parallel_refuted`.
* **C55** File collections stay aligned. Alignment over all histories, additions, concatenations and the removal of one index are proved; a list of indices is removed correctly when strictly decreasing, else other files are (refuted); regular expressions and numpy integers always raise (refuted). Theorems: `C55_remove_list_refuted`, `C55_regex_refuted`, `C55_numpy_refuted`.
* **C56** Memoized functions return the function's value. Whatever the calls, crashes and processes, a returned value is the function's value, and an idle process answers; computed once if one process runs at a time and no write is interrupted. Refuted: an interrupted write can block every later run, two functions sharing a file mix values, concurrent processes lose updates. Theorems: `C56_crash_refuted`, `C56_shared_file_refuted`, `C56_lost_update_refuted`.
* **C57** Type checking decorator is transparent. Transparent for accepted types and TypeError without call for a refused one, for well formed calls; refuted for too many arguments (IndexError), keyword-only parameters (unchecked) and functions without parameters. Theorems: `C57_too_many_refuted`, `C57_keyword_only_refuted`, `C57_no_parameter_refuted`.
* **C59** Displayed frame index stays in range. The index stays in range and no event raises for histories without the number 0 before up or down, limits that are no frame, or a second limit alone; each exclusion is needed (refuted). Theorems: `C59_zero_refuted`, `C59_limit_refuted`, `C59_limit_zero_refuted`, `C59_play_refuted`.
* **C60** Every frame is reachable and shown. A typed number shows its frame except for the last one (refuted); up and down reach all; playing cycles over all the frames but the last one (refuted); saving records all but the first one (refuted). Theorems: `C60_goto_last_refuted`, `C60_play_last_refuted`, `C60_save_first_refuted`.
* **C61** Modal base cropping keeps modes aligned. Modes, numbers and evolutions are taken in the given order; the eigenvalues too when the modes are given in increasing order. Refuted: the eigenvalues of another order are sorted back, so that they belong to other modes; modes_to_remove always raises (np.arrange); a 'dmd' base always raises (it has no eigvals); the eigenvectors lose rows, which are times. Theorems: `C61_order_refuted`, `C61_remove_refuted`, `C61_dmd_refuted`, `C61_eigvects_refuted`.
* **C63** Gradients are exact on linear fields. Proved for scalar and vector fields. The gradient of a profile is the difference between successive values, not divided by the step (refuted): exact only for a step of 1. Theorems: `C63_profile_refuted`.
* **C64** Vorticity of a rotation is twice its rate. Refuted: get_vorticity of a rotation of rate w gives w, in general half of the vorticity; get_stokes_vorticity divides by the area of w x w cells instead of (w-1) x (w-1), so that the vorticity is multiplied by ((w-1)/w)^2. Both give 0 on irrotational linear flows. Theorems: `C64_vorticity_refuted`, `C64_stokes_refuted`.
* **C65** Vortex criteria are bounded. Bounds of the gamma and kappa criteria proved. Refuted for Q: the strain is counted twice (a pure shear gives -1/4 instead of 0), and what is under the mask of the gradients is shown. Theorems: `C65_q_refuted`, `C65_q_mask_refuted`.
* **C66** Filling a profile keeps its valid points. kind='linear' with at least two valid points (crop=False); kind='value' overwrites the valid points and leaves the masked ones (C66_value_fill_refuted). Theorems: `C66_value_fill_refuted`.
* **C67** Inverse interpolation reports every crossing. Complete and sound when no stored y equals v; when one does, crossings elsewhere are not reported (refuted). Theorems: `C67_missed_crossing_refuted`.
* **C68** Point values stay aligned with the points. Invariant of all histories in which points are added with a value exactly when the others have one; otherwise refuted (C68_value_refuted). Theorems: `C68_value_refuted`.
* **C69** The sum of two point sets is their union. Proved for units of equal scale; the conversion factor is inverted (C69_scales_refuted). Values on one side only raise. Theorems: `C69_scales_refuted`.
* **C71** Decomposing a point set loses nothing. Sets with values; a set of at least two points without values raises (C71_no_values_refuted). Theorems: `C71_no_values_refuted`.
* **C74** Evolution of a field along the points. The method raises UnboundLocalError for every non-empty set lying in the field: no part of the property holds. Theorems: `C74_refuted`.
* **C75** Oriented points keep their own directions. add, remove and crop proved; the inherited sort and cut, and a refused add, break the pairing (refuted). Theorems: `C75_sort_refuted`, `C75_cut_refuted`, `C75_failed_add_refuted`.
* **C76** Temporal point sets stay sorted and aligned. Same time unit and no removal before an addition; otherwise refuted (inverted conversion, AttributeError after appending the time, shifted indices). Theorems: `C76_time_unit_refuted`, `C76_add_after_remove_refuted`, `C76_remove_list_refuted`.
* **C77** Geometric operations on a series act on every frame. rotate, extend, set_origin proved; reduce_spatial_resolution leaves the series with unreduced axes (refuted). Theorems: `C77_reduce_spatial_refuted`.
* **C78** Scaling a series scales every frame and the times. Non negative factors proved; negative factors break the order of times and misplace values (refuted). Theorems: `C78_negative_refuted`, `C78_negative_axis_refuted`.
* **C82** Time profile along dated points. Without window and with points ordered in time; otherwise refuted. Theorems: `C82_window_refuted`, `C82_order_refuted`.
* **C83** Extremal fields. Right at cells that the first frame does not mask; elsewhere NaN without mask (refuted). Theorems: `C83_first_frame_refuted`.
* **C84** Sum of two series. Equal times proved for scalar series; other times are lost (refuted). Theorems: `C84_other_times_refuted`.
* **C85** Unit changes of a series preserve the physical quantity. change_unit proved; the unit_times setter ignores strings (refuted). Theorems: `C85_setter_refuted`.
* **C86** Loading a directory finds the matching files. Proved without depth; with a depth only found files are right (partial), and files are missed (refuted). Theorems: `C86_depth_refuted`.
* **C87** Deleting files deletes the listed files only. Recursive deletion of non nested directories and the refusal are proved; nested directories, non empty directories without recursion and empty collections fail (refuted). Theorems: `C87_nested_refuted`, `C87_not_empty_refuted`, `C87_empty_refuted`.
* **C88** Printed durations tell the elapsed time. Proved below one day; from one day on the minutes are printed as days (refuted). Theorems: `C88_days_refuted`, `C88_two_days_refuted`.
* **C89** Linked displays show the same frame. Proved when the connected displays show the same frame before; refuted otherwise. Theorems: `C89_out_of_step_refuted`.
* **C93** Detailed contributions are complete. Holds when the images are up to date (for instance just after get_vector); refuted when a wall or vortex was added since: the images are missing or stale. Theorems: `C93_detailed_refuted`.
* **C95** The critical point of a linear field is found in its cell, with its type. Exactly one point, in the right cell, saddle iff det < 0: proved for all increasing axes; position within half a cell for even axes; nodes and their stability right for square cells. Refuted: the focus numbers follow the direction of rotation instead of stability, the type is wrong on non-square cells (default steps 1 in the Jacobian), and the position uses the first step of each axis. Theorems: `C95_focus_refuted`, `C95_stretched_refuted`, `C95_uneven_refuted`.
* **C98** Moving or scaling critical points moves their trajectories. Proved for objects whose trajectories are computed (and for scale in all cases). Before compute_traj, set_origin raises TypeError after having moved the points. Theorems: `C98_origin_refuted`, `C98_origin_uncomputed_refuted`.
* **C99** Cropping critical points. Proved: contents of a crop in space, and of a crop in time when every kind has at least two trajectories. Refuted: a crop in time raises on objects without trajectories or with a kind that has fewer than two; without inplace it crops the trajectories of the original and not those of the result; a crop in space leaves trajectories that do not match. Theorems: `C99_few_refuted`, `C99_uncomputed_refuted`, `C99_original_refuted`, `C99_stale_refuted`.
* **C104** A non local criterion uses a full disc. Proved for radii in cells (ind=True). Refuted for radii as distances: the cell itself is counted as a neighbour (gamma1 at the centre of a rotation is 4/5 instead of 1), and with different steps along x and y a neighbour can be outside of the field and IndexError is raised (or, for a negative index, the other side of the field is used). Theorems: `C104_centre_refuted`, `C104_distance_refuted`.
* **C103** Residual and shear vorticity. The sum, the bound and the sign are proved. The last part is proved where the divergence is null, and refuted otherwise: the strain is computed with 4 Exx^2 instead of (Exx - Eyy)^2, so that a rotation with an outward flow has no residual vorticity. Theorems: `C103_residual_refuted`.
* **C107** Criteria from the velocity gradient. numpy's eigenvalues are a parameter: two complex numbers whose sum is the trace and product the determinant. All proved but the last part, refuted: delta is positive at every cell of a rotation. Reading finding, not modelled: get_lambda2(raw=True) builds its result from the last value instead of the array. Theorems: `C107_delta_refuted`.
* **C110** Decomposition on some modes only. Proved for modes given in increasing order. Refuted for others: the profile of the eigenvalues is sorted, so that the coefficients of a mode are computed with the eigenvalue of another, and the reconstruction is wrong. Theorems: `C110_order_refuted`.
* **C111** Crop and scale of a modal base commute with the reconstruction. Space crop and scale proved. Time crop: proved for the times it keeps, which are those strictly after the lower bound unless the interval starts before the first time. Refuted: a time equal to the lower bound is lost, and an interval ending on the first time or starting on the last one raises ValueError. Theorems: `C111_bound_refuted`.
* **C112** Reynolds stresses are averages of products of fluctuations. Proved for series whose frames share one unit. Refuted otherwise: the products of the raw values of the fluctuations, each in the unit of its frame, are added and labelled with the square of the unit of the first frame. Theorems: `C112_units_refuted`.
* **C115** Time auto-correlation. Proved for series without masked value, on the raw values. Refuted when the first field has a masked value: numpy.mean is given the NaN and every correlation is NaN and masked. Theorems: `C115_masked_refuted`.
* **C116** Turbulent intensity. Refuted: the product by 2/3 and the power .5 of a series lose the times (C40), and the division by the magnitudes then raises because the times differ, for every series with a time other than 0. Theorems: `C116_refuted`.
* **C117** Boundary layer thickness. Proved: the result is on the polyline at the value sought, and every earlier sample is below it when no sample has exactly that value or when the profile never decreases. Refuted in general: a later sample with exactly the value hides an earlier crossing (C117_hidden_refuted), and a uniform profile raises IndexError. Theorems: `C117_hidden_refuted`, `C117_uniform_refuted`.
* **C118** Displacement and momentum thicknesses. Proved: the inequalities, and the exact value computed: the integral over the samples up to the thickness (with a wall point), normalised by the largest of them. Refuted: it is not normalised by the free stream velocity and stops at the last sample before the thickness; a layer thinner than the first step gives NaN. Theorems: `C118_free_stream_refuted`, `C118_thin_refuted`.
* **C120** Thicknesses along a scalar field. Refuted: with the documented directions 1 and 2 get_profile raises TypeError for every field. Proved for the undocumented direction 'y'; the units of the result are then exchanged (C120_units_refuted). Theorems: `C120_refuted`, `C120_units_refuted`.
* **C122** Profiles over an interval of indices, and of a one-line field. Refuted: the interval was converted to floats, which cannot slice: TypeError for every admissible interval. On a one-line field the loop variable is unbound. Theorems: `C122_refuted`, `C122_single_refuted`.
* **C124** How many rows mirroring adds. Proved for a plane strictly between the ends of the axis. Refuted (C124_border_refuted): with the plane on the border of the field or outside of it, the furthest row is never mirrored; and with the plane on the border n - 1 rows are added (C124_count_refuted). Theorems: `C124_border_refuted`, `C124_count_refuted`.
* **C125** Filling the gap at the plane of symmetry. Proved: 'value', 'nearest', 'cubic', and 'linear' in direction y. Refuted: 'linear' in direction x replaces the row before the gap and the gap by NaN and unmasks them. The values given by scipy to 'nearest' and 'cubic' are parameters. Theorems: `C125_linear_refuted`.
* **C127** Mirroring of a series. Proved: frames and times. Refuted: the axes of the series stay the old ones (the assignment creates attributes of another name). Theorems: `C127_refuted`.
* **C129** A profile or a set of points written to a text file is read back. Proved for at least two samples with increasing x, or two points. Refuted for one: genfromtxt then gives an array of one dimension and IndexError is raised. Theorems: `C129_profile_refuted`, `C129_points_refuted`.
* **C131** The order of the lines of a file of scalars does not matter. Proved for files column after column with y increasing, line after line with y decreasing (with abscissae further apart than numpy's tolerance), and in an order that looks like neither when the axes have different lengths. Refuted: the other two regular orders give a field upside down, an irregular order with as many columns as lines gives the transposed field, abscissae within the tolerance of numpy.allclose make a well ordered file be read upside down, and a missing point raises ValueError. Theorems: `C131_lines_up_refuted`, `C131_columns_down_refuted`, `C131_square_refuted`, `C131_tiny_refuted`, `C131_missing_refuted`.
* **C132** Every place where a profile takes a value is found. Proved when no sample has exactly the value. When one has it, only the first such sample is given: refuted for the other places. Theorems: `C132_refuted`.
* **C136** An evenly spaced profile follows the polyline. Proved for uneven profiles with valid ends. Refuted: the step asked for is ignored when the profile is already evenly spaced, and a masked end makes the interpolation raise ValueError. Theorems: `C136_step_refuted`, `C136_masked_end_refuted`.
* **C138** The dephasage of a shifted profile is the shift. Proved without masks. Refuted with masks: a profile with a masked first sample is found shifted from itself. Theorems: `C138_masked_refuted`.
* **C139** The auto-correlation is the normalised sum of the products of shifted windows. Proved with the sums stopping one window before the last. Refuted for 'all the possible positions': the last sample is never used. Theorems: `C139_last_refuted`.
* **C140** The convolution of profiles is the discrete convolution. Proved for mode 'full' and profiles beginning at x >= 0. Refuted: the guard adds x[1] and x[0] of the second profile instead of subtracting them, so that it refuses on one side only profiles beginning before 0 and accepts unevenly spaced ones; the abscissae of the result begin at 0 whatever those of the profiles. Theorems: `C140_side_refuted`, `C140_origin_refuted`, `C140_uneven_refuted`.
* **C142** The background shows what each pixel shows most of the time. Proved: the value of the background, or the mask, from the group of values kept; the bound for a value shown in most of the frames, when another one is shown as well. Refuted: a pixel that never changes is masked (the clipping is strict and the deviation is 0). The unit of the values is lost. Theorems: `C142_refuted`.
* **C144** Soft cropping removes the border masked in every frame, and nothing else. Proved when some cell is always masked and the window ends after the first line and the first column. Refuted: None is returned when nothing is masked; ValueError when the shown cells are all in the first column. Theorems: `C144_refuted`, `C144_first_refuted`.
* **C145** Hard cropping leaves no cell masked in every frame at the border. Proved: the loop ends, and what is returned has no border cell masked in every frame. Refuted: a 2 x 2 series with three shown cells raises ValueError. Theorems: `C145_refuted`.
* **C146** Weird fields are replaced or removed, and the others kept. Proved: interpolation when every weird frame has a symmetric pair of frames that are not weird; removal of a single weird frame; nothing changes when none is weird. 'weird' is stated on the sum of the norms, as the code computes it. Refuted: removing two weird frames removes a wrong frame; the last frame weird raises IndexError; the first one is replaced using the last one; frames with more masked cells are weird though the mean magnitude is the same. Theorems: `C146_remove_refuted`, `C146_last_refuted`, `C146_first_refuted`, `C146_masked_refuted`.
* **C147** Filling in time puts masked cells on the line joining the frames showing them. Proved for increasing times, when some masked cell is shown in at least three frames; cells shown in at most two frames, or masked before the first or after the last time, are kept. Refuted: a cell shown in two frames is not filled; nothing to fill raises NameError; the original series is changed; a series of scalar fields always raises. Theorems: `C147_few_refuted`, `C147_nothing_refuted`, `C147_inplace_refuted`, `C147_scalar_refuted`.
* **C151** The radius is the one of a disk with the area of the vortex. The criterion and the passage from area to radius are parameters. Proved when the criterion at the centre is above eps times itself (positive) and above eps times the greatest value of the zone. Refuted: clockwise vortices (all negative zones count as one); a centre on the flank of a steep vortex gives the cells outside of the vortex; without vortex the whole field is counted; the unit is sqrt(2) times the unit of the axes. Theorems: `C151_refuted`, `C151_flank_refuted`, `C151_none_refuted`, `C151_unit_refuted`.
* **C152** The centre of a vortex is the mean of the positions of its cells. Proved on regular axes, under the hypotheses of C151. Refuted on irregular axes. Theorems: `C152_refuted`.
* **C153** A property of a vortex is an integral over its cells. size_crit other than 'value'. Proved for a centre above the threshold of its vortex and a velocity that is not zero at the centre; a zero velocity at the centre raises ValueError (C153_still_partial). Refuted: the same vortex one cell further has another integral (Simpson's weights change from one cell to the next). Theorems: `C153_refuted`.
* **C155** A set of fields keeps the content of every field added to it. Proved for sorted fields showing every cell, or showing something off the first line and the first column, for both kinds of fields and all histories. Refuted: the given field is itself converted; a wholly masked field raises IndexError, and one showing only its first column ValueError. Theorems: `C155_argument_refuted`, `C155_masked_refuted`.
* **C156** The value of a set at a point is the mean over the fields covering it. 'covering' is strict: the point lies strictly between the ends of both axes. Refuted: on the border of a field, the field has a value and the set has none; a point masked in one of the fields covering it is NaN even if others show it. unit=True is ignored. Theorems: `C156_border_refuted`, `C156_hole_refuted`.
* **C157** A set of fields sampled on a grid has the values of the set at the nodes. Proved for sets of vector fields. Refuted for scalar fields: every call raises. Theorems: `C157_scalar_refuted`.
* **C158** A profile of a set of fields joins the profiles of its fields. No call returns a profile: either an exception, or None. Theorems: `C158_refuted`, `C158_raises_refuted`.
* **C160** Opposites and multiples of sets are taken field by field. Proved when every field of the set can be added again. Refuted: a set holding a field cropped to one column with a hole cannot be multiplied (ValueError). Not claimed: s / k raises TypeError (self.__class__.__init__() without an object) and iterating raises AttributeError. Theorems: `C160_refuted`.
* **C161** Sums and differences of vector fields add the vectors found at the same place. Proved for equal axes, and for different axes whose different coordinates differ by more than 1e-4 of their values, with at least two common coordinates along each axis, 0 not being common. Refuted: a common coordinate 0 is lost (the test is relative to the coordinate); axes in units of different scales are compared as bare numbers; a single common line raises IndexError. Theorems: `C161_zero_refuted`, `C161_scale_refuted`, `C161_one_line_refuted`.
* **C162** Cropping the masked borders of a vector field never loses a vector, and its hard version leaves none masked. Proved, soft and hard, for every field with something masked and something shown off the first line and off the first column (soft), and for every returned field (hard). Refuted: nothing masked gives None; a field showing only its first line raises ValueError. Theorems: `C162_unmasked_field_refuted`, `C162_first_line_refuted`.
* **C163** Arithmetic of a vector field with numbers, vectors, arrays, quantities and scalar fields acts on each vector. Each operation is proved on tidy fields (NaN exactly where masked); for quantities, for every normalisation of units and c <> 0. Refuted: the product by a scalar field ignores the unit and the axes of the scalar field; division by 0 leaves vectors without value unmasked; the product by a null quantity raises. Theorems: `C163_field_unit_refuted`, `C163_field_axes_refuted`, `C163_over_zero_refuted`, `C163_null_quantity_refuted`.
* **C165** Equality of scalar fields is an equivalence relation. Proved: for the same sizes, == means agreement up to numpy's tolerance, and it is reflexive. Refuted: symmetry (99999 and 100000), transitivity (0, 9e-9, 1.8e-8), and fields of different sizes raise ValueError. Theorems: `C165_symmetric_refuted`, `C165_transitive_refuted`, `C165_sizes_refuted`.
* **C166** Vector fields can be imported whatever the direction of their axes. Proved for increasing axes, for increasing axes with transposed arrays, and for decreasing axes when nothing is masked and nothing is NaN. Refuted: with a decreasing axis the mask is not reversed. Theorems: `C166_mask_refuted`.
* **C167** Reducing the spatial resolution replaces blocks of cells by their mean. Proved for even factors and at least two blocks along each axis; the cells after the last whole block are dropped; the middle is that of the two central coordinates of the block. Refuted: odd factors raise TypeError, and a single block along an axis raises IndexError. Theorems: `C167_odd_refuted`, `C167_one_line_refuted`.
* **C171** make_evenly_spaced gives regular axes over the same area, with the smallest step of the field. Proved: regular axes over the same extent, interpolated values, units. Refuted: the number of points is the number of intervals, so the step is larger than asked for, a regular field with n points is given n-1 (proved for every regular field), and two points along y raise. Theorems: `C171_regular_refuted`, `C171_two_refuted`.
* **C172** get_zones_centers gives one point for each zone of values between the bounds. Proved for regular axes, with at least one value shown, kind 'extremum', 'center' or 'ponderated', zones of 'ponderated' not all null; the choice between equal extrema (scipy) is any function. Refuted: the default bounds are a list changed at each call, so that the same call gives different answers (C172_repeated_refuted; the lower bound decreases at each call towards 0); on irregular axes the centre is not the mean position; a zone of zeros raises. Theorems: `C172_default_refuted`, `C172_default_vanishes_refuted`, `C172_repeated_refuted`, `C172_irregular_refuted`, `C172_null_refuted`.
* **C175** The norm per point does not depend on the number of points of a uniform field. Refuted for p = 2 (the default): fields equal to 1 with 1 and 4 points have norms 1 and 1/2. Proved: the value for a uniform field in terms of the number of points, and for p = 1 the norm per point is the mean absolute value. Theorems: `C175_per_point_refuted`.
* **C176** The integral along a line has the unit of the values times the unit of the axis followed. Proved along x, and when both axes have the same unit. Refuted for the direction 'x': the line runs along y but the unit is that of x (the test compares the direction with 1). Theorems: `C176_unit_refuted`.
* **C177** Integrals over adjacent rectangles add up. Refuted: values 0, 1, 4 at 0, 1, 2 give 1/2 + 5/2 and 10/3. Theorems: `C177_additive_refuted`.
* **C178** The abscissas of a histogram are the middles of its bins, and masked places are ignored. Refuted: the abscissas are shifted from the middles by the first edge (C173_counts gives the shift for every field); without a range a masked place raises ValueError, for every field. Theorems: `C178_masked_refuted`, `C178_middle_refuted`.
* **C179** A string given as a unit cannot call a function. Refuted: 'm*exit()' is evaluated; only calls at the beginning are refused (proved). Theorems: `C179_calls_refuted`.
* **C182** An object is read back with the path it was saved with. Proved for a path whose name has the extension (compressed: .cimt, else .imt); for every other path, import raises unless another file is there (C182_same_path_partial gives both). Refuted for 'a'. Theorems: `C182_same_path_refuted`.
* **C184** An export that fails or is interrupted keeps what was in the file. Refuted: the file is truncated before the object is written; an object that cannot be pickled destroys the previous one. Theorems: `C184_crash_refuted`, `C184_failure_refuted`.
* **C185** Saving and loading leave the garbage collector as it was. Proved: it is enabled after a success. Refuted: it is enabled although it was disabled, and a failure leaves it disabled. Theorems: `C185_gc_refuted`.
* **C186** imts_to_imt puts all the fields of a directory in one series. Proved: the file written holds the series obtained by adding the fields in the order of the listing, and nothing else is changed. Refuted: the times are not kept, all the fields are at time 0 (C186_series_refuted, for every list of fields on one grid). Theorems: `C186_series_refuted`.
* **C188** The depth and the kind of removal asked for are respected. Refuted: the arguments depth, remove_dir and remove_files are ignored (for all values of the arguments). Theorems: `C188_arguments_refuted`.
* **C189** The folders found are those with a file asked for. Proved: every folder with a matching file is returned, and any other returned folder has no file at all; exact when every folder has a file. Refuted: a folder without file met after a folder that matches is returned; UnboundLocalError when the first folder has no file. Theorems: `C189_empty_refuted`, `C189_unbound_refuted`.
* **C190** The tree of names holds the files of the collection in their folders. Proved when no component is called 'files'. Refuted: a folder called 'files' next to a file raises AttributeError. Theorems: `C190_files_refuted`.
* **C193** No detected critical point is lost when its position is refined. Proved: on even axes with plain corners exactly the points of the cells whose velocity is 'bent' are kept. Refuted: every linear field (a rotation, a saddle) loses its critical point (0/0 in the closed formulas), and so does a cell with one null component at a corner. Theorems: `C193_linear_refuted`, `C193_rotation_refuted`, `C193_null_component_refuted`.
* **C195** A refined position is a zero of the field, on all axes. Refuted: a corner whose two components are opposite is taken for a zero, and its indices are swapped; with uneven axes the search of the cell raises IndexError. Theorems: `C195_opposite_refuted`, `C195_uneven_refuted`.
* **C198** An interrupted save does not prevent the next processes from working. Refuted for every cache and interruption point: the truncated file raises EOFError, which is not caught, in every later decorator; nothing works until the file is removed. Theorems: `C198_interrupted_refuted`.
* **C199** A file can be shared. Refuted: the key holds the arguments only, so a second function returns the results of the first; the last process that writes erases the results of the other one. Theorems: `C199_two_functions_refuted`, `C199_two_processes_refuted`.
* **C200** A failure to save, or a modification of a result by the caller, has no effect on the next calls; the garbage collector is left as it was. Proved: the collector is enabled after a new result is saved and after a decorator that succeeds. Refuted: a result that cannot be saved makes the first call raise and the next ones return it, truncates the file and leaves the collector disabled; a modified result is returned by the next calls. Theorems: `C200_unsaved_refuted`, `C200_modified_refuted`.
* **C203** Only points of a panel are taken as on it. Refuted for every panel: the points of the line up to a fifth of the length past the end are taken as on the panel, because the radius is length/sqrt(2). Theorems: `C203_past_the_end_refuted`.
* **C206** Reversing the normals of a solid is taken into account. Refuted: after a computation, reversing the normals puts null strengths that are not computed again: the flow is the free stream, as without solid; on a square it differs from the flow computed after the reversal. Theorems: `C206_forgotten_refuted`, `C206_square_refuted`.
* **C208** A boundary can be open. Refuted: every boundary is closed to its first point in place of the last point; a straight boundary of two points always raises ValueError with res=1. Theorems: `C208_straight_refuted`, `C208_closed_refuted`.
* **C209** Sources can be added. Refuted: add_object(0) always raises TypeError; objects that are not walls never change the velocity. Theorems: `C209_point_refuted`, `C209_kind_refuted`.
* **C211** The abscissa of a velocity profile is a distance for every line. Refuted for every line whose coordinates vary in opposite directions: the position of the last point is the difference of the two sides, less than the length, null at 45 degrees. Theorems: `C211_crossed_refuted`.
* **C217** recompute_everything also recomputes the detailed results. Refuted for all stages: recompute_everything writes neither the detailed reconstruction nor the detailed trajectories. Theorems: `C217_stale_refuted`.
* **C218** The protocol recovers from a kill during a save. Refuted for every file: the truncated file is there, so no later run writes it again. When it is the first one all later runs raise EOFError; when it is the last one they succeed and leave it. Theorems: `C218_interrupted_refuted`, `C218_stuck_refuted`.
* **C219** The mean field is saved in the end. Refuted: the mean field is written after the cleaned fields, the presence of which skips the whole stage. Theorems: `C219_mean_refuted`.
* **C220** The results are those of the current source and parameters. Refuted for all sources and parameters: only the presence of the files is looked at. Theorems: `C220_unnoticed_refuted`.
* **C221** A protocol can be created with the default number of threads. Refuted: psutil.cpu_coun does not exist, so thread='all' (the default) raises AttributeError. Theorems: `C221_default_refuted`.
* **C223** The detection works whatever the free memory is. Refuted: ZeroDivisionError when the free memory is the same before and after loading (for example when loading reuses freed memory); the trajectories are then not computed. Theorems: `C223_same_refuted`.
* **C226** With resolution_kind='time' a stream line is stopped by the boundary. Refuted for all fields: only resolution_kind='length' looks at the boundary; with an interpolation that is constant outside, a uniform flow goes as far as max_steps allows. Theorems: `C226_time_refuted`.
* **C227** With boundary_tr='hide' the lines that leave the field are not returned. Refuted for all extents: boundary_tr is checked and never used; the returned line has a point outside. Theorems: `C227_hide_refuted`.
* **C228** Starting points can be integers. Refuted for all integer points strictly inside: the dimensionless coordinates are written in the array of integers, so they are truncated to 0 and the line starts at the corner of the field. Theorems: `C228_integers_refuted`.
* **C230** get_tracklines can be reversed. Refuted for all non-zero velocities: reverse is not passed on. Theorems: `C230_track_refuted`.
* **C238** dampl can be any number between 0 and 1. Refuted for all uniform flows that are not zero: with dampl = 1 the step becomes 0*inf = NaN after the first one and the loop never ends (taking it that the interpolation of NaN does not raise). Theorems: `C238_dampl_one_refuted`.
* **C239** rel_err is the greatest relative error. Refuted for all tolerances: a step is never rejected. In the velocity (x^2, 0) a particle that reaches x = 10 is said to reach x < 7.2, whatever rel_err is. Theorems: `C239_rel_err_refuted`.
* **C241** A fluid at rest has no Lyapunov exponent. Refuted for all fields and resolutions with equal spacings: the value is -ln(2)/(2|dt|), since numpy.gradient is given dx and dy whereas the particles are delta apart. `C241_rest_partial` gives the value for all spacings: ln(delta/min(dx, dy))/|dt|. Theorems: `C241_rest_refuted`.
* **C245** Tracking from the first frame follows rotations. Refuted: in this mode the code subtracts the parameters of successive motions, angles and translations, and composes the differences as motions, which is not the motion itself when there is a rotation after a translation. Theorems: `C245_rotation_refuted`.
* **C246** In the stabilised video an object follows the smoothed trajectory. Refuted for all smoothings that keep constants: a jump of d between the first frames gives the positions 0, 2d, d instead of 0, d, d. The transform used for a frame is the motion from the previous frame plus the correction, whereas the frame has already moved. `C246_positions_partial` gives the place of each frame for translations by whole pixels: moved by the last step plus smoothed trajectory minus trajectory. Theorems: `C246_follows_refuted`.
* **C248** get_stabilized_obj works for all videos. Refuted whenever the step along x is greater than along y: the axis y of the result is built with dx and is too long, and ValueError is raised. `C248_steps_partial`: it works exactly when dx <= dy. Theorems: `C248_works_refuted`.
* **C252** maxiter limits the iterations of the least squares. Refuted for vector fields: the two components are reconstructed with the default 10 whatever maxiter is. For scalar fields it is given to the solver (`C252_scalar_partial` shows it on a solver that counts). Theorems: `C252_maxiter_refuted`.
* **C254** A field is extrapolated up to a wall on its right or above it. Refuted: the number of lines is counted from axe[1] instead of axe[-1]; on an even axis of N >= 4 points the wall is between N-3 and N-2 steps too far. Right for axes of two points (`C254_two_points_partial`). Theorems: `C254_high_refuted`.
* **C255** Extrapolating until a wall keeps the measured values. Refuted when the wall is at less than one step: no line is added and the first measured line is overwritten by zeros. Proved from one step on (`C255_kept_partial`). Theorems: `C255_kept_refuted`.
* **C256** A wall on the edge of the field is accepted. Refuted: the first coordinate itself is taken for a position above the field, gives -1 lines and ValueError. The refusal inside is proved (`C256_inside_partial`). Theorems: `C256_edge_refuted`.
* **C258** Points ordered on a line keep their values. Refuted: only xy is reordered; the list of values stays in the old order (`C258_values_partial`). Theorems: `C258_values_refuted`.
* **C259** Ordering points on a line loses none of them. Refuted for all traversals on two distant groups of three points: half of the points and all values are lost. The returned points are points of the set, each at most once (`C259_points_partial`); see C257 for connected sets. Theorems: `C259_all_points_refuted`.
* **C263** Stream lines from oriented points start at a quarter of a cell. Refuted: line 199 uses axe_x for the step of y. Theorems: `C263_quarter_refuted`.
* **C265** The gradient field has the unit of a gradient. Refuted: the result is stored with the unit of the field (line 581). Values: C264. Theorems: `C265_unit_refuted`.
* **C267** Missing values are filled before the shear stress is computed. Refuted: tmp_vf.fill() is called without inplace and its result is lost (line 1048). Theorems: `C267_filled_refuted`.
* **C268** The shear stress of a field has the unit of a gradient. Refuted: the result is stored with the unit of the field (line 1066). Values: C266. Theorems: `C268_unit_refuted`.
* **C274** The position of a laminar layer is found back from its thickness. Refuted: the inverse uses 4.92 (line 291), the thickness 4.91. `C274_position_partial`: the result is (4.91/4.92)^2 x at every laminar position. Theorems: `C274_position_refuted`.
* **C277** The thicknesses are positive and ordered. Refuted for turbulent layers, whose delta2 and delta_star are 0 (lines 143-144). Proved for laminar positions (`C277_positive_partial`). Theorems: `C277_positive_refuted`.
* **C280** The confined thickness is not negative. Refuted for a layer thicker than h/0.26547. Theorems: `C280_negative_refuted`.
* **C282** The velocity at a point does not depend on the other points asked. Refuted for every exact integrator and flow: odeint puts the initial condition at the first value asked, so that the velocity there is 0 wherever it is. Theorems: `C282_points_refuted`.
* **C283** Turbulent profiles are available. Refuted: the method calls self.get_thickness, which does not exist. Theorems: `C283_turbulent_refuted`.
* **C285** The pressure gradient parameter of Thwaites. Refuted: np.gradient is called without spacing (line 605). `C285_lambda_partial`: lambda is the right one multiplied by the step. Theorems: `C285_lambda_refuted`.
* **C287** The similarity variable and the height are inverse of each other. Refuted: get_y returns a height without the factor sqrt((m+1)/2) of get_mu (its second return statement, which has it, is never reached). The result is mu sqrt((m+1)/2) (`C287_inverse_partial`), mu for m = 1. Theorems: `C287_inverse_refuted`.
* **C290** A starting interval is found whenever guesses lie on both sides of the target. Refuted: the code also requires f''(10) to change sign at the same place, and raises IndexError otherwise. `C290_refused_partial`: when all guesses are below 1 and the nearest is at an end, the exception of the code is raised. Theorems: `C290_start_refuted`.
* **C292** The verbose option only changes what is displayed. Refuted: the break on convergence is under 'if verbose' (lines 464-467). `C292_verbose_partial` says when the verbose search stops. Theorems: `C292_verbose_refuted`.
* **C295** Eigenvectors of the velocity gradient. Refuted for every right eig: in a rotation only the real parts of complex eigenvectors are kept. Proved where the eigenvalues are real (`C295_vectors_partial`). Theorems: `C295_vectors_refuted`.
* **C296** The unit of the eigenvalues. Refuted: the unit is always "". Theorems: `C296_unit_refuted`.
* **C299** Kenwright's fields are null on lines where the velocity keeps its direction. Refuted where the flow rotates. Proved at the cells with two distinct real eigenvalues (`C299_lines_partial`). Theorems: `C299_lines_refuted`.
* **C301** The text of a collection of files shows everything once. Refuted when a folder is called 'files' (what is in it is not shown). Proved for the other collections and limits that are not negative, for any decoration. Theorems: `C301_files_refuted`.
* **C302** The heading is the deepest folder above everything. Refuted when a folder is called 'files'. Proved when no folder or file is called 'files' and the limit is not negative. Theorems: `C302_files_refuted`.
* **C303** Conditional averages along a mean trajectory. Refuted when the trajectory and the series have different units of time: the numbers are compared. Proved for numbers in the same unit; scalar fields only. Theorems: `C303_units_refuted`.
* **C306** Smoothing of the modes. Refuted: inplace=False raises AttributeError (mdes) as soon as there is a mode. Proved in place. Theorems: `C306_copy_refuted`.
* **C309** The number of lines around a point. Refuted for even numbers: nmb_lc - 1 lines are taken. Proved for odd numbers. Theorems: `C309_number_refuted`.
* **C311** Vector fields from text files. Refuted: the method import_from_ascii does not exist, no call returns a series. Theorems: `C311_import_refuted`, `C311_attribute_refuted`.
* **C313** Imported vector fields are consistent. Refuted when an axis decreases and a value is nan: the mask is not reversed with the components. Proved for axes that do not decrease. Theorems: `C313_imported_refuted`.
* **C314** The profile of a confined layer. Refuted: the position is found with 4.92 instead of 4.91 (thickness wrong by 0.2 %), and turbulent layers raise AttributeError. Proved: the profile is that of a position whose layer has 4.91/4.92 times the confined thickness, for laminar layers that fit in the depth. Theorems: `C314_thickness_refuted`, `C314_turbulent_refuted`.
* **C316** VF objects and back. Refuted: the units are lost. Proved: the axes, the mask and the components that are not masked come back. Theorems: `C316_units_refuted`.
* **C319** The vortices of temporal fields, time by time. Refuted: ValueError when the first field shows no vortex and a later one does, since the units stay without dimension. Proved: the points of each time when there is no error; no error when the first field shows a vortex. Theorems: `C319_late_refuted`.
* **C320** Every relative threshold from 0 to 1 is accepted. Refuted: a zone of null values raises ValueError for the threshold 0. Proved: it works when each zone has a value that is not null; the other thresholds are refused. Theorems: `C320_null_refuted`.
* **C321** Asking for coherences leaves the modal fields unchanged. Refuted: the first call of get_spatial_coherence takes from each mode its mean, in place (all its values become NaN if one of them is), and reconstruct then gives other fields. Proved: get_temporal_coherence changes nothing; get_spatial_coherence changes only the values of the modes, by exactly their means; modes of null mean keep their values; a second call changes nothing and gives the same values. The spectra are parameters. Theorems: `C321_spatial_refuted`.
* **C322** The coherences are those of the present modal fields. Refuted: crop does not forget the spatial coherence, which stays that of the modes before the crop. Proved: the temporal one is right after any calls; the spatial one is right after crop_modal_base. scale is not among the calls. Theorems: `C322_crop_refuted`.
* **C323** Clauser's thickness. Refuted: the integral stops at the last point within the layer and is relative to the velocity there; a scalar field always raises. Proved: u_star times the result is the displacement thickness times the last velocity, with its bounds. The stress deduced from get_shear_stress is not modelled. Theorems: `C323_integral_refuted`, `C323_field_refuted`.

## Trusted base

* The Coq 8.16.1 kernel (with `vm_compute` used in examples), checked again by `coqchk`.
* No axioms of our own. `Print Assumptions` follows every theorem in the `Prop*.v` files: each prints
  "Closed under the global context", except those of PropVortex.v, PropPbi.v and PropCriterion.v, which use the real numbers of the standard library
  and print its axioms: `ClassicalDedekindReals.sig_forall_dec`, `ClassicalDedekindReals.sig_not_dec`,
  `FunctionalExtensionality.functional_extensionality_dep`, `Classical_Prop.classic`. The gate also lists `Coq.ssr.ssrunder.Under_rel.*` (7 parameters of the
  standard library's ssreflect plugin file, loaded with it and used by no theorem).
* The reading of /repo by hand: the model is tied to the code only by the citations in the comments.
* Idealisations listed under Approach: exact rational arithmetic instead of float64; numpy, scipy and unum by
  their documented behaviour.

## Modelled and not modelled

Modelled (file of /repo: model file):

* core/field.py, core/scalarfield.py, core/vectorfield.py (lookup, crop, rotate, scale, units, origin, extension,
  arithmetic, import, iteration, values and masks, point evaluation, border cropping, integration over the surface):
  FieldModel, ScalarFieldModel, VectorFieldModel.
* core/profile.py (state, arithmetic, crop, interpolation, integral, fill): ProfileModel.
* core/points.py, core/orientedpoints.py, core/temporalpoints.py: PointsModel.
* core/temporalfields.py, core/fields.py, core/temporalscalarfields.py (extremal fields): TemporalModel.
* utils/files.py (collections, os.walk and a disk as lists of paths): FilesModel.
* utils/memoization.py, utils/types.py, utils/progresscounter.py: UtilsModel.
* plotlib/plotlib.py, ButtonManager (frame index, keys, limits, timer, saving, links; not the drawing): ButtonModel.
* vortex_creation/vortex_creation.py (vortices, walls, VortexSystem; not HsvSystem nor the display): VortexModel, over
  the real numbers `R` (sqrt, atan, sin, cos, exp) instead of `Qc`.
* vortex_detection/vortex_detection.py, class VF (get_pbi, _check_struct_number, get_cp_cell_position) and VectorField.theta:
  PbiModel, over `R`; numpy.linalg.eig is a parameter.
* vortex_detection/vortex_detection.py, classes CritPoints (construction, add_point, remove_point, sums, compute_traj,
  clean_traj, set_origin, scale, crop, topo_simplify) and TopoPoints (imports, simplify): CritModel. Not modelled there:
  the sharing of point sets between a sum and its operands, refine_cp_position, break_trajectories, change_unit,
  crop with ind=True, display. Infinite distances are the value None; numpy's argsort is a parameter with the
  hypothesis that it sorts.

* core/scalarfield.py and core/vectorfield.py (fill), field_treatment/field_treatment.py (get_gradients), vortex_criterions/vortex_criterions.py
  (get_vorticity, get_divergence, get_stokes_vorticity, get_q_criterion, get_enstrophy, neighbourhoods of the non local criteria):
  GradModel. scipy's interpolators are parameters.
* vortex_criterions/vortex_criterions.py (get_gamma, get_kappa, get_residual_vorticity, get_shear_vorticity, get_swirling_strength,
  get_Nk_criterion, get_delta_criterion, get_lambda2; the last four for fields without masked vector): CriterionModel, over `R`;
  numpy's eigenvalues are a parameter. Not modelled: get_angle_deviation, get_NL_residual_vorticity, get_iota,
  get_improved_swirling_strength.
* pod/pod.py (ModalFields: construction, crop_modal_base, reconstruct, get_modes_energy, crop, scale; modal_decomposition of kind
  'pod'): PodModel. The library modred is a parameter of which the theorems ask the eigenvalues and eigenvectors of the matrix of the
  scalar products of the snapshots. Not modelled: kinds 'bpod' and 'dmd' of the decomposition (complex), smoothing, augmentation.
* core/temporalvectorfields.py (get_reynolds_stress, get_tke, get_mean_tke, get_mean_kinetic_energy, get_time_auto_correlation,
  get_turbulent_intensity) with the powers 2 and .5 of scalar fields: TurbModel. The square root is a parameter.
* core/scalarfield.py get_profile, core/profile.py max, boundary_layer/boundary_layer.py (get_bl_thickness, get_displ_thickness,
  get_momentum_thickness, get_shape_factor, on profiles and scalar fields): BlModel.
* mirroring of core/scalarfield.py, core/vectorfield.py and core/temporalfields.py: MirrorModel.
* file_operation/file_operation.py, text files (export_to_ascii, import_profile_from_ascii, import_pts_from_ascii,
  import_sf_from_ascii, import_vf_from_ascii), a text file being a list of lines of numbers: AsciiModel.
* core/profile.py, further methods (get_value_position, get_gradient without resampling, get_auto_correlation, get_convolution, get_dephasage,
  crop_masked_border, augment_resolution, evenly_space, remove_doublons, remove_marginal_values): Prof2Model.
* core/temporalscalarfields.py get_background, substract_background (blend=False), fill in time; core/temporalfields.py crop_masked_border,
  remove_weird_fields, inject_time_profile; core/temporalvectorfields.py fill in time (crop=False, kinds value, nearest and linear): Series2Model.
* vortex_properties/vortex_properties.py get_vortex_radius, get_vortex_property (size_crit other than 'value'), get_vortex_circulation and the two
  evolutions in time: VpropModel. The criteria (vorticity, residual vorticity), sqrt(area/pi) and the square root of the units are parameters.
* core/spatialfields.py, core/spatialscalarfields.py, core/spatialvectorfields.py (sets of fields: add_field, get_value, get_values_on_grid,
  get_profile, extents, opposite, multiple): SpatialModel. Not their display methods.
* core/vectorfield.py (arithmetic, ==, crop_masked_border, reduce_spatial_resolution) and ScalarField.__eq__: Vf2Model.
* core/scalarfield.py (integrate_over_line, integrate_over_surface, make_evenly_spaced, get_zones_centers, get_histogram): Sf2Model; get_norm of both classes: NormModel (reals); utils/units.py make_unit: UnitStrModel (exec is a parameter).
* file_operation.py (check_path, find_file_in_path, import_from_file, export_to_file, imts_to_imt) and utils/files.py (remove_files_in_dirs, Files.build_tree): StoreModel; pickle, gzip, glob and regular expressions are parameters.
* vortex_detection.py (VF.get_cp_position) and levelset_data.py (get_sol): CellModel, over the real numbers with the infinities and NaN of numpy.
* utils/memoization.py (memoize_to_file): MemoModel; pickle and gzip are parameters.
* potential_flow/potential_flow.py (System, object_1D/2D, Panel, integral; over the reals): PotModel; integrate.quad, numpy.linalg.solve, np.round and the paths of matplotlib are parameters; get_separation_position and get_gradP_length are not modelled.
* protocols/protocols.py (POD_CP_protocol): ProtModel; the computations of the stages are parameters, the figures are not modelled.
* field_treatment/field_treatment.py (get_streamlines, get_streamlines_fast, get_fieldlines, get_tracklines, get_track_field): StreamModel, over the real numbers; the solver, the interpolation and the mask are parameters.
* vortex_criterions/FTLE/ftle.py: FtleModel, over the real numbers with infinite and NaN time steps; the interpolation is a parameter.
* stabilize/stabilize.py: StabModel, over the real numbers; the feature detection, the estimation of motions, the smoothing of a column, copyMakeBorder and warpAffine are parameters, the last three with contracts stated in StabSpec.
* field_treatment.py, reconstruct_from_gradients: RecoModel, over the real numbers; masks are left out and leastsq is a parameter.
* field_treatment.py, extrapolate_until_wall: WallModel, for scalar and vector fields; the interpolators of the fill are parameters.
* points.py, order_on_line and get_evolution_on_tsf, orientedpoints.py, get_streamlines_from_orientations: Pts3Model; neighbours, traversals and get_streamlines are parameters.
* field_treatment.py, get_grad_field and get_shear_stress; boundary_layer.py, get_shear_stress of a profile by the methods 'simple' and 'wall_law_lin': ShearModel. The method 'wall_law_log' (fsolve) and the scalar field branch are not modelled.
* boundary_layer.py, BlasiusBL and ThwaitesBL: LayModel, over the reals; odeint and quad are parameters. FalknerSkanBL: FsModel; the integrations of the guesses, of the shooting method and odeint are parameters.
* field_treatment.py, get_jacobian_eigenproperties and get_Kenwright_field: JacModel; numpy.linalg.eig is a parameter.
* files.py, get_tree_representation and repr; vortex_detection.py, MeanTrajectory.reconstruct_fields; pod.py, modes_as_tf, smooth_temporal_evolutions, smooth_spatial_evolutions, get_critical_kappa: RepModel.
* vortex_detection.py, VF.get_field_around_pt; profile.py, remove_local_marginal_values; file_operation.py, import_vfs_from_ascii; vectorfield.py, check_consistency: CloModel. boundary_layer.py, get_profile_with_confinement: LayModel.
* vortex_creation.py, get_temporal_vector_field; vortex_detection.py, velocityfield_to_vf and export_to_velocityfield; scalarfield.py and vectorfield.py, mask_as_sf: EvoModel.
* vortex_detection.py, get_vortex_position and _get_vortex_position_on_VF: VposModel.
* pod.py, get_temporal_coherence and get_spatial_coherence and the coherences kept by crop and crop_modal_base: CohModel.  The spectra and
  their deviations are parameters; complex modes (DMD) are not covered.
* boundary_layer.py, get_clauser_thickness with the stress given: ClauModel.
* temporalvectorfields.py, Vx_as_sf and Vy_as_sf; temporalfields.py, mask_cum_as_sf: CompsModel.

Not modelled: display methods, the other file formats, spectra, DMD and BPOD decompositions, FTLE, smoothing
and spline interpolations (scipy), the python object identity of arrays except where a theorem is about it.
