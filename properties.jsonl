{"id": "C01", "title": "Axis lookup brackets the value", "statement": "On a field with strictly increasing axes, get_indice_on_axe(direction, v, kind='bounds') raises ValueError exactly when v lies outside the closed range of the axis; otherwise it returns indices (i, j) with axe[i] <= v <= axe[j], where i = j exactly when v is a grid coordinate and j = i + 1 otherwise.", "quantifier": "all strictly increasing non-empty axes, all values v, both directions", "why_tests_cant": "every axis length and every real axis content is possible; a test fixes one grid", "anchors": ["IMTreatment/core/field.py:Field.get_indice_on_axe (155-219)"]}
{"id": "C02", "title": "Nearest axis lookup is optimal", "statement": "get_indice_on_axe(direction, v, kind='nearest') returns an index whose coordinate is at minimal distance from v among all the coordinates of the axis; when v is exactly half way between two coordinates the upper one is returned.", "quantifier": "all strictly increasing axes, all values inside the axis range", "why_tests_cant": "every axis length and every real axis content is possible; a test fixes one grid", "anchors": ["IMTreatment/core/field.py:Field.get_indice_on_axe (155-219)"]}
{"id": "C03", "title": "Decimal axis lookup inverts linear interpolation", "statement": "get_indice_on_axe(direction, v, kind='decimal') returns a fractional index between the two bracketing indices, and linearly interpolating the axis at this fractional index gives back v exactly.", "quantifier": "all strictly increasing axes, all values inside the axis range", "why_tests_cant": "every axis length and every real axis content is possible; a test fixes one grid", "anchors": ["IMTreatment/core/field.py:Field.get_indice_on_axe (155-219)"]}
{"id": "C04", "title": "Value crop keeps exactly the in-interval points", "statement": "crop(intervx=[a,b]) (ind=False) of a field keeps exactly the grid points whose coordinate lies in the closed interval [a,b], in the original order, together with their values and mask; nothing else changes (the other axis, units). Intervals that meet no grid point because they lie entirely on one side of the axis raise ValueError.", "quantifier": "all fields with strictly increasing axes, all intervals a <= b on either or both axes", "why_tests_cant": "off-by-one errors at interval ends depend on the exact relation between grid and interval", "anchors": ["IMTreatment/core/field.py:Field.crop (478-576)", "IMTreatment/core/scalarfield.py:ScalarField.crop (1383-1418)", "IMTreatment/core/vectorfield.py:VectorField.crop (968-1005)"]}
{"id": "C05", "title": "Index crop is the inclusive sub-grid", "statement": "crop(intervx=[i,j], ind=True) returns the sub-field with the columns i..j, both included, with values and mask of those columns; every valid index pair 0 <= i <= j < n is accepted.", "quantifier": "all fields, all valid index pairs", "why_tests_cant": "boundary indices (first column alone) must be tried for every size", "anchors": ["IMTreatment/core/field.py:Field.crop (478-576)"]}
{"id": "C06", "title": "Rotation carries data with position", "statement": "After rotate(angle) with angle a multiple of 90 degrees (negative multiples included), the value (and mask) of the field at the rotated physical position is the value the field had at the original position; for vector fields the vector components are rotated by the same angle. The axes stay strictly increasing.", "quantifier": "all fields with at least two points per axis, all integer multiples of 90", "why_tests_cant": "needs every shape (rectangular too), every quarter turn and every cell", "anchors": ["IMTreatment/core/field.py:Field.rotate (367-425)", "IMTreatment/core/scalarfield.py:ScalarField.rotate (1300-1341)", "IMTreatment/core/vectorfield.py:VectorField.rotate (743-793)"]}
{"id": "C07", "title": "Rotations compose and four quarter turns are the identity", "statement": "rotate(a) followed by rotate(b) equals rotate(a+b), and rotate(360) leaves axes, units, values and mask as they were; angles that are not multiples of 90 raise ValueError.", "quantifier": "all fields with at least two points per axis, all pairs of multiples of 90", "why_tests_cant": "algebraic law over an infinite set of angles and shapes", "anchors": ["IMTreatment/core/field.py:Field.rotate (367-425)", "IMTreatment/core/scalarfield.py:ScalarField.rotate (1300-1341)", "IMTreatment/core/vectorfield.py:VectorField.rotate (743-793)"]}
{"id": "C08", "title": "Unit changes preserve the physical quantity", "statement": "change_unit on an axis or on the values of a scalar field, vector field, profile or point set multiplies every number by the same positive factor so that number * unit is unchanged; changing to another unit and back restores the numbers; incompatible units raise an error and change nothing.", "quantifier": "all objects, all pairs of compatible units", "why_tests_cant": "all conversion factors and contents", "anchors": ["IMTreatment/core/field.py:Field.change_unit (427-458)", "IMTreatment/core/scalarfield.py:ScalarField.change_unit (1351-1381)", "IMTreatment/core/profile.py:Profile.change_unit (1675-1706)", "IMTreatment/core/points.py:Points.change_unit (924-962)"]}
{"id": "C09", "title": "Origin shifts are exact translations", "statement": "set_origin(x, y) subtracts the given coordinates from the axes and nothing else; shifting by (x,y) and then by (-x,-y) restores the field; the value at physical position p before is the value at p - (x,y) after.", "quantifier": "all fields, all shifts", "why_tests_cant": "infinite input space", "anchors": ["IMTreatment/core/field.py:Field.set_origin (460-476)", "IMTreatment/core/points.py:Points.set_origin (964-983)"]}
{"id": "C10", "title": "Scaling carries data with position, also for negative factors", "statement": "scale(scalex, scaley) of a field multiplies the axes by the factors; the value and the mask at position (sx*x, sy*y) after scaling are those at (x, y) before, for positive and negative factors, on scalar fields, vector fields and temporal fields; the axes stay strictly increasing.", "quantifier": "all fields and all non zero factors", "why_tests_cant": "negative factors reverse storage order; all three arrays (axes, values, mask) must be reversed for every shape", "anchors": ["IMTreatment/core/field.py:Field.scale (292-365)", "IMTreatment/core/scalarfield.py:ScalarField.scale (1258-1298)", "IMTreatment/core/vectorfield.py:VectorField.scale (697-741)", "IMTreatment/core/temporalfields.py:TemporalFields.scale (987-1029)"]}
{"id": "C11", "title": "Extending a field keeps its data in place", "statement": "extend(nmb_left, nmb_right, nmb_up, nmb_down, inplace=True) keeps every old cell at its old physical coordinate with its value and mask, and every new cell is masked (or has the given value); the new axis continues the old one with the same step.", "quantifier": "all fields with evenly spaced axes, all extension counts", "why_tests_cant": "combination of four independent counts with every shape", "anchors": ["IMTreatment/core/field.py:Field.extend (578-624)", "IMTreatment/core/scalarfield.py:ScalarField.extend (1420-1495)"]}
{"id": "C12", "title": "Neighbourhood query is the disc", "statement": "get_points_around(center, radius, ind=True) returns each integer grid offset at distance <= radius from the center exactly once and no other point.", "quantifier": "all centers and all positive radii", "why_tests_cant": "the fast inner-square test must never include a point outside of the disc, for every radius", "anchors": ["IMTreatment/core/field.py:Field.get_points_around (221-290)"]}
{"id": "C13", "title": "Masked and NaN agree after any operation sequence", "statement": "For a float scalar field, after any sequence of assignments to values and mask and reads, the array returned by .values is NaN exactly where .mask is True, and unmasked values are the ones last assigned.", "quantifier": "all sequences of value/mask assignments and reads", "why_tests_cant": "history property", "anchors": ["IMTreatment/core/scalarfield.py:ScalarField.values (319-340)", "IMTreatment/core/scalarfield.py:ScalarField.mask (346-371)"]}
{"id": "C14", "title": "Field addition is pointwise and commutative", "statement": "The sum of two scalar fields on the same grid has at each cell the sum of the two values expressed in the unit of the first operand, and is masked exactly where one operand is masked; a+b and b+a represent the same physical field.", "quantifier": "all pairs of fields on the same grid with compatible units", "why_tests_cant": "all values, masks and unit factors", "anchors": ["IMTreatment/core/scalarfield.py:ScalarField.__add__ (80-150)"]}
{"id": "C15", "title": "Adding fields on different grids works on the common points", "statement": "The sum of two scalar fields whose axes differ is defined exactly on the common axis coordinates and equals there the sum of the two values; ValueError when there are no common coordinates.", "quantifier": "all pairs of fields with strictly increasing axes", "why_tests_cant": "all relative positions of two grids", "anchors": ["IMTreatment/core/scalarfield.py:ScalarField.__add__ (80-150)"]}
{"id": "C16", "title": "Field division masks zero divisors", "statement": "a / b for two scalar fields on the same grid is masked exactly where a or b is masked or b is zero, and equals the quotient elsewhere; array / field and number / field mask exactly the cells where the field is masked or zero.", "quantifier": "all fields and divisors", "why_tests_cant": "zero patterns", "anchors": ["IMTreatment/core/scalarfield.py:ScalarField.__truediv__ (161-202)", "IMTreatment/core/scalarfield.py:ScalarField.__rtruediv__ (206-243)"]}
{"id": "C17", "title": "Soft border cropping never loses data", "statement": "crop_masked_border(hard=False) keeps every unmasked cell with its coordinates and value, and the first and last row and column of the result each contain an unmasked cell.", "quantifier": "all fields with at least one unmasked cell", "why_tests_cant": "all mask patterns", "anchors": ["IMTreatment/core/scalarfield.py:ScalarField.crop_masked_border (1727-1787)"]}
{"id": "C18", "title": "Hard border cropping ends with clean borders", "statement": "crop_masked_border(hard=True) terminates on every field and its result is a contiguous sub-grid of the input (values, mask and coordinates preserved) whose four borders contain no masked cell.", "quantifier": "all fields and mask patterns", "why_tests_cant": "termination and all mask patterns", "anchors": ["IMTreatment/core/scalarfield.py:ScalarField.crop_masked_border (1727-1787)"]}
{"id": "C19", "title": "Scatter export lists every unmasked cell once", "statement": "export_to_scatter and iteration over a scalar field produce exactly the unmasked cells, each once, with their coordinates and values.", "quantifier": "all fields", "why_tests_cant": "all mask patterns and shapes", "anchors": ["IMTreatment/core/scalarfield.py:ScalarField.export_to_scatter (1220-1256)", "IMTreatment/core/scalarfield.py:ScalarField.__iter__ (303-311)"]}
{"id": "C20", "title": "Import accepts any axis direction", "statement": "import_from_arrays with increasing or decreasing axes stores a field with increasing axes where the value and mask found at coordinate (x,y) are those given at (x,y).", "quantifier": "all arrays, masks and axis directions", "why_tests_cant": "the reversal must be applied to all arrays alike for every combination", "anchors": ["IMTreatment/core/scalarfield.py:ScalarField.import_from_arrays (422-520)", "IMTreatment/core/vectorfield.py:VectorField.import_from_arrays (484-573)"]}
{"id": "C21", "title": "Point evaluation is exact on the grid and bounded between", "statement": "get_value at a grid coordinate returns the stored value; between two neighbouring grid points on a grid line it is the linear interpolation, hence between the two stored values; it is NaN when a neighbouring point used is masked and raises ValueError outside of the field.", "quantifier": "all fields and positions", "why_tests_cant": "all grids and positions", "anchors": ["IMTreatment/core/scalarfield.py:ScalarField.get_value (540-615)"]}
{"id": "C22", "title": "Profile stays sorted and aligned", "statement": "After construction and after any sequence of add_point, remove_point, x/y/mask assignment, crop, scale and change_unit, a profile has x sorted increasingly, x, y and mask of the same length, and every given (x, y, mask) triple is kept together.", "quantifier": "all operation sequences and contents", "why_tests_cant": "history property with sorting", "anchors": ["IMTreatment/core/profile.py:Profile.__init__ (54-93)", "IMTreatment/core/profile.py:Profile.x (263-275)", "IMTreatment/core/profile.py:Profile.add_point (1324-1330)", "IMTreatment/core/profile.py:Profile.remove_point (1353-1370)"]}
{"id": "C23", "title": "Profile value crop keeps exactly the in-interval points", "statement": "Profile.crop(intervx=[a,b]) keeps exactly the points with a <= x <= b.", "quantifier": "all profiles and intervals", "why_tests_cant": "off-by-one errors depend on the relation between grid and interval", "anchors": ["IMTreatment/core/profile.py:Profile.crop (1389-1478)"]}
{"id": "C24", "title": "Profile interpolation is exact on nodes and bounded", "statement": "Profile.get_interpolated_values(x=v) returns the stored y when v is a stored x, and otherwise a value between the y of the two surrounding points; outside the range it returns NaN.", "quantifier": "all profiles and positions", "why_tests_cant": "all nodes and positions", "anchors": ["IMTreatment/core/profile.py:Profile._get_interpolated_single_value (539-602)"]}
{"id": "C25", "title": "Profile sums respect units", "statement": "The sum of two profiles with the same x and compatible units has at each point the physical sum of the two values.", "quantifier": "all pairs of profiles and unit factors", "why_tests_cant": "all unit factors", "anchors": ["IMTreatment/core/profile.py:Profile.__add__ (108-120)"]}
{"id": "C26", "title": "Operators leave their operands unchanged", "statement": "The arithmetic operators of profiles, fields and point sets do not modify their operands.", "quantifier": "all operands", "why_tests_cant": "aliasing shows only for particular contents and later uses", "anchors": ["IMTreatment/core/profile.py:Profile.__truediv__ (196-208)", "IMTreatment/core/points.py:Points.__add__ (79-145)"]}
{"id": "C27", "title": "Trapezoidal integral is additive and monotone", "statement": "Profile.get_integral is the sum of the trapezoid areas: additive when the profile is split at a node, linear in y, and bounded by (x_last - x_first) times the extreme values.", "quantifier": "all profiles", "why_tests_cant": "all lengths and contents", "anchors": ["IMTreatment/core/profile.py:Profile.get_integral (652-661)"]}
{"id": "C28", "title": "Point-set crop is a filter", "statement": "Points.crop keeps exactly the points whose x, y and v lie in the given closed intervals, in the original order, keeping every point with its own v.", "quantifier": "all point sets and intervals", "why_tests_cant": "all contents", "anchors": ["IMTreatment/core/points.py:Points.crop (985-1035)"]}
{"id": "C29", "title": "Point-set sort is a permutation", "statement": "Points.sort reorders the points by increasing chosen coordinate; the multiset of (x, y, v) triples is unchanged.", "quantifier": "all point sets", "why_tests_cant": "all contents and lengths", "anchors": ["IMTreatment/core/points.py:Points.sort (1207-1252)"]}
{"id": "C30", "title": "Removing points keeps the values of the others", "statement": "Points.remove and Points.cut delete the designated points only; the remaining points keep their position and their v.", "quantifier": "all point sets and selections", "why_tests_cant": "all contents", "anchors": ["IMTreatment/core/points.py:Points.remove (901-922)", "IMTreatment/core/points.py:Points.cut (1037-1066)"]}
{"id": "C31", "title": "Failed point insertion has no effect", "statement": "When Points.add raises because v is missing, the point set is unchanged.", "quantifier": "all point sets and points", "why_tests_cant": "state after exception", "anchors": ["IMTreatment/core/points.py:Points.add (872-899)"]}
{"id": "C32", "title": "Point density conserves the number of points", "statement": "get_points_density2 without subresolution distributes each point in exactly one cell, the closest node of the grid: the value of a node times the cell area is the number (or the total value, when ponderated) of the points that have it as closest node, and the sum over the field is that of all the points.", "quantifier": "all point sets that are not aligned with an axis, all resolutions of at least two nodes per axis", "why_tests_cant": "points on cell borders, all contents", "anchors": ["IMTreatment/core/points.py:Points.get_points_density2 (425-532)"]}
{"id": "C33", "title": "Temporal fields stay sorted and aligned", "statement": "After any sequence of add_field and remove_fields (single index) calls, successful or raising, the times are sorted increasingly, there is one frame per time, and (when all the additions use one time unit) every frame carries the time it was added with.", "quantifier": "all histories of additions and removals, any correct argsort", "why_tests_cant": "history property", "anchors": ["IMTreatment/core/temporalfields.py:TemporalFields.add_field (1085-1142)", "IMTreatment/core/temporalfields.py:TemporalFields.remove_fields (1144-1157)"]}
{"id": "C34", "title": "Removing several fields removes those fields", "statement": "remove_fields([i1, ..., ik]) removes exactly the fields with these indices.", "quantifier": "all index lists", "why_tests_cant": "index shifting", "anchors": ["IMTreatment/core/temporalfields.py:TemporalFields.remove_fields (1144-1157)"]}
{"id": "C35", "title": "Temporal crop keeps exactly the in-interval frames", "statement": "TemporalFields.crop(intervx, intervy, intervt) keeps exactly the frames whose time lies in intervt, with their times, in order, each cropped to the spatial intervals; ValueError when the time interval lies entirely before the first or after the last time.", "quantifier": "all temporal scalar and vector fields and intervals", "why_tests_cant": "off-by-one at both ends, for every time list", "anchors": ["IMTreatment/core/temporalfields.py:TemporalFields.crop (1477-1537)"]}
{"id": "C36", "title": "Mean field averages the available values", "statement": "get_mean_field(nmb_min) has at each cell the mean of the unmasked values over time, and is masked exactly where fewer than nmb_min values are available.", "quantifier": "all temporal fields and masks", "why_tests_cant": "all mask histories", "anchors": ["IMTreatment/core/temporalfields.py:TemporalFields.get_mean_field (281-323)"]}
{"id": "C37", "title": "Temporal downsampling averages consecutive groups", "statement": "reduce_temporal_resolution(n) returns one field per complete group of n consecutive fields, being the mean of the group, at the mean time of the group.", "quantifier": "all temporal fields and n", "why_tests_cant": "boundary group", "anchors": ["IMTreatment/core/temporalfields.py:TemporalFields.reduce_temporal_resolution (1188-1242)"]}
{"id": "C38", "title": "Frames added share one grid", "statement": "All the fields of a temporal field live on the same grid: add_field rejects fields with other axes.", "quantifier": "all fields", "why_tests_cant": "combination of x and y conditions", "anchors": ["IMTreatment/core/temporalfields.py:TemporalFields.add_field (1085-1142)"]}
{"id": "C39", "title": "Time units are converted when adding frames", "statement": "add_field(field, time, unit_times) stores the physical time: time * unit_times = stored time * self.unit_times.", "quantifier": "all times and units", "why_tests_cant": "all unit factors", "anchors": ["IMTreatment/core/temporalfields.py:TemporalFields.add_field (1085-1142)"]}
{"id": "C40", "title": "Scalar multiplication keeps the time axis", "statement": "Multiplying or dividing temporal fields by a number multiplies or divides each field and keeps the times.", "quantifier": "all temporal fields and numbers", "why_tests_cant": "all contents", "anchors": ["IMTreatment/core/temporalfields.py:TemporalFields.__mul__ (91-111)", "IMTreatment/core/temporalfields.py:TemporalFields.__truediv__ (115-143)"]}
{"id": "C41", "title": "Interpolated field is between its neighbours", "statement": "get_interpolated_field(t) is the stored field at a stored time, otherwise the linear interpolation in time of the two surrounding fields; times outside the range raise.", "quantifier": "all temporal fields and times", "why_tests_cant": "all times", "anchors": ["IMTreatment/core/temporalfields.py:TemporalFields.get_interpolated_field (325-346)"]}
{"id": "C42", "title": "Recurrence map is a symmetric distance map", "statement": "get_recurrence_map has the times as axes; its diagonal is 0, entry (i,j) is the norm of the difference of frames i and j divided by the number of values (hence symmetric), NaN and masked when a compared value is NaN or when |i-j| exceeds the bandwidth.", "quantifier": "all temporal fields, integer norms and bandwidths", "why_tests_cant": "all contents", "anchors": ["IMTreatment/core/temporalfields.py:TemporalFields.get_recurrence_map (876-952)"]}
{"id": "C43", "title": "Cropping a copy of temporal points leaves the original alone", "statement": "TemporalPoints.crop(inplace=False) returns the cropped copy and does not change the original.", "quantifier": "all temporal point sets and intervals", "why_tests_cant": "aliasing", "anchors": ["IMTreatment/core/temporalpoints.py:TemporalPoints.crop (243-300)"]}
{"id": "C44", "title": "Oriented points iterate over themselves", "statement": "Iterating over an OrientedPoints object yields each point with its own orientation.", "quantifier": "all oriented point sets", "why_tests_cant": "all lengths", "anchors": ["IMTreatment/core/orientedpoints.py:OrientedPoints.__iter__ (79-86)"]}
{"id": "C45", "title": "Critical point sets stay sorted with unique times", "statement": "After any sequence of add_point, remove_point and additions, the times of a CritPoints object are strictly increasing, each of the five kinds has one point set per time, and each point set keeps its time; adding an existing time raises and changes nothing.", "quantifier": "all operation sequences", "why_tests_cant": "history property", "anchors": ["IMTreatment/vortex_detection/vortex_detection.py:CritPoints.add_point (1118-1167)", "IMTreatment/vortex_detection/vortex_detection.py:CritPoints.remove_point (1169-1198)", "IMTreatment/vortex_detection/vortex_detection.py:CritPoints.__add__ (469-499)"]}
{"id": "C46", "title": "Trajectories partition the points", "statement": "compute_traj puts each critical point of a kind in exactly one trajectory; each trajectory has points at consecutive times of the object, one per time.", "quantifier": "all sets of points, times and thresholds", "why_tests_cant": "greedy matching over all configurations", "anchors": ["IMTreatment/vortex_detection/vortex_detection.py:CritPoints.compute_traj (596-671)", "IMTreatment/vortex_detection/vortex_detection.py:CritPoints._get_cp_time_evolution (1616-1850)"]}
{"id": "C47", "title": "Trajectory steps respect the threshold", "statement": "Two successive points of a trajectory computed with threshold epsilon are at distance at most epsilon, and greedy matching never leaves both a line and a point unmatched that are within the threshold.", "quantifier": "all sets of points and thresholds", "why_tests_cant": "all configurations", "anchors": ["IMTreatment/vortex_detection/vortex_detection.py:CritPoints._get_cp_time_evolution (1616-1850)"]}
{"id": "C48", "title": "Trajectories do not outlive the points they come from", "statement": "After add_point or remove_point, previously computed trajectories are no longer available.", "quantifier": "all operation sequences", "why_tests_cant": "history property", "anchors": ["IMTreatment/vortex_detection/vortex_detection.py:CritPoints._remove_trajectories (1553-1560)"]}
{"id": "C49", "title": "Topological simplification conserves the total index", "statement": "TopoPoints.simplify terminates for every finite distance; the total Poincare-Bendixson index of the points is unchanged; after 'replacement' any two remaining points are farther apart than dist_min and after 'only_delete' no saddle is within dist_min of a non saddle.", "quantifier": "all point configurations and distances", "why_tests_cant": "termination and all configurations", "anchors": ["IMTreatment/vortex_detection/vortex_detection.py:TopoPoints.simplify (2212-2325)"]}
{"id": "C50", "title": "Poincare-Bendixson index is an integer, additive, and the winding number of the velocity", "statement": "The index of the border swept up to a column is an exact integer before it is rounded, for any angles; it is -1, 0 or 1 for one cell with angles in [0, 2pi); the index up to column i (from row j) is the sum of the indices of the enclosed cells; and when the velocity does not vanish on the lines of the grid it is the number of turns of the velocity along the border: the sum of the signed angles between successive velocities, divided by 2 pi.", "quantifier": "all angle fields, velocity fields and sizes", "why_tests_cant": "additivity over all grid sizes and all real angles", "anchors": ["IMTreatment/vortex_detection/vortex_detection.py:VF.get_pbi (331-357)", "IMTreatment/vortex_detection/vortex_detection.py:VF._check_struct_number (417-436)", "IMTreatment/core/vectorfield.py:VectorField.theta (442-470)"]}
{"id": "C51", "title": "The zero-level pre-filter misses no critical cell", "statement": "A cell skipped by the sign test of get_cp_cell_position (vx or vy of the same sign on the four corners) has index 0, so every cell of non-null index is reported exactly once; and every reported point comes from a cell of non-null index without masked corner.", "quantifier": "all velocity fields, sizes and cells", "why_tests_cant": "all sign patterns and angles", "anchors": ["IMTreatment/vortex_detection/vortex_detection.py:VF.get_cp_cell_position (84-177)"]}
{"id": "C52", "title": "Vortex ids stay contiguous", "statement": "After any sequence of add_vortex and remove_vortex, the i-th vortex of a VortexSystem has id i and the id counter and vortex counter equal the number of vortices.", "quantifier": "all operation sequences", "why_tests_cant": "history property", "anchors": ["IMTreatment/vortex_creation/vortex_creation.py:VortexSystem.add_vortex (692-708)", "IMTreatment/vortex_creation/vortex_creation.py:VortexSystem.remove_vortex (739-766)"]}
{"id": "C53", "title": "Image vortices enforce the wall condition", "statement": "With walls, the normal velocity induced by the vortices and their images vanishes at every point of a wall (one wall, or two perpendicular walls), whichever vortices are selected, and a vortex whose centre is on such a wall stays on it.", "quantifier": "all histories of a system, vortex sets, wall positions and points of the wall", "why_tests_cant": "continuum of positions", "anchors": ["IMTreatment/vortex_creation/vortex_creation.py:VortexSystem.refresh_imaginary_vortex (926-942)", "IMTreatment/vortex_creation/vortex_creation.py:VortexSystem.get_vector (815-869)", "IMTreatment/vortex_creation/vortex_creation.py:Wall.get_symmetry (649-665)"]}
{"id": "C54", "title": "Velocity is the superposition of contributions", "statement": "get_vector equals the sum over all ids of the compounded vectors; selecting ids selects the vortex and its images; the stored images are up to date after any sequence of additions and removals.", "quantifier": "all systems and points", "why_tests_cant": "history property", "anchors": ["IMTreatment/vortex_creation/vortex_creation.py:VortexSystem.get_vector (815-869)", "IMTreatment/vortex_creation/vortex_creation.py:VortexSystem.get_compounded_vector (871-924)"]}
{"id": "C55", "title": "File collections stay aligned", "statement": "After any sequence of add_file, remove_files and concatenations the paths, existence and directory flags of a Files object have the same length and describe the same files; removing a list of indices removes these files.", "quantifier": "all operation sequences", "why_tests_cant": "history property", "anchors": ["IMTreatment/utils/files.py:Files.add_file (142-162)", "IMTreatment/utils/files.py:Files.remove_files (164-190)"]}
{"id": "C56", "title": "Memoized functions return the function's value", "statement": "A memoized pure function returns the value of the function for the given arguments, whatever the sequence of calls, restarts and crashes between them.", "quantifier": "all call sequences, restarts and crash points", "why_tests_cant": "crash points and histories", "anchors": ["IMTreatment/utils/memoization.py:memoize (29-53)"]}
{"id": "C57", "title": "Type checking decorator is transparent", "statement": "A function decorated with TypeTest behaves as the undecorated function when all checked arguments have an accepted type, and raises TypeError otherwise without calling it.", "quantifier": "all functions and argument lists", "why_tests_cant": "all argument lists", "anchors": ["IMTreatment/utils/types.py:TypeTest (36-102)", "IMTreatment/utils/types.py:ReturnTest (105-127)"]}
{"id": "C58", "title": "Progress counter tells the progress", "statement": "A progress counter for n items prints at most one line per item; a line tells the item number, its percentage of n to half a percent and a bar of 15 characters; lines appear at the multiples of the asked percentage of n and on the last item; the last call prints 100 % and the end message, no earlier call does, and one more call prints a complaint.", "quantifier": "all n, percentages and items", "why_tests_cant": "all n and percentages", "anchors": ["IMTreatment/utils/progresscounter.py:ProgressCounter (28-171)"]}
{"id": "C59", "title": "Displayed frame index stays in range", "statement": "Whatever the sequence of key presses, button clicks, slider moves and timer ticks, the index of the displayed frame is between 0 and the last frame.", "quantifier": "all event sequences", "why_tests_cant": "history property", "anchors": ["IMTreatment/plotlib/plotlib.py:ButtonManager (344-912)"]}
{"id": "C60", "title": "Every frame is reachable and shown", "statement": "Typing a frame number and 'g' shows this frame, playing shows every frame, and saving an animation records every frame.", "quantifier": "all frame counts", "why_tests_cant": "boundary frames", "anchors": ["IMTreatment/plotlib/plotlib.py:ButtonManager.goto (594-601)", "IMTreatment/plotlib/plotlib.py:ButtonManager.timer_play (579-592)", "IMTreatment/plotlib/plotlib.py:ButtonManager.save_animation (840-895)"]}
{"id": "C61", "title": "Modal base cropping keeps modes aligned", "statement": "crop_modal_base(modes_to_keep) keeps the selected modes, their numbers, temporal evolutions and eigenvalues aligned, in the given order.", "quantifier": "all modal bases and selections", "why_tests_cant": "all selections", "anchors": ["IMTreatment/pod/pod.py:ModalFields.crop_modal_base (154-245)"]}
{"id": "C62", "title": "Modal reconstruction is the linear combination", "statement": "reconstruct gives at each time mean field + sum over the wanted modes of coefficient times mode; reconstructing with disjoint mode sets adds up.", "quantifier": "all modal bases, mode sets and times", "why_tests_cant": "all contents", "anchors": ["IMTreatment/pod/pod.py:ModalFields.reconstruct (446-560)"]}
{"id": "C63", "title": "Gradients are exact on linear fields", "statement": "get_gradients of a scalar or vector field that is linear in x and y (evenly spaced axes, no mask) returns the exact slopes at every cell, borders included, and those of a quadratic field at every inner cell; in any field a cell that is not masked shows the slope between the two points of its line (its neighbours, or itself and its neighbour on a border), and it is masked exactly when one of the points used along x or along y is. The gradient of a profile is its slope.", "quantifier": "all fields, grid sizes, steps, slopes and masks", "why_tests_cant": "all sizes, slopes and masks", "anchors": ["IMTreatment/field_treatment/field_treatment.py:get_gradients (35-162)"]}
{"id": "C64", "title": "Vorticity of a rotation is twice its rate", "statement": "get_vorticity and get_stokes_vorticity of a solid body rotation with rate w return 2w, and 0 for an irrotational linear flow.", "quantifier": "all rates, grids and window sizes", "why_tests_cant": "all sizes", "anchors": ["IMTreatment/vortex_criterions/vortex_criterions.py:get_vorticity (831-884)", "IMTreatment/vortex_criterions/vortex_criterions.py:get_stokes_vorticity (887-961)"]}
{"id": "C65", "title": "Vortex criteria are bounded", "statement": "The gamma1, gamma2 and kappa criteria lie in [-1, 1] at every cell, and the Q criterion is half the difference between the squared norms of rotation and strain tensors.", "quantifier": "all vector fields", "why_tests_cant": "all contents", "anchors": ["IMTreatment/vortex_criterions/vortex_criterions.py:get_gamma (153-307)", "IMTreatment/vortex_criterions/vortex_criterions.py:get_kappa (409-529)", "IMTreatment/vortex_criterions/vortex_criterions.py:get_q_criterion (1077-1120)"]}
{"id": "C66", "title": "Filling a profile keeps its valid points", "statement": "Profile.fill returns a profile with no masked point left, in which every point that was valid is unchanged; with kind='linear', a masked point between valid ones gets the linear interpolation of its two nearest valid neighbours, and a masked point before the first (after the last) valid point gets that point's value.", "quantifier": "all profiles, mask patterns and fill values", "why_tests_cant": "all mask patterns", "anchors": ["IMTreatment/core/profile.py:Profile.fill (1549-1617)"]}
{"id": "C67", "title": "Inverse interpolation reports every crossing", "statement": "Profile.get_interpolated_values(y=v) returns one position for every place where the profile takes the value v: every point with y = v and every segment crossing v strictly, at the position where the segment has the value v.", "quantifier": "all profiles and values", "why_tests_cant": "all shapes of profiles", "anchors": ["IMTreatment/core/profile.py:Profile._get_interpolated_single_value (539-602)"]}
{"id": "C68", "title": "Point values stay aligned with the points", "statement": "After any sequence of add, remove, crop, sort, scale, rotate, set_origin, change_unit and assignments, a point set has either no values or exactly one value per point.", "quantifier": "all point sets and all histories of calls", "why_tests_cant": "unbounded histories", "anchors": ["IMTreatment/core/points.py:Points.add (872-899)", "IMTreatment/core/points.py:Points.xy (166-177)", "IMTreatment/core/points.py:Points.v (187-197)"]}
{"id": "C69", "title": "The sum of two point sets is their union", "statement": "Adding two point sets of compatible units gives the points of the first followed by those of the second, at the same physical positions and with the same physical values; an empty set is neutral and incompatible units are refused.", "quantifier": "all pairs of point sets", "why_tests_cant": "all contents, all unit scales", "anchors": ["IMTreatment/core/points.py:Points.__add__ (79-145)"]}
{"id": "C70", "title": "Rotating a point set is a rigid motion", "statement": "Points.rotate keeps the distances between points and to the origin, keeps the values and units, turns each point by the angle, is undone by the opposite rotation and composes by adding angles.", "quantifier": "all point sets and all angles with rational sine and cosine", "why_tests_cant": "all contents and angles", "anchors": ["IMTreatment/core/points.py:Points.rotate (1121-1191)"]}
{"id": "C71", "title": "Decomposing a point set loses nothing", "statement": "Points.decompose returns one-point sets which together contain the points of the set, in order, each with its value and the units of the set.", "quantifier": "all point sets", "why_tests_cant": "all contents", "anchors": ["IMTreatment/core/points.py:Points.decompose (1193-1205)"]}
{"id": "C72", "title": "Exporting points to a profile keeps each pair", "statement": "export_to_profile gives a profile sorted along the chosen axis whose samples are exactly the chosen pairs of coordinates of the points, nothing masked, with the units of these coordinates.", "quantifier": "all point sets and choices of axes", "why_tests_cant": "all contents, ties", "anchors": ["IMTreatment/core/points.py:Points.export_to_profile (1586-1630)"]}
{"id": "C73", "title": "Velocity along a trajectory", "statement": "get_velocity returns, between each pair of successive sampled times, the displacement divided by the duration, located at the middle of the interval; points in uniform motion give their velocity everywhere, whatever the order in which they are stored.", "quantifier": "all trajectories with distinct times and all increments", "why_tests_cant": "all contents, storage orders", "anchors": ["IMTreatment/core/points.py:Points.get_velocity (641-714)"]}
{"id": "C74", "title": "Evolution of a field along the points", "statement": "get_evolution_on_sf returns the profile of the values of the field at the points.", "quantifier": "all non-empty point sets lying in the field", "why_tests_cant": "all contents", "anchors": ["IMTreatment/core/points.py:Points.get_evolution_on_sf (716-769)"]}
{"id": "C75", "title": "Oriented points keep their own directions", "statement": "add, remove, crop, sort and cut of an OrientedPoints object keep every remaining point together with its own directions; there is always one entry of directions per point.", "quantifier": "all oriented point sets and arguments", "why_tests_cant": "all contents, states after exceptions", "anchors": ["IMTreatment/core/orientedpoints.py:OrientedPoints.add (237-255)", "IMTreatment/core/orientedpoints.py:OrientedPoints.remove (257-267)", "IMTreatment/core/orientedpoints.py:OrientedPoints.crop (269-318)", "IMTreatment/core/points.py:Points.sort (1207-1252)", "IMTreatment/core/points.py:Points.cut (1037-1066)"]}
{"id": "C76", "title": "Temporal point sets stay sorted and aligned", "statement": "add_pts and remove_pts keep one time per point set, in increasing order; an added set is stored at its own physical time and exactly the designated sets are removed.", "quantifier": "all temporal point sets, units and histories", "why_tests_cant": "unbounded histories, unit scales", "anchors": ["IMTreatment/core/temporalpoints.py:TemporalPoints.add_pts (187-226)", "IMTreatment/core/temporalpoints.py:TemporalPoints.remove_pts (228-241)"]}
{"id": "C77", "title": "Geometric operations on a series act on every frame", "statement": "rotate, extend and set_origin on temporal fields give each frame exactly what the same call on the frame alone gives, keep the times and the alignment, and keep the axes of the series equal to those of its frames. The same is expected of reduce_spatial_resolution.", "quantifier": "all temporal scalar and vector fields, angles, extensions, origins", "why_tests_cant": "every series length and frame content", "anchors": ["IMTreatment/core/temporalfields.py:TemporalFields.extend (954-986)", "IMTreatment/core/temporalfields.py:TemporalFields.set_origin (1539-1548)", "IMTreatment/core/temporalfields.py:TemporalFields.reduce_spatial_resolution (1159-1186)", "IMTreatment/core/fields.py:Fields.rotate (81-121)"]}
{"id": "C78", "title": "Scaling a series scales every frame and the times", "statement": "scale(scalex, scaley, scalev, scalet) gives each frame what the same call on the frame alone gives and multiplies the times and their unit, the times staying sorted.", "quantifier": "all temporal fields and scaling arguments (numbers or dimensioned numbers)", "why_tests_cant": "sign and unit combinations", "anchors": ["IMTreatment/core/temporalfields.py:TemporalFields.scale (988-1030)", "IMTreatment/core/fields.py:Fields.scale (54-79)"]}
{"id": "C79", "title": "Fluctuations are frame minus mean and average to zero", "statement": "get_fluctuant_fields returns, at the same times, each frame minus the mean field (masked where either is); at every cell the available fluctuations sum to zero.", "quantifier": "all temporal scalar and vector fields and nmb_min", "why_tests_cant": "sum over all frames and masks", "anchors": ["IMTreatment/core/temporalfields.py:TemporalFields.get_fluctuant_fields (367-386)"]}
{"id": "C80", "title": "Augmenting the temporal resolution keeps the frames", "statement": "augment_temporal_resolution(fact) returns (n-1)*fact+1 frames: the frame number i*fact is frame i at its time, the frame number i*fact+k lies at t_i + k(t_{i+1}-t_i)/fact and is the interpolated field at that time.", "quantifier": "all temporal fields and factors >= 2", "why_tests_cant": "all lengths and factors", "anchors": ["IMTreatment/core/temporalfields.py:TemporalFields.augment_temporal_resolution (1244-1287)"]}
{"id": "C81", "title": "Time profile at a position", "statement": "get_time_profile(component, pt, wanted_times) has one sample per frame in the window, at the frame's time, with the value of the component at the cell nearest to pt, masked where the frame is.", "quantifier": "all temporal fields, positions on the grid, windows", "why_tests_cant": "all windows", "anchors": ["IMTreatment/core/temporalfields.py:TemporalFields.get_time_profile (450-518)"]}
{"id": "C82", "title": "Time profile along dated points", "statement": "get_time_profile(component, points) has one sample per point: at the time of the point, the value of the frame of that time at the cell nearest to that point, also with a window of times and for any order of the points.", "quantifier": "all temporal fields and dated points", "why_tests_cant": "index alignment", "anchors": ["IMTreatment/core/temporalfields.py:TemporalFields.get_time_profile (450-518)"]}
{"id": "C83", "title": "Extremal fields", "statement": "get_min_field/get_max_field give at each cell the smallest/largest available value over the frames, and mask the cells with too few values.", "quantifier": "all temporal scalar fields", "why_tests_cant": "mask histories", "anchors": ["IMTreatment/core/temporalscalarfields.py:TemporalScalarFields.get_min_field (51-73)", "IMTreatment/core/temporalscalarfields.py:TemporalScalarFields.get_max_field (75-97)"]}
{"id": "C84", "title": "Sum of two series", "statement": "The sum of two temporal fields adds the frames of equal times; frames of the other series keep their times.", "quantifier": "all pairs of temporal fields", "why_tests_cant": "all time lists", "anchors": ["IMTreatment/core/temporalfields.py:TemporalFields.__add__ (60-82)"]}
{"id": "C85", "title": "Unit changes of a series preserve the physical quantity", "statement": "change_unit converts the axes, the values or the times of the whole series (container and frames) so that number * unit is unchanged; setting unit_times sets the unit.", "quantifier": "all temporal fields and units of the same dimension", "why_tests_cant": "all unit factors", "anchors": ["IMTreatment/core/temporalfields.py:TemporalFields.change_unit (1052-1083)", "IMTreatment/core/temporalfields.py:TemporalFields.unit_times (278-288)"]}
{"id": "C86", "title": "Loading a directory finds the matching files", "statement": "load_files_from_regex adds exactly the files and directories of the tree that match, each once and with right flags, keeping what the collection had; with a depth, exactly those not deeper than it.", "quantifier": "all directory trees, expressions and depths", "why_tests_cant": "all trees", "anchors": ["IMTreatment/utils/files.py:Files.load_files_from_regex (197-233)"]}
{"id": "C87", "title": "Deleting files deletes the listed files only", "statement": "delete_existing_files, when confirmed, deletes the listed existing files and directories (with their content when recursive) and nothing else, and marks all the entries as not existing; when refused it changes nothing.", "quantifier": "all collections and disk states", "why_tests_cant": "all disk states, destructive", "anchors": ["IMTreatment/utils/files.py:Files.delete_existing_files (262-321)"]}
{"id": "C88", "title": "Printed durations tell the elapsed time", "statement": "The duration printed by a progress counter stands for the elapsed number of seconds, rounded down (to milliseconds below one second).", "quantifier": "all non negative durations", "why_tests_cant": "all durations", "anchors": ["IMTreatment/utils/progresscounter.py:ProgressCounter._format_time (154-171)"]}
{"id": "C89", "title": "Linked displays show the same frame", "statement": "When a display goes to a frame, every display connected to it by links goes to this frame and the others do not change, whatever the links (cycles included).", "quantifier": "all link graphs and frames", "why_tests_cant": "all graphs, recursion over cycles", "anchors": ["IMTreatment/plotlib/plotlib.py:ButtonManager._update_linked_graphs (792-800)", "IMTreatment/plotlib/plotlib.py:ButtonManager.link_to_other_graph (830-838)"]}
{"id": "C90", "title": "Free vortices conserve their impulse", "statement": "For free vortices that may all move, without walls nor custom fields, every point of get_vortex_evolution (at times 0, dt, 2dt...) has the same sum of circulation times position.", "quantifier": "all numbers, strengths and positions of vortices, time steps and numbers of steps", "why_tests_cant": "conservation law over an unbounded number of steps", "anchors": ["IMTreatment/vortex_creation/vortex_creation.py:VortexSystem.get_evolution (991-1026)", "IMTreatment/vortex_creation/vortex_creation.py:VortexSystem.get_vortex_evolution (1050-1068)", "IMTreatment/vortex_creation/vortex_creation.py:FreeVortex.get_vector (185-202)"]}
{"id": "C91", "title": "Each vortex has the velocity law of its kind", "statement": "The solid rotation, free, Rankine, Lamb-Oseen and Burger vortices have the radial and azimuthal velocities of their law at every point, turn counter-clockwise for a positive strength and clockwise for a negative one, the Rankine speed peaks at the core radius, and the Lamb-Oseen swirl never exceeds that of the free vortex.", "quantifier": "all parameters and points", "why_tests_cant": "continuum of positions, four quadrants of the polar angle", "anchors": ["IMTreatment/vortex_creation/vortex_creation.py:Vortex._get_theta (83-99)", "IMTreatment/vortex_creation/vortex_creation.py:SolidVortex.get_vector (146-160)", "IMTreatment/vortex_creation/vortex_creation.py:RankineVortex.get_vector (401-418)", "IMTreatment/vortex_creation/vortex_creation.py:LambOseenVortex.get_vector (347-365)", "IMTreatment/vortex_creation/vortex_creation.py:BurgerVortex.get_vector (246-264)"]}
{"id": "C92", "title": "A time step and the velocity map use the velocity of the system", "statement": "get_evolution moves every movable vortex by dt times the velocity of the system at its centre and leaves everything else; get_vortex_evolution gives the positions at the times 0, dt, 2dt... obtained by repeating this step; get_velocity_map gives at each point the velocity of the system plus that of the reflections of the vortex placed there, independently of the other points.", "quantifier": "all histories of a system, vortices, time steps and grids", "why_tests_cant": "the map adds and removes a vortex at each point: history property", "anchors": ["IMTreatment/vortex_creation/vortex_creation.py:VortexSystem.get_evolution (991-1026)", "IMTreatment/vortex_creation/vortex_creation.py:VortexSystem.get_vortex_evolution (1050-1068)", "IMTreatment/vortex_creation/vortex_creation.py:VortexSystem.get_velocity_map (1070-1097)"]}
{"id": "C93", "title": "Detailed contributions are complete", "statement": "The vectors of get_compounded_vector(detailed=True) sum to the velocity given by get_vector.", "quantifier": "all histories of a system and points", "why_tests_cant": "history property", "anchors": ["IMTreatment/vortex_creation/vortex_creation.py:VortexSystem.get_compounded_vector (898-911)"]}
{"id": "C94", "title": "The critical points found in the cells add up to the index of the border", "statement": "For a field without masked value whose velocity does not vanish on the lines of the grid, the number of foci and nodes reported by get_cp_cell_position minus the number of saddles is the Poincare-Bendixson index of the whole border given by get_pbi.", "quantifier": "all such fields, all sizes", "why_tests_cant": "a global count over every field and size", "anchors": ["IMTreatment/vortex_detection/vortex_detection.py:VF.get_cp_cell_position (84-177)", "IMTreatment/vortex_detection/vortex_detection.py:VF.get_pbi (331-357)"]}
{"id": "C95", "title": "The critical point of a linear field is found in its cell, with its type", "statement": "On a field v = J (p - c) with det J <> 0 and c strictly inside a cell, get_cp_cell_position reports exactly one point, at the middle of that cell, a saddle if and only if det J < 0; otherwise a node if J has real eigenvalues (unstable when they are positive, stable when negative) and an unstable or stable focus if not.", "quantifier": "all Jacobians, grids, positions of the point", "why_tests_cant": "a continuum of Jacobians and positions", "anchors": ["IMTreatment/vortex_detection/vortex_detection.py:VF.get_cp_cell_position (84-177)", "IMTreatment/vortex_detection/vortex_detection.py:_get_jacobian_matrix (3396-3440)"]}
{"id": "C96", "title": "Cumulated mask of a series", "statement": "The cumulated mask of a series of fields is true exactly at the points masked in every frame, and the mean field of the series is masked exactly there when no minimum number of frames is asked for.", "quantifier": "all series of scalar fields, all masks, every grid point", "why_tests_cant": "all combinations of masks over any number of frames", "anchors": ["IMTreatment/core/temporalfields.py:TemporalFields.mask_cum (219-223)", "IMTreatment/core/temporalfields.py:TemporalFields.get_mean_field"]}
{"id": "C97", "title": "Cleaning trajectories keeps exactly the long ones", "statement": "After compute_traj, clean_traj(n) keeps exactly the trajectories with at least n points, and the critical points left in the object are exactly the points of the kept trajectories, at their times.", "quantifier": "all sets of critical points, all times, thresholds and minimal lengths", "why_tests_cant": "all configurations of trajectories", "anchors": ["IMTreatment/vortex_detection/vortex_detection.py:CritPoints.clean_traj (1381-1405)", "IMTreatment/vortex_detection/vortex_detection.py:CritPoints._traj_to_pts (1595-1613)"]}
{"id": "C98", "title": "Moving or scaling critical points moves their trajectories", "statement": "set_origin and scale apply the same change to every critical point and to every point of the trajectories, whether or not trajectories were computed, and a call that raises changes nothing.", "quantifier": "all objects, origins and scales", "why_tests_cant": "all configurations and states of the object", "anchors": ["IMTreatment/vortex_detection/vortex_detection.py:CritPoints.set_origin", "IMTreatment/vortex_detection/vortex_detection.py:CritPoints.scale"]}
{"id": "C99", "title": "Cropping critical points", "statement": "crop keeps exactly the critical points whose position and time are in the given intervals, and the times in the interval; it works on any object; without inplace the original object and its trajectories are left unchanged, and the trajectories of the result are made of the points of the result.", "quantifier": "all objects and intervals", "why_tests_cant": "all configurations and states of the object", "anchors": ["IMTreatment/vortex_detection/vortex_detection.py:CritPoints.crop (1313-1352)"]}
{"id": "C100", "title": "Filling replaces the masked cells only", "statement": "fill leaves every cell that is not masked as it is, with its axes and units, and gives to the masked ones the value asked for (a number, the nearest value, an interpolated one and the nearest where the interpolation gives nothing); afterwards nothing is masked, filling with the nearest value creates no new value, filling a field without mask changes nothing, and an unknown kind raises ValueError when there is something to fill.", "quantifier": "all scalar and vector fields, kinds of filling and interpolators", "why_tests_cant": "all masks and contents", "anchors": ["IMTreatment/core/scalarfield.py:ScalarField.fill (1789-1880)", "IMTreatment/core/vectorfield.py:VectorField.fill (910-966)"]}
{"id": "C101", "title": "Divergence of a linear flow, vorticity of a holed field", "statement": "get_divergence of a linear flow is its divergence at every cell; get_vorticity of a field with masked cells is the vorticity of the filled field and has no masked cell.", "quantifier": "all linear flows, grids, and fields with masked cells", "why_tests_cant": "all sizes, steps and masks", "anchors": ["IMTreatment/vortex_criterions/vortex_criterions.py:get_divergence (775-828)", "IMTreatment/vortex_criterions/vortex_criterions.py:get_vorticity (831-884)"]}
{"id": "C102", "title": "Vorticity by circulation", "statement": "get_stokes_vorticity with a window of w points gives one cell per position of the window, at its centre; a cell is masked exactly when the window contains a masked vector; the value times the area of the window is the sum of the values for the elementary windows it contains (Stokes). A window as large as the field raises IndexError.", "quantifier": "all fields, windows, masks", "why_tests_cant": "all sizes and contents", "anchors": ["IMTreatment/vortex_criterions/vortex_criterions.py:get_stokes_vorticity (887-961)"]}
{"id": "C104", "title": "A non local criterion uses a full disc", "statement": "With a radius in cells, a cell of a non local criterion (gamma, kappa, enstrophy) is masked exactly when the disc of that radius around it contains a masked vector or leaves the field; the neighbours of the others are the points of the disc but its centre, each once, and gamma (kappa) is the mean over them of the sine (cosine) of the angle from the vector to the neighbour to its velocity, relative to the mean velocity for gamma2 (to that of the cell for kappa2). The same is true with a radius as a distance.", "quantifier": "all fields, masks, radii and cells", "why_tests_cant": "all sizes, masks and radii", "anchors": ["IMTreatment/vortex_criterions/vortex_criterions.py:_non_local_criterion_precomputation (691-746)", "IMTreatment/vortex_criterions/vortex_criterions.py:get_gamma (153-307)", "IMTreatment/vortex_criterions/vortex_criterions.py:get_kappa (409-529)", "IMTreatment/vortex_criterions/vortex_criterions.py:get_enstrophy (607-688)"]}
{"id": "C106", "title": "Local enstrophy", "statement": "get_enstrophy shows at each cell the area of a cell times the sum of the squared vorticities of its neighbours; it is not negative, and its unit is the squared unit of the vorticity times the units of the axes.", "quantifier": "all fields without masked vorticity, radii in cells, masks given by the user", "why_tests_cant": "all sizes and contents", "anchors": ["IMTreatment/vortex_criterions/vortex_criterions.py:get_enstrophy (607-688)"]}
{"id": "C103", "title": "Residual and shear vorticity", "statement": "At every cell the residual vorticity and the shear vorticity add up to the vorticity; the residual is not larger than the vorticity and has its sign; it is not null exactly where the velocity gradient turns every direction (closed or spiral trajectories).", "quantifier": "all evenly spaced fields without masked vector, all cells", "why_tests_cant": "all contents and sizes", "anchors": ["IMTreatment/vortex_criterions/vortex_criterions.py:get_residual_vorticity (1297-1360)", "IMTreatment/vortex_criterions/vortex_criterions.py:get_shear_vorticity (1363-1420)"]}
{"id": "C105", "title": "Invariances of the gamma and kappa criteria", "statement": "gamma2 and kappa2 do not change when a uniform velocity is added to the field; gamma1 and gamma2 do not change when all velocities are multiplied by a positive number and change sign with a negative one; kappa1 is gamma1 of the field turned by a quarter. In a rotation gamma2 is 1 (or -1) at every cell and gamma1 is at the centre of the rotation; in a uniform flow both are 0.", "quantifier": "all fields, masks, radii and cells", "why_tests_cant": "all fields and velocities", "anchors": ["IMTreatment/vortex_criterions/vortex_criterions.py:get_gamma (153-307)", "IMTreatment/vortex_criterions/vortex_criterions.py:get_kappa (409-529)"]}
{"id": "C107", "title": "Criteria from the velocity gradient", "statement": "The swirling strength is not negative, positive exactly where the velocity gradient has no real direction, and is then the imaginary part of its eigenvalues; lambda2 is the least eigenvalue of S^2 + Omega^2, and in a flow without divergence it is negative exactly there; Nk is the quotient of the norms of Omega and S, greater than 1 exactly where the rotation exceeds the strain; the delta criterion is masked elsewhere, and negative values of delta mean closed or spiral streamlines.", "quantifier": "all evenly spaced fields without masked vector, all cells", "why_tests_cant": "all contents and sizes", "anchors": ["IMTreatment/vortex_criterions/vortex_criterions.py:get_swirling_strength (964-1015)", "IMTreatment/vortex_criterions/vortex_criterions.py:get_Nk_criterion (1123-1168)", "IMTreatment/vortex_criterions/vortex_criterions.py:get_delta_criterion (1171-1230)", "IMTreatment/vortex_criterions/vortex_criterions.py:get_lambda2 (1233-1294)"]}
{"id": "C108", "title": "Energies of the modes", "statement": "get_modes_energy gives for each mode the mean over the cells of half its squared magnitude times the mean over the times of its squared coefficient; no energy is negative and the cumulated ones never decrease. After a proper orthogonal decomposition on all modes, the energies are in the proportion of the eigenvalues and add up to the mean energy of the fluctuations.", "quantifier": "all modal bases without masked value; all series without masked value and all exact eigenvalue solvers for the last part", "why_tests_cant": "sums over all cells, times and modes", "anchors": ["IMTreatment/pod/pod.py:ModalFields.get_modes_energy (562-603)", "IMTreatment/pod/pod.py:modal_decomposition (985-1180)"]}
{"id": "C109", "title": "Decomposition then reconstruction gives the series back", "statement": "modal_decomposition(kind='pod') of a series without masked value, whose frames are not all equal, gives a base whose modes are the fluctuations weighted by the eigenvectors over the root of the eigenvalues, and whose coefficients are the eigenvectors times that root; reconstruct on all modes gives back the series: same times, same axes and units, same value at every point of every frame.", "quantifier": "all series of scalar or vector fields without masked value, all numbers of frames and sizes, all exact eigenvalue solvers", "why_tests_cant": "all contents, sizes and numbers of frames", "anchors": ["IMTreatment/pod/pod.py:modal_decomposition (985-1180)", "IMTreatment/pod/pod.py:ModalFields.reconstruct (446-560)"]}
{"id": "C110", "title": "Decomposition on some modes only", "statement": "modal_decomposition with wanted modes gives exactly the wanted modes of the full decomposition, each with its number, its coefficients and its eigenvalue, in the given order.", "quantifier": "all series, all sets of wanted modes", "why_tests_cant": "all selections", "anchors": ["IMTreatment/pod/pod.py:modal_decomposition (985-1180)"]}
{"id": "C111", "title": "Crop and scale of a modal base commute with the reconstruction", "statement": "crop of a modal base keeps the parts inside the given intervals, bounds included: what it reconstructs at a time kept is the reconstruction of the original base at that time, cropped in space alike. scale by positive factors in x, y and time and any factor on the values gives a base whose reconstruction at a scaled time is the original reconstruction, scaled alike.", "quantifier": "all proper orthogonal bases of scalar or vector fields, all intervals keeping two rows and columns, all factors, all selections of modes and increasing times", "why_tests_cant": "all contents, sizes, intervals and factors", "anchors": ["IMTreatment/pod/pod.py:ModalFields.crop (247-312)", "IMTreatment/pod/pod.py:ModalFields.scale (314-345)", "IMTreatment/pod/pod.py:ModalFields.reconstruct (446-560)"]}
{"id": "C112", "title": "Reynolds stresses are averages of products of fluctuations", "statement": "get_reynolds_stress returns three scalar fields on the axes of the series that show, at each point, the average over the frames where it is not masked of the products of the fluctuations of the components around the mean field (u'u', v'v', u'v'), and that are masked exactly where at most nmb_val_min frames give a value.", "quantifier": "all series of vector fields on one grid with units of one dimension, any masks, any nmb_val_min >= 0", "why_tests_cant": "all contents, masks, units and numbers of frames", "anchors": ["IMTreatment/core/temporalvectorfields.py:TemporalVectorFields.get_reynolds_stress (161-214)"]}
{"id": "C113", "title": "Reynolds stresses form a non-negative tensor", "statement": "At every unmasked point the normal stresses are not negative, the square of the shear stress is at most their product, and the three fields have the same mask and unit.", "quantifier": "all series of vector fields, any masks", "why_tests_cant": "an inequality over all contents", "anchors": ["IMTreatment/core/temporalvectorfields.py:TemporalVectorFields.get_reynolds_stress (161-214)"]}
{"id": "C114", "title": "Turbulent kinetic energy", "statement": "get_tke gives for each frame, at the same times, half the squared norm of the fluctuation (whatever the unit of the frame), masked where the frame or the mean field is; get_mean_tke averages it; the mean over the frames of the kinetic energy is the sum of get_mean_kinetic_energy and get_mean_tke at every point; get_mean_tke is half the sum of the normal Reynolds stresses.", "quantifier": "all series of vector fields, any masks, any units of one dimension (one unit for the last part)", "why_tests_cant": "identities over all contents", "anchors": ["IMTreatment/core/temporalvectorfields.py:TemporalVectorFields.get_tke (130-145)", "IMTreatment/core/temporalvectorfields.py:TemporalVectorFields.get_mean_tke (156-159)", "IMTreatment/core/temporalvectorfields.py:TemporalVectorFields.get_mean_kinetic_energy (119-128)", "IMTreatment/core/scalarfield.py:ScalarField.__pow__ (298-307)"]}
{"id": "C115", "title": "Time auto-correlation", "statement": "get_time_auto_correlation gives at each time the mean over the unmasked points of the scalar product of the first field and the field at this time, divided by that of the first field with itself; its first value is 1.", "quantifier": "all series of vector fields whose first field is not null, any masks", "why_tests_cant": "all contents, masks, units and numbers of frames", "anchors": ["IMTreatment/core/temporalvectorfields.py:TemporalVectorFields.get_time_auto_correlation (103-117)"]}
{"id": "C116", "title": "Turbulent intensity", "statement": "get_turbulent_intensity gives for each frame the root of two thirds of the turbulent kinetic energy over the magnitude of the velocity, at the times of the series.", "quantifier": "all series of vector fields", "why_tests_cant": "all series and times", "anchors": ["IMTreatment/core/temporalvectorfields.py:TemporalVectorFields.get_turbulent_intensity (147-154)", "IMTreatment/core/temporalfields.py:TemporalFields.__mul__ (91-113)", "IMTreatment/core/temporalfields.py:TemporalFields.__pow__ (147-154)"]}
{"id": "C117", "title": "Boundary layer thickness", "statement": "get_bl_thickness of a profile returns the first position from the wall where the polyline through the samples reaches the given fraction of the largest velocity; 0 for an entirely masked profile.", "quantifier": "all profiles starting below that fraction, any number of samples", "why_tests_cant": "all shapes of profiles", "anchors": ["IMTreatment/boundary_layer/boundary_layer.py:get_bl_thickness (838-843)", "IMTreatment/core/profile.py:Profile.max (361-377)", "IMTreatment/core/profile.py:Profile.get_interpolated_values (539-602)"]}
{"id": "C118", "title": "Displacement and momentum thicknesses", "statement": "For a profile of non-negative velocities, the displacement thickness is the integral of 1 - u/U from the wall to the thickness, the momentum thickness that of u/U (1 - u/U), U being the free stream velocity; 0 <= momentum <= displacement <= boundary layer thickness and the shape factor is at least 1.", "quantifier": "all unmasked profiles with positions x >= 0 and velocities u >= 0", "why_tests_cant": "inequalities over all profiles", "anchors": ["IMTreatment/boundary_layer/boundary_layer.py:get_displ_thickness (918-940)", "IMTreatment/boundary_layer/boundary_layer.py:get_momentum_thickness (979-1001)", "IMTreatment/boundary_layer/boundary_layer.py:get_shape_factor (1020-1042)"]}
{"id": "C119", "title": "Thicknesses do not depend on the units", "statement": "When the positions of a profile are multiplied by a > 0 and its velocities by c > 0, the boundary layer, displacement and momentum thicknesses are multiplied by a and the shape factor does not change; a call that fails fails in the same way.", "quantifier": "all profiles, masked or not, all factors", "why_tests_cant": "a relation between two runs for all inputs", "anchors": ["IMTreatment/boundary_layer/boundary_layer.py:get_bl_thickness (838-843)", "IMTreatment/boundary_layer/boundary_layer.py:get_displ_thickness (918-940)", "IMTreatment/boundary_layer/boundary_layer.py:get_momentum_thickness (979-1001)", "IMTreatment/boundary_layer/boundary_layer.py:get_shape_factor (1020-1042)"]}
{"id": "C120", "title": "Thicknesses along a scalar field", "statement": "For a scalar field, get_bl_thickness, get_displ_thickness and get_momentum_thickness with direction 1 (x) or 2 (y) return the profile, along that axis and in its unit, of the thicknesses of the lines of the field.", "quantifier": "all scalar fields with increasing axes", "why_tests_cant": "all fields", "anchors": ["IMTreatment/boundary_layer/boundary_layer.py:get_bl_thickness (844-851)", "IMTreatment/boundary_layer/boundary_layer.py:get_displ_thickness (941-948)", "IMTreatment/boundary_layer/boundary_layer.py:get_momentum_thickness (1002-1009)"]}
{"id": "C121", "title": "Profiles of a scalar field", "statement": "get_profile at a position of the axis, or at an index, returns that line of the field with its values and mask; between two positions it interpolates linearly between the two lines, with no value where one of them has none; with interp='nearest' it returns a line at the least distance; over an interval, or 'all', it averages the lines in it and masks the points where one of them has no value; outside of the axis it raises ValueError. The result runs along the other axis, with its unit.", "quantifier": "all scalar fields with increasing axes, any masks, positions, indices and intervals, both directions", "why_tests_cant": "all contents and positions", "anchors": ["IMTreatment/core/scalarfield.py:ScalarField.get_profile (794-939)", "IMTreatment/core/scalarfield.py:ScalarField.get_value (540-615)"]}
{"id": "C122", "title": "Profiles over an interval of indices, and of a one-line field", "statement": "get_profile with ind=True and an interval of indices averages these lines; with interp='nearest' on a field with one line it returns this line.", "quantifier": "all scalar fields and intervals of indices", "why_tests_cant": "all inputs", "anchors": ["IMTreatment/core/scalarfield.py:ScalarField.get_profile (794-939)"]}
{"id": "C123", "title": "Mirroring keeps the data and adds their images", "statement": "ScalarField.mirroring without interpolation returns the part of the field (without its masked border) lying on the kept side of the plane, unchanged, with rows added on the other side: each added cell shows the value the kept part has at the image of the cell, times the coefficient, and is masked when it has none there. Holes and the gap around the plane stay masked.", "quantifier": "all scalar fields evenly spaced along the direction, all positions of the plane, coefficients and numbers of rows, any mask", "why_tests_cant": "the loop reads cells it has itself just written: all grids, masks and positions of the plane", "anchors": ["IMTreatment/core/scalarfield.py:ScalarField.mirroring (1497-1725)", "IMTreatment/core/scalarfield.py:ScalarField.extend (1420-1495)"]}
{"id": "C124", "title": "How many rows mirroring adds", "statement": "With inds_to_mirror='all' the image of every row kept is within the axis of the mirrored field; with inds_to_mirror=n, n rows are added.", "quantifier": "all evenly spaced scalar fields and positions of the plane", "why_tests_cant": "rounding of a count for all positions", "anchors": ["IMTreatment/core/scalarfield.py:ScalarField.mirroring (1593-1604)"]}
{"id": "C125", "title": "Filling the gap at the plane of symmetry", "statement": "With interp, mirroring fills the cells left masked and only them: 'value' with the given value, 'linear' with the linear interpolation between the two rows around the gap, 'nearest' and 'cubic' with the interpolated values; no cell stays masked.", "quantifier": "all evenly spaced scalar fields, both directions", "why_tests_cant": "all fields and sizes of gap", "anchors": ["IMTreatment/core/scalarfield.py:ScalarField.mirroring (1631-1722)"]}
{"id": "C126", "title": "Mirroring of a vector field", "statement": "VectorField.mirroring mirrors the two components, with the sign of the component normal to the plane changed and the other one kept when one coefficient is given, or with the two coefficients given; a vector is masked exactly where its components are.", "quantifier": "all vector fields evenly spaced along the direction, all masks", "why_tests_cant": "the two components are mirrored apart: their grids and masks must agree for all inputs", "anchors": ["IMTreatment/core/vectorfield.py:VectorField.mirroring (1116-1186)"]}
{"id": "C127", "title": "Mirroring of a series", "statement": "TemporalFields.mirroring returns a series with the frames mirrored, at the same times, whose axes are those of the mirrored frames.", "quantifier": "all series", "why_tests_cant": "all series", "anchors": ["IMTreatment/core/temporalfields.py:TemporalFields.mirroring (1372-1417)"]}
{"id": "C128", "title": "A field written to a text file is read back", "statement": "export_to_ascii of a scalar or vector field followed by import_sf_from_ascii or import_vf_from_ascii with the default columns and the units of the field gives a field with the same axes, units, values and mask.", "quantifier": "all scalar and vector fields with increasing axes of at least two positions, NaN exactly where masked", "why_tests_cant": "all grids, values and masks; the import guesses the layout of the file", "anchors": ["IMTreatment/file_operation/file_operation.py:export_to_ascii (1901-1937)", "IMTreatment/file_operation/file_operation.py:import_sf_from_ascii (1653-1733)", "IMTreatment/file_operation/file_operation.py:import_vf_from_ascii (1736-1818)"]}
{"id": "C129", "title": "A profile or a set of points written to a text file is read back", "statement": "export_to_ascii of a profile or a set of points followed by the import with the columns written gives the same profile or the same set of points.", "quantifier": "all profiles and sets of points", "why_tests_cant": "all lengths, masks and values", "anchors": ["IMTreatment/file_operation/file_operation.py:export_to_ascii (1938-1970)", "IMTreatment/file_operation/file_operation.py:import_profile_from_ascii (1569-1604)", "IMTreatment/file_operation/file_operation.py:import_pts_from_ascii (1607-1650)"]}
{"id": "C130", "title": "The order of the lines of a file of vectors does not matter", "statement": "import_vf_from_ascii gives a field whose axes hold the abscissae and the ordinates of the file, each once and in increasing order, and which shows at each point the vector of the last line giving this point; it is masked where no line gives one, or where a component is NaN.", "quantifier": "all files with a table of numbers, in any order of the lines, with missing and repeated points, in any columns", "why_tests_cant": "all orders of the lines and all subsets of the points", "anchors": ["IMTreatment/file_operation/file_operation.py:import_vf_from_ascii (1736-1818)"]}
{"id": "C131", "title": "The order of the lines of a file of scalars does not matter", "statement": "import_sf_from_ascii gives a field which shows at each point the value of the line giving this point, and which is masked where no line gives one.", "quantifier": "all files with a table of numbers, in any order of the lines, with missing points", "why_tests_cant": "all orders of the lines; the layout is guessed from means of abscissae", "anchors": ["IMTreatment/file_operation/file_operation.py:import_sf_from_ascii (1653-1733)"]}
{"id": "C132", "title": "Every place where a profile takes a value is found", "statement": "get_value_position gives, in increasing order, exactly the abscissae where the polyline through the consecutive valid samples takes the value; with ind=True, the matching fractional indices.", "quantifier": "all profiles with increasing x, masked samples included, and all values", "why_tests_cant": "all values and all numbers of crossings, at and between samples", "anchors": ["IMTreatment/core/profile.py:Profile.get_value_position (604-651)"]}
{"id": "C133", "title": "Cropping the masked border removes the masked ends only", "statement": "crop_masked_border removes the masked samples before the first valid sample and after the last one, and keeps all the samples between them unchanged; a fully masked profile is refused.", "quantifier": "all profiles and masks", "why_tests_cant": "all masks", "anchors": ["IMTreatment/core/profile.py:Profile.crop_masked_border (1372-1387)"]}
{"id": "C134", "title": "Marginal values are masked, and the others untouched", "statement": "remove_marginal_values masks exactly the samples further than fact standard deviations from the average of the valid samples, and leaves the others; at most one sample in fact squared is lost, so one is left when fact is at least 1.", "quantifier": "all profiles, masks and factors", "why_tests_cant": "all distributions of values", "anchors": ["IMTreatment/core/profile.py:Profile.remove_marginal_values (1875-1895)"]}
{"id": "C135", "title": "Doublons are merged by abscissa", "statement": "remove_doublons gives a profile with each rounded abscissa once, in increasing order, holding the average, the least or the greatest of the values of the samples rounded to it; a masked sample masks its group; nothing changes when the abscissae are already distinct after rounding.", "quantifier": "all profiles, methods and roundings", "why_tests_cant": "all groups of repeated abscissae", "anchors": ["IMTreatment/core/profile.py:Profile.remove_doublons (1827-1873)"]}
{"id": "C136", "title": "An evenly spaced profile follows the polyline", "statement": "evenly_space gives a profile with a regular axis between the same ends, with the number of points of the profile or with the step asked for, holding at each abscissa the value of the polyline through the valid samples.", "quantifier": "all profiles with increasing x and all steps", "why_tests_cant": "all spacings and masks", "anchors": ["IMTreatment/core/profile.py:Profile.evenly_space (1708-1752)"]}
{"id": "C137", "title": "Augmenting the resolution keeps the samples and adds points on the polyline", "statement": "augment_resolution gives fact times as many intervals between the first and the last valid sample; every valid sample is kept, and the points put between two consecutive valid samples are spread evenly in index on the segment joining them; nothing is masked.", "quantifier": "all profiles with at least two valid samples and all positive factors", "why_tests_cant": "all masks and factors", "anchors": ["IMTreatment/core/profile.py:Profile.augment_resolution (1619-1706)"]}
{"id": "C138", "title": "The dephasage of a shifted profile is the shift", "statement": "get_dephasage of a profile and of the same profile shifted is the shift.", "quantifier": "all evenly spaced profiles that are not zero, and all shifts by any number of steps", "why_tests_cant": "all profiles; the least of the differences must be reached at one place only", "anchors": ["IMTreatment/core/profile.py:Profile.get_dephasage (1198-1223)", "IMTreatment/core/profile.py:Profile.get_convolution_of_difference (1225-1286)"]}
{"id": "C139", "title": "The auto-correlation is the normalised sum of the products of shifted windows", "statement": "get_auto_correlation gives, for each shift of the window, the sum of the products of the window and the shifted window over all the possible positions, divided by the one without shift; it is 1 in the middle.", "quantifier": "all profiles and window lengths", "why_tests_cant": "all lengths and all values", "anchors": ["IMTreatment/core/profile.py:Profile.get_auto_correlation (914-957)"]}
{"id": "C140", "title": "The convolution of profiles is the discrete convolution", "statement": "get_convolution of two profiles with the same step gives the sums of products with constant sum of indices; it does not depend on the order of the profiles, its total is the product of the totals, and unevenly spaced profiles are refused.", "quantifier": "all pairs of evenly spaced profiles with the same step", "why_tests_cant": "all lengths, values and origins", "anchors": ["IMTreatment/core/profile.py:Profile.get_convolution (1138-1196)"]}
{"id": "C141", "title": "The gradient of a profile is made of centred differences", "statement": "get_gradient gives at each sample the slope between its two neighbours, one sided at the ends, masked where one of them is masked; a straight line has its slope everywhere; an uneven profile is refused.", "quantifier": "all evenly spaced profiles with masks", "why_tests_cant": "all lengths, masks and values", "anchors": ["IMTreatment/core/profile.py:Profile.get_gradient (663-712)"]}
{"id": "C142", "title": "The background shows what each pixel shows most of the time", "statement": "get_background gives, at each pixel, the average of a group of consecutive values (in increasing order) shown by the pixel, chosen by repeated clipping; when one value is shown in more than half of the frames, the background is within the noise level of this value; a pixel that never changes keeps its value.", "quantifier": "all series of scalar fields, noise levels and pixels", "why_tests_cant": "all distributions of values in time and all numbers of clipping steps", "anchors": ["IMTreatment/core/temporalscalarfields.py:TemporalScalarFields.get_background (99-151)"]}
{"id": "C143", "title": "Subtracting a background replaces the pixels near it, and no other", "statement": "substract_background replaces by the filling value exactly the values closer to the background than the noise level; the other values and the masked cells stay; the default filling value is the average of the background.", "quantifier": "all series, backgrounds, noise levels and filling values (blend=False)", "why_tests_cant": "all frames and cells", "anchors": ["IMTreatment/core/temporalscalarfields.py:TemporalScalarFields.substract_background (153-204)"]}
{"id": "C144", "title": "Soft cropping removes the border masked in every frame, and nothing else", "statement": "crop_masked_border of a series returns the same part of each frame, with the same times: the smallest window containing all the cells shown in at least one frame.", "quantifier": "all series of scalar or vector fields, masks and sizes", "why_tests_cant": "all masks", "anchors": ["IMTreatment/core/temporalfields.py:TemporalFields.crop_masked_border (1289-1370)", "IMTreatment/core/temporalfields.py:TemporalFields.mask_cum"]}
{"id": "C145", "title": "Hard cropping leaves no cell masked in every frame at the border", "statement": "crop_masked_border(hard=True) ends, and returns a non-empty part of the series, the same for each frame, with no border cell masked in every frame; every line or column removed had a cell masked in every frame.", "quantifier": "all series of scalar or vector fields, masks and sizes", "why_tests_cant": "all masks, and all numbers of turns of the loop", "anchors": ["IMTreatment/core/temporalfields.py:TemporalFields.crop_masked_border (1289-1370)"]}
{"id": "C146", "title": "Weird fields are replaced or removed, and the others kept", "statement": "remove_weird_fields finds the frames whose mean magnitude is further than std_coef standard deviations from the average; it removes exactly these frames, or replaces each of them by half of the sum of the nearest pair of symmetric frames that are not weird, and keeps the others.", "quantifier": "all series of vector fields, coefficients and numbers of weird frames", "why_tests_cant": "all sets of weird frames, at all places of the series", "anchors": ["IMTreatment/core/temporalfields.py:TemporalFields.remove_weird_fields (1419-1475)"]}
{"id": "C147", "title": "Filling in time puts masked cells on the line joining the frames showing them", "statement": "fill(tof='temporal', kind='linear') fills every masked cell whose time lies between two frames showing it with the linear interpolation in time, component by component, and changes nothing else; the series itself is kept when inplace=False.", "quantifier": "all series of at least three fields, and all masks", "why_tests_cant": "all masks: the cells are filled one after the other in the same fields", "anchors": ["IMTreatment/core/temporalvectorfields.py:TemporalVectorFields.fill (249-376)", "IMTreatment/core/temporalscalarfields.py:TemporalScalarFields.fill (321-415)"]}
{"id": "C148", "title": "An injected time profile is read back at its point", "statement": "inject_time_profile writes the values of the profile in the frames at one point, and changes no other cell and no mask; get_time_profile at this point gives the values back.", "quantifier": "all series of scalar fields, points given by their indices and profiles with one sample by frame", "why_tests_cant": "all points, lengths and masks", "anchors": ["IMTreatment/core/temporalfields.py:TemporalFields.inject_time_profile (520-564)", "IMTreatment/core/temporalfields.py:TemporalFields.get_time_profile (450-518)"]}
{"id": "C149", "title": "The circulation is the vorticity summed over the zone of the vortex", "statement": "get_vortex_circulation gives the sum of the vorticity times the area of a cell, over the cells joined to the cell nearest to the given centre through cells whose absolute vorticity is above epsilon times the greatest one of the field; it gives 0 when the nearest cell is not above this threshold.", "quantifier": "all velocity fields on regular axes, vorticity fields with any masks and signs, positions in the field and thresholds", "why_tests_cant": "all shapes of zones: the labelling of zones ends for every shape, however twisted", "anchors": ["IMTreatment/vortex_properties/vortex_properties.py:get_vortex_circulation (386-451)"]}
{"id": "C150", "title": "An opposite vorticity has the opposite circulation", "statement": "When the vorticity of one field is the opposite of the vorticity of another one, the circulations around the same point are opposite, in the same unit.", "quantifier": "all pairs of fields with opposite vorticities, points and thresholds", "why_tests_cant": "relation between two runs on all fields", "anchors": ["IMTreatment/vortex_properties/vortex_properties.py:get_vortex_circulation (386-451)"]}
{"id": "C151", "title": "The radius is the one of a disk with the area of the vortex", "statement": "get_vortex_radius is the radius of the disk whose area is the number of cells joined to the centre above eps times the greatest value of the vortex, times the area of a cell; it does not depend on the sense of rotation; it is 0 without vortex; its unit is the one of the axes.", "quantifier": "all velocity fields on regular axes, criteria, positions and thresholds", "why_tests_cant": "all shapes of vortices and both senses of rotation", "anchors": ["IMTreatment/vortex_properties/vortex_properties.py:get_vortex_radius (34-110)"]}
{"id": "C152", "title": "The centre of a vortex is the mean of the positions of its cells", "statement": "The centre given with the radius is the mean of the positions of the cells of the vortex weighted by the absolute value of the criterion; it lies between the extreme positions of the cells of the vortex.", "quantifier": "all fields, criteria, positions and thresholds", "why_tests_cant": "all shapes of vortices and all weights", "anchors": ["IMTreatment/vortex_properties/vortex_properties.py:get_vortex_radius (34-110)"]}
{"id": "C153", "title": "A property of a vortex is an integral over its cells", "statement": "get_vortex_property integrates the wanted field over the cells of the vortex, with weights that depend on the size of the grid alone, are positive and exact for a uniform field over the whole grid; it does not depend on where the vortex lies in the grid.", "quantifier": "all velocity fields on regular axes, size and property criteria, positions and thresholds", "why_tests_cant": "all sizes of grids, odd and even, and all shapes of vortices", "anchors": ["IMTreatment/vortex_properties/vortex_properties.py:get_vortex_property (185-309)"]}
{"id": "C154", "title": "Evolutions give the property of the frame at the time of the trajectory", "statement": "The evolution of the radius has one sample by position of the trajectory, with the radius in the frame at the same time (masked when it is 0), and fails when a time has no frame; the evolution of a property has exactly one sample by time common to the series and the trajectory, and fails when there is none.", "quantifier": "all series with distinct times, and all trajectories, sorted or not", "why_tests_cant": "all sets of common times, in any order", "anchors": ["IMTreatment/vortex_properties/vortex_properties.py:get_vortex_radius_time_evolution (113-182)", "IMTreatment/vortex_properties/vortex_properties.py:get_vortex_property_time_evolution (312-383)"]}
{"id": "C155", "title": "A set of fields keeps the content of every field added to it", "statement": "add_field appends to the set a field with the same physical content (shown values and their places), expressed in the units of the first field added, without wholly masked borders; the fields already in the set are kept; a field with incompatible units is refused and the set is kept; the field given is not changed.", "quantifier": "all histories of additions, and all scalar or vector fields, units and masks", "why_tests_cant": "all histories, units and masks", "anchors": ["IMTreatment/core/spatialfields.py:SpatialFields.add_field"]}
{"id": "C156", "title": "The value of a set at a point is the mean over the fields covering it", "statement": "get_value gives the mean of the values of the fields covering the point, NaN (or ValueError when asked) when no field covers it, whatever the order of the additions.", "quantifier": "all sets of scalar or vector fields and all points", "why_tests_cant": "all arrangements of overlapping fields", "anchors": ["IMTreatment/core/spatialfields.py:SpatialFields.get_value"]}
{"id": "C157", "title": "A set of fields sampled on a grid has the values of the set at the nodes", "statement": "get_values_on_grid returns a field on the given axes, in the units of the set, showing at each node the value of the set, masked where no field covers the node.", "quantifier": "all sets of fields and all increasing axes", "why_tests_cant": "all arrangements of fields and all grids", "anchors": ["IMTreatment/core/spatialfields.py:SpatialFields.get_values_on_grid (212-263)"]}
{"id": "C158", "title": "A profile of a set of fields joins the profiles of its fields", "statement": "get_profile returns the profile along the line, joining the profiles of the fields crossed by the line.", "quantifier": "all sets of fields, directions and positions", "why_tests_cant": "all arrangements of fields", "anchors": ["IMTreatment/core/spatialfields.py:SpatialFields.get_profile"]}
{"id": "C159", "title": "The extents of a set are those of the union of its fields", "statement": "x_min, x_max, y_min and y_max are the smallest box containing the axes of all the fields of the set.", "quantifier": "all non-empty sets of fields", "why_tests_cant": "all arrangements of fields", "anchors": ["IMTreatment/core/spatialfields.py:SpatialFields.x_min, x_max, y_min, y_max"]}
{"id": "C160", "title": "Opposites and multiples of sets are taken field by field", "statement": "-s and k*s are sets with one field for each field of s, with the same places and masks and the opposite or multiplied values.", "quantifier": "all sets of scalar fields and all numbers", "why_tests_cant": "all sets and masks", "anchors": ["IMTreatment/core/spatialfields.py:SpatialFields.__neg__, __mul__"]}
{"id": "C161", "title": "Sums and differences of vector fields add the vectors found at the same place", "statement": "f + h and f - h show, at each place where both fields have a node, the sum or the difference of their vectors in the unit of f, masked where one of them is; fields with incompatible units, or without a common node, are refused.", "quantifier": "all pairs of vector fields, axes, units and masks", "why_tests_cant": "all axes, overlaps, units and masks", "anchors": ["IMTreatment/core/vectorfield.py:VectorField.__add__ (58-157), __sub__ (159-162)"]}
{"id": "C162", "title": "Cropping the masked borders of a vector field never loses a vector, and its hard version leaves none masked", "statement": "crop_masked_border returns a contiguous part of the field; without hard it shows every vector the field shows and none of its four borders is wholly masked; with hard it has no masked cell, and always terminates; inplace or not, the result is the same.", "quantifier": "all vector fields and masks", "why_tests_cant": "all masks", "anchors": ["IMTreatment/core/vectorfield.py:VectorField.crop_masked_border (1007-1064)"]}
{"id": "C163", "title": "Arithmetic of a vector field with numbers, vectors, arrays, quantities and scalar fields acts on each vector", "statement": "Adding, multiplying or dividing by a number, a vector, an array, a quantity with a unit or a scalar field keeps the grid, acts on each shown vector as the same operation on quantities (unit included), and masks only what was masked or has no value.", "quantifier": "all vector fields, numbers, arrays, quantities and scalar fields", "why_tests_cant": "all values, shapes, masks and units", "anchors": ["IMTreatment/core/vectorfield.py:VectorField.__add__ (125-153), __truediv__ (164-196), __mul__ (200-247), __abs__ (254-258)"]}
{"id": "C164", "title": "Equality of vector fields is equality of what they show", "statement": "f == h exactly when the axes and units are the same and the same vectors are shown at the same places; hence == is an equivalence relation.", "quantifier": "all pairs of vector fields with sorted axes", "why_tests_cant": "all pairs and triples of fields", "anchors": ["IMTreatment/core/vectorfield.py:VectorField.__eq__ (270-292)"]}
{"id": "C165", "title": "Equality of scalar fields is an equivalence relation", "statement": "f == h exactly when axes, masks, units and shown values agree up to the tolerance; it is reflexive, symmetric and transitive, and fields of different sizes are different.", "quantifier": "all pairs and triples of scalar fields", "why_tests_cant": "all pairs and triples of fields", "anchors": ["IMTreatment/core/scalarfield.py:ScalarField.__eq__ (53-71)"]}
{"id": "C166", "title": "Vector fields can be imported whatever the direction of their axes", "statement": "import_from_arrays accepts increasing or decreasing axes, and transposed arrays, and gives a field with increasing axes showing at each place the vector given for it, masked exactly where the mask given is set or the vector is NaN.", "quantifier": "all axes, arrays and masks", "why_tests_cant": "all axis directions, shapes and masks", "anchors": ["IMTreatment/core/vectorfield.py:VectorField.import_from_arrays (484-573)"]}
{"id": "C167", "title": "Reducing the spatial resolution replaces blocks of cells by their mean", "statement": "reduce_spatial_resolution(k) gives one cell for each block of k x k cells, at the middle of the block, with the mean of the values shown in the block, masked exactly when the whole block is.", "quantifier": "all scalar and vector fields, masks and factors", "why_tests_cant": "all sizes, masks and factors", "anchors": ["IMTreatment/core/scalarfield.py:ScalarField.reduce_spatial_resolution (1964-2065)", "IMTreatment/core/vectorfield.py:VectorField.reduce_spatial_resolution (1188-1218)"]}
{"id": "C168", "title": "The norm of a field is a norm", "statement": "get_norm(norm=p) is the p-th root of the sum of the p-th powers of the absolute values of what is not masked (both components for a vector field), divided by the number of points when asked per point; not divided, it is null only for a null field, is multiplied by |k| with the field, is at most the sum of the norms for a sum of fields, and bounds each value.", "quantifier": "all fields, masks, factors and integer orders p >= 1", "why_tests_cant": "all fields and all p; the triangle inequality is over all pairs of fields", "anchors": ["IMTreatment/core/scalarfield.py:ScalarField.get_norm (1120-1128)", "IMTreatment/core/vectorfield.py:VectorField.get_norm (686-695)"]}
{"id": "C169", "title": "The integral of a scalar field along a line is that of the values met along it", "statement": "integrate_over_line(direction, position) is the trapezoidal integral of the field along the line (interpolated at a position, averaged over an interval), lies between the extreme values times the length, and fails when the line meets a masked place.", "quantifier": "all fields, directions, positions and intervals", "why_tests_cant": "all fields and positions", "anchors": ["IMTreatment/core/scalarfield.py:ScalarField.integrate_over_line (1143-1172)"]}
{"id": "C170", "title": "The integral over a rectangle is the mean of the field times the area", "statement": "integrate_over_surface over a rectangle lies between the extreme values times the area of the rectangle spanned by the nodes in it, is exact for affine fields on regular axes, fails when a node is masked, and has the unit of the values times those of the axes.", "quantifier": "all fields and rectangles", "why_tests_cant": "all fields and rectangles", "anchors": ["IMTreatment/core/scalarfield.py:ScalarField.integrate_over_surface (1174-1212)"]}
{"id": "C171", "title": "make_evenly_spaced gives regular axes over the same area, with the smallest step of the field", "statement": "make_evenly_spaced(interp, res) returns a field with regular axes, from the first to the last coordinates, with the step of the smallest interval divided by res, and the interpolated values; a field already regular keeps its axes.", "quantifier": "all fields and resolutions", "why_tests_cant": "all axes", "anchors": ["IMTreatment/core/scalarfield.py:ScalarField.make_evenly_spaced (1931-1962)"]}
{"id": "C172", "title": "get_zones_centers gives one point for each zone of values between the bounds", "statement": "get_zones_centers(bornes, rel, kind) returns one point for each connected zone of the places whose value is between the bounds (relative to the extent of the values or absolute, widened by 1e-5): the place of the extremum, the mean position, or the mean weighted by the absolute values; None when there is no such place.  The answer depends only on the field and the arguments.", "quantifier": "all fields, masks, bounds and kinds; all histories of calls", "why_tests_cant": "all zone shapes; all histories of calls", "anchors": ["IMTreatment/core/scalarfield.py:ScalarField.get_zones_centers (617-738)"]}
{"id": "C173", "title": "The histogram counts the values in each bin", "statement": "get_histogram(bins=n) gives n equal bins over the values (or the range asked for); the i-th ordinate is the number of places whose value is in the i-th bin (all the bins up to it when cumulative; divided by the number of values and by the width when normalized).", "quantifier": "all fields without masked place, or with a range; all numbers of bins and ranges", "why_tests_cant": "all values and bins", "anchors": ["IMTreatment/core/scalarfield.py:ScalarField.get_histogram (941-967)"]}
{"id": "C174", "title": "A string given as a unit is refused before any evaluation when it contains forbidden words or begins with a call", "statement": "make_unit evaluates a string only if it contains no import, assignment, separator, quote, builtins or open, and does not begin with a function call; ^ means **; other strings are refused whatever their evaluation would do; any string containing re, np or units is refused too.", "quantifier": "all strings, all behaviours of the evaluation", "why_tests_cant": "all strings", "anchors": ["IMTreatment/utils/units.py:make_unit (36-73)"]}
{"id": "C175", "title": "The norm per point does not depend on the number of points of a uniform field", "statement": "get_norm(norm=p, normalized='perpoint') of a field equal to v everywhere is |v|, whatever its number of points.", "quantifier": "all uniform fields and p >= 1", "why_tests_cant": "all sizes", "anchors": ["IMTreatment/core/scalarfield.py:ScalarField.get_norm (1120-1128)"]}
{"id": "C176", "title": "The integral along a line has the unit of the values times the unit of the axis followed", "statement": "The unit returned by integrate_over_line is that of the values times that of the axis along which the line runs.", "quantifier": "all fields, directions and units", "why_tests_cant": "all units", "anchors": ["IMTreatment/core/scalarfield.py:ScalarField.integrate_over_line (1166-1172)"]}
{"id": "C177", "title": "Integrals over adjacent rectangles add up", "statement": "The integral over [a, b] plus the integral over [b, c] is the integral over [a, c].", "quantifier": "all fields and cuts at a node", "why_tests_cant": "all fields", "anchors": ["IMTreatment/core/scalarfield.py:ScalarField.integrate_over_surface (1174-1212)"]}
{"id": "C178", "title": "The abscissas of a histogram are the middles of its bins, and masked places are ignored", "statement": "The i-th abscissa of get_histogram is the middle of the i-th bin; masked places are not counted.", "quantifier": "all fields, masks and bins", "why_tests_cant": "all fields and masks", "anchors": ["IMTreatment/core/scalarfield.py:ScalarField.get_histogram (956-967)"]}
{"id": "C179", "title": "A string given as a unit cannot call a function", "statement": "make_unit never evaluates a string containing a function call.", "quantifier": "all strings", "why_tests_cant": "all strings", "anchors": ["IMTreatment/utils/units.py:make_unit (69-70)"]}
{"id": "C180", "title": "Paths are checked before use", "statement": "check_path(path) returns the path when it exists and otherwise raises naming the first component that is missing and the directory (existing, or the working directory) it is missing in; with newfile=True the same holds for the directory of the path, the last component being free.  Nothing exists below a missing component.", "quantifier": "all disks and paths with at least one component (after os.path.normpath)", "why_tests_cant": "all disk contents and paths", "anchors": ["IMTreatment/file_operation/file_operation.py:check_path (62-108)"]}
{"id": "C181", "title": "The object read in a file is the last one saved in it", "statement": "After export_to_file(obj, path) has returned, import_from_file of the file written (path with the extension .cimt or .imt added when its name has not this extension) returns the object, whatever other exports, imports, failures and interruptions happen in between, as long as none of them writes in this file; the export succeeds exactly when the directory is there, the file name is not a directory, and the object can be pickled.", "quantifier": "all objects that can be saved, paths, disks, compressed or not, and all later histories with crashes", "why_tests_cant": "all histories of exports, imports and crashes", "anchors": ["IMTreatment/file_operation/file_operation.py:export_to_file (327-364)", "IMTreatment/file_operation/file_operation.py:import_from_file (286-324)"]}
{"id": "C182", "title": "An object is read back with the path it was saved with", "statement": "After export_to_file(obj, path), import_from_file(path) returns the object.", "quantifier": "all objects, paths and disks", "why_tests_cant": "all paths", "anchors": ["IMTreatment/file_operation/file_operation.py:export_to_file (350-361)", "IMTreatment/file_operation/file_operation.py:import_from_file (303-318)"]}
{"id": "C183", "title": "An export touches its file alone and never leaves a wrong object, even interrupted", "statement": "In every state export_to_file goes through, every other path of the disk is as before; reading the file in this state (after a crash) gives what it gave before, or an exception, or the object being saved, and nothing else.", "quantifier": "all objects, disks, paths and interruption points", "why_tests_cant": "all crash points", "anchors": ["IMTreatment/file_operation/file_operation.py:export_to_file (327-364)"]}
{"id": "C184", "title": "An export that fails or is interrupted keeps what was in the file", "statement": "When export_to_file over an existing file is interrupted or raises, the file still gives the object that was in it.", "quantifier": "all objects, disks and interruption points", "why_tests_cant": "all crash points", "anchors": ["IMTreatment/file_operation/file_operation.py:export_to_file (354-363)"]}
{"id": "C185", "title": "Saving and loading leave the garbage collector as it was", "statement": "export_to_file and import_from_file leave the garbage collector enabled or disabled as it was.", "quantifier": "all objects, disks, paths and outcomes", "why_tests_cant": "all outcomes, failures included", "anchors": ["IMTreatment/file_operation/file_operation.py:import_from_file (305-319)", "IMTreatment/file_operation/file_operation.py:export_to_file (349-364)"]}
{"id": "C186", "title": "imts_to_imt puts all the fields of a directory in one series", "statement": "imts_to_imt(source, target, kind) writes one file holding the fields of the requested type found in the files of the directory, with their times, and changes nothing else.", "quantifier": "all directories, listings and objects", "why_tests_cant": "all directories", "anchors": ["IMTreatment/file_operation/file_operation.py:imts_to_imt (367-416)"]}
{"id": "C187", "title": "Exactly the files asked for are removed, after a confirmation", "statement": "remove_files_in_dirs removes the files whose name matches in the directories whose path matches, and nothing else, if the first answer understood is a yes; otherwise it removes nothing.", "quantifier": "all trees, matching functions, disks and sequences of answers", "why_tests_cant": "all trees and answers", "anchors": ["IMTreatment/utils/files.py:remove_files_in_dirs (323-393)"]}
{"id": "C188", "title": "The depth and the kind of removal asked for are respected", "statement": "remove_files_in_dirs(depth=n) removes nothing deeper than n, and remove_files=False removes no file.", "quantifier": "all trees and arguments", "why_tests_cant": "all trees", "anchors": ["IMTreatment/utils/files.py:remove_files_in_dirs (323-393)"]}
{"id": "C189", "title": "The folders found are those with a file asked for", "statement": "find_file_in_path(regs, dirpath) returns the folders that contain a file matching one of the regular expressions, and only these; with ask=True, one of them, chosen by the user.", "quantifier": "all trees, matching functions and answers", "why_tests_cant": "all trees", "anchors": ["IMTreatment/file_operation/file_operation.py:find_file_in_path (111-160)"]}
{"id": "C190", "title": "The tree of names holds the files of the collection in their folders", "statement": "Files.build_tree returns nested dictionaries with one folder for each folder of the collection, and under 'files' the names of its files in the order of the collection.", "quantifier": "all collections of files", "why_tests_cant": "all collections", "anchors": ["IMTreatment/utils/files.py:Files.build_tree (235-260)"]}
{"id": "C191", "title": "Each detected cell holds exactly one zero of the interpolated velocity", "statement": "When the velocity, interpolated between neighbours, does not vanish on the lines of the grid and nothing is masked, every cell reported by the first step of the detection of critical points holds exactly one point where the bilinear interpolation of the velocity vanishes, strictly inside the cell; a cell without such a point has index 0 and is not reported.", "quantifier": "all such fields, axes and cells", "why_tests_cant": "all fields of real numbers; a topological argument", "anchors": ["IMTreatment/vortex_detection/vortex_detection.py:VF.get_cp_cell_position (84-177)", "IMTreatment/vortex_detection/vortex_detection.py:VF.get_cp_position (179-329)"]}
{"id": "C192", "title": "The position reported is that of the zero of the interpolated velocity", "statement": "On evenly spaced axes, when in every detected cell no component nor sum of components is null at a corner and the cross variation of the velocity is parallel to neither of its variations along the sides, the detection returns one point for each detected cell, with its type, at the exact zero of the bilinear interpolation.  On regular fields with even axes it never raises.", "quantifier": "all such fields and cells, any eigenvalue routine", "why_tests_cant": "all fields of real numbers; closed formulas with roots", "anchors": ["IMTreatment/vortex_detection/vortex_detection.py:VF.get_cp_position (179-329)", "IMTreatment/vortex_detection/levelset_data.py:get_sol (27-34)"]}
{"id": "C193", "title": "No detected critical point is lost when its position is refined", "statement": "Every critical point found by the first step is still there, at its zero, after the positions are refined.", "quantifier": "all fields without masked value on even axes", "why_tests_cant": "all fields", "anchors": ["IMTreatment/vortex_detection/vortex_detection.py:VF.get_cp_position (179-329)", "IMTreatment/vortex_detection/levelset_data.py:get_sol (27-34)"]}
{"id": "C194", "title": "A refined point stays in its cell and keeps its type", "statement": "On even axes, the points returned are points of the first step, in the same order and with their types, each moved by at most half a step in x and in y (so it stays in its cell).", "quantifier": "all fields (masked values and null velocities included) for which no exception is raised", "why_tests_cant": "all fields", "anchors": ["IMTreatment/vortex_detection/vortex_detection.py:VF.get_cp_position (179-329)"]}
{"id": "C195", "title": "A refined position is a zero of the field, on all axes", "statement": "The refined position is where the interpolated velocity vanishes, also when a corner has opposite components and when the axes are not evenly spaced.", "quantifier": "all fields with one critical cell", "why_tests_cant": "all fields", "anchors": ["IMTreatment/vortex_detection/vortex_detection.py:VF.get_cp_position (224-243)"]}
{"id": "C196", "title": "A memoized function returns what the function returns", "statement": "For a function decorated with memoize_to_file(name), every call returns the result of the function for these arguments or raises its exception, whatever other calls, processes and interrupted saves happened before on this file; the only other outcome is an exception of the save, raised by the call that computed the result.  When all results can be saved it cannot happen.", "quantifier": "all pure functions whose arguments have distinct pickles when the results differ, all files that are missing or were written by this function, and all histories of processes, calls and crashes", "why_tests_cant": "all histories and crash points", "anchors": ["IMTreatment/utils/memoization.py:memoize_to_file (29-56)"]}
{"id": "C197", "title": "A result is computed once, and kept for the next processes", "statement": "A decorated function computes the result for given arguments at most once in its life.  A process started after another one has worked alone on the file gets all the results computed by it without computing them.", "quantifier": "all histories; all lists of calls of the first process", "why_tests_cant": "all histories", "anchors": ["IMTreatment/utils/memoization.py:memoize_to_file (29-56)"]}
{"id": "C198", "title": "An interrupted save does not prevent the next processes from working", "statement": "After a process is interrupted while it saves a result, the next processes work, losing at most the results that were not saved.", "quantifier": "all caches, results and interruption points", "why_tests_cant": "all crash points", "anchors": ["IMTreatment/utils/memoization.py:memoize_to_file (29-56)"]}
{"id": "C199", "title": "A file can be shared", "statement": "Functions decorated with the same file do not get the results of each other, and two processes using the same file do not lose the results of each other.", "quantifier": "all pairs of functions, arguments and interleavings", "why_tests_cant": "all interleavings", "anchors": ["IMTreatment/utils/memoization.py:memoize_to_file (29-56)"]}
{"id": "C200", "title": "A failure to save, or a modification of a result by the caller, has no effect on the next calls; the garbage collector is left as it was", "statement": "A call whose result cannot be saved behaves as the next calls with the same arguments; modifying a returned object does not change what the next calls return; the garbage collector is left enabled or disabled as it was.", "quantifier": "all functions, caches and results", "why_tests_cant": "all results and outcomes", "anchors": ["IMTreatment/utils/memoization.py:memoize_to_file (29-56)"]}
{"id": "C201", "title": "The orientation of a panel gives its unit normal, and its influence is that of sources along it", "statement": "For a panel between two distinct points, (cosbeta, sinbeta) is the unit vector orthogonal to the panel, on the right of the way from the first point to the second.  The function integrated by integral() at the abscissa s is the influence at (x, y) of a point source at the distance s of the first point on the panel.  Away from the panels, compute_velocity gives the free stream plus, for each panel, its strength times the velocity due to unit sources along it (while neither component exceeds 1e30).", "quantifier": "all panels with distinct ends, all points and directions, over the reals", "why_tests_cant": "all orientations, in both branches of arccos", "anchors": ["IMTreatment/potential_flow/potential_flow.py:Panel.__init__ (510-554)", "IMTreatment/potential_flow/potential_flow.py:integral (608-643)"]}
{"id": "C202", "title": "Each point of a wall is taken as on the wall, and its velocity is tangent", "statement": "on_panel(x, y) is true exactly when (x, y) is at less than 1e-4 from the line of the panel and at most at length/sqrt(2) from its centre.  So it is true for every point of the panel, and compute_velocity gives there the wall velocity of a panel holding the point, which has no component along its normal.", "quantifier": "all sets of panels and all their points", "why_tests_cant": "all panels and points", "anchors": ["IMTreatment/potential_flow/potential_flow.py:Panel.on_panel (575-593)", "IMTreatment/potential_flow/potential_flow.py:Panel.vector (556-558)", "IMTreatment/potential_flow/potential_flow.py:System.compute_velocity (157-182)"]}
{"id": "C203", "title": "Only points of a panel are taken as on it", "statement": "compute_velocity gives the wall velocity of a panel only for points of this panel, up to 1e-4.", "quantifier": "all panels and points", "why_tests_cant": "all panels", "anchors": ["IMTreatment/potential_flow/potential_flow.py:Panel.on_panel (575-593)"]}
{"id": "C204", "title": "The flow does not cross the walls", "statement": "When the linear system is solved, at the centre of each wall panel the sum of the free stream, of the influence of the other panels and of half the strength of the panel along its normal has no component along this normal; compute_velocity gives this sum at the centre of the panel.", "quantifier": "all systems of walls and free streams for which the linear solver succeeds, all panels", "why_tests_cant": "all geometries", "anchors": ["IMTreatment/potential_flow/potential_flow.py:System.solving_sigma (107-151)", "IMTreatment/potential_flow/potential_flow.py:System.compute_velocity (157-182)"]}
{"id": "C205", "title": "The velocity does not depend on what was asked before", "statement": "After any sequence of add_object, compute_velocity and solving_sigma, compute_velocity returns what it returns on a system where only the same objects were added: the strengths are computed again when needed.", "quantifier": "all histories of additions (failing ones included), requests and explicit resolutions", "why_tests_cant": "all histories", "anchors": ["IMTreatment/potential_flow/potential_flow.py:System.add_object (49-81)", "IMTreatment/potential_flow/potential_flow.py:System.solving_sigma (107-151)", "IMTreatment/potential_flow/potential_flow.py:System.compute_velocity (157-182)"]}
{"id": "C206", "title": "Reversing the normals of a solid is taken into account", "statement": "After inverse_normals on a solid, compute_velocity gives the flow of the reversed solid, whether or not the flow was computed before.", "quantifier": "all solids and histories", "why_tests_cant": "all histories", "anchors": ["IMTreatment/potential_flow/potential_flow.py:object_1D.inverse_normals (415-422)"]}
{"id": "C207", "title": "A solid keeps its shape when it is cut in panels", "statement": "add_object(2, coords, res=n) on a path without repeated points makes panels that follow the closed path: each segment is cut in equal parts, in order, the length of the path is kept, and the last panel ends at the first point.  Giving the first point again at the end of coords changes nothing.", "quantifier": "all paths of at least two points without empty segment, all resolutions, all roundings", "why_tests_cant": "all paths", "anchors": ["IMTreatment/potential_flow/potential_flow.py:object_1D.refine (424-454)", "IMTreatment/potential_flow/potential_flow.py:object_2D.__init__ (462-494)"]}
{"id": "C208", "title": "A boundary can be open", "statement": "add_object(1, coords) makes a boundary following the given points, from the first to the last one.", "quantifier": "all boundaries", "why_tests_cant": "all boundaries", "anchors": ["IMTreatment/potential_flow/potential_flow.py:object_1D.refine (424-454)"]}
{"id": "C209", "title": "Sources can be added", "statement": "add_object(0, ...) adds a point; objects of kind other than 'wall' have an effect on the flow.", "quantifier": "all points, objects and systems", "why_tests_cant": "all objects", "anchors": ["IMTreatment/potential_flow/potential_flow.py:System.add_object (49-81)", "IMTreatment/potential_flow/potential_flow.py:object_0D.__init__ (323-339)", "IMTreatment/potential_flow/potential_flow.py:System.get_solid_panels (83-95)"]}
{"id": "C210", "title": "The abscissa of a velocity profile is the distance along the line", "statement": "compute_velocity_on_line(a, b, res) on a line whose two coordinates do not vary in opposite directions gives profiles whose positions start at 0 and whose differences are, up to the sign, the distances between the points of the line.", "quantifier": "all such lines, all resolutions of at least two, all pairs of points", "why_tests_cant": "all lines", "anchors": ["IMTreatment/potential_flow/potential_flow.py:System.compute_velocity_on_line (225-264)"]}
{"id": "C211", "title": "The abscissa of a velocity profile is a distance for every line", "statement": "compute_velocity_on_line gives positions that are the distances from the first point, for every line.", "quantifier": "all lines", "why_tests_cant": "all lines", "anchors": ["IMTreatment/potential_flow/potential_flow.py:System.compute_velocity_on_line (225-264)"]}
{"id": "C212", "title": "The pressure coefficient follows Bernoulli and does not depend on the scale of the free stream", "statement": "The pressure coefficient is at most 1, equal to 1 exactly where the fluid is at rest and to 0 exactly where the speed is that of the free stream.  Multiplying the free stream velocity by k multiplies the velocities by k and keeps the pressure coefficients, where no velocity is null or replaced by zero.", "quantifier": "all velocities; all flows whose linear system has a unique solution, all factors", "why_tests_cant": "all flows", "anchors": ["IMTreatment/potential_flow/potential_flow.py:System.compute_pressure_from_velocity (266-302)", "IMTreatment/potential_flow/potential_flow.py:System.compute_velocity (157-182)"]}
{"id": "C213", "title": "The velocity field shows at each point the velocity at this point", "statement": "compute_velocity_on_grid(grid_x, grid_y) shows at (grid_x[i], grid_y[j]) the velocity given by compute_velocity at this point; the value is masked exactly when remove_solid is set and the point is in a solid of kind 'wall'.", "quantifier": "all axes, systems and points", "why_tests_cant": "all grids", "anchors": ["IMTreatment/potential_flow/potential_flow.py:System.compute_velocity_on_grid (184-223)"]}
{"id": "C214", "title": "The protocol can be stopped between two saves, its results removed, and started again", "statement": "After any sequence of runs of compute_everything and recompute_everything of POD_CP_protocol with the same parameters, each of them finished, stopped by an exception or killed between two saves, and of removals of result files by the user, each result file that is there holds what an uninterrupted computation from the source gives.  The next compute_everything that finishes leaves all the results, and it finishes when no stage raises for this source.", "quantifier": "all stages (pure functions that can raise), parameters, sources and histories of runs, kills between saves and removals", "why_tests_cant": "all histories and kill points", "anchors": ["IMTreatment/protocols/protocols.py:POD_CP_protocol.compute_everything", "IMTreatment/protocols/protocols.py:POD_CP_protocol.recompute_everything"]}
{"id": "C215", "title": "What is computed is not computed again", "statement": "After compute_everything has finished, calling it again (or calling that of another protocol object of the same name that asks no more details) writes no file and raises nothing.", "quantifier": "all states of the directory before the first call, all stages, parameters and free memories", "why_tests_cant": "all states of the files", "anchors": ["IMTreatment/protocols/protocols.py:POD_CP_protocol.compute_everything"]}
{"id": "C216", "title": "recompute_everything repairs everything", "statement": "Whatever files are there (missing, stale, truncated), after recompute_everything has finished the cleaned fields, the mean field, the POD, the reconstruction and the trajectories are those of the current source and parameters.", "quantifier": "all states of the directory with a readable source", "why_tests_cant": "all states of the files", "anchors": ["IMTreatment/protocols/protocols.py:POD_CP_protocol.recompute_everything"]}
{"id": "C217", "title": "recompute_everything also recomputes the detailed results", "statement": "After recompute_everything has finished with det_fact > 1, the detailed reconstruction and trajectories are those of the current source.", "quantifier": "all stages and pairs of sources", "why_tests_cant": "all histories", "anchors": ["IMTreatment/protocols/protocols.py:POD_CP_protocol.recompute_everything"]}
{"id": "C218", "title": "The protocol recovers from a kill during a save", "statement": "When compute_everything is killed while it writes a result, running it again gives the right results.", "quantifier": "all stages, sources and kill points within a save", "why_tests_cant": "all kill points and later histories", "anchors": ["IMTreatment/protocols/protocols.py:POD_CP_protocol.compute_everything", "IMTreatment/file_operation/file_operation.py:export_to_file"]}
{"id": "C219", "title": "The mean field is saved in the end", "statement": "When compute_everything is killed between two saves, running it again leaves the mean field on the disk with the other results.", "quantifier": "all stages, sources and later runs", "why_tests_cant": "all kill points and later histories", "anchors": ["IMTreatment/protocols/protocols.py:POD_CP_protocol.prepare_data", "IMTreatment/protocols/protocols.py:POD_CP_protocol.compute_everything"]}
{"id": "C220", "title": "The results are those of the current source and parameters", "statement": "After compute_everything has finished, the results are those of the source that is there and of the parameters of the protocol object.", "quantifier": "all stages, sources and parameters", "why_tests_cant": "all histories", "anchors": ["IMTreatment/protocols/protocols.py:POD_CP_protocol.compute_everything"]}
{"id": "C221", "title": "A protocol can be created with the default number of threads", "statement": "POD_CP_protocol(name, imtpath, respath) gives a protocol that uses all the processors.", "quantifier": "all parameters", "why_tests_cant": "all parameters", "anchors": ["IMTreatment/protocols/protocols.py:POD_CP_protocol.__init__"]}
{"id": "C222", "title": "The number of threads is limited by the memory", "statement": "The detection uses at least one thread and no more than asked; when it uses more than one, the free memory can hold twice the loaded file for each of them.", "quantifier": "all free memories before and after loading, all numbers of threads", "why_tests_cant": "all memories", "anchors": ["IMTreatment/protocols/protocols.py:POD_CP_protocol.CP_detection"]}
{"id": "C223", "title": "The detection works whatever the free memory is", "statement": "CP_detection does not raise because of the free memory read before and after loading the fields.", "quantifier": "all pairs of readings", "why_tests_cant": "depends on the other processes", "anchors": ["IMTreatment/protocols/protocols.py:POD_CP_protocol.CP_detection"]}
{"id": "C224", "title": "There is one stream line per starting point that is inside the field, starting there", "statement": "get_streamlines with an array of points as floats returns, in order, one line for each point that is within the field (borders included), whose first point is that point, at time 0; with one point inside the field it returns one line.  Each line has at least one point and at most max_steps + 1.", "quantifier": "all fields, solvers, velocities, masks, starting points, numbers of steps and resolutions", "why_tests_cant": "all fields and starting points", "anchors": ["IMTreatment/field_treatment/field_treatment.py:get_streamlines"]}
{"id": "C225", "title": "With resolution_kind='length' a stream line stays inside the field and out of the mask", "statement": "With resolution_kind='length' all the points of a stream line, except possibly the last one, are within the field and at places that are not masked.", "quantifier": "all fields, solvers, velocities, masks, starting points, numbers of steps and resolutions", "why_tests_cant": "all fields and starting points", "anchors": ["IMTreatment/field_treatment/field_treatment.py:get_streamlines"]}
{"id": "C226", "title": "With resolution_kind='time' a stream line is stopped by the boundary", "statement": "With resolution_kind='time' and boundary_tr='stop' the line is stopped when it encounters the boundary of the field.", "quantifier": "all fields and starting points", "why_tests_cant": "all fields and numbers of steps", "anchors": ["IMTreatment/field_treatment/field_treatment.py:get_streamlines"]}
{"id": "C227", "title": "With boundary_tr='hide' the lines that leave the field are not returned", "statement": "With boundary_tr='hide' no returned line encounters a boundary of the field.", "quantifier": "all fields and starting points", "why_tests_cant": "all fields and starting points", "anchors": ["IMTreatment/field_treatment/field_treatment.py:get_streamlines"]}
{"id": "C228", "title": "Starting points can be integers", "statement": "A stream line asked at points with integer coordinates starts at these points.", "quantifier": "all fields and integer points inside", "why_tests_cant": "all points", "anchors": ["IMTreatment/field_treatment/field_treatment.py:get_streamlines"]}
{"id": "C229", "title": "The lines follow the velocity, or are orthogonal to it", "statement": "Back in the coordinates of the field, the velocity given to the solver by get_streamlines is a positive multiple of the velocity of the field (of its opposite with reverse=True); that given by get_fieldlines and get_tracklines is orthogonal to it, and that of get_fieldlines is turned clockwise (anticlockwise with reverse=True).", "quantifier": "all extents, greatest magnitudes and velocities", "why_tests_cant": "all aspect ratios and velocities", "anchors": ["IMTreatment/field_treatment/field_treatment.py:get_streamlines", "IMTreatment/field_treatment/field_treatment.py:get_fieldlines", "IMTreatment/field_treatment/field_treatment.py:get_tracklines", "IMTreatment/field_treatment/field_treatment.py:get_track_field"]}
{"id": "C230", "title": "get_tracklines can be reversed", "statement": "get_tracklines with reverse=True follows the lines the other way.", "quantifier": "all extents and non-zero velocities", "why_tests_cant": "all velocities", "anchors": ["IMTreatment/field_treatment/field_treatment.py:get_tracklines"]}
{"id": "C231", "title": "The points of a fast stream line are evenly spaced along the velocity", "statement": "get_streamlines_fast returns None exactly when no starting point is inside the field, otherwise one line for each one that is, in order.  A line begins at its starting point and has at most longmax - 1 points (longmax being the number of points of the axes over delta); each point is at the distance delta of the former one, in the direction of the velocity there (the opposite direction with reverse=True), and all but possibly the last one are inside the field.", "quantifier": "all extents, velocities (any function), spacings and starting points", "why_tests_cant": "all velocity fields and starting points", "anchors": ["IMTreatment/field_treatment/field_treatment.py:get_streamlines_fast"]}
{"id": "C232", "title": "A fast stream line stops for a reason, and the loop ends", "statement": "A line returned by get_streamlines_fast ends at a point where the velocity is zero, or outside the field, or near (at less than delta/sqrt(2)) one of its points at least ten points before, or it has the greatest number of points; and it does not come back near itself before its last point.  The loop always ends.", "quantifier": "all extents, velocities, spacings and starting points", "why_tests_cant": "all velocity fields: termination", "anchors": ["IMTreatment/field_treatment/field_treatment.py:get_streamlines_fast"]}
{"id": "C233", "title": "A reversed fast stream line is that of the opposite field", "statement": "get_streamlines_fast with reverse=True gives the lines of the field whose velocities are opposite.", "quantifier": "all extents, velocities, spacings and starting points", "why_tests_cant": "all velocity fields", "anchors": ["IMTreatment/field_treatment/field_treatment.py:get_streamlines_fast"]}
{"id": "C234", "title": "A displaced particle has travelled for the time asked, or has left the field", "statement": "When get_pts_displacement returns a point and a flag, the flag is True exactly when the point is outside the field.  The point is reached from the starting point by successive steps of the Runge-Kutta method in the velocity (its opposite when dt < 0), each beginning inside the field and lasting a time that is not negative; the times sum to at most |dt|, and to |dt| when the flag is False.  ValueError is raised exactly when dt = 0, rel_err <= 0 or dampl is not in [0, 1].", "quantifier": "all extents, interpolated velocities (any function), starting points, times, tolerances and damplings", "why_tests_cant": "all velocities and numbers of adaptive steps", "anchors": ["IMTreatment/vortex_criterions/FTLE/ftle.py:FTLE.get_pts_displacement"]}
{"id": "C235", "title": "The integration is of fourth order, in both directions of time", "statement": "For a velocity that is an affine function of the position, one step of get_pts_displacement of the time h gives the expansion of the exact displacement to the fourth order in h (the next term has the coefficient 1/104 instead of 1/120).  The displacement for -dt is that for dt in the opposite velocity.", "quantifier": "all affine velocities, positions and steps; all velocities for the reversal", "why_tests_cant": "all velocities and steps: it fixes every coefficient of the method", "anchors": ["IMTreatment/vortex_criterions/FTLE/ftle.py:FTLE.get_pts_displacement"]}
{"id": "C236", "title": "In a uniform flow particles go exactly where they should", "statement": "When the velocity is the same everywhere (zero included), 0 <= dampl < 1 and the particle stays inside the field, get_pts_displacement returns xy + dt*v and False.", "quantifier": "all uniform velocities, fields, points, times of both signs, tolerances and damplings below 1", "why_tests_cant": "all velocities and times; involves infinite steps", "anchors": ["IMTreatment/vortex_criterions/FTLE/ftle.py:FTLE.get_pts_displacement"]}
{"id": "C237", "title": "The time loop ends", "statement": "With 0 <= dampl < 1 get_pts_displacement returns when the estimated relative errors of the steps inside the field are bounded (by any number) and no step leaves the particle where it was.", "quantifier": "all velocities with bounded estimated errors, fields, points, times, tolerances", "why_tests_cant": "termination of an adaptive loop", "anchors": ["IMTreatment/vortex_criterions/FTLE/ftle.py:FTLE.get_pts_displacement"]}
{"id": "C238", "title": "dampl can be any number between 0 and 1", "statement": "get_pts_displacement returns for dampl between 0 and 1, bounds included.", "quantifier": "all fields and points", "why_tests_cant": "a loop that does not end", "anchors": ["IMTreatment/vortex_criterions/FTLE/ftle.py:FTLE.get_pts_displacement"]}
{"id": "C239", "title": "rel_err is the greatest relative error", "statement": "The relative error of get_pts_displacement is at most rel_err.", "quantifier": "all velocities and tolerances", "why_tests_cant": "all tolerances", "anchors": ["IMTreatment/vortex_criterions/FTLE/ftle.py:FTLE.get_pts_displacement"]}
{"id": "C240", "title": "The particles form a regular grid inside the field", "statement": "generate_point_field gives the positions x0 + delta/2 + k*delta (and the same along y), delta being half of the diagonal of the spacings asked, all of those that are below the last coordinate of the axis and only them; they are strictly inside the field.", "quantifier": "all fields and resolutions", "why_tests_cant": "all extents and resolutions", "anchors": ["IMTreatment/vortex_criterions/FTLE/ftle.py:FTLE.generate_point_field"]}
{"id": "C241", "title": "A fluid at rest has no Lyapunov exponent", "statement": "The FTLE of a fluid at rest, in which particles stay where they are, is zero.", "quantifier": "all fields, resolutions and times", "why_tests_cant": "all resolutions and times", "anchors": ["IMTreatment/vortex_criterions/FTLE/ftle.py:FTLE.get_FTLE"]}
{"id": "C242", "title": "With equal spacings the exponents are right up to one constant", "statement": "When the spacings asked along x and y are equal, each value of get_FTLE is, whatever the displaced particles are, the exponent computed with the real distance between the particles minus the constant ln(2)/(2|dt|), so that the maxima and ridges are those of the exponent; the masked points are the same.  With the real distance and a linear flow map, the exponent is the logarithm of the greatest stretching of a vector over |dt|.", "quantifier": "all displaced particles (masked or not), fields and resolutions of equal spacings, times; all linear flow maps", "why_tests_cant": "all flow maps and points", "anchors": ["IMTreatment/vortex_criterions/FTLE/ftle.py:FTLE.get_FTLE"]}
{"id": "C243", "title": "Tracked points move as one rigid body, following the frames", "statement": "After any sequence of calls of a Stabilizer, the tracking of points returns for each point one position per frame, the first being the point itself; the distance between two tracked points is the same on all frames.  In the mode 'continuous' the position on a frame is the image of the position on the previous frame by the motion estimated between these frames.", "quantifier": "all videos, estimated motions, points and sequences of calls", "why_tests_cant": "all estimated motions, numbers of frames and histories of calls", "anchors": ["IMTreatment/stabilize/stabilize.py:Stabilizer._apply_transform_to_point", "IMTreatment/stabilize/stabilize.py:Stabilizer._compute_transform"]}
{"id": "C244", "title": "Without rotation, tracking from the first frame gives the estimated displacement", "statement": "In the mode 'from_first', when no rotation is estimated, the position of a tracked point on a frame is its image by the motion estimated between the first frame and this one.  In both modes the trajectory is the cumulated sum of the transforms.", "quantifier": "all videos, translations, points and sequences of calls", "why_tests_cant": "all videos and estimated motions", "anchors": ["IMTreatment/stabilize/stabilize.py:Stabilizer._apply_transform_to_point", "IMTreatment/stabilize/stabilize.py:Stabilizer._compute_transform"]}
{"id": "C245", "title": "Tracking from the first frame follows rotations", "statement": "In the mode 'from_first' the position of a tracked point on a frame is its image by the motion estimated between the first frame and this one.", "quantifier": "all videos and estimated motions", "why_tests_cant": "all estimated motions, rotations included", "anchors": ["IMTreatment/stabilize/stabilize.py:Stabilizer._apply_transform_to_point", "IMTreatment/stabilize/stabilize.py:Stabilizer._compute_transform"]}
{"id": "C246", "title": "In the stabilised video an object follows the smoothed trajectory", "statement": "In the video returned by get_stabilized_obj an object of the scene moves along the smoothed trajectory; in particular it stays still on frames that are equal and where the trajectory and the smoothed trajectory are constant.", "quantifier": "all videos, estimated motions and smoothings", "why_tests_cant": "all trajectories and smoothings", "anchors": ["IMTreatment/stabilize/stabilize.py:Stabilizer.get_stabilized_obj", "IMTreatment/stabilize/stabilize.py:Stabilizer._smooth_transform", "IMTreatment/stabilize/stabilize.py:Stabilizer._apply_transform"]}
{"id": "C247", "title": "A video without motion is not changed by the stabilisation", "statement": "When no motion is found between the frames of a video, get_stabilized_obj returns, for all borders and border sizes, a video with as many frames, whose axes extend the axes by the border and whose values at the coordinates of the video are the values of the video.", "quantifier": "all videos on regular axes with a step along x not greater than along y, border types and sizes, modes, previous states", "why_tests_cant": "all sizes of video and border", "anchors": ["IMTreatment/stabilize/stabilize.py:Stabilizer.get_stabilized_obj", "IMTreatment/stabilize/stabilize.py:Stabilizer._apply_transform"]}
{"id": "C248", "title": "get_stabilized_obj works for all videos", "statement": "get_stabilized_obj returns a video for every video of at least two frames with features.", "quantifier": "all videos on regular axes, estimated motions, borders", "why_tests_cant": "all grids", "anchors": ["IMTreatment/stabilize/stabilize.py:Stabilizer.get_stabilized_obj", "IMTreatment/stabilize/stabilize.py:Stabilizer._apply_transform"]}
{"id": "C249", "title": "The result does not depend on the previous calls", "statement": "get_stabilized_obj gives the same result or the same exception after any sequence of calls (computation, smoothing, application with other arguments, failed calls) as on a new Stabilizer; when the steps are called separately, an application that succeeds gives that result too.  A call that fails leaves the previous stabilised video.", "quantifier": "all videos, arguments and sequences of calls", "why_tests_cant": "all histories of calls", "anchors": ["IMTreatment/stabilize/stabilize.py:Stabilizer.get_stabilized_obj", "IMTreatment/stabilize/stabilize.py:Stabilizer._compute_transform", "IMTreatment/stabilize/stabilize.py:Stabilizer._smooth_transform", "IMTreatment/stabilize/stabilize.py:Stabilizer._apply_transform"]}
{"id": "C250", "title": "A field is recovered exactly from gradients that the trapezoid rule integrates exactly", "statement": "When the trapezoid rule applied to the given gradients gives the differences of a field between all neighbours of a regular grid, reconstruct_from_gradients returns this field minus its mean (times the factor of the units), whatever the size of the grid.  This is the case of all polynomials of degree two with their exact derivatives.", "quantifier": "all grid sizes from 2x2, steps, gradients and fields satisfying the trapezoid rule; all polynomials of degree two", "why_tests_cant": "all grid sizes and fields: eight sweeps in four directions must agree on every cell", "anchors": ["IMTreatment/field_treatment/field_treatment.py:reconstruct_from_gradients"]}
{"id": "C251", "title": "The reconstruction has zero mean and is linear in the gradients", "statement": "The mean of the field returned by reconstruct_from_gradients is zero, for all gradients, with or without the least squares.  Without least squares, the reconstruction from a linear combination of gradients is the same combination of the reconstructions.  It is defined exactly when both axes have at least two coordinates, otherwise IndexError is raised.", "quantifier": "all gradients, consistent or not, grids and least squares solvers", "why_tests_cant": "all gradients and grids", "anchors": ["IMTreatment/field_treatment/field_treatment.py:reconstruct_from_gradients"]}
{"id": "C252", "title": "maxiter limits the iterations of the least squares", "statement": "The argument maxiter of reconstruct_from_gradients is the number of iterations given to the least squares solver, for scalar and vector fields.", "quantifier": "all gradients, solvers and numbers of iterations", "why_tests_cant": "all solvers", "anchors": ["IMTreatment/field_treatment/field_treatment.py:reconstruct_from_gradients"]}
{"id": "C253", "title": "A field is extrapolated down to a wall on its left or below it", "statement": "For a position below the first coordinate, extrapolate_until_wall adds lines on that side, following the step of the axis, so that the first coordinate is at less than one step above the position and never below it.  The result is zero on that line, has a number and no mask everywhere, keeps all measured values that are not on that line, and the other cells hold what the interpolator gives for the field with its wall (or the nearest value where it gives none).  The other axis and the units do not change.", "quantifier": "all scalar and vector fields with increasing axes, masks, directions, positions, kinds and interpolators", "why_tests_cant": "all fields, positions and interpolators", "anchors": ["IMTreatment/field_treatment/field_treatment.py:extrapolate_until_wall", "IMTreatment/core/scalarfield.py:ScalarField.extend", "IMTreatment/core/scalarfield.py:ScalarField.fill", "IMTreatment/core/vectorfield.py:VectorField.fill"]}
{"id": "C254", "title": "A field is extrapolated up to a wall on its right or above it", "statement": "For a position beyond the last coordinate, extrapolate_until_wall puts the wall at the position, to one step.", "quantifier": "all fields, positions and axes", "why_tests_cant": "all sizes of axes: the error grows with the size", "anchors": ["IMTreatment/field_treatment/field_treatment.py:extrapolate_until_wall"]}
{"id": "C255", "title": "Extrapolating until a wall keeps the measured values", "statement": "All measured values of a field are found unchanged in the field extrapolated until a wall outside of it.", "quantifier": "all fields and positions outside of the field", "why_tests_cant": "all positions: it fails only near the field", "anchors": ["IMTreatment/field_treatment/field_treatment.py:extrapolate_until_wall"]}
{"id": "C256", "title": "A wall on the edge of the field is accepted", "statement": "extrapolate_until_wall refuses a position (ValueError) exactly when it is strictly between the first and the last coordinates.", "quantifier": "all fields and positions", "why_tests_cant": "all positions", "anchors": ["IMTreatment/field_treatment/field_treatment.py:extrapolate_until_wall"]}
{"id": "C257", "title": "Points ordered on a line are the same points on the shortest traversal", "statement": "When all points can be reached through the links between nearest neighbours, order_on_line returns the same points, each once, in the order of a traversal of that graph for which the sum of the squared steps is the least; the units are kept, and the set itself changes only in place. Fewer than three points are refused (ValueError).", "quantifier": "all sets of points, neighbour graphs and traversals", "why_tests_cant": "all sets and all ties between neighbours and traversals", "anchors": ["IMTreatment/core/points.py:Points.order_on_line"]}
{"id": "C258", "title": "Points ordered on a line keep their values", "statement": "order_on_line gives back each point with the value it had.", "quantifier": "all sets of points with values", "why_tests_cant": "it holds when the order does not change", "anchors": ["IMTreatment/core/points.py:Points.order_on_line", "IMTreatment/core/points.py:Points.xy"]}
{"id": "C259", "title": "Ordering points on a line loses none of them", "statement": "order_on_line returns all points of the set.", "quantifier": "all sets of points", "why_tests_cant": "it depends on the connectivity of a graph built from the distances", "anchors": ["IMTreatment/core/points.py:Points.order_on_line", "IMTreatment/core/points.py:Points.xy"]}
{"id": "C260", "title": "The evolution along a trajectory is read in the field of the time of each point", "statement": "get_evolution_on_tsf gives a profile with one sample per point: the value at the place of the point in the field whose time is the value of the point, against the time, x or y of the point, masked exactly where it is NaN, sorted; the units are those of the axis and of the fields.", "quantifier": "all trajectories whose times are in the collection, all collections, axes and interpolators", "why_tests_cant": "all trajectories and fields", "anchors": ["IMTreatment/core/points.py:Points.get_evolution_on_tsf"]}
{"id": "C261", "title": "The evolution along a trajectory refuses the times it does not know", "statement": "get_evolution_on_tsf raises IndexError when a time of the trajectory is not one of the collection, whatever the axis; points without values are refused, by ValueError for the axis of the times and IndexError for the others.", "quantifier": "all trajectories, collections and axes", "why_tests_cant": "all positions of the missing time", "anchors": ["IMTreatment/core/points.py:Points.get_evolution_on_tsf"]}
{"id": "C262", "title": "Stream lines issued from oriented points", "statement": "In a field with square cells, get_streamlines_from_orientations returns exactly the lines followed from the two places at a quarter of a cell around each point along each of its non null directions, upstream or downstream according to the flag of that direction, each preceded by the point, with its units and without times. A set without orientations is refused (IndexError), as is a wrong number of flags (ValueError).", "quantifier": "all oriented points, numbers of directions, flags, fields with square cells and results of get_streamlines", "why_tests_cant": "all sets, directions and results of the integration", "anchors": ["IMTreatment/core/orientedpoints.py:OrientedPoints.get_streamlines_from_orientations"]}
{"id": "C263", "title": "Stream lines from oriented points start at a quarter of a cell", "statement": "The places from which the lines of get_streamlines_from_orientations are followed are at a quarter of a cell from the point, along x and along y.", "quantifier": "all fields and oriented points", "why_tests_cant": "it holds when cells are square", "anchors": ["IMTreatment/core/orientedpoints.py:OrientedPoints.get_streamlines_from_orientations"]}
{"id": "C264", "title": "The gradient field holds the slopes of the asked component", "statement": "get_grad_field(field, 'x' or 'y') returns a field on the same grid whose components are, at each point, the slopes along x and along y of the x or y component: difference quotients between the neighbours, one sided at the borders. A point is masked exactly when one of the points used is masked. Linear fields give their exact coefficients everywhere. Other directions are refused (ValueError).", "quantifier": "all vector fields on evenly spaced grids, all masks, both directions", "why_tests_cant": "all grids and masks", "anchors": ["IMTreatment/field_treatment/field_treatment.py:get_grad_field", "IMTreatment/field_treatment/field_treatment.py:get_gradients"]}
{"id": "C265", "title": "The gradient field has the unit of a gradient", "statement": "The unit of the values given by get_grad_field is the unit of the field divided by the unit of the lengths.", "quantifier": "all vector fields", "why_tests_cant": "it holds when lengths have no unit", "anchors": ["IMTreatment/field_treatment/field_treatment.py:get_grad_field"]}
{"id": "C266", "title": "The shear stress of a field holds the crossed slopes", "statement": "For a field without missing values, get_shear_stress returns a field on the same grid, nothing being masked, with at each point the slope of vy along x and the slope of vx along y; linear fields give the exact coefficients.", "quantifier": "all vector fields without missing values on evenly spaced grids", "why_tests_cant": "all grids and values", "anchors": ["IMTreatment/field_treatment/field_treatment.py:get_shear_stress"]}
{"id": "C267", "title": "Missing values are filled before the shear stress is computed", "statement": "get_shear_stress fills the missing values inside the field, so that the stress is known at every point.", "quantifier": "all fields with isolated missing values", "why_tests_cant": "it holds without missing values", "anchors": ["IMTreatment/field_treatment/field_treatment.py:get_shear_stress"]}
{"id": "C268", "title": "The shear stress of a field has the unit of a gradient", "statement": "The unit of get_shear_stress is the unit of the field divided by the unit of the lengths.", "quantifier": "all vector fields", "why_tests_cant": "it holds when lengths have no unit", "anchors": ["IMTreatment/field_treatment/field_treatment.py:get_shear_stress"]}
{"id": "C269", "title": "The simple wall shear stress is the viscosity times the slope", "statement": "For an evenly spaced profile and a positive viscosity, get_shear_stress with method 'simple' gives, at each position of the profile, rho nu times the gradient of the profile (masked where it is unknown), with unit_y/unit_x times that of the viscosity; for u = a x + b it is rho nu a everywhere.", "quantifier": "all evenly spaced profiles, masks, densities and positive viscosities", "why_tests_cant": "all profiles", "anchors": ["IMTreatment/boundary_layer/boundary_layer.py:get_shear_stress"]}
{"id": "C270", "title": "The linear law of the wall gives rho nu u / x above the wall", "statement": "With method 'wall_law_lin', the samples returned are exactly those at positive positions, in order, with the value rho nu u/x and their mask; the unit is unit_y/unit_x times that of the viscosity.", "quantifier": "all profiles, densities and positive viscosities", "why_tests_cant": "all profiles and positions of the wall", "anchors": ["IMTreatment/boundary_layer/boundary_layer.py:get_shear_stress"]}
{"id": "C271", "title": "A viscosity which is not positive is refused", "statement": "get_shear_stress at a wall raises ValueError when nu is null or negative, whatever the method and the profile.", "quantifier": "all profiles, methods, densities and nu <= 0", "why_tests_cant": "all values", "anchors": ["IMTreatment/boundary_layer/boundary_layer.py:get_shear_stress"]}
{"id": "C272", "title": "The laminar layer of Blasius", "statement": "For positive velocity and viscosity, get_BL_properties gives at each laminar position x >= 0 the thickness delta with delta^2 U = c^2 nu x (c = 4.91 or 3.92), the momentum thickness with delta2^2 U = 0.664^2 nu x, delta_star = 2.59 delta2, H = 2.59, the Reynolds number U x/nu, the friction with Cf^2 Rex = 0.664^2 and tau_w = Cf rho U^2/2. Other values of bl_perc are refused (ValueError).", "quantifier": "all flows, lists of laminar positions and percentages", "why_tests_cant": "all real positions and flows", "anchors": ["IMTreatment/boundary_layer/boundary_layer.py:BlasiusBL.get_BL_properties"]}
{"id": "C273", "title": "The boundary layer grows along the plate", "statement": "The thickness given by get_BL_properties increases strictly with x, also across the transition from laminar to turbulent and in fully turbulent mode; positions are never refused.", "quantifier": "all flows and pairs of positions", "why_tests_cant": "all pairs of positions, among which those around the transition", "anchors": ["IMTreatment/boundary_layer/boundary_layer.py:BlasiusBL.get_BL_properties"]}
{"id": "C274", "title": "The position of a laminar layer is found back from its thickness", "statement": "get_x_from_delta applied to the thickness computed at a laminar x returns x.", "quantifier": "all flows and laminar positions", "why_tests_cant": "a test with a tolerance of one percent passes", "anchors": ["IMTreatment/boundary_layer/boundary_layer.py:BlasiusBL.get_x_from_delta", "IMTreatment/boundary_layer/boundary_layer.py:BlasiusBL.get_BL_properties"]}
{"id": "C275", "title": "The position of a turbulent layer is found back from its thickness", "statement": "get_x_from_delta applied to the thickness computed at a turbulent x (Rex >= 5e5 or allTurbulent) returns x.", "quantifier": "all flows and turbulent positions", "why_tests_cant": "all real positions; the choice between the two formulas depends on a laminar guess", "anchors": ["IMTreatment/boundary_layer/boundary_layer.py:BlasiusBL.get_x_from_delta", "IMTreatment/boundary_layer/boundary_layer.py:BlasiusBL.get_BL_properties"]}
{"id": "C276", "title": "The laminar layer satisfies the momentum equation", "statement": "Along the laminar layer, the derivative of the momentum thickness given by get_BL_properties is half the friction coefficient it gives.", "quantifier": "all flows and laminar positions", "why_tests_cant": "a derivative at all positions", "anchors": ["IMTreatment/boundary_layer/boundary_layer.py:BlasiusBL.get_BL_properties"]}
{"id": "C277", "title": "The thicknesses are positive and ordered", "statement": "For x > 0, get_BL_properties gives 0 < delta2 < delta_star < delta.", "quantifier": "all flows and positions", "why_tests_cant": "it holds in laminar flows", "anchors": ["IMTreatment/boundary_layer/boundary_layer.py:BlasiusBL.get_BL_properties"]}
{"id": "C278", "title": "The 95 % thickness is refused for turbulent layers", "statement": "get_BL_properties with bl_perc='95' raises NotImplementedError as soon as one of the positions is turbulent, wherever it is in the list.", "quantifier": "all flows and lists", "why_tests_cant": "all lists", "anchors": ["IMTreatment/boundary_layer/boundary_layer.py:BlasiusBL.get_BL_properties"]}
{"id": "C279", "title": "Confinement reduces the thickness", "statement": "get_thickness_with_confinement returns, for each position, delta - 0.26547 delta^2/h; when delta is at most the depth h this is between 0.73453 delta and delta.", "quantifier": "all flows, positions and depths", "why_tests_cant": "all real values", "anchors": ["IMTreatment/boundary_layer/boundary_layer.py:BlasiusBL.get_thickness_with_confinement"]}
{"id": "C280", "title": "The confined thickness is not negative", "statement": "get_thickness_with_confinement returns thicknesses that are not negative.", "quantifier": "all flows, positions and depths", "why_tests_cant": "it holds for deep water", "anchors": ["IMTreatment/boundary_layer/boundary_layer.py:BlasiusBL.get_thickness_with_confinement"]}
{"id": "C281", "title": "Laminar profiles are those of Blasius", "statement": "get_profile(x, y) with y starting at the wall gives at each y the velocity U F'(y/sqrt(nu x/U)), F being the solution of Blasius' equation; it is null at the wall, and the profile at k x with the positions multiplied by sqrt(k) has the same velocities.", "quantifier": "all flows, positions, lists of y and exact integrators", "why_tests_cant": "all flows and lists", "anchors": ["IMTreatment/boundary_layer/boundary_layer.py:BlasiusBL.get_profile"]}
{"id": "C282", "title": "The velocity at a point does not depend on the other points asked", "statement": "get_profile gives at a given y the same velocity whatever the other values of y asked.", "quantifier": "all flows and lists of y", "why_tests_cant": "it holds when lists start at the wall", "anchors": ["IMTreatment/boundary_layer/boundary_layer.py:BlasiusBL.get_profile"]}
{"id": "C283", "title": "Turbulent profiles are available", "statement": "get_profile with allTurbulent=True returns a profile.", "quantifier": "all flows and positions", "why_tests_cant": "a single test would show it; kept as a finding", "anchors": ["IMTreatment/boundary_layer/boundary_layer.py:BlasiusBL.get_profile"]}
{"id": "C284", "title": "The momentum thickness of Thwaites", "statement": "get_momentum_thikness returns the non negative d with d^2 u_e(x)^5.68 = 0.441 nu (integral of u_e^4.68 from 0 to x); in a uniform flow d^2 U = 0.441 nu x; None where u_e is null.", "quantifier": "all external velocities with a primitive, viscosities and positions", "why_tests_cant": "all functions", "anchors": ["IMTreatment/boundary_layer/boundary_layer.py:ThwaitesBL.get_momentum_thikness", "IMTreatment/boundary_layer/boundary_layer.py:ThwaitesBL.u_e_pow"]}
{"id": "C285", "title": "The pressure gradient parameter of Thwaites", "statement": "The lambda given by ThwaitesBL.get_BL_properties is delta2^2/nu times the derivative of the external velocity.", "quantifier": "all linear external velocities and evenly spaced positions", "why_tests_cant": "it holds for positions spaced by one metre", "anchors": ["IMTreatment/boundary_layer/boundary_layer.py:ThwaitesBL.get_BL_properties"]}
{"id": "C286", "title": "The shape factor of Thwaites", "statement": "In ThwaitesBL.get_BL_properties, H is between 2.2 and 4 where |lambda| < 0.1 and nan elsewhere, and delta_star = H delta2; in a uniform flow lambda = 0 and H = 2.61 everywhere.", "quantifier": "all external velocities and lists of at least two positions", "why_tests_cant": "all functions and lists", "anchors": ["IMTreatment/boundary_layer/boundary_layer.py:ThwaitesBL.get_BL_properties"]}
{"id": "C287", "title": "The similarity variable and the height are inverse of each other", "statement": "get_mu(x, get_y(x, mu)) = mu.", "quantifier": "all layers (m > -1), positions x > 0 and values of mu", "why_tests_cant": "it holds for m = 1", "anchors": ["IMTreatment/boundary_layer/boundary_layer.py:FalknerSkanBL.get_mu", "IMTreatment/boundary_layer/boundary_layer.py:FalknerSkanBL.get_y"]}
{"id": "C288", "title": "Growth of the layer of Falkner and Skan", "statement": "For mu > 0, get_y(x, mu) increases strictly with x when m < 1, is constant when m = 1 and decreases strictly when m > 1.", "quantifier": "all layers and pairs of positions", "why_tests_cant": "all real exponents and positions", "anchors": ["IMTreatment/boundary_layer/boundary_layer.py:FalknerSkanBL.get_y", "IMTreatment/boundary_layer/boundary_layer.py:FalknerSkanBL.get_u_e"]}
{"id": "C289", "title": "The search for f''(0) starts from two integrated guesses around the target", "statement": "When a starting interval is chosen, its ends are guesses whose integration succeeded; when such guesses give f'(10) on both sides of 1, so do the ends.", "quantifier": "all results of the integrations of the guesses", "why_tests_cant": "all lists of results, with failures anywhere", "anchors": ["IMTreatment/boundary_layer/boundary_layer.py:FalknerSkanBL.get_f_function"]}
{"id": "C290", "title": "A starting interval is found whenever guesses lie on both sides of the target", "statement": "When integrated guesses give f'(10) below and above 1, get_f_function finds a starting interval.", "quantifier": "all results of the integrations of the guesses", "why_tests_cant": "depends on the signs of another component", "anchors": ["IMTreatment/boundary_layer/boundary_layer.py:FalknerSkanBL.get_f_function"]}
{"id": "C291", "title": "The shooting method ends with an answer around the target", "statement": "The search performs at most max_it + 2 integrations; started from two values on both sides of 1 its answer lies between the starting ends and belongs to a pair of integrated values whose f'(10) are on both sides of 1 or equal to it; it fails only when an integration fails or gives -1.", "quantifier": "all functions giving f'(10), precisions, max_it and intervals", "why_tests_cant": "all functions; invariant of the loop", "anchors": ["IMTreatment/boundary_layer/boundary_layer.py:FalknerSkanBL.get_f_function"]}
{"id": "C292", "title": "The verbose option only changes what is displayed", "statement": "get_f_function finds the same f''(0) with verbose=True and verbose=False, and stops when the precision is reached.", "quantifier": "all functions, precisions and intervals", "why_tests_cant": "tests are run in one of the two modes", "anchors": ["IMTreatment/boundary_layer/boundary_layer.py:FalknerSkanBL.get_f_function"]}
{"id": "C293", "title": "The profiles of Falkner and Skan satisfy Prandtl's equations", "statement": "The heights and velocities returned by get_profile are those of a steady flow that conserves mass and momentum in the boundary layer approximation with the external velocity get_u_e, and that is null at the wall.", "quantifier": "all layers, positions x > 0, heights and exact solutions of the equation integrated", "why_tests_cant": "partial derivatives at all points", "anchors": ["IMTreatment/boundary_layer/boundary_layer.py:FalknerSkanBL.get_profile", "IMTreatment/boundary_layer/boundary_layer.py:FalknerSkanBL.get_y", "IMTreatment/boundary_layer/boundary_layer.py:FalknerSkanBL.get_u_e", "IMTreatment/boundary_layer/boundary_layer.py:FalknerSkanBL.get_f_function"]}
{"id": "C294", "title": "Eigenvalues of the velocity gradient", "statement": "At each cell whose derivatives are known, get_jacobian_eigenproperties gives the two eigenvalues of the matrix of the derivatives of the field, the first one having the greatest real part; imaginary parts are null where the eigenvalues are real. The arrays of raw=True hold the same values, and zeros where the fields are masked.", "quantifier": "all fields on even grids, masks and cells", "why_tests_cant": "all fields and masks", "anchors": ["IMTreatment/field_treatment/field_treatment.py:get_jacobian_eigenproperties"]}
{"id": "C295", "title": "Eigenvectors of the velocity gradient", "statement": "The two vector fields given by get_jacobian_eigenproperties hold eigenvectors of the matrix of the derivatives, of norm 1.", "quantifier": "all fields and cells", "why_tests_cant": "it holds in strained regions", "anchors": ["IMTreatment/field_treatment/field_treatment.py:get_jacobian_eigenproperties"]}
{"id": "C296", "title": "The unit of the eigenvalues", "statement": "The eigenvalue fields have the unit of the velocity divided by the unit of the axes.", "quantifier": "all fields", "why_tests_cant": "a test with plain numbers does not look at units", "anchors": ["IMTreatment/field_treatment/field_treatment.py:get_jacobian_eigenproperties"]}
{"id": "C297", "title": "Masks of the eigenvalue fields", "statement": "The fields given by get_jacobian_eigenproperties are masked exactly at the cells whose finite differences rest on a masked vector, and have the shape of the field.", "quantifier": "all fields, masks and cells", "why_tests_cant": "all masks", "anchors": ["IMTreatment/field_treatment/field_treatment.py:get_jacobian_eigenproperties"]}
{"id": "C298", "title": "Eigenvalues of linear fields", "statement": "In a linear field, get_jacobian_eigenproperties gives the same eigenvalues and eigenvectors at all the cells, and the eigenvalues are those of the matrix of the field.", "quantifier": "all linear fields, grids and cells", "why_tests_cant": "all coefficients and sizes", "anchors": ["IMTreatment/field_treatment/field_treatment.py:get_jacobian_eigenproperties"]}
{"id": "C299", "title": "Kenwright's fields are null on lines where the velocity keeps its direction", "statement": "One of the two fields of get_Kenwright_field is null at a cell exactly when the velocity there is parallel to its derivative along itself.", "quantifier": "all fields and cells", "why_tests_cant": "it holds in strained regions", "anchors": ["IMTreatment/field_treatment/field_treatment.py:get_Kenwright_field"]}
{"id": "C300", "title": "Masks and unit of Kenwright's fields", "statement": "The fields of get_Kenwright_field are masked exactly where the velocity is masked or its derivatives rest on a masked vector, hold a value elsewhere, and have the unit of the velocity.", "quantifier": "all fields, masks and cells", "why_tests_cant": "all masks", "anchors": ["IMTreatment/field_treatment/field_treatment.py:get_Kenwright_field"]}
{"id": "C301", "title": "The text of a collection of files shows everything once", "statement": "Files.get_tree_representation has one line for each folder, and for each file of a folder or their number when there are more than max_file_list; the lines of what is in a folder follow the line of the folder and are shifted once for each folder above.", "quantifier": "all collections of files, limits and decorations", "why_tests_cant": "all trees", "anchors": ["IMTreatment/utils/files.py:Files.get_tree_representation (60-135)"]}
{"id": "C302", "title": "The heading is the deepest folder above everything", "statement": "With hide_top (and in repr) the heading is the path of the deepest folder that holds all the files, and the lines below show what is in this folder.", "quantifier": "all collections of files", "why_tests_cant": "all trees", "anchors": ["IMTreatment/utils/files.py:Files.get_tree_representation (60-135)", "IMTreatment/utils/files.py:Files.__repr__"]}
{"id": "C303", "title": "Conditional averages along a mean trajectory", "statement": "MeanTrajectory.reconstruct_fields returns, at each averaged time, the average of the fields of the series at the real times associated to it, masked where one of them is masked; it raises an error when a real time is not a time of the series.", "quantifier": "all series of scalar fields on one grid, all mean trajectories", "why_tests_cant": "all series and associations", "anchors": ["IMTreatment/vortex_detection/vortex_detection.py:MeanTrajectory.reconstruct_fields (2590-2613)"]}
{"id": "C304", "title": "The modes as a series", "statement": "ModalFields.modes_as_tf holds the modes in order, the n-th one at the time n, on their axes.", "quantifier": "all bases with at least a mode", "why_tests_cant": "all bases", "anchors": ["IMTreatment/pod/pod.py:ModalFields.modes_as_tf (140-151)"]}
{"id": "C305", "title": "Smoothing of the temporal evolutions", "statement": "smooth_temporal_evolutions replaces each temporal evolution by its smoothing and changes nothing else; inplace=False returns the base so obtained and leaves the base as it was.", "quantifier": "all bases and smoothings", "why_tests_cant": "all bases", "anchors": ["IMTreatment/pod/pod.py:ModalFields.smooth_temporal_evolutions (347-369)"]}
{"id": "C306", "title": "Smoothing of the modes", "statement": "smooth_spatial_evolutions replaces each mode by its smoothing and changes nothing else; inplace=False returns the base so obtained and leaves the base as it was.", "quantifier": "all bases and smoothings", "why_tests_cant": "all bases", "anchors": ["IMTreatment/pod/pod.py:ModalFields.smooth_spatial_evolutions (371-391)"]}
{"id": "C307", "title": "The critical energy decreases with the number of points", "statement": "get_critical_kappa is positive, decreases when points are added along any axis, does not depend on the order of the axes, and goes to 1 - 0.98559246 on long lines.", "quantifier": "all numbers of points", "why_tests_cant": "all sizes", "anchors": ["IMTreatment/pod/pod.py:ModalFields.get_critical_kappa (603-617)"]}
{"id": "C308", "title": "The field around a point", "statement": "VF.get_field_around_pt gives the field restricted to the columns and lines at less than half of nmb_lc steps, rounded up, from the point: each cell kept has its position, components, angle and mask; ValueError is raised when nothing is left.", "quantifier": "all fields, points and numbers of lines", "why_tests_cant": "all fields and points", "anchors": ["IMTreatment/vortex_detection/vortex_detection.py:VF.get_field_around_pt (359-390)"]}
{"id": "C309", "title": "The number of lines around a point", "statement": "Around a node of an even grid that is far enough from the borders, VF.get_field_around_pt takes nmb_lc lines and nmb_lc columns, centred on the node.", "quantifier": "all even grids, nodes and numbers of lines", "why_tests_cant": "all grids and nodes", "anchors": ["IMTreatment/vortex_detection/vortex_detection.py:VF.get_field_around_pt (359-390)"]}
{"id": "C310", "title": "Local marginal values", "statement": "Profile.remove_local_marginal_values adds to the mask exactly the points whose difference with the smoothed profile is further from the average difference than fact standard deviations; nothing else changes, no point leaves the mask, at most one known point in fact^2 is added and one stays when fact is at least 1.", "quantifier": "all profiles, smoothings and factors", "why_tests_cant": "all profiles and smoothings", "anchors": ["IMTreatment/core/profile.py:Profile.remove_local_marginal_values (1897-1926)"]}
{"id": "C311", "title": "Vector fields from text files", "statement": "import_vfs_from_ascii returns the series of the fields read from the selected files.", "quantifier": "all sets of files and arguments", "why_tests_cant": "all sets of files", "anchors": ["IMTreatment/file_operation/file_operation.py:import_vfs_from_ascii (1821-1898)"]}
{"id": "C312", "title": "What check_consistency accepts", "statement": "VectorField.check_consistency raises nothing exactly when the arrays have the shape given by the axes and every cell is masked or holds known components.", "quantifier": "all vector fields", "why_tests_cant": "all shapes, values and masks", "anchors": ["IMTreatment/core/vectorfield.py:VectorField.check_consistency (575-602)"]}
{"id": "C313", "title": "Imported vector fields are consistent", "statement": "A vector field made by import_from_arrays passes check_consistency.", "quantifier": "all arrays, axes and masks", "why_tests_cant": "all arrays", "anchors": ["IMTreatment/core/vectorfield.py:VectorField.import_from_arrays", "IMTreatment/core/vectorfield.py:VectorField.check_consistency (575-602)"]}
{"id": "C314", "title": "The profile of a confined layer", "statement": "BlasiusBL.get_profile_with_confinement gives the profile of the position where the layer has the confined thickness.", "quantifier": "all layers, positions and depths", "why_tests_cant": "all real positions and depths", "anchors": ["IMTreatment/boundary_layer/boundary_layer.py:BlasiusBL.get_profile_with_confinement (255-284)"]}
{"id": "C315", "title": "The temporal field of a system of vortices", "statement": "VortexSystem.get_temporal_vector_field returns nmb_it + 1 fields: the field number k is that of the system after k evolutions of dt, at the time k dt, in the unit asked.", "quantifier": "all systems, positive time steps and numbers of iterations", "why_tests_cant": "all histories of a system", "anchors": ["IMTreatment/vortex_creation/vortex_creation.py:VortexSystem.get_temporal_vector_field (1028-1048)"]}
{"id": "C316", "title": "VF objects and back", "statement": "A vector field turned into a VF object by velocityfield_to_vf and exported by export_to_velocityfield is the same field.", "quantifier": "all vector fields", "why_tests_cant": "all fields and masks", "anchors": ["IMTreatment/vortex_detection/vortex_detection.py:velocityfield_to_vf (43-57)", "IMTreatment/vortex_detection/vortex_detection.py:VF.export_to_velocityfield (73-82)"]}
{"id": "C317", "title": "Masks as fields", "statement": "mask_as_sf gives a scalar field without mask on the same axes, 1 where the field is masked and 0 elsewhere.", "quantifier": "all scalar and vector fields with at least two points on each increasing axis", "why_tests_cant": "all fields and masks", "anchors": ["IMTreatment/core/scalarfield.py:ScalarField.mask_as_sf (378-384)", "IMTreatment/core/vectorfield.py:VectorField.mask_as_sf (382-388)"]}
{"id": "C318", "title": "The vortices of a field are the zones of its criterion", "statement": "On a vector field, get_vortex_position gives as foc exactly one point per connected zone where the criterion reaches the threshold (to a hundred thousandth of it), at the mean position of the zone weighted by the absolute criterion, and as foc_c the same for the opposite of the criterion; it gives no other point.", "quantifier": "all fields whose criterion has regular axes, all criteria and positive thresholds, relative or absolute", "why_tests_cant": "all fields and criteria", "anchors": ["IMTreatment/vortex_detection/vortex_detection.py:get_vortex_position (2800-2848)", "IMTreatment/vortex_detection/vortex_detection.py:_get_vortex_position_on_VF (2851-2907)"]}
{"id": "C319", "title": "The vortices of temporal fields, time by time", "statement": "On temporal fields, get_vortex_position gives at each time the vortices of the field of that time, and succeeds whenever it does on each field.", "quantifier": "all temporal fields, criteria and thresholds", "why_tests_cant": "all sequences of fields", "anchors": ["IMTreatment/vortex_detection/vortex_detection.py:get_vortex_position (2800-2848)", "IMTreatment/vortex_detection/vortex_detection.py:_get_vortex_position_on_VF (2851-2907)"]}
{"id": "C320", "title": "Every relative threshold from 0 to 1 is accepted", "statement": "get_vortex_position accepts every relative threshold from 0 to 1, and refuses the others.", "quantifier": "all fields, criteria and thresholds", "why_tests_cant": "all fields and thresholds", "anchors": ["IMTreatment/vortex_detection/vortex_detection.py:get_vortex_position (2800-2848)", "IMTreatment/vortex_detection/vortex_detection.py:_get_vortex_position_on_VF (2851-2907)"]}
{"id": "C321", "title": "Asking for coherences leaves the modal fields unchanged", "statement": "get_temporal_coherence and get_spatial_coherence do not change the mean field, modes, evolutions, times or other attributes of the modal fields, so that what is reconstructed afterwards is the same; a second call gives the same values.", "quantifier": "all modal fields of scalars and of vectors", "why_tests_cant": "all bases and histories of calls", "anchors": ["IMTreatment/pod/pod.py:ModalFields.get_temporal_coherence (619-675)", "IMTreatment/pod/pod.py:ModalFields.get_spatial_coherence (677-755)", "IMTreatment/pod/pod.py:ModalFields.crop (247-312)", "IMTreatment/pod/pod.py:ModalFields.crop_modal_base (154-245)"]}
{"id": "C322", "title": "The coherences are those of the present modal fields", "statement": "After any crops in space or time and any selections of modes, the coherences given are those of the modal fields as they are, not those computed earlier on other modal fields.", "quantifier": "all modal fields and sequences of calls of the coherences, crop and crop_modal_base", "why_tests_cant": "all histories of calls", "anchors": ["IMTreatment/pod/pod.py:ModalFields.get_temporal_coherence (619-675)", "IMTreatment/pod/pod.py:ModalFields.get_spatial_coherence (677-755)", "IMTreatment/pod/pod.py:ModalFields.crop (247-312)", "IMTreatment/pod/pod.py:ModalFields.crop_modal_base (154-245)"]}
{"id": "C323", "title": "Clauser's thickness", "statement": "get_clauser_thickness of a profile, given the wall shear stress tau and the density rho, is the integral of (u_top - u)/u_star along the height, where u_star squared is tau/rho and u_top the last velocity; of a scalar field it is the profile of the thicknesses of its lines.", "quantifier": "all profiles, scalar fields, stresses and densities", "why_tests_cant": "all velocity profiles", "anchors": ["IMTreatment/boundary_layer/boundary_layer.py:get_clauser_thickness (857-903)", "IMTreatment/boundary_layer/boundary_layer.py:get_displ_thickness (906-948)"]}
{"id": "C324", "title": "Components of temporal vector fields as temporal scalar fields", "statement": "Vx_as_sf and Vy_as_sf give a series with the same times, unit of times and axes, whose field at each time holds the component of the vectors at each place, masked where the vector is masked or the component is NaN.", "quantifier": "all temporal vector fields with increasing times", "why_tests_cant": "all series and masks", "anchors": ["IMTreatment/core/temporalvectorfields.py:TemporalVectorFields.Vx_as_sf (39-45), Vy_as_sf (55-61)"]}
{"id": "C325", "title": "Places that are always masked, as a field", "statement": "mask_cum_as_sf is, on the axes of the series and without mask, 1 at the places masked in every field and 0 at the others.", "quantifier": "all temporal scalar and vector fields", "why_tests_cant": "all series and masks", "anchors": ["IMTreatment/core/temporalfields.py:TemporalFields.mask_cum_as_sf (225-232)", "IMTreatment/core/temporalfields.py:TemporalFields.mask_cum (219-223)"]}
