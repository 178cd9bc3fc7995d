{
 "claims": [
  {
   "property": "C01",
   "status": "proved",
   "theorems": [
    "C01_bounds",
    "C01_bad_direction"
   ],
   "note": "Scalar and vector fields share get_indice_on_axe; both directions, exact error condition."
  },
  {
   "property": "C02",
   "status": "proved",
   "theorems": [
    "C02_nearest"
   ],
   "note": "Minimal distance, ties go to the upper coordinate."
  },
  {
   "property": "C03",
   "status": "proved",
   "theorems": [
    "C03_decimal"
   ],
   "note": "Inverse of linear interpolation of the axis."
  },
  {
   "property": "C04",
   "status": "proved",
   "theorems": [
    "C04_scalar",
    "C04_vector",
    "C04_vector_errors"
   ],
   "note": "Scalar and vector fields; exact ValueError condition."
  },
  {
   "property": "C05",
   "status": "partial",
   "theorems": [
    "C05_scalar_partial",
    "C05_vector_partial",
    "C05_first_column_refuted"
   ],
   "note": "Proved for every index pair except hi = 0; the code rejects the pair (0, 0) (C05_first_column_refuted)."
  },
  {
   "property": "C06",
   "status": "proved",
   "theorems": [
    "C06_scalar",
    "C06_vector",
    "C06_bad_angle_scalar",
    "C06_bad_angle_vector",
    "C06_single_line_refuted"
   ],
   "note": "All fields with two points per axis (the property's quantifier). C06_single_line_refuted shows that the restriction is needed. For vector fields NaN components come in pairs (kept by import and mask)."
  },
  {
   "property": "C07",
   "status": "proved",
   "theorems": [
    "C07_scalar",
    "C07_vector",
    "C07_full_turn_scalar",
    "C07_full_turn_vector"
   ],
   "note": "Scalar and vector fields."
  },
  {
   "property": "C08",
   "status": "proved",
   "theorems": [
    "C08_scalar_x",
    "C08_scalar_y",
    "C08_scalar_values",
    "C08_vector_axes",
    "C08_vector_values",
    "C08_scalar_x_back",
    "C08_scalar_y_back",
    "C08_scalar_values_back",
    "C08_vector_values_back",
    "C08_points",
    "C08_points_back",
    "C08_profile_x",
    "C08_profile_y",
    "C08_profile_incompatible"
   ],
   "note": "Scalar fields, vector fields, profiles and points."
  },
  {
   "property": "C09",
   "status": "proved",
   "theorems": [
    "C09_translation",
    "C09_back",
    "C09_points",
    "C09_points_back"
   ],
   "note": "Scalar fields and point sets."
  },
  {
   "property": "C10",
   "status": "partial",
   "theorems": [
    "C10_scalar",
    "C10_vector_partial",
    "C10_vector_mask_refuted",
    "C10_points"
   ],
   "note": "Proved for scalar fields and for the components of vector fields; the mask of a vector field is not reversed with a negative factor (C10_vector_mask_refuted)."
  },
  {
   "property": "C11",
   "status": "proved",
   "theorems": [
    "C11_scalar",
    "C11_vector",
    "C11_copy_raises"
   ],
   "note": "inplace=True as stated; with the default inplace=False the code raises NameError (C11_copy_raises)."
  },
  {
   "property": "C12",
   "status": "proved",
   "theorems": [
    "C12_disc"
   ],
   "note": "ind=True as stated."
  },
  {
   "property": "C13",
   "status": "partial",
   "theorems": [
    "C13_masked_reads_nan",
    "C13_history_partial",
    "C13_reveal_refuted"
   ],
   "note": "Masked implies NaN always. NaN implies masked, and unmasked values are those last assigned, when no mask assignment reveals a masked cell; otherwise refuted (C13_reveal_refuted)."
  },
  {
   "property": "C14",
   "status": "proved",
   "theorems": [
    "C14_sum",
    "C14_commutes",
    "C14_incompatible"
   ],
   "note": "Units of the values are converted."
  },
  {
   "property": "C15",
   "status": "partial",
   "theorems": [
    "C15_common_points_partial",
    "C15_no_common_point",
    "C15_single_line_refuted",
    "C15_axis_units_refuted"
   ],
   "note": "Proved when each axis has two common coordinates; a single common line raises IndexError (C15_single_line_refuted), and axes in different length units are compared as bare numbers (C15_axis_units_refuted)."
  },
  {
   "property": "C16",
   "status": "partial",
   "theorems": [
    "C16_field_by_field",
    "C16_field_by_array",
    "C16_number_by_field_refuted",
    "C16_array_by_field_refuted"
   ],
   "note": "Proved for field/field and field/array; number/field and array/field do not mask zeros (refuted)."
  },
  {
   "property": "C17",
   "status": "partial",
   "theorems": [
    "C17_soft_partial",
    "C17_unmasked_field_refuted",
    "C17_first_row_refuted"
   ],
   "note": "Proved when something is masked and there is an unmasked cell off the first row and one off the first column; refuted otherwise (returns None, or ValueError)."
  },
  {
   "property": "C18",
   "status": "partial",
   "theorems": [
    "C18_hard_partial",
    "C18_raises_refuted"
   ],
   "note": "Termination and cleanness of every returned field proved; the code raises ValueError on some masks (C18_raises_refuted)."
  },
  {
   "property": "C19",
   "status": "proved",
   "theorems": [
    "C19_iteration",
    "C19_scatter"
   ],
   "note": "Iteration and scatter export, with an optional extra mask."
  },
  {
   "property": "C20",
   "status": "partial",
   "theorems": [
    "C20_import_partial",
    "C20_transposed",
    "C20_mask_refuted"
   ],
   "note": "Proved for increasing axes, for decreasing axes without mask, and for transposed arrays; the mask is not reversed (C20_mask_refuted)."
  },
  {
   "property": "C21",
   "status": "proved",
   "theorems": [
    "C21_on_grid",
    "C21_between_x",
    "C21_between_y",
    "C21_in_cell",
    "C21_outside"
   ],
   "note": "Inside a cell scipy's interpolator is an arbitrary parameter; only masking is claimed there."
  },
  {
   "property": "C22",
   "status": "partial",
   "theorems": [
    "C22_construction",
    "C22_step_partial",
    "C22_history_partial",
    "C22_wrong_length_refuted"
   ],
   "note": "Construction, every operation (with its exact effect on the samples; a raised exception leaves the profile unchanged) and every run, for assignments of the right length. An assignment of the wrong length raises after x was replaced (C22_wrong_length_refuted)."
  },
  {
   "property": "C23",
   "status": "partial",
   "theorems": [
    "C23_crop_partial",
    "C23_index_crop",
    "C23_index_crop_errors",
    "C23_outside",
    "C23_reversed",
    "C23_lost_point_refuted",
    "C23_outside_point_refuted"
   ],
   "note": "Exact when the lower bound is a stored x (or below all of them) and the upper bound is in (first, last]; other intervals lose points or keep points outside (refuted). Index crop exact."
  },
  {
   "property": "C24",
   "status": "proved",
   "theorems": [
    "C24_node",
    "C24_between",
    "C24_outside",
    "C24_array"
   ],
   "note": "Strictly increasing x; a masked neighbour gives NaN. A scalar outside the range gives an empty result, an array gives NaN."
  },
  {
   "property": "C25",
   "status": "partial",
   "theorems": [
    "C25_same_scale_partial",
    "C25_incompatible",
    "C25_scales_refuted"
   ],
   "note": "Proved for equal scale factors; with different ones the conversion factor is inverted (C25_scales_refuted)."
  },
  {
   "property": "C26",
   "status": "partial",
   "theorems": [
    "C26_points_add_refuted",
    "C26_points_add_partial",
    "C26_profile_div_partial",
    "C26_profile_div_refuted"
   ],
   "note": "Profiles: the divisor is unchanged when it has no zero, otherwise refuted. Points: the second operand is unchanged when the scales agree, otherwise its coordinates are multiplied in place (refuted)."
  },
  {
   "property": "C27",
   "status": "proved",
   "theorems": [
    "C27_area",
    "C27_additive",
    "C27_homogeneous",
    "C27_sum",
    "C27_bounds"
   ],
   "note": "Area, additivity at an unmasked node, homogeneity, sum of two profiles, bounds."
  },
  {
   "property": "C28",
   "status": "proved",
   "theorems": [
    "C28_crop",
    "C28_index_crop"
   ],
   "note": "Intervals on x, y and v, and the index form."
  },
  {
   "property": "C29",
   "status": "proved",
   "theorems": [
    "C29_sort",
    "C29_errors"
   ],
   "note": "For any correct argsort, whatever it does with ties."
  },
  {
   "property": "C30",
   "status": "partial",
   "theorems": [
    "C30_remove_partial",
    "C30_bad_index",
    "C30_cut_partial",
    "C30_values_lost_refuted",
    "C30_cut_values_refuted",
    "C30_cut_nothing_refuted"
   ],
   "note": "The designated points are removed and the others keep their position; the values of all the points are lost (C30_values_lost_refuted, C30_cut_values_refuted)."
  },
  {
   "property": "C31",
   "status": "partial",
   "theorems": [
    "C31_refuted",
    "C31_success_partial"
   ],
   "note": "The failing call has already added the point (C31_refuted); the successful call is characterised."
  },
  {
   "property": "C32",
   "status": "proved",
   "theorems": [
    "C32_density"
   ],
   "note": "subres=None, raw=False; cell by cell and in total."
  },
  {
   "property": "C33",
   "status": "proved",
   "theorems": [
    "C33_sorted_aligned",
    "C33_times_kept",
    "C33_add",
    "C33_remove",
    "C33_remove_bad_index"
   ],
   "note": "All histories; for any correct argsort."
  },
  {
   "property": "C34",
   "status": "partial",
   "theorems": [
    "C34_decreasing_partial",
    "C34_list_refuted",
    "C34_misaligned_refuted"
   ],
   "note": "Right for strictly decreasing index lists; otherwise other frames are removed, or times and frames lose their alignment (refuted)."
  },
  {
   "property": "C35",
   "status": "proved",
   "theorems": [
    "C35_scalar",
    "C35_vector",
    "C35_outside"
   ],
   "note": "Scalar and vector series. An interval between two consecutive times gives an empty series."
  },
  {
   "property": "C36",
   "status": "partial",
   "theorems": [
    "C36_scalar_partial",
    "C36_vector_partial",
    "C36_min_values_refuted"
   ],
   "note": "Averages proved for scalar and vector series, but the mask is set where at most nmb_min values exist instead of fewer than nmb_min (C36_min_values_refuted)."
  },
  {
   "property": "C37",
   "status": "partial",
   "theorems": [
    "C37_means_partial",
    "C37_pick_partial",
    "C37_all_groups_partial",
    "C37_last_group_refuted",
    "C37_one_group_refuted"
   ],
   "note": "Means and times of the groups proved (scalar; mean=False for all kinds); when n divides the number of frames the last complete group is dropped and a single group is refused (refuted)."
  },
  {
   "property": "C38",
   "status": "partial",
   "theorems": [
    "C38_guard_partial",
    "C38_refuted",
    "C38_shapes_refuted"
   ],
   "note": "The guard only refuses another x axis with the same y axis; other axes are accepted (refuted)."
  },
  {
   "property": "C39",
   "status": "partial",
   "theorems": [
    "C39_same_unit_partial",
    "C39_refuted"
   ],
   "note": "Same unit proved; the conversion is inverted (C39_refuted)."
  },
  {
   "property": "C40",
   "status": "partial",
   "theorems": [
    "C40_values_partial",
    "C40_times_lost",
    "C40_refuted",
    "C40_division_refuted"
   ],
   "note": "The product multiplies the frames but loses the times and their unit; the quotient by a number always raises (refuted)."
  },
  {
   "property": "C41",
   "status": "partial",
   "theorems": [
    "C41_stored",
    "C41_outside",
    "C41_scalar",
    "C41_vector",
    "C41_list_refuted"
   ],
   "note": "Stored times, outside, and between two frames proved (increasing times). After augment_temporal_resolution a stored time raises TypeError (refuted)."
  },
  {
   "property": "C42",
   "status": "proved",
   "theorems": [
    "C42_recurrence"
   ],
   "note": "Integer norms; the root is a parameter; normalized=False."
  },
  {
   "property": "C43",
   "status": "partial",
   "theorems": [
    "C43_in_place",
    "C43_in_place_no_time",
    "C43_copy_times_only_partial",
    "C43_refuted"
   ],
   "note": "In place: exact. For a copy: right when only a time interval is given; with a spatial interval the copy is left uncropped and the original is cropped (C43_refuted)."
  },
  {
   "property": "C44",
   "status": "partial",
   "theorems": [
    "C44_exact_partial",
    "C44_refuted"
   ],
   "note": "The iteration is right exactly when all the points are equal; refuted in general."
  },
  {
   "property": "C45",
   "status": "proved",
   "theorems": [
    "C45_invariant",
    "C45_add",
    "C45_add_twice",
    "C45_add_error",
    "C45_add_accepts",
    "C45_add_units",
    "C45_remove_time",
    "C45_remove_index",
    "C45_sum",
    "C45_sum_empty"
   ],
   "note": "Histories are sequences of constructor, add_point, remove_point, sums, compute_traj, clean_traj, set_origin, scale (positive time factor) and crop, including calls that raise. A rejected add_point may still have replaced the units recorded by an empty object."
  },
  {
   "property": "C46",
   "status": "proved",
   "theorems": [
    "C46_partition"
   ],
   "note": "Whatever the order numpy's argsort gives to ties. The steps of a trajectory are those of C47."
  },
  {
   "property": "C47",
   "status": "partial",
   "theorems": [
    "C47_squared_partial",
    "C47_large_partial",
    "C47_refuted",
    "C47_unlinked_refuted"
   ],
   "note": "The code compares the squared distance with epsilon itself: with epsilon below 1 points farther than epsilon are linked, with epsilon above 1 points nearer than epsilon are not. Proved: squared distances are at most epsilon, the matching is stable for that threshold, and distances are at most epsilon when epsilon is at least 1."
  },
  {
   "property": "C48",
   "status": "partial",
   "theorems": [
    "C48_add_refuted",
    "C48_remove_refuted",
    "C48_refuted",
    "C48_clean_partial"
   ],
   "note": "add_point and remove_point only forget epsilon: the old trajectories stay available and no longer match the points. Proved: clean_traj refuses to run until compute_traj is called again."
  },
  {
   "property": "C49",
   "status": "partial",
   "theorems": [
    "C49_terminates_partial",
    "C49_replacement_partial",
    "C49_groups_partial",
    "C49_replacement_apart_partial",
    "C49_replacement_index_partial",
    "C49_far_partial",
    "C49_delete_partial",
    "C49_delete_index_partial",
    "C49_delete_apart_partial",
    "C49_frame_partial",
    "C49_index_refuted",
    "C49_crit_points_refuted",
    "C49_empty_refuted"
   ],
   "note": "Proved: termination, the groups merged and their centres, distances after simplification, conservation of the index by only_delete and by replacement when no group has an index beyond 1 in absolute value. Refuted: two close foci become a point of type 0, which loses their index. CritPoints.topo_simplify raises TypeError as soon as there is a time (numpy integers are refused), and simplify raises on an empty set."
  },
  {
   "property": "C50",
   "status": "proved",
   "theorems": [
    "C50_integer",
    "C50_cell",
    "C50_columns",
    "C50_rows",
    "C50_whole_border",
    "C50_angle",
    "C50_winding"
   ],
   "note": "Proved over the reals: the sum of the wrapped differences is exactly 2 pi times an integer, so rounding changes nothing; additivity in both directions; winding number for fields that do not vanish on the grid lines, with the signed angle shown to exist and to be unique."
  },
  {
   "property": "C51",
   "status": "partial",
   "theorems": [
    "C51_sound",
    "C51_filter_partial",
    "C51_complete_partial",
    "C51_refuted"
   ],
   "note": "Every reported point is sound, for every field. Completeness is proved for fields without masked value whose interpolated velocity does not vanish on the grid lines; it is refuted when two neighbours have exactly opposite velocities (a cell of index 1 is skipped)."
  },
  {
   "property": "C52",
   "status": "partial",
   "theorems": [
    "C52_ids",
    "C52_counter",
    "C52_removed",
    "C52_out_of_range_partial",
    "C52_number_partial",
    "C52_number_refuted",
    "C52_negative_index_refuted"
   ],
   "note": "Ids and the id counter proved over all histories; the removed vortex is the designated one. nmb_vortex is not updated by remove_vortex (refuted, right without removals), and an index between -2n and -n-1 removes a vortex instead of raising (refuted)."
  },
  {
   "property": "C53",
   "status": "partial",
   "theorems": [
    "C53_no_penetration_partial",
    "C53_symmetry_partial",
    "C53_stays_on_wall_partial",
    "C53_hill_refuted",
    "C53_parallel_refuted"
   ],
   "note": "Proved for the axisymmetric kinds (solid, free, Burger, Lamb-Oseen, Rankine, Perso) on any wall followed only by perpendicular walls; refuted for the Hill vortex; parallel walls need infinitely many images (refuted). The Lamb-Chaplygin vortex is modelled but not covered."
  },
  {
   "property": "C54",
   "status": "proved",
   "theorems": [
    "C54_sum_of_reflections",
    "C54_superposition",
    "C54_selection",
    "C54_none",
    "C54_request_changes_nothing",
    "C54_vector_field"
   ],
   "note": "Velocity = sum over vortices of the velocity of all their reflections, over all histories; the compounded vectors sum to it; selection by ids; get_vector_field pointwise."
  },
  {
   "property": "C55",
   "status": "partial",
   "theorems": [
    "C55_aligned",
    "C55_add",
    "C55_concat",
    "C55_remove_one",
    "C55_remove_bad_index",
    "C55_remove_list_partial",
    "C55_remove_list_refuted",
    "C55_regex_refuted",
    "C55_numpy_refuted"
   ],
   "note": "Alignment over all histories, additions, concatenations and the removal of one index are proved; a list of indices is removed correctly when strictly decreasing, else other files are (refuted); regular expressions and numpy integers always raise (refuted)."
  },
  {
   "property": "C56",
   "status": "partial",
   "theorems": [
    "C56_returns_value",
    "C56_answers",
    "C56_once_partial",
    "C56_crash_refuted",
    "C56_shared_file_refuted",
    "C56_lost_update_refuted"
   ],
   "note": "Whatever the calls, crashes and processes, a returned value is the function's value, and an idle process answers; computed once if one process runs at a time and no write is interrupted. Refuted: an interrupted write can block every later run, two functions sharing a file mix values, concurrent processes lose updates."
  },
  {
   "property": "C57",
   "status": "partial",
   "theorems": [
    "C57_type_test_partial",
    "C57_return_test",
    "C57_too_many_refuted",
    "C57_keyword_only_refuted",
    "C57_no_parameter_refuted"
   ],
   "note": "Transparent for accepted types and TypeError without call for a refused one, for well formed calls; refuted for too many arguments (IndexError), keyword-only parameters (unchecked) and functions without parameters."
  },
  {
   "property": "C58",
   "status": "proved",
   "theorems": [
    "C58_lines",
    "C58_interval",
    "C58_after_the_end"
   ],
   "note": "All calls for a positive number of items."
  },
  {
   "property": "C59",
   "status": "partial",
   "theorems": [
    "C59_range_partial",
    "C59_zero_refuted",
    "C59_limit_refuted",
    "C59_limit_zero_refuted",
    "C59_play_refuted"
   ],
   "note": "The index stays in range and no event raises for histories without the number 0 before up or down, limits that are no frame, or a second limit alone; each exclusion is needed (refuted)."
  },
  {
   "property": "C60",
   "status": "partial",
   "theorems": [
    "C60_goto_partial",
    "C60_up_down",
    "C60_goto_last_refuted",
    "C60_play_partial",
    "C60_play_limits_partial",
    "C60_play_last_refuted",
    "C60_save_partial",
    "C60_save_first_refuted",
    "C60_key_forgets",
    "C60_forgotten"
   ],
   "note": "A typed number shows its frame except for the last one (refuted); up and down reach all; playing cycles over all the frames but the last one (refuted); saving records all but the first one (refuted)."
  },
  {
   "property": "C61",
   "status": "partial",
   "theorems": [
    "C61_keep_partial",
    "C61_first_partial",
    "C61_outside",
    "C61_order_refuted",
    "C61_remove_refuted",
    "C61_dmd_refuted",
    "C61_eigvects_refuted"
   ],
   "note": "Modes, numbers and evolutions are taken in the given order; the eigenvalues too when the modes are given in increasing order. Refuted: the eigenvalues of another order are sorted back, so that they belong to other modes; modes_to_remove always raises (np.arrange); a 'dmd' base always raises (it has no eigvals); the eigenvectors lose rows, which are times."
  },
  {
   "property": "C62",
   "status": "proved",
   "theorems": [
    "C62_scalar",
    "C62_vector",
    "C62_additive",
    "C62_additive_vector",
    "C62_default",
    "C62_outside",
    "C62_bad_mode"
   ],
   "note": "kind 'pod' and 'bpod'; the frames are masked where the first mode is. 'dmd' (complex) is not modelled."
  },
  {
   "property": "C63",
   "status": "partial",
   "theorems": [
    "C63_linear",
    "C63_vector_linear",
    "C63_quadratic",
    "C63_value",
    "C63_mask",
    "C63_profile_partial",
    "C63_profile_refuted"
   ],
   "note": "Proved for scalar and vector fields. The gradient of a profile is the difference between successive values, not divided by the step (refuted): exact only for a step of 1."
  },
  {
   "property": "C64",
   "status": "partial",
   "theorems": [
    "C64_half_partial",
    "C64_stokes_partial",
    "C64_vorticity_refuted",
    "C64_stokes_refuted"
   ],
   "note": "Refuted: get_vorticity of a rotation of rate w gives w, in general half of the vorticity; get_stokes_vorticity divides by the area of w x w cells instead of (w-1) x (w-1), so that the vorticity is multiplied by ((w-1)/w)^2. Both give 0 on irrotational linear flows."
  },
  {
   "property": "C65",
   "status": "partial",
   "theorems": [
    "C65_gamma_partial",
    "C65_kappa_partial",
    "C65_q_partial",
    "C65_q_sign_partial",
    "C65_q_refuted",
    "C65_q_mask_refuted"
   ],
   "note": "Bounds of the gamma and kappa criteria proved. Refuted for Q: the strain is counted twice (a pure shear gives -1/4 instead of 0), and what is under the mask of the gradients is shown."
  },
  {
   "property": "C66",
   "status": "partial",
   "theorems": [
    "C66_linear_fill_partial",
    "C66_nothing_to_fill",
    "C66_value_fill_refuted"
   ],
   "note": "kind='linear' with at least two valid points (crop=False); kind='value' overwrites the valid points and leaves the masked ones (C66_value_fill_refuted)."
  },
  {
   "property": "C67",
   "status": "partial",
   "theorems": [
    "C67_crossings_partial",
    "C67_exact_values",
    "C67_missed_crossing_refuted"
   ],
   "note": "Complete and sound when no stored y equals v; when one does, crossings elsewhere are not reported (refuted)."
  },
  {
   "property": "C68",
   "status": "partial",
   "theorems": [
    "C68_step_partial",
    "C68_history_partial",
    "C68_value_refuted"
   ],
   "note": "Invariant of all histories in which points are added with a value exactly when the others have one; otherwise refuted (C68_value_refuted)."
  },
  {
   "property": "C69",
   "status": "partial",
   "theorems": [
    "C69_sum_partial",
    "C69_empty_left",
    "C69_empty_right",
    "C69_incompatible",
    "C69_mixed",
    "C69_scales_refuted"
   ],
   "note": "Proved for units of equal scale; the conversion factor is inverted (C69_scales_refuted). Values on one side only raise."
  },
  {
   "property": "C70",
   "status": "proved",
   "theorems": [
    "C70_rigid_motion",
    "C70_compose"
   ],
   "note": "The angle is given by a rational cosine and sine with c*c+s*s=1."
  },
  {
   "property": "C71",
   "status": "partial",
   "theorems": [
    "C71_decompose_partial",
    "C71_no_values_refuted"
   ],
   "note": "Sets with values; a set of at least two points without values raises (C71_no_values_refuted)."
  },
  {
   "property": "C72",
   "status": "proved",
   "theorems": [
    "C72_export"
   ],
   "note": "All pairs of axes."
  },
  {
   "property": "C73",
   "status": "proved",
   "theorems": [
    "C73_velocity",
    "C73_uniform_motion"
   ],
   "note": "smooth=0, xaxis='time'; for any correct argsort."
  },
  {
   "property": "C74",
   "status": "partial",
   "theorems": [
    "C74_refuted"
   ],
   "note": "The method raises UnboundLocalError for every non-empty set lying in the field: no part of the property holds."
  },
  {
   "property": "C75",
   "status": "partial",
   "theorems": [
    "C75_add_partial",
    "C75_remove_partial",
    "C75_crop_partial",
    "C75_sort_refuted",
    "C75_cut_refuted",
    "C75_failed_add_refuted"
   ],
   "note": "add, remove and crop proved; the inherited sort and cut, and a refused add, break the pairing (refuted)."
  },
  {
   "property": "C76",
   "status": "partial",
   "theorems": [
    "C76_add_partial",
    "C76_remove_partial",
    "C76_time_unit_refuted",
    "C76_add_after_remove_refuted",
    "C76_remove_list_refuted"
   ],
   "note": "Same time unit and no removal before an addition; otherwise refuted (inverted conversion, AttributeError after appending the time, shifted indices)."
  },
  {
   "property": "C77",
   "status": "partial",
   "theorems": [
    "C77_rotate_scalar",
    "C77_rotate_vector",
    "C77_rotate_bad",
    "C77_extend_scalar",
    "C77_extend_vector",
    "C77_origin_scalar",
    "C77_origin_vector",
    "C77_reduce_spatial_refuted"
   ],
   "note": "rotate, extend, set_origin proved; reduce_spatial_resolution leaves the series with unreduced axes (refuted)."
  },
  {
   "property": "C78",
   "status": "partial",
   "theorems": [
    "C78_scalar_partial",
    "C78_vector_partial",
    "C78_negative_refuted",
    "C78_negative_axis_refuted"
   ],
   "note": "Non negative factors proved; negative factors break the order of times and misplace values (refuted)."
  },
  {
   "property": "C79",
   "status": "proved",
   "theorems": [
    "C79_fluctuations",
    "C79_vector"
   ],
   "note": "The mean is the one of C36."
  },
  {
   "property": "C80",
   "status": "proved",
   "theorems": [
    "C80_scalar",
    "C80_vector"
   ],
   "note": "Increasing times; scalar and vector series."
  },
  {
   "property": "C81",
   "status": "proved",
   "theorems": [
    "C81_time_profile"
   ],
   "note": "Any component and kind of frame."
  },
  {
   "property": "C82",
   "status": "partial",
   "theorems": [
    "C82_along_partial",
    "C82_window_refuted",
    "C82_order_refuted"
   ],
   "note": "Without window and with points ordered in time; otherwise refuted."
  },
  {
   "property": "C83",
   "status": "partial",
   "theorems": [
    "C83_min_partial",
    "C83_max_partial",
    "C83_first_frame_refuted"
   ],
   "note": "Right at cells that the first frame does not mask; elsewhere NaN without mask (refuted)."
  },
  {
   "property": "C84",
   "status": "partial",
   "theorems": [
    "C84_same_times_partial",
    "C84_other_times_refuted"
   ],
   "note": "Equal times proved for scalar series; other times are lost (refuted)."
  },
  {
   "property": "C85",
   "status": "partial",
   "theorems": [
    "C85_axes_scalar",
    "C85_axes_vector",
    "C85_values_scalar",
    "C85_values_vector",
    "C85_time",
    "C85_setter_refuted"
   ],
   "note": "change_unit proved; the unit_times setter ignores strings (refuted)."
  },
  {
   "property": "C86",
   "status": "partial",
   "theorems": [
    "C86_all_depths",
    "C86_depth_partial",
    "C86_depth_refuted"
   ],
   "note": "Proved without depth; with a depth only found files are right (partial), and files are missed (refuted)."
  },
  {
   "property": "C87",
   "status": "partial",
   "theorems": [
    "C87_recursive_partial",
    "C87_refused_partial",
    "C87_nested_refuted",
    "C87_not_empty_refuted",
    "C87_empty_refuted"
   ],
   "note": "Recursive deletion of non nested directories and the refusal are proved; nested directories, non empty directories without recursion and empty collections fail (refuted)."
  },
  {
   "property": "C88",
   "status": "partial",
   "theorems": [
    "C88_short_partial",
    "C88_days_refuted",
    "C88_two_days_refuted"
   ],
   "note": "Proved below one day; from one day on the minutes are printed as days (refuted)."
  },
  {
   "property": "C89",
   "status": "partial",
   "theorems": [
    "C89_linked_partial",
    "C89_out_of_step_refuted"
   ],
   "note": "Proved when the connected displays show the same frame before; refuted otherwise."
  },
  {
   "property": "C90",
   "status": "proved",
   "theorems": [
    "C90_impulse"
   ],
   "note": "Exact real arithmetic."
  },
  {
   "property": "C91",
   "status": "proved",
   "theorems": [
    "C91_solid",
    "C91_free",
    "C91_rankine",
    "C91_rankine_peak",
    "C91_lamb_oseen",
    "C91_lamb_oseen_bound",
    "C91_burger",
    "C91_reflection"
   ],
   "note": "Exact real arithmetic; a null core radius, viscosity or time (a division by zero in the code) is excluded or outside of the model."
  },
  {
   "property": "C92",
   "status": "proved",
   "theorems": [
    "C92_step",
    "C92_trajectories",
    "C92_velocity_map"
   ],
   "note": "The vortex must be movable, otherwise an exception is raised."
  },
  {
   "property": "C93",
   "status": "partial",
   "theorems": [
    "C93_detailed_partial",
    "C93_after_request_partial",
    "C93_detailed_refuted"
   ],
   "note": "Holds when the images are up to date (for instance just after get_vector); refuted when a wall or vortex was added since: the images are missing or stale."
  },
  {
   "property": "C94",
   "status": "proved",
   "theorems": [
    "C94_count"
   ],
   "note": "Proved for every size, by the discrete Stokes theorem and completeness of the filter."
  },
  {
   "property": "C95",
   "status": "partial",
   "theorems": [
    "C95_located_partial",
    "C95_near_partial",
    "C95_types_partial",
    "C95_focus_refuted",
    "C95_stretched_refuted",
    "C95_uneven_refuted"
   ],
   "note": "Exactly one point, in the right cell, saddle iff det < 0: proved for all increasing axes; position within half a cell for even axes; nodes and their stability right for square cells. Refuted: the focus numbers follow the direction of rotation instead of stability, the type is wrong on non-square cells (default steps 1 in the Jacobian), and the position uses the first step of each axis."
  },
  {
   "property": "C96",
   "status": "proved",
   "theorems": [
    "C96_mask_cum",
    "C96_mean_mask"
   ],
   "note": "Proved for scalar series whose frames share the grid of the first one."
  },
  {
   "property": "C97",
   "status": "proved",
   "theorems": [
    "C97_clean"
   ],
   "note": "For point sets with positive unit scales; the trajectories are those of compute_traj."
  },
  {
   "property": "C98",
   "status": "partial",
   "theorems": [
    "C98_origin_partial",
    "C98_scale_partial",
    "C98_origin_refuted",
    "C98_origin_uncomputed_refuted"
   ],
   "note": "Proved for objects whose trajectories are computed (and for scale in all cases). Before compute_traj, set_origin raises TypeError after having moved the points."
  },
  {
   "property": "C99",
   "status": "partial",
   "theorems": [
    "C99_space_partial",
    "C99_time_partial",
    "C99_few_refuted",
    "C99_uncomputed_refuted",
    "C99_original_refuted",
    "C99_stale_refuted"
   ],
   "note": "Proved: contents of a crop in space, and of a crop in time when every kind has at least two trajectories. Refuted: a crop in time raises on objects without trajectories or with a kind that has fewer than two; without inplace it crops the trajectories of the original and not those of the result; a crop in space leaves trajectories that do not match."
  },
  {
   "property": "C100",
   "status": "proved",
   "theorems": [
    "C100_scalar",
    "C100_complete",
    "C100_nearest",
    "C100_nothing_to_fill",
    "C100_unknown_kind",
    "C100_vector",
    "C100_vector_nothing_to_fill"
   ],
   "note": ""
  },
  {
   "property": "C101",
   "status": "proved",
   "theorems": [
    "C101_divergence",
    "C101_filled"
   ],
   "note": ""
  },
  {
   "property": "C102",
   "status": "proved",
   "theorems": [
    "C102_grid",
    "C102_additive",
    "C102_whole"
   ],
   "note": ""
  },
  {
   "property": "C104",
   "status": "partial",
   "theorems": [
    "C104_gamma_partial",
    "C104_kappa_partial",
    "C104_centre_refuted",
    "C104_cells",
    "C104_distance_refuted"
   ],
   "note": "Proved for radii in cells (ind=True). Refuted for radii as distances: the cell itself is counted as a neighbour (gamma1 at the centre of a rotation is 4/5 instead of 1), and with different steps along x and y a neighbour can be outside of the field and IndexError is raised (or, for a negative index, the other side of the field is used)."
  },
  {
   "property": "C106",
   "status": "proved",
   "theorems": [
    "C106_value",
    "C106_nonneg"
   ],
   "note": ""
  },
  {
   "property": "C103",
   "status": "partial",
   "theorems": [
    "C103_parts_partial",
    "C103_residual_refuted"
   ],
   "note": "The sum, the bound and the sign are proved. The last part is proved where the divergence is null, and refuted otherwise: the strain is computed with 4 Exx^2 instead of (Exx - Eyy)^2, so that a rotation with an outward flow has no residual vorticity."
  },
  {
   "property": "C105",
   "status": "proved",
   "theorems": [
    "C105_gamma2_galilean",
    "C105_kappa2_galilean",
    "C105_multiplied",
    "C105_opposite",
    "C105_kappa_turned",
    "C105_rotation",
    "C105_uniform"
   ],
   "note": "Rotation and uniform flow: radii in cells."
  },
  {
   "property": "C107",
   "status": "partial",
   "theorems": [
    "C107_gradient",
    "C107_swirling",
    "C107_lambda2",
    "C107_nk",
    "C107_delta_partial",
    "C107_delta_refuted"
   ],
   "note": "numpy's eigenvalues are a parameter: two complex numbers whose sum is the trace and product the determinant. All proved but the last part, refuted: delta is positive at every cell of a rotation. Reading finding, not modelled: get_lambda2(raw=True) builds its result from the last value instead of the array."
  },
  {
   "property": "C108",
   "status": "proved",
   "theorems": [
    "C108_scalar",
    "C108_vector",
    "C108_shared",
    "C108_shared_vector"
   ],
   "note": "raw=True. The library modred is a parameter; exact solver: orthonormal eigenvectors of the matrix of scalar products, null eigenvalues dropped, exact square roots."
  },
  {
   "property": "C109",
   "status": "proved",
   "theorems": [
    "C109_scalar",
    "C109_vector",
    "C109_no_mode"
   ],
   "note": "The library modred is a parameter; exact solver as in C108. When all frames are equal there is no mode and the call raises (C109_no_mode)."
  },
  {
   "property": "C110",
   "status": "partial",
   "theorems": [
    "C110_increasing_partial",
    "C110_order_refuted"
   ],
   "note": "Proved for modes given in increasing order. Refuted for others: the profile of the eigenvalues is sorted, so that the coefficients of a mode are computed with the eigenvalue of another, and the reconstruction is wrong."
  },
  {
   "property": "C111",
   "status": "partial",
   "theorems": [
    "C111_time_partial",
    "C111_space_scalar",
    "C111_space_vector",
    "C111_scale_scalar",
    "C111_scale_vector",
    "C111_bound_refuted"
   ],
   "note": "Space crop and scale proved. Time crop: proved for the times it keeps, which are those strictly after the lower bound unless the interval starts before the first time. Refuted: a time equal to the lower bound is lost, and an interval ending on the first time or starting on the last one raises ValueError."
  },
  {
   "property": "C112",
   "status": "partial",
   "theorems": [
    "C112_partial",
    "C112_units_refuted"
   ],
   "note": "Proved for series whose frames share one unit. Refuted otherwise: the products of the raw values of the fluctuations, each in the unit of its frame, are added and labelled with the square of the unit of the first frame."
  },
  {
   "property": "C113",
   "status": "proved",
   "theorems": [
    "C113_tensor"
   ],
   "note": "Any units of one dimension."
  },
  {
   "property": "C114",
   "status": "proved",
   "theorems": [
    "C114_frames",
    "C114_mean",
    "C114_split",
    "C114_trace"
   ],
   "note": "Frames in different units of one dimension are converted. The equality with half the trace of the stresses asks one unit, as C112 does."
  },
  {
   "property": "C115",
   "status": "partial",
   "theorems": [
    "C115_partial",
    "C115_masked_refuted"
   ],
   "note": "Proved for series without masked value, on the raw values. Refuted when the first field has a masked value: numpy.mean is given the NaN and every correlation is NaN and masked."
  },
  {
   "property": "C116",
   "status": "partial",
   "theorems": [
    "C116_refuted"
   ],
   "note": "Refuted: the product by 2/3 and the power .5 of a series lose the times (C40), and the division by the magnitudes then raises because the times differ, for every series with a time other than 0."
  },
  {
   "property": "C117",
   "status": "partial",
   "theorems": [
    "C117_partial",
    "C117_monotone_partial",
    "C117_hidden_refuted",
    "C117_uniform_refuted",
    "C117_masked"
   ],
   "note": "Proved: the result is on the polyline at the value sought, and every earlier sample is below it when no sample has exactly that value or when the profile never decreases. Refuted in general: a later sample with exactly the value hides an earlier crossing (C117_hidden_refuted), and a uniform profile raises IndexError."
  },
  {
   "property": "C118",
   "status": "partial",
   "theorems": [
    "C118_value_partial",
    "C118_ordered_partial",
    "C118_free_stream_refuted",
    "C118_thin_refuted"
   ],
   "note": "Proved: the inequalities, and the exact value computed: the integral over the samples up to the thickness (with a wall point), normalised by the largest of them. Refuted: it is not normalised by the free stream velocity and stops at the last sample before the thickness; a layer thinner than the first step gives NaN."
  },
  {
   "property": "C119",
   "status": "proved",
   "theorems": [
    "C119_units"
   ],
   "note": "Masked profiles and failures included."
  },
  {
   "property": "C120",
   "status": "partial",
   "theorems": [
    "C120_refuted",
    "C120_string_partial",
    "C120_units_refuted"
   ],
   "note": "Refuted: with the documented directions 1 and 2 get_profile raises TypeError for every field. Proved for the undocumented direction 'y'; the units of the result are then exchanged (C120_units_refuted)."
  },
  {
   "property": "C121",
   "status": "proved",
   "theorems": [
    "C121_on_line",
    "C121_between",
    "C121_outside",
    "C121_index",
    "C121_bad_index",
    "C121_nearest",
    "C121_interval",
    "C121_all"
   ],
   "note": "The interpolation inside a cell is never used by get_profile; 'nearest' needs at least two lines (C122)."
  },
  {
   "property": "C122",
   "status": "partial",
   "theorems": [
    "C122_refuted",
    "C122_single_refuted"
   ],
   "note": "Refuted: the interval was converted to floats, which cannot slice: TypeError for every admissible interval. On a one-line field the loop variable is unbound."
  },
  {
   "property": "C123",
   "status": "proved",
   "theorems": [
    "C123_images",
    "C123_plain"
   ],
   "note": "The interpolator inside a cell is a parameter that is never used. C123_plain is the same for a field without masked cell, in terms of the field given. The mirrored field must have at least two positions on each axis."
  },
  {
   "property": "C124",
   "status": "partial",
   "theorems": [
    "C124_partial",
    "C124_border_refuted",
    "C124_count_refuted"
   ],
   "note": "Proved for a plane strictly between the ends of the axis. Refuted (C124_border_refuted): with the plane on the border of the field or outside of it, the furthest row is never mirrored; and with the plane on the border n - 1 rows are added (C124_count_refuted)."
  },
  {
   "property": "C125",
   "status": "partial",
   "theorems": [
    "C125_value_partial",
    "C125_smooth_partial",
    "C125_linear_partial",
    "C125_linear_refuted"
   ],
   "note": "Proved: 'value', 'nearest', 'cubic', and 'linear' in direction y. Refuted: 'linear' in direction x replaces the row before the gap and the gap by NaN and unmasks them. The values given by scipy to 'nearest' and 'cubic' are parameters."
  },
  {
   "property": "C126",
   "status": "proved",
   "theorems": [
    "C126_components",
    "C126_plain"
   ],
   "note": "Without interpolation of the gap."
  },
  {
   "property": "C127",
   "status": "partial",
   "theorems": [
    "C127_frames_partial",
    "C127_refuted"
   ],
   "note": "Proved: frames and times. Refuted: the axes of the series stay the old ones (the assignment creates attributes of another name)."
  },
  {
   "property": "C128",
   "status": "proved",
   "theorems": [
    "C128_scalar",
    "C128_vector"
   ],
   "note": "The text of a number is identified with the number: python's formatting and numpy's reading of a float are taken as inverse of each other."
  },
  {
   "property": "C129",
   "status": "partial",
   "theorems": [
    "C129_profile_partial",
    "C129_points_partial",
    "C129_profile_refuted",
    "C129_points_refuted"
   ],
   "note": "Proved for at least two samples with increasing x, or two points. Refuted for one: genfromtxt then gives an array of one dimension and IndexError is raised."
  },
  {
   "property": "C130",
   "status": "proved",
   "theorems": [
    "C130_any_order"
   ],
   "note": "NaN coordinates are not modelled."
  },
  {
   "property": "C131",
   "status": "partial",
   "theorems": [
    "C131_columns_partial",
    "C131_lines_partial",
    "C131_scattered_partial",
    "C131_ragged_partial",
    "C131_lines_up_refuted",
    "C131_columns_down_refuted",
    "C131_square_refuted",
    "C131_tiny_refuted",
    "C131_missing_refuted"
   ],
   "note": "Proved for files column after column with y increasing, line after line with y decreasing (with abscissae further apart than numpy's tolerance), and in an order that looks like neither when the axes have different lengths. Refuted: the other two regular orders give a field upside down, an irregular order with as many columns as lines gives the transposed field, abscissae within the tolerance of numpy.allclose make a well ordered file be read upside down, and a missing point raises ValueError."
  },
  {
   "property": "C132",
   "status": "partial",
   "theorems": [
    "C132_between_partial",
    "C132_index_partial",
    "C132_node_partial",
    "C132_refuted"
   ],
   "note": "Proved when no sample has exactly the value. When one has it, only the first such sample is given: refuted for the other places."
  },
  {
   "property": "C133",
   "status": "proved",
   "theorems": [
    "C133_crop",
    "C133_all_masked"
   ],
   "note": ""
  },
  {
   "property": "C134",
   "status": "proved",
   "theorems": [
    "C134_masked",
    "C134_count",
    "C134_all_masked"
   ],
   "note": "|v - mean| > fact * std is stated on squares, so that no root is needed; equivalent for fact >= 0."
  },
  {
   "property": "C135",
   "status": "proved",
   "theorems": [
    "C135_groups",
    "C135_kept",
    "C135_errors"
   ],
   "note": "The rounding by eps_rel is a function parameter: the theorems hold for every rounding. Profiles with all abscissae 0 raise (logarithm of 0)."
  },
  {
   "property": "C136",
   "status": "partial",
   "theorems": [
    "C136_regular_partial",
    "C136_already_even_partial",
    "C136_step_refuted",
    "C136_masked_end_refuted"
   ],
   "note": "Proved for uneven profiles with valid ends. Refuted: the step asked for is ignored when the profile is already evenly spaced, and a masked end makes the interpolation raise ValueError."
  },
  {
   "property": "C137",
   "status": "proved",
   "theorems": [
    "C137_resolution"
   ],
   "note": "Linear interpolation. An error raised in the middle leaves the object as the model says (pout)."
  },
  {
   "property": "C138",
   "status": "partial",
   "theorems": [
    "C138_shift_partial",
    "C138_masked_refuted"
   ],
   "note": "Proved without masks. Refuted with masks: a profile with a masked first sample is found shifted from itself."
  },
  {
   "property": "C139",
   "status": "partial",
   "theorems": [
    "C139_values_partial",
    "C139_last_refuted"
   ],
   "note": "Proved with the sums stopping one window before the last. Refuted for 'all the possible positions': the last sample is never used."
  },
  {
   "property": "C140",
   "status": "partial",
   "theorems": [
    "C140_values_partial",
    "C140_commutative_partial",
    "C140_total_partial",
    "C140_side_refuted",
    "C140_origin_refuted",
    "C140_uneven_refuted"
   ],
   "note": "Proved for mode 'full' and profiles beginning at x >= 0. Refuted: the guard adds x[1] and x[0] of the second profile instead of subtracting them, so that it refuses on one side only profiles beginning before 0 and accepts unevenly spaced ones; the abscissae of the result begin at 0 whatever those of the profiles."
  },
  {
   "property": "C141",
   "status": "proved",
   "theorems": [
    "C141_differences",
    "C141_line",
    "C141_uneven"
   ],
   "note": "Exactly even spacing, and refusal of the uneven ones by the test of the code (relative tolerance of numpy.allclose taken as in the model)."
  },
  {
   "property": "C142",
   "status": "partial",
   "theorems": [
    "C142_choice_partial",
    "C142_usual_partial",
    "C142_still_partial",
    "C142_refuted"
   ],
   "note": "Proved: the value of the background, or the mask, from the group of values kept; the bound for a value shown in most of the frames, when another one is shown as well. Refuted: a pixel that never changes is masked (the clipping is strict and the deviation is 0). The unit of the values is lost."
  },
  {
   "property": "C143",
   "status": "proved",
   "theorems": [
    "C143_replaced",
    "C143_default"
   ],
   "note": "blend=False. Values strictly closer than the noise level are replaced."
  },
  {
   "property": "C144",
   "status": "partial",
   "theorems": [
    "C144_scalar_partial",
    "C144_vector_partial",
    "C144_nothing_partial",
    "C144_refuted",
    "C144_first_refuted"
   ],
   "note": "Proved when some cell is always masked and the window ends after the first line and the first column. Refuted: None is returned when nothing is masked; ValueError when the shown cells are all in the first column."
  },
  {
   "property": "C145",
   "status": "partial",
   "theorems": [
    "C145_scalar_partial",
    "C145_vector_partial",
    "C145_refuted"
   ],
   "note": "Proved: the loop ends, and what is returned has no border cell masked in every frame. Refuted: a 2 x 2 series with three shown cells raises ValueError."
  },
  {
   "property": "C146",
   "status": "partial",
   "theorems": [
    "C146_interpolate_partial",
    "C146_remove_partial",
    "C146_none_partial",
    "C146_remove_refuted",
    "C146_last_refuted",
    "C146_first_refuted",
    "C146_masked_refuted"
   ],
   "note": "Proved: interpolation when every weird frame has a symmetric pair of frames that are not weird; removal of a single weird frame; nothing changes when none is weird. 'weird' is stated on the sum of the norms, as the code computes it. Refuted: removing two weird frames removes a wrong frame; the last frame weird raises IndexError; the first one is replaced using the last one; frames with more masked cells are weird though the mean magnitude is the same."
  },
  {
   "property": "C147",
   "status": "partial",
   "theorems": [
    "C147_linear_partial",
    "C147_few_refuted",
    "C147_nothing_refuted",
    "C147_inplace_refuted",
    "C147_scalar_refuted"
   ],
   "note": "Proved for increasing times, when some masked cell is shown in at least three frames; cells shown in at most two frames, or masked before the first or after the last time, are kept. Refuted: a cell shown in two frames is not filled; nothing to fill raises NameError; the original series is changed; a series of scalar fields always raises."
  },
  {
   "property": "C148",
   "status": "proved",
   "theorems": [
    "C148_injected"
   ],
   "note": "A cell masked in a frame stays masked. Points given by indices (ind=True)."
  },
  {
   "property": "C149",
   "status": "proved",
   "theorems": [
    "C149_zone"
   ],
   "note": "The vorticity is a parameter (any function of the field giving a field on the same grid). Outside of a zone the unit given with 0 is dimensionless."
  },
  {
   "property": "C150",
   "status": "proved",
   "theorems": [
    "C150_opposite"
   ],
   "note": "For the same grid."
  },
  {
   "property": "C151",
   "status": "partial",
   "theorems": [
    "C151_zone_partial",
    "C151_refuted",
    "C151_flank_refuted",
    "C151_none_refuted",
    "C151_unit_refuted"
   ],
   "note": "The criterion and the passage from area to radius are parameters. Proved when the criterion at the centre is above eps times itself (positive) and above eps times the greatest value of the zone. Refuted: clockwise vortices (all negative zones count as one); a centre on the flank of a steep vortex gives the cells outside of the vortex; without vortex the whole field is counted; the unit is sqrt(2) times the unit of the axes."
  },
  {
   "property": "C152",
   "status": "partial",
   "theorems": [
    "C152_centre_partial",
    "C152_refuted"
   ],
   "note": "Proved on regular axes, under the hypotheses of C151. Refuted on irregular axes."
  },
  {
   "property": "C153",
   "status": "partial",
   "theorems": [
    "C153_weights_partial",
    "C153_uniform_partial",
    "C153_still_partial",
    "C153_absent_partial",
    "C153_refuted"
   ],
   "note": "size_crit other than 'value'. Proved for a centre above the threshold of its vortex and a velocity that is not zero at the centre; a zero velocity at the centre raises ValueError (C153_still_partial). Refuted: the same vortex one cell further has another integral (Simpson's weights change from one cell to the next)."
  },
  {
   "property": "C154",
   "status": "proved",
   "theorems": [
    "C154_radius",
    "C154_missing",
    "C154_property",
    "C154_disjoint"
   ],
   "note": "output_center=False; the verbose modes are not modelled."
  },
  {
   "property": "C155",
   "status": "partial",
   "theorems": [
    "C155_first_partial",
    "C155_add_partial",
    "C155_incompatible_partial",
    "C155_history_partial",
    "C155_first_vector_partial",
    "C155_add_vector_partial",
    "C155_incompatible_vector_partial",
    "C155_history_vector_partial",
    "C155_argument_refuted",
    "C155_masked_refuted"
   ],
   "note": "Proved for sorted fields showing every cell, or showing something off the first line and the first column, for both kinds of fields and all histories. Refuted: the given field is itself converted; a wholly masked field raises IndexError, and one showing only its first column ValueError."
  },
  {
   "property": "C156",
   "status": "partial",
   "theorems": [
    "C156_scalar_partial",
    "C156_vector_partial",
    "C156_order_partial",
    "C156_order_vector_partial",
    "C156_components_partial",
    "C156_border_refuted",
    "C156_hole_refuted"
   ],
   "note": "'covering' is strict: the point lies strictly between the ends of both axes. Refuted: on the border of a field, the field has a value and the set has none; a point masked in one of the fields covering it is NaN even if others show it. unit=True is ignored."
  },
  {
   "property": "C157",
   "status": "partial",
   "theorems": [
    "C157_vector_partial",
    "C157_scalar_refuted"
   ],
   "note": "Proved for sets of vector fields. Refuted for scalar fields: every call raises."
  },
  {
   "property": "C158",
   "status": "partial",
   "theorems": [
    "C158_refuted",
    "C158_raises_refuted"
   ],
   "note": "No call returns a profile: either an exception, or None."
  },
  {
   "property": "C159",
   "status": "proved",
   "theorems": [
    "C159_scalar",
    "C159_vector"
   ],
   "note": "Scalar and vector fields with sorted axes."
  },
  {
   "property": "C160",
   "status": "partial",
   "theorems": [
    "C160_opposite_partial",
    "C160_multiple_partial",
    "C160_refuted"
   ],
   "note": "Proved when every field of the set can be added again. Refuted: a set holding a field cropped to one column with a hole cannot be multiplied (ValueError). Not claimed: s / k raises TypeError (self.__class__.__init__() without an object) and iterating raises AttributeError."
  },
  {
   "property": "C161",
   "status": "partial",
   "theorems": [
    "C161_same_axes_partial",
    "C161_common_part_partial",
    "C161_difference_partial",
    "C161_difference_common_part_partial",
    "C161_incompatible_partial",
    "C161_disjoint_partial",
    "C161_zero_refuted",
    "C161_scale_refuted",
    "C161_one_line_refuted"
   ],
   "note": "Proved for equal axes, and for different axes whose different coordinates differ by more than 1e-4 of their values, with at least two common coordinates along each axis, 0 not being common. Refuted: a common coordinate 0 is lost (the test is relative to the coordinate); axes in units of different scales are compared as bare numbers; a single common line raises IndexError."
  },
  {
   "property": "C162",
   "status": "partial",
   "theorems": [
    "C162_soft_partial",
    "C162_hard_partial",
    "C162_in_place_partial",
    "C162_unmasked_field_refuted",
    "C162_first_line_refuted"
   ],
   "note": "Proved, soft and hard, for every field with something masked and something shown off the first line and off the first column (soft), and for every returned field (hard). Refuted: nothing masked gives None; a field showing only its first line raises ValueError."
  },
  {
   "property": "C163",
   "status": "partial",
   "theorems": [
    "C163_plus_number_partial",
    "C163_plus_vector_partial",
    "C163_plus_array_partial",
    "C163_wrong_shape_partial",
    "C163_times_number_partial",
    "C163_over_number_partial",
    "C163_times_array_partial",
    "C163_over_array_partial",
    "C163_times_quantity_partial",
    "C163_over_quantity_partial",
    "C163_times_field_partial",
    "C163_absolute_partial",
    "C163_field_unit_refuted",
    "C163_field_axes_refuted",
    "C163_over_zero_refuted",
    "C163_null_quantity_refuted"
   ],
   "note": "Each operation is proved on tidy fields (NaN exactly where masked); for quantities, for every normalisation of units and c <> 0. Refuted: the product by a scalar field ignores the unit and the axes of the scalar field; division by 0 leaves vectors without value unmasked; the product by a null quantity raises."
  },
  {
   "property": "C164",
   "status": "proved",
   "theorems": [
    "C164_means_equal",
    "C164_equivalence"
   ],
   "note": "Sorted axes, NaN exactly where masked."
  },
  {
   "property": "C165",
   "status": "partial",
   "theorems": [
    "C165_tolerance_partial",
    "C165_reflexive_partial",
    "C165_symmetric_refuted",
    "C165_transitive_refuted",
    "C165_sizes_refuted"
   ],
   "note": "Proved: for the same sizes, == means agreement up to numpy's tolerance, and it is reflexive. Refuted: symmetry (99999 and 100000), transitivity (0, 9e-9, 1.8e-8), and fields of different sizes raise ValueError."
  },
  {
   "property": "C166",
   "status": "partial",
   "theorems": [
    "C166_import_partial",
    "C166_transposed_partial",
    "C166_mask_refuted"
   ],
   "note": "Proved for increasing axes, for increasing axes with transposed arrays, and for decreasing axes when nothing is masked and nothing is NaN. Refuted: with a decreasing axis the mask is not reversed."
  },
  {
   "property": "C167",
   "status": "partial",
   "theorems": [
    "C167_scalar_partial",
    "C167_vector_partial",
    "C167_odd_refuted",
    "C167_one_line_refuted"
   ],
   "note": "Proved for even factors and at least two blocks along each axis; the cells after the last whole block are dropped; the middle is that of the two central coordinates of the block. Refuted: odd factors raise TypeError, and a single block along an axis raises IndexError."
  },
  {
   "property": "C168",
   "status": "proved",
   "theorems": [
    "C168_value",
    "C168_vector",
    "C168_bounds",
    "C168_zero",
    "C168_scaled",
    "C168_triangle"
   ],
   "note": "In Coq's reals, integer orders p >= 1; both field classes for the value, scalar fields for the algebra."
  },
  {
   "property": "C169",
   "status": "proved",
   "theorems": [
    "C169_value",
    "C169_bounds"
   ],
   "note": "For every field with sorted axes."
  },
  {
   "property": "C170",
   "status": "proved",
   "theorems": [
    "C170_bounds",
    "C170_affine",
    "C170_masked"
   ],
   "note": "For every field with sorted axes and rectangle containing a node."
  },
  {
   "property": "C171",
   "status": "partial",
   "theorems": [
    "C171_partial",
    "C171_regular_refuted",
    "C171_two_refuted"
   ],
   "note": "Proved: regular axes over the same extent, interpolated values, units. Refuted: the number of points is the number of intervals, so the step is larger than asked for, a regular field with n points is given n-1 (proved for every regular field), and two points along y raise."
  },
  {
   "property": "C172",
   "status": "partial",
   "theorems": [
    "C172_partial",
    "C172_default_drift_partial",
    "C172_default_refuted",
    "C172_default_vanishes_refuted",
    "C172_repeated_refuted",
    "C172_irregular_refuted",
    "C172_null_refuted"
   ],
   "note": "Proved for regular axes, with at least one value shown, kind 'extremum', 'center' or 'ponderated', zones of 'ponderated' not all null; the choice between equal extrema (scipy) is any function. Refuted: the default bounds are a list changed at each call, so that the same call gives different answers (C172_repeated_refuted; the lower bound decreases at each call towards 0); on irregular axes the centre is not the mean position; a zone of zeros raises."
  },
  {
   "property": "C173",
   "status": "proved",
   "theorems": [
    "C173_counts"
   ],
   "note": "Plain, cumulative and normalized counts; the theorem also gives the abscissas (see C178)."
  },
  {
   "property": "C174",
   "status": "proved",
   "theorems": [
    "C174_accepted",
    "C174_refused",
    "C174_names",
    "C174_ordinary"
   ],
   "note": "Python's evaluation is a parameter of the model."
  },
  {
   "property": "C175",
   "status": "partial",
   "theorems": [
    "C175_mean_partial",
    "C175_uniform_partial",
    "C175_per_point_refuted"
   ],
   "note": "Refuted for p = 2 (the default): fields equal to 1 with 1 and 4 points have norms 1 and 1/2. Proved: the value for a uniform field in terms of the number of points, and for p = 1 the norm per point is the mean absolute value."
  },
  {
   "property": "C176",
   "status": "partial",
   "theorems": [
    "C176_unit_partial",
    "C176_unit_refuted"
   ],
   "note": "Proved along x, and when both axes have the same unit. Refuted for the direction 'x': the line runs along y but the unit is that of x (the test compares the direction with 1)."
  },
  {
   "property": "C177",
   "status": "partial",
   "theorems": [
    "C177_additive_refuted"
   ],
   "note": "Refuted: values 0, 1, 4 at 0, 1, 2 give 1/2 + 5/2 and 10/3."
  },
  {
   "property": "C178",
   "status": "partial",
   "theorems": [
    "C178_masked_refuted",
    "C178_middle_refuted"
   ],
   "note": "Refuted: the abscissas are shifted from the middles by the first edge (C173_counts gives the shift for every field); without a range a masked place raises ValueError, for every field."
  },
  {
   "property": "C179",
   "status": "partial",
   "theorems": [
    "C179_first_partial",
    "C179_calls_refuted"
   ],
   "note": "Refuted: 'm*exit()' is evaluated; only calls at the beginning are refused (proved)."
  },
  {
   "property": "C180",
   "status": "proved",
   "theorems": [
    "C180_existing",
    "C180_new",
    "C180_beyond"
   ],
   "note": "A path is the list of its components after os.path.normpath, with at least one."
  },
  {
   "property": "C181",
   "status": "proved",
   "theorems": [
    "C181_round_trip",
    "C181_when",
    "C181_one_file"
   ],
   "note": "pickle and gzip are parameters: the hypothesis `saves` says that the bytes written give the object back. The last component of the path is not made of dots only."
  },
  {
   "property": "C182",
   "status": "partial",
   "theorems": [
    "C182_same_path_partial",
    "C182_same_path_refuted"
   ],
   "note": "Proved for a path whose name has the extension (compressed: .cimt, else .imt); for every other path, import raises unless another file is there (C182_same_path_partial gives both). Refuted for 'a'."
  },
  {
   "property": "C183",
   "status": "proved",
   "theorems": [
    "C183_frame",
    "C183_interrupted"
   ],
   "note": "The hypothesis `sound` says that no object can be read in part of the bytes of another. The writing is byte by byte; the order in which the system puts the bytes on the disk is not modelled."
  },
  {
   "property": "C184",
   "status": "partial",
   "theorems": [
    "C184_crash_refuted",
    "C184_failure_refuted"
   ],
   "note": "Refuted: the file is truncated before the object is written; an object that cannot be pickled destroys the previous one."
  },
  {
   "property": "C185",
   "status": "partial",
   "theorems": [
    "C185_export_partial",
    "C185_import_partial",
    "C185_gc_refuted"
   ],
   "note": "Proved: it is enabled after a success. Refuted: it is enabled although it was disabled, and a failure leaves it disabled."
  },
  {
   "property": "C186",
   "status": "partial",
   "theorems": [
    "C186_content_partial",
    "C186_series_refuted"
   ],
   "note": "Proved: the file written holds the series obtained by adding the fields in the order of the listing, and nothing else is changed. Refuted: the times are not kept, all the fields are at time 0 (C186_series_refuted, for every list of fields on one grid)."
  },
  {
   "property": "C187",
   "status": "proved",
   "theorems": [
    "C187_yes",
    "C187_no"
   ],
   "note": "Regular expressions are any functions on paths and names."
  },
  {
   "property": "C188",
   "status": "partial",
   "theorems": [
    "C188_arguments_refuted"
   ],
   "note": "Refuted: the arguments depth, remove_dir and remove_files are ignored (for all values of the arguments)."
  },
  {
   "property": "C189",
   "status": "partial",
   "theorems": [
    "C189_found_partial",
    "C189_exact_partial",
    "C189_choice_partial",
    "C189_empty_refuted",
    "C189_unbound_refuted"
   ],
   "note": "Proved: every folder with a matching file is returned, and any other returned folder has no file at all; exact when every folder has a file. Refuted: a folder without file met after a folder that matches is returned; UnboundLocalError when the first folder has no file."
  },
  {
   "property": "C190",
   "status": "partial",
   "theorems": [
    "C190_tree_partial",
    "C190_files_refuted"
   ],
   "note": "Proved when no component is called 'files'. Refuted: a folder called 'files' next to a file raises AttributeError."
  },
  {
   "property": "C191",
   "status": "proved",
   "theorems": [
    "C191_one_zero",
    "C191_no_zero",
    "C191_detected"
   ],
   "note": "Real numbers. Existence by a subdivision argument on the index (no zero in the cell makes the index null), uniqueness from the index being non-zero."
  },
  {
   "property": "C192",
   "status": "proved",
   "theorems": [
    "C192_zeros",
    "C192_no_failure"
   ],
   "note": "Real numbers; divisions by zero and roots of negative numbers as in numpy. Multiprocessing returns the results in order."
  },
  {
   "property": "C193",
   "status": "partial",
   "theorems": [
    "C193_bent_partial",
    "C193_linear_refuted",
    "C193_rotation_refuted",
    "C193_null_component_refuted"
   ],
   "note": "Proved: on even axes with plain corners exactly the points of the cells whose velocity is 'bent' are kept. Refuted: every linear field (a rotation, a saddle) loses its critical point (0/0 in the closed formulas), and so does a cell with one null component at a corner."
  },
  {
   "property": "C194",
   "status": "proved",
   "theorems": [
    "C194_moved"
   ],
   "note": "Real numbers; conditional on no exception (C192_no_failure gives it for regular fields)."
  },
  {
   "property": "C195",
   "status": "partial",
   "theorems": [
    "C195_opposite_refuted",
    "C195_uneven_refuted"
   ],
   "note": "Refuted: a corner whose two components are opposite is taken for a zero, and its indices are swapped; with uneven axes the search of the cell raises IndexError."
  },
  {
   "property": "C196",
   "status": "proved",
   "theorems": [
    "C196_result",
    "C196_exact_result"
   ],
   "note": "pickle and gzip are parameters: `faithful` (what is wholly written is read back) and `tight` (nothing else can be read in a part of it). Writes of two processes are not mixed. Modification of a returned object is excluded here (C200)."
  },
  {
   "property": "C197",
   "status": "proved",
   "theorems": [
    "C197_once",
    "C197_kept"
   ],
   "note": "C197_once holds for all histories, modified results included. C197_kept: the second process starts after the first one has finished its calls."
  },
  {
   "property": "C198",
   "status": "partial",
   "theorems": [
    "C198_interrupted_refuted"
   ],
   "note": "Refuted for every cache and interruption point: the truncated file raises EOFError, which is not caught, in every later decorator; nothing works until the file is removed."
  },
  {
   "property": "C199",
   "status": "partial",
   "theorems": [
    "C199_two_functions_refuted",
    "C199_two_processes_refuted"
   ],
   "note": "Refuted: the key holds the arguments only, so a second function returns the results of the first; the last process that writes erases the results of the other one."
  },
  {
   "property": "C200",
   "status": "partial",
   "theorems": [
    "C200_collector_partial",
    "C200_collector_decorator_partial",
    "C200_unsaved_refuted",
    "C200_modified_refuted"
   ],
   "note": "Proved: the collector is enabled after a new result is saved and after a decorator that succeeds. Refuted: a result that cannot be saved makes the first call raise and the next ones return it, truncates the file and leaves the collector disabled; a modified result is returned by the next calls."
  },
  {
   "property": "C201",
   "status": "proved",
   "theorems": [
    "C201_normal",
    "C201_influence",
    "C201_velocity"
   ],
   "note": "Over the real numbers (sin, cos, acos, sqrt of the Coq library)."
  },
  {
   "property": "C202",
   "status": "proved",
   "theorems": [
    "C202_on_panel",
    "C202_tangent"
   ],
   "note": "Exact characterisation C202_on_panel; the velocity of a point on several panels is that of the first one."
  },
  {
   "property": "C203",
   "status": "partial",
   "theorems": [
    "C203_past_the_end_refuted"
   ],
   "note": "Refuted for every panel: the points of the line up to a fifth of the length past the end are taken as on the panel, because the radius is length/sqrt(2)."
  },
  {
   "property": "C204",
   "status": "proved",
   "theorems": [
    "C204_no_penetration"
   ],
   "note": "integrate.quad is a parameter assumed linear, numpy.linalg.solve a parameter assumed to give solutions; a square is the example."
  },
  {
   "property": "C205",
   "status": "proved",
   "theorems": [
    "C205_history"
   ],
   "note": "Invariant by induction over histories. Assigning u_inf or alpha is not an operation of the model."
  },
  {
   "property": "C206",
   "status": "partial",
   "theorems": [
    "C206_forgotten_refuted",
    "C206_square_refuted"
   ],
   "note": "Refuted: after a computation, reversing the normals puts null strengths that are not computed again: the flow is the free stream, as without solid; on a square it differs from the flow computed after the reversal."
  },
  {
   "property": "C207",
   "status": "proved",
   "theorems": [
    "C207_solid",
    "C207_closing"
   ],
   "note": "np.round is a parameter: the claim holds whatever it gives."
  },
  {
   "property": "C208",
   "status": "partial",
   "theorems": [
    "C208_straight_refuted",
    "C208_closed_refuted"
   ],
   "note": "Refuted: every boundary is closed to its first point in place of the last point; a straight boundary of two points always raises ValueError with res=1."
  },
  {
   "property": "C209",
   "status": "partial",
   "theorems": [
    "C209_point_refuted",
    "C209_kind_refuted"
   ],
   "note": "Refuted: add_object(0) always raises TypeError; objects that are not walls never change the velocity."
  },
  {
   "property": "C210",
   "status": "proved",
   "theorems": [
    "C210_distances"
   ],
   "note": ""
  },
  {
   "property": "C211",
   "status": "partial",
   "theorems": [
    "C211_crossed_refuted"
   ],
   "note": "Refuted for every line whose coordinates vary in opposite directions: the position of the last point is the difference of the two sides, less than the length, null at 45 degrees."
  },
  {
   "property": "C212",
   "status": "proved",
   "theorems": [
    "C212_pressure",
    "C212_scaled"
   ],
   "note": "u_inf is not null; uniqueness of the strengths is the hypothesis `determined`, shown for a square."
  },
  {
   "property": "C213",
   "status": "proved",
   "theorems": [
    "C213_grid"
   ],
   "note": "What is kept under the mask is not modelled; the conversion to a VectorField is claimed elsewhere (C21 and others)."
  },
  {
   "property": "C214",
   "status": "proved",
   "theorems": [
    "C214_whenever",
    "C214_results",
    "C214_finishes"
   ],
   "note": "The stages are parameters, pure functions that can raise; the number of threads has no effect on the trajectories (`threads_alike`). Kills during a save are C218; the mean field is C219."
  },
  {
   "property": "C215",
   "status": "proved",
   "theorems": [
    "C215_again"
   ],
   "note": "Holds for every state of the files before the first call, so also for files that are stale (C220) or broken (C218)."
  },
  {
   "property": "C216",
   "status": "proved",
   "theorems": [
    "C216_recompute"
   ],
   "note": "The detailed results are C217."
  },
  {
   "property": "C217",
   "status": "partial",
   "theorems": [
    "C217_stale_refuted"
   ],
   "note": "Refuted for all stages: recompute_everything writes neither the detailed reconstruction nor the detailed trajectories."
  },
  {
   "property": "C218",
   "status": "partial",
   "theorems": [
    "C218_interrupted_refuted",
    "C218_stuck_refuted"
   ],
   "note": "Refuted for every file: the truncated file is there, so no later run writes it again. When it is the first one all later runs raise EOFError; when it is the last one they succeed and leave it."
  },
  {
   "property": "C219",
   "status": "partial",
   "theorems": [
    "C219_mean_refuted"
   ],
   "note": "Refuted: the mean field is written after the cleaned fields, the presence of which skips the whole stage."
  },
  {
   "property": "C220",
   "status": "partial",
   "theorems": [
    "C220_unnoticed_refuted"
   ],
   "note": "Refuted for all sources and parameters: only the presence of the files is looked at."
  },
  {
   "property": "C221",
   "status": "partial",
   "theorems": [
    "C221_default_refuted"
   ],
   "note": "Refuted: psutil.cpu_coun does not exist, so thread='all' (the default) raises AttributeError."
  },
  {
   "property": "C222",
   "status": "proved",
   "theorems": [
    "C222_threads",
    "C222_memory"
   ],
   "note": "Integers in place of floats for the quotient of the memories."
  },
  {
   "property": "C223",
   "status": "partial",
   "theorems": [
    "C223_same_refuted"
   ],
   "note": "Refuted: ZeroDivisionError when the free memory is the same before and after loading (for example when loading reuses freed memory); the trajectories are then not computed."
  },
  {
   "property": "C224",
   "status": "proved",
   "theorems": [
    "C224_starts",
    "C224_outside",
    "C224_one",
    "C224_bounded"
   ],
   "note": "The solver of scipy and the interpolation are parameters (any functions). Integer arrays are C228. Exact real arithmetic."
  },
  {
   "property": "C225",
   "status": "proved",
   "theorems": [
    "C225_inside"
   ],
   "note": "The last point is outside when the line leaves the field (`stream_leaves`, used in C227)."
  },
  {
   "property": "C226",
   "status": "partial",
   "theorems": [
    "C226_time_refuted"
   ],
   "note": "Refuted for all fields: only resolution_kind='length' looks at the boundary; with an interpolation that is constant outside, a uniform flow goes as far as max_steps allows."
  },
  {
   "property": "C227",
   "status": "partial",
   "theorems": [
    "C227_hide_refuted"
   ],
   "note": "Refuted for all extents: boundary_tr is checked and never used; the returned line has a point outside."
  },
  {
   "property": "C228",
   "status": "partial",
   "theorems": [
    "C228_integers_refuted"
   ],
   "note": "Refuted for all integer points strictly inside: the dimensionless coordinates are written in the array of integers, so they are truncated to 0 and the line starts at the corner of the field."
  },
  {
   "property": "C229",
   "status": "proved",
   "theorems": [
    "C229_stream",
    "C229_orthogonal",
    "C229_field"
   ],
   "note": "About the velocity given to the solver, not about the solver."
  },
  {
   "property": "C230",
   "status": "partial",
   "theorems": [
    "C230_track_refuted"
   ],
   "note": "Refuted for all non-zero velocities: reverse is not passed on."
  },
  {
   "property": "C231",
   "status": "proved",
   "theorems": [
    "C231_line",
    "C231_none",
    "C231_each"
   ],
   "note": "The interpolation is a parameter; the magnitude is the norm of the interpolated velocity; delta stands for the absolute spacing."
  },
  {
   "property": "C232",
   "status": "proved",
   "theorems": [
    "C232_stops",
    "C232_not_back",
    "C232_any_bound"
   ],
   "note": "The model's bound on the loop is shown to be irrelevant (`C232_any_bound`)."
  },
  {
   "property": "C233",
   "status": "proved",
   "theorems": [
    "C233_reverse"
   ],
   "note": "Exact real arithmetic."
  },
  {
   "property": "C234",
   "status": "proved",
   "theorems": [
    "C234_flag",
    "C234_duration",
    "C234_checks"
   ],
   "note": "Exact real arithmetic with infinite and NaN steps; the interpolation is a parameter. What one step is worth is C235, that the loop ends C237 and C238."
  },
  {
   "property": "C235",
   "status": "proved",
   "theorems": [
    "C235_affine",
    "C235_reverse"
   ],
   "note": "The order is shown for affine velocities, for which all the coefficients of the method count; for other velocities the remaining order conditions are not stated."
  },
  {
   "property": "C236",
   "status": "proved",
   "theorems": [
    "C236_uniform"
   ],
   "note": "Two steps at most: the error is zero and the second step infinite. In floats the error may be tiny instead of zero."
  },
  {
   "property": "C237",
   "status": "proved",
   "theorems": [
    "C237_ends"
   ],
   "note": "The bound on the error is a hypothesis; `C237_example` meets it with a flow that accelerates."
  },
  {
   "property": "C238",
   "status": "partial",
   "theorems": [
    "C238_dampl_one_refuted"
   ],
   "note": "Refuted for all uniform flows that are not zero: with dampl = 1 the step becomes 0*inf = NaN after the first one and the loop never ends (taking it that the interpolation of NaN does not raise)."
  },
  {
   "property": "C239",
   "status": "partial",
   "theorems": [
    "C239_rel_err_refuted"
   ],
   "note": "Refuted for all tolerances: a step is never rejected. In the velocity (x^2, 0) a particle that reaches x = 10 is said to reach x < 7.2, whatever rel_err is."
  },
  {
   "property": "C240",
   "status": "proved",
   "theorems": [
    "C240_points",
    "C240_number",
    "C240_inside"
   ],
   "note": "Exact arithmetic: in floats numpy.arange may add a point at the end."
  },
  {
   "property": "C241",
   "status": "partial",
   "theorems": [
    "C241_rest_refuted",
    "C241_rest_partial"
   ],
   "note": "Refuted for all fields and resolutions with equal spacings: the value is -ln(2)/(2|dt|), since numpy.gradient is given dx and dy whereas the particles are delta apart. `C241_rest_partial` gives the value for all spacings: ln(delta/min(dx, dy))/|dt|."
  },
  {
   "property": "C242",
   "status": "proved",
   "theorems": [
    "C242_shift",
    "C242_masks",
    "C242_linear"
   ],
   "note": "The gradient at the point is supposed not to be zero (its logarithm is infinite). The sizes of the grid are at least 2, otherwise numpy.gradient raises."
  },
  {
   "property": "C243",
   "status": "proved",
   "theorems": [
    "C243_positions",
    "C243_distances",
    "C243_continuous"
   ],
   "note": "Exact arithmetic instead of float32. A change of scale found by estimateRigidTransform is dropped by the code (only the translation and the angle are kept)."
  },
  {
   "property": "C244",
   "status": "proved",
   "theorems": [
    "C244_from_first",
    "C244_trajectory"
   ],
   "note": "The differences of the translations commute; see C245 for rotations."
  },
  {
   "property": "C245",
   "status": "partial",
   "theorems": [
    "C245_rotation_refuted"
   ],
   "note": "Refuted: in this mode the code subtracts the parameters of successive motions, angles and translations, and composes the differences as motions, which is not the motion itself when there is a rotation after a translation."
  },
  {
   "property": "C246",
   "status": "partial",
   "theorems": [
    "C246_positions_partial",
    "C246_follows_refuted"
   ],
   "note": "Refuted for all smoothings that keep constants: a jump of d between the first frames gives the positions 0, 2d, d instead of 0, d, d. The transform used for a frame is the motion from the previous frame plus the correction, whereas the frame has already moved. `C246_positions_partial` gives the place of each frame for translations by whole pixels: moved by the last step plus smoothed trajectory minus trajectory."
  },
  {
   "property": "C247",
   "status": "proved",
   "theorems": [
    "C247_still"
   ],
   "note": "copyMakeBorder and warpAffine are parameters with stated contracts (StabSpec.pads, StabSpec.warps), met in `C247_example`."
  },
  {
   "property": "C248",
   "status": "partial",
   "theorems": [
    "C248_steps_partial",
    "C248_works_refuted"
   ],
   "note": "Refuted whenever the step along x is greater than along y: the axis y of the result is built with dx and is too long, and ValueError is raised. `C248_steps_partial`: it works exactly when dx <= dy."
  },
  {
   "property": "C249",
   "status": "proved",
   "theorems": [
    "C249_again",
    "C249_steps",
    "C249_failure"
   ],
   "note": "kp_keypoints, the list of features, is not reset and grows at each call."
  },
  {
   "property": "C250",
   "status": "proved",
   "theorems": [
    "C250_exact",
    "C250_polynomials"
   ],
   "note": "Exact arithmetic, no mask. The normalisation by u1[filt_corn] reads the rows 0 and 1 instead of the corners (an array of integers is used as an index), which only changes a constant removed at the end."
  },
  {
   "property": "C251",
   "status": "proved",
   "theorems": [
    "C251_mean",
    "C251_linear",
    "C251_defined"
   ],
   "note": "Grids are functions of two indices; leastsq is a parameter."
  },
  {
   "property": "C252",
   "status": "partial",
   "theorems": [
    "C252_maxiter_refuted",
    "C252_scalar_partial"
   ],
   "note": "Refuted for vector fields: the two components are reconstructed with the default 10 whatever maxiter is. For scalar fields it is given to the solver (`C252_scalar_partial` shows it on a solver that counts)."
  },
  {
   "property": "C253",
   "status": "proved",
   "theorems": [
    "C253_scalar",
    "C253_vector"
   ],
   "note": "Exact arithmetic. The interpolators of scipy are parameters; the nearest one is assumed to give a number when there is a datum."
  },
  {
   "property": "C254",
   "status": "partial",
   "theorems": [
    "C254_high_refuted",
    "C254_two_points_partial"
   ],
   "note": "Refuted: the number of lines is counted from axe[1] instead of axe[-1]; on an even axis of N >= 4 points the wall is between N-3 and N-2 steps too far. Right for axes of two points (`C254_two_points_partial`)."
  },
  {
   "property": "C255",
   "status": "partial",
   "theorems": [
    "C255_kept_partial",
    "C255_kept_refuted"
   ],
   "note": "Refuted when the wall is at less than one step: no line is added and the first measured line is overwritten by zeros. Proved from one step on (`C255_kept_partial`)."
  },
  {
   "property": "C256",
   "status": "partial",
   "theorems": [
    "C256_edge_refuted",
    "C256_inside_partial"
   ],
   "note": "Refuted: the first coordinate itself is taken for a position above the field, gives -1 lines and ValueError. The refusal inside is proved (`C256_inside_partial`)."
  },
  {
   "property": "C257",
   "status": "proved",
   "theorems": [
    "C257_order",
    "C257_few"
   ],
   "note": "The nearest neighbours (sklearn) and the traversals (networkx) are parameters, with their contracts in Pts3Spec.v. Exact arithmetic."
  },
  {
   "property": "C258",
   "status": "partial",
   "theorems": [
    "C258_values_refuted",
    "C258_values_partial"
   ],
   "note": "Refuted: only xy is reordered; the list of values stays in the old order (`C258_values_partial`)."
  },
  {
   "property": "C259",
   "status": "partial",
   "theorems": [
    "C259_all_points_refuted",
    "C259_points_partial"
   ],
   "note": "Refuted for all traversals on two distant groups of three points: half of the points and all values are lost. The returned points are points of the set, each at most once (`C259_points_partial`); see C257 for connected sets."
  },
  {
   "property": "C260",
   "status": "proved",
   "theorems": [
    "C260_evolution"
   ],
   "note": "The interpolation inside a cell is a parameter."
  },
  {
   "property": "C261",
   "status": "proved",
   "theorems": [
    "C261_missing",
    "C261_no_values"
   ],
   "note": ""
  },
  {
   "property": "C262",
   "status": "proved",
   "theorems": [
    "C262_lines",
    "C262_refused"
   ],
   "note": "get_streamlines is a parameter, giving as many times as points. The places are computed with the step of x for both axes (C263)."
  },
  {
   "property": "C263",
   "status": "partial",
   "theorems": [
    "C263_quarter_refuted"
   ],
   "note": "Refuted: line 199 uses axe_x for the step of y."
  },
  {
   "property": "C264",
   "status": "proved",
   "theorems": [
    "C264_slopes",
    "C264_linear",
    "C264_other"
   ],
   "note": "Exact arithmetic."
  },
  {
   "property": "C265",
   "status": "partial",
   "theorems": [
    "C265_unit_refuted"
   ],
   "note": "Refuted: the result is stored with the unit of the field (line 581). Values: C264."
  },
  {
   "property": "C266",
   "status": "proved",
   "theorems": [
    "C266_slopes",
    "C266_linear"
   ],
   "note": "raw=False. Exact arithmetic."
  },
  {
   "property": "C267",
   "status": "partial",
   "theorems": [
    "C267_filled_refuted"
   ],
   "note": "Refuted: tmp_vf.fill() is called without inplace and its result is lost (line 1048)."
  },
  {
   "property": "C268",
   "status": "partial",
   "theorems": [
    "C268_unit_refuted"
   ],
   "note": "Refuted: the result is stored with the unit of the field (line 1066). Values: C266."
  },
  {
   "property": "C269",
   "status": "proved",
   "theorems": [
    "C269_simple",
    "C269_line"
   ],
   "note": "respace=False; C141 says what get_gradient gives. Units are products, the factor asNumber() is 1."
  },
  {
   "property": "C270",
   "status": "proved",
   "theorems": [
    "C270_linear_law"
   ],
   "note": "Units are products, the factor asNumber() is 1."
  },
  {
   "property": "C271",
   "status": "proved",
   "theorems": [
    "C271_viscosity"
   ],
   "note": ""
  },
  {
   "property": "C272",
   "status": "proved",
   "theorems": [
    "C272_laminar",
    "C272_other"
   ],
   "note": "Real numbers."
  },
  {
   "property": "C273",
   "status": "proved",
   "theorems": [
    "C273_growth",
    "C273_total"
   ],
   "note": "Real numbers."
  },
  {
   "property": "C274",
   "status": "partial",
   "theorems": [
    "C274_position_refuted",
    "C274_position_partial"
   ],
   "note": "Refuted: the inverse uses 4.92 (line 291), the thickness 4.91. `C274_position_partial`: the result is (4.91/4.92)^2 x at every laminar position."
  },
  {
   "property": "C275",
   "status": "proved",
   "theorems": [
    "C275_position"
   ],
   "note": "Real numbers."
  },
  {
   "property": "C276",
   "status": "proved",
   "theorems": [
    "C276_momentum"
   ],
   "note": "Real numbers."
  },
  {
   "property": "C277",
   "status": "partial",
   "theorems": [
    "C277_positive_refuted",
    "C277_positive_partial"
   ],
   "note": "Refuted for turbulent layers, whose delta2 and delta_star are 0 (lines 143-144). Proved for laminar positions (`C277_positive_partial`)."
  },
  {
   "property": "C278",
   "status": "proved",
   "theorems": [
    "C278_refused"
   ],
   "note": "NotImplementedError is GenericErr in the model."
  },
  {
   "property": "C279",
   "status": "proved",
   "theorems": [
    "C279_confined"
   ],
   "note": "h a number; the pairs given to the Profile constructor."
  },
  {
   "property": "C280",
   "status": "partial",
   "theorems": [
    "C280_negative_refuted"
   ],
   "note": "Refuted for a layer thicker than h/0.26547."
  },
  {
   "property": "C281",
   "status": "proved",
   "theorems": [
    "C281_blasius",
    "C281_no_slip",
    "C281_similar"
   ],
   "note": "odeint is a parameter with the contract of an exact integrator (LaySpec.v)."
  },
  {
   "property": "C282",
   "status": "partial",
   "theorems": [
    "C282_points_refuted"
   ],
   "note": "Refuted for every exact integrator and flow: odeint puts the initial condition at the first value asked, so that the velocity there is 0 wherever it is."
  },
  {
   "property": "C283",
   "status": "partial",
   "theorems": [
    "C283_turbulent_refuted"
   ],
   "note": "Refuted: the method calls self.get_thickness, which does not exist."
  },
  {
   "property": "C284",
   "status": "proved",
   "theorems": [
    "C284_momentum",
    "C284_uniform",
    "C284_stopped"
   ],
   "note": "quad is a parameter with the contract of an exact integrator for the function integrated."
  },
  {
   "property": "C285",
   "status": "partial",
   "theorems": [
    "C285_lambda_refuted",
    "C285_lambda_partial"
   ],
   "note": "Refuted: np.gradient is called without spacing (line 605). `C285_lambda_partial`: lambda is the right one multiplied by the step."
  },
  {
   "property": "C286",
   "status": "proved",
   "theorems": [
    "C286_shape",
    "C286_uniform"
   ],
   "note": ""
  },
  {
   "property": "C287",
   "status": "partial",
   "theorems": [
    "C287_inverse_refuted",
    "C287_inverse_partial",
    "C287_stagnation_partial"
   ],
   "note": "Refuted: get_y returns a height without the factor sqrt((m+1)/2) of get_mu (its second return statement, which has it, is never reached). The result is mu sqrt((m+1)/2) (`C287_inverse_partial`), mu for m = 1."
  },
  {
   "property": "C288",
   "status": "proved",
   "theorems": [
    "C288_growth"
   ],
   "note": "Real numbers."
  },
  {
   "property": "C289",
   "status": "proved",
   "theorems": [
    "C289_guesses"
   ],
   "note": "The results of the integrations are a parameter."
  },
  {
   "property": "C290",
   "status": "partial",
   "theorems": [
    "C290_start_refuted",
    "C290_refused_partial"
   ],
   "note": "Refuted: the code also requires f''(10) to change sign at the same place, and raises IndexError otherwise. `C290_refused_partial`: when all guesses are below 1 and the nearest is at an end, the exception of the code is raised."
  },
  {
   "property": "C291",
   "status": "proved",
   "theorems": [
    "C291_shooting",
    "C291_ends"
   ],
   "note": "f'(10) as a function of f''(0) is a parameter (None when the integration warns). Guesses are between -1000 and 1000, which is far from the 1e30 the loop starts with."
  },
  {
   "property": "C292",
   "status": "partial",
   "theorems": [
    "C292_verbose_refuted",
    "C292_verbose_partial"
   ],
   "note": "Refuted: the break on convergence is under 'if verbose' (lines 464-467). `C292_verbose_partial` says when the verbose search stops."
  },
  {
   "property": "C293",
   "status": "proved",
   "theorems": [
    "C293_prandtl"
   ],
   "note": "odeint is a parameter with the contract of an exact integrator; the solution is extended to all real numbers."
  },
  {
   "property": "C294",
   "status": "proved",
   "theorems": [
    "C294_eigenvalues",
    "C294_raw"
   ],
   "note": "numpy.linalg.eig is a parameter with the contract of JacSpec.v at the matrices of the field."
  },
  {
   "property": "C295",
   "status": "partial",
   "theorems": [
    "C295_vectors_refuted",
    "C295_vectors_partial"
   ],
   "note": "Refuted for every right eig: in a rotation only the real parts of complex eigenvectors are kept. Proved where the eigenvalues are real (`C295_vectors_partial`)."
  },
  {
   "property": "C296",
   "status": "partial",
   "theorems": [
    "C296_unit_refuted"
   ],
   "note": "Refuted: the unit is always \"\"."
  },
  {
   "property": "C297",
   "status": "proved",
   "theorems": [
    "C297_mask"
   ],
   "note": "Fields whose masked cells are those that hold NaN (as the constructors ensure)."
  },
  {
   "property": "C298",
   "status": "proved",
   "theorems": [
    "C298_linear"
   ],
   "note": "numpy.linalg.eig is a parameter with the contract of JacSpec.v at the matrices of the field."
  },
  {
   "property": "C299",
   "status": "partial",
   "theorems": [
    "C299_lines_refuted",
    "C299_lines_partial"
   ],
   "note": "Refuted where the flow rotates. Proved at the cells with two distinct real eigenvalues (`C299_lines_partial`)."
  },
  {
   "property": "C300",
   "status": "proved",
   "theorems": [
    "C300_mask"
   ],
   "note": ""
  },
  {
   "property": "C301",
   "status": "partial",
   "theorems": [
    "C301_text_partial",
    "C301_files_refuted"
   ],
   "note": "Refuted when a folder is called 'files' (what is in it is not shown). Proved for the other collections and limits that are not negative, for any decoration."
  },
  {
   "property": "C302",
   "status": "partial",
   "theorems": [
    "C302_heading_partial",
    "C302_files_refuted"
   ],
   "note": "Refuted when a folder is called 'files'. Proved when no folder or file is called 'files' and the limit is not negative."
  },
  {
   "property": "C303",
   "status": "partial",
   "theorems": [
    "C303_average_partial",
    "C303_missing_partial",
    "C303_units_refuted"
   ],
   "note": "Refuted when the trajectory and the series have different units of time: the numbers are compared. Proved for numbers in the same unit; scalar fields only."
  },
  {
   "property": "C304",
   "status": "proved",
   "theorems": [
    "C304_modes"
   ],
   "note": ""
  },
  {
   "property": "C305",
   "status": "proved",
   "theorems": [
    "C305_smoothed"
   ],
   "note": "The smoothing of a profile is a parameter that may fail."
  },
  {
   "property": "C306",
   "status": "partial",
   "theorems": [
    "C306_smoothed_partial",
    "C306_copy_refuted"
   ],
   "note": "Refuted: inplace=False raises AttributeError (mdes) as soon as there is a mode. Proved in place."
  },
  {
   "property": "C307",
   "status": "proved",
   "theorems": [
    "C307_line",
    "C307_plane",
    "C307_defined",
    "C307_floor"
   ],
   "note": "Over the reals."
  },
  {
   "property": "C308",
   "status": "proved",
   "theorems": [
    "C308_around",
    "C308_nothing"
   ],
   "note": ""
  },
  {
   "property": "C309",
   "status": "partial",
   "theorems": [
    "C309_number_partial",
    "C309_number_refuted"
   ],
   "note": "Refuted for even numbers: nmb_lc - 1 lines are taken. Proved for odd numbers."
  },
  {
   "property": "C310",
   "status": "proved",
   "theorems": [
    "C310_masked",
    "C310_count"
   ],
   "note": "The smoothing is a parameter that keeps the abscissae and the units."
  },
  {
   "property": "C311",
   "status": "partial",
   "theorems": [
    "C311_import_refuted",
    "C311_attribute_refuted"
   ],
   "note": "Refuted: the method import_from_ascii does not exist, no call returns a series."
  },
  {
   "property": "C312",
   "status": "proved",
   "theorems": [
    "C312_accepts",
    "C312_raises"
   ],
   "note": ""
  },
  {
   "property": "C313",
   "status": "partial",
   "theorems": [
    "C313_imported_partial",
    "C313_imported_refuted"
   ],
   "note": "Refuted when an axis decreases and a value is nan: the mask is not reversed with the components. Proved for axes that do not decrease."
  },
  {
   "property": "C314",
   "status": "partial",
   "theorems": [
    "C314_confined_partial",
    "C314_thickness_refuted",
    "C314_turbulent_refuted"
   ],
   "note": "Refuted: the position is found with 4.92 instead of 4.91 (thickness wrong by 0.2 %), and turbulent layers raise AttributeError. Proved: the profile is that of a position whose layer has 4.91/4.92 times the confined thickness, for laminar layers that fit in the depth."
  },
  {
   "property": "C315",
   "status": "proved",
   "theorems": [
    "C315_frames"
   ],
   "note": "The evolution of the system and its field are parameters that may fail; the fields share their axes."
  },
  {
   "property": "C316",
   "status": "partial",
   "theorems": [
    "C316_back_partial",
    "C316_units_refuted"
   ],
   "note": "Refuted: the units are lost. Proved: the axes, the mask and the components that are not masked come back."
  },
  {
   "property": "C317",
   "status": "proved",
   "theorems": [
    "C317_scalar",
    "C317_vector"
   ],
   "note": ""
  },
  {
   "property": "C318",
   "status": "proved",
   "theorems": [
    "C318_zones",
    "C318_criterion"
   ],
   "note": "The criterion is a parameter. A criterion seen on a single first line or column raises TypeError (C17)."
  },
  {
   "property": "C319",
   "status": "partial",
   "theorems": [
    "C319_times_partial",
    "C319_accepts_partial",
    "C319_late_refuted"
   ],
   "note": "Refuted: ValueError when the first field shows no vortex and a later one does, since the units stay without dimension. Proved: the points of each time when there is no error; no error when the first field shows a vortex."
  },
  {
   "property": "C320",
   "status": "partial",
   "theorems": [
    "C320_null_refuted",
    "C320_null_partial",
    "C320_refused"
   ],
   "note": "Refuted: a zone of null values raises ValueError for the threshold 0. Proved: it works when each zone has a value that is not null; the other thresholds are refused."
  },
  {
   "property": "C321",
   "status": "partial",
   "theorems": [
    "C321_temporal_partial",
    "C321_scalar_partial",
    "C321_vector_partial",
    "C321_null_partial",
    "C321_vector_null_partial",
    "C321_again",
    "C321_spatial_refuted"
   ],
   "note": "Refuted: the first call of get_spatial_coherence takes from each mode its mean, in place (all its values become NaN if one of them is), and reconstruct then gives other fields. Proved: get_temporal_coherence changes nothing; get_spatial_coherence changes only the values of the modes, by exactly their means; modes of null mean keep their values; a second call changes nothing and gives the same values. The spectra are parameters."
  },
  {
   "property": "C322",
   "status": "partial",
   "theorems": [
    "C322_temporal_partial",
    "C322_base_partial",
    "C322_stale",
    "C322_crop_refuted"
   ],
   "note": "Refuted: crop does not forget the spatial coherence, which stays that of the modes before the crop. Proved: the temporal one is right after any calls; the spatial one is right after crop_modal_base. scale is not among the calls."
  },
  {
   "property": "C323",
   "status": "partial",
   "theorems": [
    "C323_profile_partial",
    "C323_integral_refuted",
    "C323_field_refuted"
   ],
   "note": "Refuted: the integral stops at the last point within the layer and is relative to the velocity there; a scalar field always raises. Proved: u_star times the result is the displacement thickness times the last velocity, with its bounds. The stress deduced from get_shear_stress is not modelled."
  },
  {
   "property": "C324",
   "status": "proved",
   "theorems": [
    "C324_x",
    "C324_y",
    "C324_empty"
   ],
   "note": "A series without field gives an empty series without the unit of the times (C324_empty)."
  },
  {
   "property": "C325",
   "status": "proved",
   "theorems": [
    "C325_scalar",
    "C325_vector"
   ],
   "note": "True is 1 and False is 0, as in C317."
  }
 ]
}