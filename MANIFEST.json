{
 "claims": [
  {
   "property": "C01",
   "status": "proved",
   "theorems": [
    "C01_total_occupation"
   ],
   "note": "For every pixel of every 1D and 2D scan of a usable configuration (`csd_config`); `assigned` says which number belongs to a pixel."
  },
  {
   "property": "C02",
   "status": "proved",
   "theorems": [
    "C02_occupation_bounds"
   ],
   "note": ""
  },
  {
   "property": "C03",
   "status": "proved",
   "theorems": [
    "C03_occupation_monotone",
    "C03_signed_distance"
   ],
   "note": "The first theorem is direction-aware (the widths are negative for the usual geometry), the second is the literal statement for widths that are not negative."
  },
  {
   "property": "C04",
   "status": "partial",
   "theorems": [
    "C04_scans_agree",
    "C04_scan_2d_fails",
    "C04_scan_1d",
    "C04_above_all_1d_refuted"
   ],
   "note": "Agreement is proved for unlabelled pixels of finely sampled scans. The IndexError half is true for 2D and false for 1D scans."
  },
  {
   "property": "C05",
   "status": "proved",
   "theorems": [
    "C05_reverse_gate_1",
    "C05_reverse_gate_2",
    "C05_reverse_1d"
   ],
   "note": "1D scans with exactly one pixel are excluded (the pixel is the start of the sweep)."
  },
  {
   "property": "C06",
   "status": "proved",
   "theorems": [
    "C06_pixel_index",
    "C06_mask_labels",
    "C06_scan_labels"
   ],
   "note": ""
  },
  {
   "property": "C07",
   "status": "proved",
   "theorems": [
    "C07_mask_1d",
    "C07_any_trace"
   ],
   "note": "Electron numbers below 256 (uint8)."
  },
  {
   "property": "C08",
   "status": "proved",
   "theorems": [
    "C08_tct_continuous",
    "C08_tct_lookup_table_close"
   ],
   "note": "Continuity for explicit evaluation of upward corners; a lookup table is a step function, for which the distance to the continuous curve is bounded instead."
  },
  {
   "property": "C09",
   "status": "proved",
   "theorems": [
    "C09_tct_periodic",
    "C09_tct_periodic_limited"
   ],
   "note": ""
  },
  {
   "property": "C10",
   "status": "proved",
   "theorems": [
    "C10_anchors_on_tct",
    "C10_anchor_lines",
    "C10_keys",
    "C10_dictionary"
   ],
   "note": ""
  },
  {
   "property": "C11",
   "status": "proved",
   "theorems": [
    "C11_n_transitions",
    "C11_range"
   ],
   "note": ""
  },
  {
   "property": "C12",
   "status": "proved",
   "theorems": [
    "C12_lookup_nearest",
    "C12_lookup_error",
    "C12_tct"
   ],
   "note": "At least two table entries."
  },
  {
   "property": "C13",
   "status": "proved",
   "theorems": [
    "C13_malformed_rejected",
    "C13_well_formed_accepted",
    "C13_unknown_cdf",
    "C13_unknown_empty",
    "C13_other_resolutions"
   ],
   "note": "Malformed 2D requests with too short limits raise IndexError instead of ValueError."
  },
  {
   "property": "C14",
   "status": "proved",
   "theorems": [
    "C14_cdf_laws",
    "C14_multi_cdf_bound",
    "C14_multi_cdf_odd_rejected"
   ],
   "note": ""
  },
  {
   "property": "C15",
   "status": "proved",
   "theorems": [
    "C15_glf_inverse",
    "C15_glf_inverse_default_denominator"
   ],
   "note": ""
  },
  {
   "property": "C16",
   "status": "proved",
   "theorems": [
    "C16_glf_growth",
    "C16_glf_mirror"
   ],
   "note": ""
  },
  {
   "property": "C17",
   "status": "proved",
   "theorems": [
    "C17_rotation",
    "C17_rotation_arrays"
   ],
   "note": ""
  },
  {
   "property": "C18",
   "status": "proved",
   "theorems": [
    "C18_signed_distance"
   ],
   "note": ""
  },
  {
   "property": "C19",
   "status": "proved",
   "theorems": [
    "C19_line_line"
   ],
   "note": ""
  },
  {
   "property": "C20",
   "status": "proved",
   "theorems": [
    "C20_line_circle"
   ],
   "note": ""
  },
  {
   "property": "C21",
   "status": "proved",
   "theorems": [
    "C21_samples_in_range",
    "C21_narrowed_range",
    "C21_first_in_range",
    "C21_reversed_never_returns",
    "C21_distribution",
    "C21_generator"
   ],
   "note": "Ranges with ordered ends and sampling widths that are not negative."
  },
  {
   "property": "C22",
   "status": "partial",
   "theorems": [
    "C22_reset_hits_target",
    "C22_reset_scan_sensor_refuted"
   ],
   "note": "True for the generic sensor; for the sensor-scan sensor the function always raises."
  },
  {
   "property": "C23",
   "status": "proved",
   "theorems": [
    "C23_generic_1d",
    "C23_generic_2d",
    "C23_cuts",
    "C23_electron",
    "C23_empty",
    "C23_scan_1d",
    "C23_scan_2d",
    "C23_scan_rejected"
   ],
   "note": ""
  },
  {
   "property": "C24",
   "status": "proved",
   "theorems": [
    "C24_gauss",
    "C24_lorentz"
   ],
   "note": "Positive height."
  },
  {
   "property": "C25",
   "status": "proved",
   "theorems": [
    "C25_order",
    "C25_sum",
    "C25_no_peaks",
    "C25_empty"
   ],
   "note": "An empty list (as opposed to None) gives the number 0 instead of an image."
  },
  {
   "property": "C26",
   "status": "proved",
   "theorems": [
    "C26_response_is_series",
    "C26_series"
   ],
   "note": ""
  },
  {
   "property": "C27",
   "status": "partial",
   "theorems": [
    "C27_percentages",
    "C27_rejected",
    "C27_any_offset",
    "C27_reachable",
    "C27_reachable_falling",
    "C27_offset_refuted"
   ],
   "note": "True for denominator offset 1, the default (C27_percentages). For any other offset the reported potential is exact whenever the percentage is reached at all (C27_any_offset); C27_reachable and C27_reachable_falling say which percentages those are. False otherwise: with denominator offset 2 no percentage of 1/2 or more is reached, but the barrier is accepted (C27_offset_refuted)."
  },
  {
   "property": "C28",
   "status": "partial",
   "theorems": [
    "C28_rise_reached",
    "C28_rise_shift_refuted"
   ],
   "note": "True only for mu0 = 0; otherwise the rise is shifted by mu0."
  },
  {
   "property": "C29",
   "status": "partial",
   "theorems": [
    "C29_point_solves_partial",
    "C29_point_error_refuted",
    "C29_point_csd_refuted"
   ],
   "note": "True in sensor scans if both dots hold equally many electrons or dot 2 does not couple to barrier 1; the exact error is given otherwise and for charge stability diagrams."
  },
  {
   "property": "C30",
   "status": "proved",
   "theorems": [
    "C30_masks",
    "C30_total",
    "C30_rejected",
    "C30_positions"
   ],
   "note": ""
  },
  {
   "property": "C31",
   "status": "partial",
   "theorems": [
    "C31_ascending_partial",
    "C31_peaks_in_order",
    "C31_unsorted_refuted"
   ],
   "note": "True for peaks given in ascending order; labels are list positions, so false for unsorted lists."
  },
  {
   "property": "C32",
   "status": "partial",
   "theorems": [
    "C32_linear",
    "C32_circle",
    "C32_circle_negative_radius_refuted"
   ],
   "note": "Continuity of the circular deformation holds for positive radii only."
  },
  {
   "property": "C33",
   "status": "partial",
   "theorems": [
    "C33_repeat_partial",
    "C33_repeat_refuted"
   ],
   "note": "True for sensor scans and without final rise; false for charge stability diagrams with final rise."
  },
  {
   "property": "C34",
   "status": "proved",
   "theorems": [
    "C34_peaks_restored",
    "C34_loop"
   ],
   "note": ""
  },
  {
   "property": "C35",
   "status": "proved",
   "theorems": [
    "C35_blockwise"
   ],
   "note": ""
  },
  {
   "property": "C36",
   "status": "proved",
   "theorems": [
    "C36_pixelwise"
   ],
   "note": ""
  },
  {
   "property": "C37",
   "status": "proved",
   "theorems": [
    "C37_jump_pattern"
   ],
   "note": ""
  },
  {
   "property": "C38",
   "status": "proved",
   "theorems": [
    "C38_rtn",
    "C38_heights",
    "C38_generator",
    "C38_generator_two_scales",
    "C38_rtn_two_scales",
    "C38_heights_two_scales",
    "C38_two_scales_refused"
   ],
   "note": "numpy's promise that geometric draws are positive is a hypothesis."
  },
  {
   "property": "C39",
   "status": "proved",
   "theorems": [
    "C39_inactive",
    "C39_rtn_inactive"
   ],
   "note": ""
  },
  {
   "property": "C40",
   "status": "proved",
   "theorems": [
    "C40_jump_replay",
    "C40_jump_frozen_pure",
    "C40_blur_replay"
   ],
   "note": ""
  },
  {
   "property": "C41",
   "status": "proved",
   "theorems": [
    "C41_blur_averages",
    "C41_blur_reverse",
    "C41_sigma"
   ],
   "note": "For both filter kernels and every kernel radius."
  },
  {
   "property": "C42",
   "status": "partial",
   "theorems": [
    "C42_conversion_partial",
    "C42_conversion_refuted"
   ],
   "note": "False for non-square 2D scans (rows and columns are swapped); true for square and single-gate 1D scans."
  },
  {
   "property": "C43",
   "status": "proved",
   "theorems": [
    "C43_white",
    "C43_white_draws",
    "C43_pink",
    "C43_pink_draws"
   ],
   "note": ""
  },
  {
   "property": "C44",
   "status": "partial",
   "theorems": [
    "C44_invalid_rejected",
    "C44_valid_accepted_partial",
    "C44_missing_voltage_refuted"
   ],
   "note": "False with configured sensor limits: leaving out the sensor voltages raises TypeError."
  },
  {
   "property": "C45",
   "status": "partial",
   "theorems": [
    "C45_composition",
    "C45_returned_data_refuted"
   ],
   "note": "Composition proved for distortions that change their arrays in place; the returned arrays of occupation distortions are ignored."
  },
  {
   "property": "C46",
   "status": "proved",
   "theorems": [
    "C46_generator",
    "C46_same_data",
    "C45_composition"
   ],
   "note": "Which generator is handed to which distortion is part of `measured` in C45_composition."
  },
  {
   "property": "C47",
   "status": "proved",
   "theorems": [
    "C47_failed_unchanged",
    "C47_exceptions",
    "C47_accepts",
    "C47_read_back",
    "C47_isolated",
    "C47_constructor",
    "C47_constructor_accepts",
    "C47_constructor_refused"
   ],
   "note": "References obtained from getters are the documented exception: they are the stored objects."
  },
  {
   "property": "C48",
   "status": "partial",
   "theorems": [
    "C48_invalid_rejected",
    "C48_accepted_partial",
    "C48_int_resolution_refuted",
    "C48_single_entry_refuted",
    "C48_negative",
    "C48_negative_known"
   ],
   "note": "False: integer resolutions fail with plunger voltages, one-entry arrays fail without."
  },
  {
   "property": "C49",
   "status": "partial",
   "theorems": [
    "C49_response_ranges_refuted",
    "C79_composition"
   ],
   "note": "True for potential distortions (part of C79_composition), false for response distortions."
  },
  {
   "property": "C50",
   "status": "proved",
   "theorems": [
    "C50_lever_arms"
   ],
   "note": ""
  },
  {
   "property": "C51",
   "status": "proved",
   "theorems": [
    "C51_peak_list",
    "C51_strictly_sorted",
    "C51_no_exception"
   ],
   "note": ""
  },
  {
   "property": "C52",
   "status": "partial",
   "theorems": [
    "C52_distance",
    "C52_admissible",
    "C52_terminates",
    "C52_preferred",
    "C52_preferred_refuted",
    "C52_degenerate_refuted",
    "C52_compensated"
   ],
   "note": "distance, admissible interval and termination proved; an admissible position exists only if the range is not a single point, which nothing excludes for uncompensated sensors"
  },
  {
   "property": "C53",
   "status": "proved",
   "theorems": [
    "C53_pinch_off",
    "C53_no_exception"
   ],
   "note": "for positive heights and percentages strictly between 0 and 1"
  },
  {
   "property": "C54",
   "status": "partial",
   "theorems": [
    "C54_multiplier_refuted",
    "C54_occupation_refuted",
    "C54_checked",
    "C54_unknown_sensor",
    "C54_sensor"
   ],
   "note": "false: the distortions are always sampled with multiplier 1; proved what the multiplier is used for"
  },
  {
   "property": "C55",
   "status": "proved",
   "theorems": [
    "C55_translates",
    "C55_minimal",
    "C55_covers",
    "C55_scans"
   ],
   "note": "over the reals; `label` is any correct labelling"
  },
  {
   "property": "C56",
   "status": "partial",
   "theorems": [
    "C56_complement_partial",
    "C56_large_refuted",
    "C56_sigmoid",
    "C56_cauchy",
    "C56_total",
    "C56_mask"
   ],
   "note": "proved up to 2^52 electrons, false between 2^52 and 2^53; binary64 without overflow, tanh and arctan of numpy enter by their ranges only"
  },
  {
   "property": "C57",
   "status": "partial",
   "theorems": [
    "C57_jump_1d",
    "C57_vertical_scan_refuted",
    "C57_opposite_partial",
    "C57_opposite_refuted"
   ],
   "note": "True with a step of (g1 range)/pixels; false with the pixel pitch, scans along g2 are not shifted at all, and scans with gates swept in opposite directions show the wrong voltage of gate 1."
  },
  {
   "property": "C58",
   "status": "partial",
   "theorems": [
    "C58_jump_2d_axis_1",
    "C58_jump_2d_axis_0",
    "C58_strip_position",
    "C58_grid_refuted"
   ],
   "note": "The continuation is exact, but the generated strip uses the step range/pixels instead of the pixel pitch range/(pixels-1)."
  },
  {
   "property": "C59",
   "status": "partial",
   "theorems": [
    "C59_direction_partial",
    "C59_both_descending_refuted"
   ],
   "note": "True when one 2D gate or a whole 1D sweep is reversed; false for 2D scans with both gates descending."
  },
  {
   "property": "C60",
   "status": "partial",
   "theorems": [
    "C60_rtn_active",
    "C60_active_draws",
    "C60_generator",
    "C60_low_resolution_refuted"
   ],
   "note": "Holds exactly when the burst length is at least one pixel (or zero)."
  },
  {
   "property": "C61",
   "status": "partial",
   "theorems": [
    "C37_jump_pattern",
    "C61_heights",
    "C61_heights_partial",
    "C61_call",
    "C61_generator",
    "C61_call_generator",
    "C61_jump_height_refuted"
   ],
   "note": "Heights are the draws modulo 256 (C61_heights), hence the draws themselves if these are less than 256 (C61_heights_partial)."
  },
  {
   "property": "C62",
   "status": "proved",
   "theorems": [
    "C62_tct_slopes"
   ],
   "note": ""
  },
  {
   "property": "C63",
   "status": "partial",
   "theorems": [
    "C63_explicit_on_curve",
    "C63_tct",
    "C63_valley_refuted"
   ],
   "note": "True for upward corners; false for downward corners, where the maximum of the two roots is the wrong branch."
  },
  {
   "property": "C64",
   "status": "proved",
   "theorems": [
    "C64_array_pointwise",
    "C64_malformed_rejected"
   ],
   "note": ""
  },
  {
   "property": "C65",
   "status": "proved",
   "theorems": [
    "C65_raising_voltages",
    "C65_stays_above_all"
   ],
   "note": ""
  },
  {
   "property": "C66",
   "status": "proved",
   "theorems": [
    "C66_gap_free",
    "C66_default"
   ],
   "note": ""
  },
  {
   "property": "C67",
   "status": "partial",
   "theorems": [
    "C67_zero_coupling_refuted",
    "C67_zero_partial",
    "C67_narrow_partial",
    "C67_exchanged_partial",
    "C67_default_places"
   ],
   "note": "False: the dots are exchanged. In general a pixel past m of n transitions has (n - m, m) electrons without coupling, and close to (m, n - m) with a narrow coupling of positive width (close to (n - m, m) if the width is negative). The width is positive wherever the valley lies above both edges of the peak (C67_exchanged_partial), as in the default configuration (C67_default_places)."
  },
  {
   "property": "C68",
   "status": "partial",
   "theorems": [
    "C68_linear_line",
    "C68_circle_partial",
    "C68_circle_refuted"
   ],
   "note": "Linear: true. Circular: true only if the lever-arms of the sensor dot have norm 1."
  },
  {
   "property": "C69",
   "status": "partial",
   "theorems": [
    "C69_areas_partial",
    "C69_threshold",
    "C69_threshold_refuted"
   ],
   "note": "True for equal plunger voltages or if plunger gate 2 does not act on the sensor dot."
  },
  {
   "property": "C70",
   "status": "partial",
   "theorems": [
    "C70_deformed_response",
    "C70_plain_response",
    "C70_rise_response",
    "C70_single_pixel_refuted"
   ],
   "note": "True for at least two pixels along each axis (deformed scans with one pixel raise ZeroDivisionError); deformed scans ignore the final rise. First lever-arm of the sensor dot positive."
  },
  {
   "property": "C71",
   "status": "partial",
   "theorems": [
    "C71_labels_match_response_partial",
    "C71_unsorted_refuted",
    "C30_positions"
   ],
   "note": "True for ascending peaks and equal plunger voltages."
  },
  {
   "property": "C72",
   "status": "proved",
   "theorems": [
    "C72_alpha",
    "C72_alpha_sensor",
    "C72_refused"
   ],
   "note": ""
  },
  {
   "property": "C73",
   "status": "proved",
   "theorems": [
    "C73_multi_glf_sum",
    "C73_multi_glf_rejected",
    "C73_multi_glf_rises",
    "C73_barrier"
   ],
   "note": ""
  },
  {
   "property": "C74",
   "status": "partial",
   "theorems": [
    "C74_pixel_to_volt",
    "C74_last_pixel_refuted"
   ],
   "note": "True if pixel_num is the number of pixels minus one (as all callers pass it)."
  },
  {
   "property": "C75",
   "status": "partial",
   "theorems": [
    "C75_below_line",
    "C75_float_rejected_refuted"
   ],
   "note": "Horizontal lines given as float are rejected although documented."
  },
  {
   "property": "C76",
   "status": "proved",
   "theorems": [
    "C76_labels_overwrite_state"
   ],
   "note": ""
  },
  {
   "property": "C77",
   "status": "proved",
   "theorems": [
    "C77_samples_close",
    "C77_last_sample"
   ],
   "note": ""
  },
  {
   "property": "C78",
   "status": "partial",
   "theorems": [
    "C78_default_mean_partial",
    "C78_narrowed_mean_refuted"
   ],
   "note": "True only if the range is not narrowed; otherwise the centre of the narrowed range is used."
  },
  {
   "property": "C79",
   "status": "proved",
   "theorems": [
    "C79_composition"
   ],
   "note": ""
  },
  {
   "property": "C80",
   "status": "proved",
   "theorems": [
    "C80_measure",
    "C80_sensor_scan"
   ],
   "note": ""
  },
  {
   "property": "C81",
   "status": "partial",
   "theorems": [
    "C81_list_limits_refuted"
   ],
   "note": "False: lists have no attribute size."
  },
  {
   "property": "C82",
   "status": "proved",
   "theorems": [
    "C82_one_period",
    "C82_outer_lines"
   ],
   "note": ""
  },
  {
   "property": "C83",
   "status": "proved",
   "theorems": [
    "C83_pixels",
    "C83_shape",
    "C83_outcome",
    "C83_reversed"
   ],
   "note": "IdealCSDGeometric and SensorGeneric plugged into Simulation.measure; 1D scans with one pixel are left out of the reversal (the single pixel is then at the other end)"
  },
  {
   "property": "C84",
   "status": "proved",
   "theorems": [
    "C84_generic_sensor",
    "C84_no_exception"
   ],
   "note": "exceptions other than running out of fuel"
  },
  {
   "property": "C85",
   "status": "proved",
   "theorems": [
    "C85_steepest"
   ],
   "note": "over the reals"
  },
  {
   "property": "C86",
   "status": "proved",
   "theorems": [
    "C86_scan_sensor",
    "C86_no_exception"
   ],
   "note": ""
  },
  {
   "property": "C87",
   "status": "proved",
   "theorems": [
    "C87_rise"
   ],
   "note": "over the reals"
  },
  {
   "property": "C88",
   "status": "proved",
   "theorems": [
    "C88_gap",
    "C88_parallel",
    "C88_counting"
   ],
   "note": "over the reals; `C88_steeper` shows that steeper upper TCTs do cross"
  },
  {
   "property": "C89",
   "status": "proved",
   "theorems": [
    "C89_stacked"
   ],
   "note": "the decimals of the default configuration as exact reals"
  },
  {
   "property": "C90",
   "status": "partial",
   "theorems": [
    "C90_electrons",
    "C90_measure_partial",
    "C90_coarse_refuted"
   ],
   "note": "false for coarse scans: 25 by 25 pixels over the complete range raise IndexError; proved for pixels at most 4 mV apart"
  },
  {
   "property": "C91",
   "status": "proved",
   "theorems": [
    "C91_ordered"
   ],
   "note": ""
  },
  {
   "property": "C92",
   "status": "proved",
   "theorems": [
    "C92_no_exception",
    "C92_loop_ends"
   ],
   "note": "the rejection loops for the first TCT end with probability one only; they are modelled with fuel"
  },
  {
   "property": "C93",
   "status": "proved",
   "theorems": [
    "C93_pixels",
    "C93_labels",
    "C93_outcome"
   ],
   "note": "conductive areas for equal plunger voltages only (see C95)"
  },
  {
   "property": "C94",
   "status": "partial",
   "theorems": [
    "C94_one_distance",
    "C94_deformations_refuted"
   ],
   "note": "false: every pixel shows the peaks as deformed at one and the same distance, that of the fully conductive point; proved which"
  },
  {
   "property": "C95",
   "status": "partial",
   "theorems": [
    "C95_rise_partial",
    "C95_rise",
    "C95_rise_refuted"
   ],
   "note": "false for different plunger voltages: the rise is shifted to the point for the voltage of plunger gate 1 on both gates; proved for equal ones"
  },
  {
   "property": "C96",
   "status": "proved",
   "theorems": [
    "C96_pixels",
    "C96_outcome"
   ],
   "note": "deformed sensors: one of the plunger gates is swept"
  },
  {
   "property": "C97",
   "status": "partial",
   "theorems": [
    "C97_value_partial",
    "C97_rise",
    "C97_value_refuted"
   ],
   "note": "false with a final rise, which is shifted according to the first pixel of the diagram; proved without one"
  },
  {
   "property": "C98",
   "status": "proved",
   "theorems": [
    "C98_lines_agree",
    "C98_images_agree"
   ],
   "note": ""
  },
  {
   "property": "C99",
   "status": "proved",
   "theorems": [
    "C99_superposition",
    "C99_sums",
    "C99_common_noise"
   ],
   "note": ""
  },
  {
   "property": "C100",
   "status": "proved",
   "theorems": [
    "C100_silent"
   ],
   "note": "the sensor must have a peak or none configured (not an empty list)"
  },
  {
   "property": "C101",
   "status": "proved",
   "theorems": [
    "C101_replay",
    "C101_measure"
   ],
   "note": ""
  },
  {
   "property": "C102",
   "status": "partial",
   "theorems": [
    "C102_unblurred_partial",
    "C102_blurred_refuted"
   ],
   "note": "false if the data are blurred before: the generated strip is blurred with another width; proved for undistorted data and ascending limits"
  },
  {
   "property": "C103",
   "status": "proved",
   "theorems": [
    "C103_measure_2d"
   ],
   "note": "pixels at most 4 mV apart (coarser scans: C90)"
  },
  {
   "property": "C104",
   "status": "partial",
   "theorems": [
    "C104_both_gates_partial",
    "C104_first_gate_refuted",
    "C104_second_gate_refuted",
    "C104_extended_first_gate_refuted",
    "C104_extended_second_gate_refuted"
   ],
   "note": "false along one gate: raises ValueError whenever the dot jumps along the other gate are activated; and only then, for GaAs_v1 and GaAs_v2_extended_sensor; proved if both gates are swept"
  },
  {
   "property": "C105",
   "status": "partial",
   "theorems": [
    "C105_numpy1_partial",
    "C105_numpy2_partial",
    "C105_long_scan_refuted",
    "C105_wrapped_refuted"
   ],
   "note": "true with numpy 1; false with numpy 2 for more than 256 pixels (OverflowError) and for pixels beyond 256 - added (wrong entries)"
  },
  {
   "property": "C106",
   "status": "partial",
   "theorems": [
    "C106_numpy1_partial",
    "C106_numpy2_partial",
    "C106_large_image_refuted",
    "C106_edge_refuted"
   ],
   "note": "true with numpy 1; false with numpy 2 beyond pixel 255 (OverflowError) and within the jump height of the edge (index modulo 256)"
  },
  {
   "property": "C107",
   "status": "partial",
   "theorems": [
    "C107_ends",
    "C107_in_range_partial",
    "C107_sorted_partial",
    "C107_error_partial",
    "C107_distinct_partial",
    "C107_in_range_refuted",
    "C107_reverse_refuted"
   ],
   "note": "reversed sweeps visit voltages that differ in the last bits; ranges narrower than 2^-900 can be left; everything else proved; binary64 without overflow"
  },
  {
   "property": "C108",
   "status": "partial",
   "theorems": [
    "C108_uniform",
    "C108_narrow_partial",
    "C108_narrow_refuted"
   ],
   "note": "proved without sampling_range; with sampling_range the total range can be left by up to 2^-51 of its larger end; width such that its half is a float64 number"
  },
  {
   "property": "C109",
   "status": "proved",
   "theorems": [
    "C109_pixels",
    "C109_ticks",
    "C109_aspect"
   ],
   "note": "what is handed to matplotlib; shown texts as rounded numbers"
  },
  {
   "property": "C110",
   "status": "proved",
   "theorems": [
    "C110_points",
    "C110_ticks"
   ],
   "note": "what is handed to matplotlib; shown texts as rounded numbers"
  },
  {
   "property": "C111",
   "status": "proved",
   "theorems": [
    "C111_superposition",
    "C111_sums"
   ],
   "note": "sensors without deformations; for deformed sensors C94 gives the noiseless scan"
  },
  {
   "property": "C112",
   "status": "proved",
   "theorems": [
    "C112_labels"
   ],
   "note": "that the noiseless scan succeeds as well is proved for sensors without deformations"
  },
  {
   "property": "C113",
   "status": "proved",
   "theorems": [
    "C113_diagrams",
    "C113_sums",
    "C113_occupations"
   ],
   "note": "pixel values for sensors without deformations or with a swept plunger gate"
  },
  {
   "property": "C114",
   "status": "proved",
   "theorems": [
    "C114_constructed",
    "C114_limits",
    "C114_measure_2d",
    "C114_measure_1d"
   ],
   "note": "kernels, strengths of pink noise and all draws arbitrary; sampled strengths of white noise within their ranges; 1D diagrams along one gate fail as in C104"
  },
  {
   "property": "C115",
   "status": "partial",
   "theorems": [
    "C115_fine_partial",
    "C115_limits",
    "C115_coarse_refuted"
   ],
   "note": "true for pixels of at most 22 mV; coarser 2D scans raise exactly if telegraph noise is active for one of the three potentials (probability 1 - (5/6)^3 = 42 %)"
  },
  {
   "property": "C116",
   "status": "partial",
   "theorems": [
    "C116_gate1_partial",
    "C116_gate2_refuted"
   ],
   "note": "true along gate 1; along gate 2 every scan in which the noise is active raises"
  },
  {
   "property": "C117",
   "status": "proved",
   "theorems": [
    "C117_generic_2d",
    "C117_scan_2d",
    "C117_constructed",
    "C117_generic_line",
    "C117_scan_line"
   ],
   "note": "any random generators satisfying their ranges; parameters drawn at every measurement are arbitrary values of their range"
  },
  {
   "property": "C118",
   "status": "partial",
   "theorems": [
    "C118_generic_refuted",
    "C118_scan_refuted"
   ],
   "note": "refuted for every sampled configuration and every request within the limits: the limits of the sensor gates are compared with None"
  },
  {
   "property": "C119",
   "status": "partial",
   "theorems": [
    "C119_generic_gate1_refuted",
    "C119_scan_gate1_refuted",
    "C119_generic_gate2_refuted",
    "C119_scan_gate2_refuted"
   ],
   "note": "refuted; the measurements that raise are described exactly by the draw that activates the jumps along the gate that is not swept"
  },
  {
   "property": "C120",
   "status": "partial",
   "theorems": [
    "C120_gate1_partial",
    "C120_gate2_refuted"
   ],
   "note": "true if sensor gate 1 is swept; along gate 2 only, scans with active telegraph noise of the response raise (C116)"
  },
  {
   "property": "C121",
   "status": "proved",
   "theorems": [
    "C121_shift",
    "C121_tct"
   ],
   "note": "equality of results including exceptions; C121_tct also for stretched TCTs"
  },
  {
   "property": "C122",
   "status": "partial",
   "theorems": [
    "C122_scale_partial",
    "C122_scale_refuted"
   ],
   "note": "refuted: widths below 1e-8 count as zero (np.isclose with absolute tolerance), and then the dots are exchanged (C67); true if all widths exceed 1e-8 in both units"
  },
  {
   "property": "C123",
   "status": "proved",
   "theorems": [
    "C123_measure"
   ],
   "note": "all occupation, potential and response distortions in any number and order"
  },
  {
   "property": "C124",
   "status": "partial",
   "theorems": [
    "C124_pixel_partial",
    "C124_edge_refuted",
    "C124_floor_divide",
    "C124_mod"
   ],
   "note": "refuted at the upper edge: a point accepted by the check can get an index equal to the number of pixels (IndexError); indices are never negative, and right for all points not within 2^-47 of the edge; binary64 without overflow"
  },
  {
   "property": "C125",
   "status": "partial",
   "theorems": [
    "C125_period_partial",
    "C125_period_no",
    "C125_value_refuted",
    "C125_short_partial",
    "C125_error_partial",
    "C125_outer_error",
    "C125_below",
    "C125_default"
   ],
   "note": "for parameters and voltages with few binary digits no operation rounds and the value is exact; in general refuted: the number of the period can be one too large, which shifts the value by the offset between two periods; otherwise position and number belong together, and up to such a shift directly before the end of a period the value of a TCT of ordinary size (all TCTs of the default configuration) is exact up to a multiple of 2^-53 and the error of the evaluation of the bezier curve, which is not modelled in double precision"
  },
  {
   "property": "C126",
   "status": "partial",
   "theorems": [
    "C126_falling",
    "C126_bounds",
    "C126_height_partial",
    "C126_height_refuted"
   ],
   "note": "all proved except the exact height: it can be exceeded in the last bit (height 0.015, gamma 3); squares taken to be rounded products"
  },
  {
   "property": "C127",
   "status": "partial",
   "theorems": [
    "C127_series_partial",
    "C127_blocked",
    "C127_tiny_refuted"
   ],
   "note": "accuracy proved for responses of at least 2^-300; below the product can underflow to zero"
  },
  {
   "property": "C128",
   "status": "proved",
   "theorems": [
    "C128_sigmoid",
    "C128_cauchy",
    "C128_equidistant",
    "C128_default"
   ],
   "note": "bounds stated with the distance to the two neighbouring transition lines and the smallest pitch; exact real arithmetic"
  },
  {
   "property": "C129",
   "status": "proved",
   "theorems": [
    "C129_growth",
    "C129_asymmetry"
   ],
   "note": "exact real arithmetic"
  },
  {
   "property": "C130",
   "status": "partial",
   "theorems": [
    "C130_tct",
    "C130_pixels_partial",
    "C130_line_partial",
    "C130_sampled_partial",
    "C130_default_refuted"
   ],
   "note": "holds for TCTs with a common distance between peaks (all sampled configurations), refuted for the default configurations; with a lookup table stated for pixels with the same number of electrons in both scans; exact real arithmetic"
  },
  {
   "property": "C131",
   "status": "partial",
   "theorems": [
    "C131_sigmoid_partial",
    "C131_cauchy_partial",
    "C131_sampled_partial",
    "C131_default_refuted"
   ],
   "note": "holds for the first transition and for TCTs with a common distance between peaks (all sampled configurations, deviation at most 1/300); refuted for the default configurations; exact real arithmetic"
  },
  {
   "property": "C132",
   "status": "partial",
   "theorems": [
    "C132_formula_partial",
    "C132_reversed_refuted",
    "C132_draws_partial",
    "C132_quantile",
    "C132_config"
   ],
   "note": "formula proved for ranges with ordered ends, refuted for exchanged ends (samples start at the maximum, as the sampler of peak heights wants it); quantile stated with the cumulative distribution function, no measure theory; exact real arithmetic"
  },
  {
   "property": "C133",
   "status": "partial",
   "theorems": [
    "C133_derivative",
    "C133_weights",
    "C133_in_place",
    "C133_order_partial",
    "C133_order_refuted"
   ],
   "note": "order proved for kernels shorter than the line, refuted for kernels as long as the line; scipy's convolution modelled from its documentation; exact real arithmetic"
  },
  {
   "property": "C134",
   "status": "proved",
   "theorems": [
    "C134_monotone",
    "C134_accurate"
   ],
   "note": "binary64 without overflow; the dot products may round both products or fuse one of them with the addition"
  },
  {
   "property": "C135",
   "status": "partial",
   "theorems": [
    "C135_bound_partial",
    "C135_exact_partial",
    "C135_stale_refuted"
   ],
   "note": "hit up to 2^-50 of previous offset, target and terms; exactly without previous offset and a target within a factor of two of the potential (Sterbenz); exactness in general refuted"
  },
  {
   "property": "C136",
   "status": "partial",
   "theorems": [
    "C136_tables_partial",
    "C136_above_all_partial",
    "C136_default_partial",
    "C136_sampled_partial",
    "C136_step_refuted",
    "C136_scan_refuted"
   ],
   "note": "never fewer electrons if one gate is raised by 12.5 microvolts (default configuration) or 32 microvolts (sampled configurations) or more; refuted for smaller steps, also in a scan of two pixels"
  },
  {
   "property": "C137",
   "status": "proved",
   "theorems": [
    "C137_lines",
    "C137_electrons",
    "C137_pixels",
    "C137_images",
    "C137_full_turn"
   ],
   "note": "line scans: equality of the complete results; 2D scans: occupations of corresponding pixels (the drawn labels depend on the pixel grid)"
  },
  {
   "property": "C138",
   "status": "proved",
   "theorems": [
    "C138_sigmoid",
    "C138_cauchy",
    "C138_default"
   ],
   "note": "the bound grows with n although only one transition is near a pixel (sum of the slopes of all n transitions)"
  },
  {
   "property": "C139",
   "status": "proved",
   "theorems": [
    "C139_on_tct",
    "C139_above",
    "C139_below",
    "C139_default",
    "C139_sampled"
   ],
   "note": "the pixel below the branch needs TCTs with equal periods in general; the default TCTs, whose periods differ, are treated separately"
  },
  {
   "property": "C140",
   "status": "proved",
   "theorems": [
    "C140_norm",
    "C140_grid",
    "C140_samples",
    "C140_sort",
    "C140_max",
    "C140_first_1d",
    "C140_first_2d",
    "C140_size",
    "C140_two_dimensional"
   ],
   "note": ""
  },
  {
   "property": "C141",
   "status": "proved",
   "theorems": [
    "C141_moderate",
    "C141_objects"
   ],
   "note": ""
  },
  {
   "property": "C142",
   "status": "proved",
   "theorems": [
    "C142_drop",
    "C142_default",
    "C142_sampled"
   ],
   "note": ""
  },
  {
   "property": "C143",
   "status": "partial",
   "theorems": [
    "C143_areas",
    "C143_default",
    "C143_sampled",
    "C143_fully_open_refuted"
   ],
   "note": "area 0 is exact, also for all sampled sensors (C143_sampled); everything with fully open barriers is in area 2 and area 2 has the fully risen sensor dot (equal plunger voltages); but area 2 also contains pixels with nearly closed barriers"
  },
  {
   "property": "C144",
   "status": "proved",
   "theorems": [
    "C144_measure",
    "C144_measure_scan_sensor",
    "C144_sensor_scan"
   ],
   "note": "if an exception is raised, only the exception is compared"
  },
  {
   "property": "C145",
   "status": "proved",
   "theorems": [
    "C145_made",
    "C145_resolved",
    "C145_crossed",
    "C145_values",
    "C145_extended_peaks",
    "C145_extended_resolved"
   ],
   "note": "the offsets of the peaks add up: the base line is five times the offset of a peak"
  },
  {
   "property": "C146",
   "status": "proved",
   "theorems": [
    "C146_near",
    "C146_shown",
    "C146_regions",
    "C146_numbers",
    "C146_row"
   ],
   "note": "12 of the 19 configured peaks never get a label in scans without plunger voltages"
  },
  {
   "property": "C147",
   "status": "partial",
   "theorems": [
    "C147_first",
    "C147_default_partial",
    "C147_flat_refuted"
   ],
   "note": "false for windows that are flat compared with the distance of the sampled transition points (C147_flat_refuted, for every resolution)"
  },
  {
   "property": "C148",
   "status": "proved",
   "theorems": [
    "C148_drop",
    "C148_default",
    "C148_sampled",
    "C148_resolved"
   ],
   "note": ""
  },
  {
   "property": "C149",
   "status": "partial",
   "theorems": [
    "C149_exact",
    "C149_limits_partial",
    "C149_infinite",
    "C149_nan_refuted",
    "C149_nan_limits",
    "C149_parameters",
    "C149_parameters_error"
   ],
   "note": "NaN voltages pass all checks for every choice of limits, and NaN is accepted as width and asymmetry; without NaN the property holds, infinities included"
  },
  {
   "property": "C150",
   "status": "partial",
   "theorems": [
    "C150_calls",
    "C150_distinct",
    "C150_balanced",
    "C150_multi_refuted",
    "C150_multi_closed",
    "C150_noise_partial",
    "C150_noise_refuted",
    "C150_samplers_partial",
    "C150_samplers_refuted"
   ],
   "note": "refuted for the distortions (except white noise) and samplers, whose texts also show recorded values and do not show the total range, and for BarrierFunctionMultiGLF, whose text lacks the closing parenthesis; different texts only for classes whose parameters are numbers (numpy shows arrays with eight digits); texts of numbers are left open"
  },
  {
   "property": "C151",
   "status": "partial",
   "theorems": [
    "C151_float_partial",
    "C151_int_refuted"
   ],
   "note": "refuted: every sensor scan with an int as plunger voltage that would be possible with floats raises ValueError"
  },
  {
   "property": "C152",
   "status": "partial",
   "theorems": [
    "C152_generic_holds",
    "C152_generic",
    "C152_holds",
    "C152_accepted",
    "C152_generic_accepted",
    "C152_peaks",
    "C152_copied_partial",
    "C152_shared_refuted",
    "C152_two_refuted",
    "C152_deformation_refuted"
   ],
   "note": "true of SensorGeneric and of the peaks; refuted for arrays of shape (3, 2), offset arrays, pairs of barrier functions, the rise and the deformations of SensorScanSensorGeneric"
  },
  {
   "property": "C153",
   "status": "partial",
   "theorems": [
    "C153_callers",
    "C153_apart",
    "C153_in_turn_partial",
    "C153_in_turn_refuted",
    "C153_same_refuted"
   ],
   "note": "true of the generators of the caller; refuted for a generator used in two of the three lists (both lists get the same numbers) and for two simulations made from the same distortions (they have the same noise)"
  },
  {
   "property": "C154",
   "status": "partial",
   "theorems": [
    "C154_float_partial",
    "C154_int_partial",
    "C154_int_refuted",
    "C154_rejected_refuted",
    "C154_x_refuted",
    "C154_parallel"
   ],
   "note": "true if the straight sides of the first peak meet in a point with integer coordinates; otherwise integer parameters give another curve or are rejected, and integer x-values raise TypeError if the parameters are floats"
  },
  {
   "property": "C155",
   "status": "partial",
   "theorems": [
    "C155_possible_rtn",
    "C155_possible_jumps",
    "C155_default",
    "C155_sampled",
    "C155_ratio",
    "C155_std_partial",
    "C155_lam_partial",
    "C155_inactive_refuted",
    "C155_length_refuted",
    "C155_width_refuted"
   ],
   "note": "true of possible parameters and of the ratio; negative standard deviations and mean heights are rejected only in measurements in which the distortion is active; negative lengths of jumps and negative blurring widths are accepted; not-a-number left out"
  },
  {
   "property": "C156",
   "status": "partial",
   "theorems": [
    "C156_scan_partial",
    "C156_csd_partial",
    "C156_plunger_refuted",
    "C156_sensor_refuted"
   ],
   "note": "true of another unit (lever arms on the same side of 2^-52); of another zero: sensor scans if both plunger gates are shifted alike, diagrams if there is no final rise; otherwise refuted; simulations without distortions"
  },
  {
   "property": "C157",
   "status": "partial",
   "theorems": [
    "C157_same",
    "C157_negative",
    "C157_quiet",
    "C157_default",
    "C157_sampled",
    "C157_deformed",
    "C157_request",
    "C157_text_refuted",
    "C157_potential",
    "C157_jumps_partial",
    "C157_jumps_fixed",
    "C157_jumps_length",
    "C157_jumps_refuted"
   ],
   "note": "true except for the text of the warning of measure_sensor_scan, which shows volt_g2 in both places, and for the warning of dot jumps in scans that are not square, which counts the pixels of the wrong axis"
  },
  {
   "property": "C158",
   "status": "partial",
   "theorems": [
    "C158_metadata",
    "C158_scan_metadata_partial",
    "C158_diagram_partial",
    "C158_diagram_scan_sensor_partial",
    "C158_scan_partial",
    "C158_clean",
    "C158_scan_refuted",
    "C158_noise_refuted"
   ],
   "note": "true without distortions (and whenever the generators are not used) except for 1D sensor scans at given plunger voltages, whose metadata hold a resolution that raises TypeError; with noise the metadata hold the generators after the measurement; deepcopy taken as a copy of the state"
  },
  {
   "property": "C159",
   "status": "proved",
   "theorems": [
    "C159_first_gate_first",
    "C159_second_gate_first"
   ],
   "note": "For undistorted data whose 2D occupations are a function of the two voltages (samples_2d); the ideal data are such a function away from transitions (C98). Lead transition labels are not part of the statement."
  },
  {
   "property": "C160",
   "status": "partial",
   "theorems": [
    "C160_first_gate_partial",
    "C160_second_gate_partial",
    "C160_high_refuted",
    "C160_single_refuted"
   ],
   "note": "False as stated: IndexError for some draws (C160_high_refuted, C160_single_refuted). The partial theorems give the exact condition on the drawn jumps (too_short) and, whenever it does not hold, the voltage shown by every pixel; in the strip below the range the first object displaces strip pixel q by the height of scan line q."
  },
  {
   "property": "C161",
   "status": "partial",
   "theorems": [
    "C161_plot_2d",
    "C161_plot_1d",
    "C161_raises",
    "C161_silent",
    "C161_other_refuted",
    "C161_distinct_partial",
    "C161_distinct_refuted"
   ],
   "note": "Everything but two parts is proved. Different voltages can share a text: ticks are distinct if they are more than a thousandth apart (C161_distinct_partial), not so in a window of 1 mV (C161_distinct_refuted). Arrays that have neither one nor two dimensions are ignored without exception (C161_other_refuted). Calls of matplotlib are assumed to succeed."
  },
  {
   "property": "C162",
   "status": "partial",
   "theorems": [
    "C162_ints_ideal",
    "C162_ints_measure",
    "C162_ints_scan",
    "C162_number_refuted",
    "C162_floats_partial",
    "C162_floats_kind",
    "C162_truncated_refuted"
   ],
   "note": "Sequences of integers behave alike. False for single numbers: everything but a Python int, also an integer of numpy, raises TypeError (C162_number_refuted). Floats are refused, except for the single entry of a sensor scan with plunger voltages, which is truncated silently (C162_truncated_refuted). nan, infinities and bools are left out."
  }
 ]
}