{"id": "C01", "title": "Total electron number is conserved per pixel", "statement": "In the ideal occupation data returned for a scan, the occupations of the two dots at a pixel that lies in the n-electron region add up to exactly n, whatever the distances, widths and CDF type used for the interdot transitions are.", "quantifier": "for all TCT parameter lists, regions n, pixel positions, rotation angles, both CDF types and all gamma factors", "why_tests_cant": "Occupations are real-valued functions of a continuous position and of arbitrarily many parameters; sampling pixels cannot cover them.", "anchors": ["simcats/ideal_csd/geometric/_get_electron_occupation.py:_occupation_func", "simcats/ideal_csd/geometric/_get_electron_occupation.py:get_electron_occupation", "simcats/ideal_csd/geometric/_calculate_all_bezier_anchors.py"]}
{"id": "C02", "title": "Occupations stay between 0 and the electron number", "statement": "Neither dot ever gets a negative occupation or more electrons than the region holds: 0 <= occ_k <= n for both dots at every pixel of the n-electron region.", "quantifier": "for all TCT parameters, regions n, positions, CDF types with non-degenerate widths, and also for degenerate (zero) widths with the sigmoid", "why_tests_cant": "An unbounded parameter and position space; the extreme values are approached only asymptotically.", "anchors": ["simcats/ideal_csd/geometric/_get_electron_occupation.py:_occupation_func", "simcats/support_functions/_cumulative_distribution_functions.py"]}
{"id": "C03", "title": "Dot 1 occupation grows monotonically away from the reference line", "statement": "Within one electron-number region, moving a point in the direction of growing signed distance to the reference interdot line never decreases the occupation of dot 1 and never increases that of dot 2, provided all interdot widths have non-negative sign.", "quantifier": "for all pairs of points of one region and all parameter lists with non-negative widths", "why_tests_cant": "Monotonicity is a statement over all pairs of points.", "anchors": ["simcats/ideal_csd/geometric/_get_electron_occupation.py:_occupation_func", "simcats/support_functions/_cumulative_distribution_functions.py:multi_sigmoid_cdf", "simcats/support_functions/_cumulative_distribution_functions.py:multi_cauchy_cdf"]}
{"id": "C04", "title": "1D and 2D scans agree on the electron number of a voltage point", "statement": "The electron number assigned to a voltage point by a 1D scan equals the one assigned to the same point by a 2D scan (as region representative): the number of TCTs passed before the first TCT above the point. A point above every configured TCT is rejected with an IndexError by both kinds of scan.", "quantifier": "for all dictionaries of TCT functions with consecutive ids from 1, and all points", "why_tests_cant": "Quantifies over arbitrary TCT functions (which may cross) and points; only small configurations could be sampled.", "anchors": ["simcats/ideal_csd/geometric/_get_electron_occupation.py:get_electron_occupation"]}
{"id": "C05", "title": "Reversing a sweep only reverses the result", "statement": "Measuring the ideal CSD with a reversed sweep range on any subset of the two gates gives exactly the occupations and lead-transition labels of the ascending measurement, flipped along the axis of the reversed gate; in 1D, reversing both gates reverses the trace.", "quantifier": "for all sweep limits, resolutions and all four combinations of sweep directions", "why_tests_cant": "All combinations of directions with all contents and shapes.", "anchors": ["simcats/ideal_csd/geometric/_ideal_csd_geometric.py:ideal_csd_geometric", "simcats/ideal_csd/geometric/_generate_lead_transition_mask.py"]}
{"id": "C06", "title": "Lead-transition labels of 2D scans land on the pixel containing the transition", "statement": "Every sampled transition point inside the scanned window (extended by half a pixel) is written to an existing pixel, namely the one whose voltage differs from the point by at most half a pixel step on each axis; no index is ever out of range.", "quantifier": "for all windows with ascending limits, all resolutions of at least 2 on both axes, all transition points", "why_tests_cant": "Off-by-one at window borders only shows for particular real coordinates; unbounded resolutions.", "anchors": ["simcats/ideal_csd/geometric/_generate_lead_transition_mask.py:generate_lead_transition_mask_2d"]}
{"id": "C07", "title": "Lead-transition labels of 1D scans mark exactly the changes of the total occupation", "statement": "In a 1D scan a pixel carries a non-zero lead-transition label if and only if its total electron number is larger than that of one of its neighbours, and the label then equals the pixel's own total electron number (below 256).", "quantifier": "for all integer sequences of total occupations below 256 and all pixels", "why_tests_cant": "Quantifies over sequences of arbitrary length, including adjacent changes that write the same pixel twice.", "anchors": ["simcats/ideal_csd/geometric/_generate_lead_transition_mask.py:generate_lead_transition_mask_1d"]}
{"id": "C08", "title": "TCT curves are continuous", "statement": "The total charge transition curve has no jumps: bezier peak, falling line, inverted bezier and rising line meet at equal values at every joint, in every period, and the outer linear parts attach to the wave part.", "quantifier": "for all admissible TCT parameters, all real x and every number of peaks", "why_tests_cant": "Continuity of a real function over infinitely many periods.", "anchors": ["simcats/ideal_csd/geometric/_tct_bezier.py:tct_bezier"]}
{"id": "C09", "title": "TCT curves repeat with a fixed offset per period", "statement": "Inside the wave part, shifting x by one period (left length + right length) shifts the TCT by exactly p0*slope_left + p1*slope_right, i.e. the same honeycomb cell is repeated along a straight line.", "quantifier": "for all admissible TCT parameters and all real x", "why_tests_cant": "Statement about all reals and all periods.", "anchors": ["simcats/ideal_csd/geometric/_tct_bezier.py:tct_bezier"]}
{"id": "C10", "title": "Bezier anchors used for interdot transitions lie on the TCT", "statement": "Every left and right bezier anchor computed for the occupation model is a point of the (unrotated) TCT curve of the same id, and every centre anchor is the intersection of the two adjacent linear parts.", "quantifier": "for all admissible TCT parameters, TCT ids and peak/valley indices", "why_tests_cant": "Unbounded number of peaks; two independently coded recurrences have to agree for all of them.", "anchors": ["simcats/ideal_csd/geometric/_calculate_all_bezier_anchors.py:calculate_all_bezier_anchors", "simcats/ideal_csd/geometric/_tct_bezier.py:tct_bezier"]}
{"id": "C11", "title": "Number of interdot transitions equals the electron number", "statement": "The n-electron region is crossed by exactly n interdot transitions, so the occupation of dot 1 runs from 0 to n over the region.", "quantifier": "for all TCT lists and all ids n", "why_tests_cant": "Holds for every id; unbounded.", "anchors": ["simcats/ideal_csd/geometric/_calculate_all_bezier_anchors.py:calculate_all_bezier_anchors", "simcats/ideal_csd/geometric/_get_electron_occupation.py:get_electron_occupation"]}
{"id": "C12", "title": "Lookup-table evaluation returns a point of the bezier curve with nearest x", "statement": "With a lookup table of N entries the evaluated bezier value is the y-value of a curve point whose x-distance to the request is minimal among the table entries and at most the half of the largest x-gap of the table.", "quantifier": "for all curves with ordered anchors, all N >= 2 and all x inside the curve's x-range", "why_tests_cant": "All N and real x.", "anchors": ["simcats/ideal_csd/geometric/_tct_bezier.py:tct_bezier"]}
{"id": "C13", "title": "Ideal CSD argument validation", "statement": "The ideal CSD generator rejects exactly the malformed requests: limits that are not pairs, more than two resolution entries, 2D scans with a fixed gate voltage, and 2D resolutions of 1 or less; every other well-typed request reaches the computation.", "quantifier": "for all limits and resolutions", "why_tests_cant": "All combinations of malformed arguments and the order in which they are reported.", "anchors": ["simcats/ideal_csd/geometric/_ideal_csd_geometric.py:ideal_csd_geometric"]}
{"id": "C14", "title": "CDF building blocks are distribution functions", "statement": "sigmoid_cdf and cauchy_cdf take values in [0,1], are monotone for positive widths, equal 1/2 at their centre and satisfy F(x0+d)+F(x0-d)=1; sums of n of them stay in [0,n]. For a zero width the sigmoid is a step.", "quantifier": "for all positions, centres and widths", "why_tests_cant": "Real-analysis facts over all arguments.", "anchors": ["simcats/support_functions/_cumulative_distribution_functions.py"]}
{"id": "C15", "title": "Generalized logistic function and its inverse are mutually inverse", "statement": "inverse_glf(glf(x)) = x for every potential x and glf(inverse_glf(v)) = v for every value v strictly between the two asymptotes (denominator offset 1), for positive asymmetry and shape factor and non-zero growth rate.", "quantifier": "for all admissible GLF parameters, all x, all v between the asymptotes", "why_tests_cant": "Round trip over a seven-dimensional real parameter space.", "anchors": ["simcats/support_functions/_generalized_logistic_function.py:glf", "simcats/support_functions/_generalized_logistic_function.py:inverse_glf"]}
{"id": "C16", "title": "Generalized logistic function is strictly monotone between its asymptotes", "statement": "For positive growth rate and asymptote_left < asymptote_right the GLF is strictly increasing and stays strictly between the asymptotes, so a barrier never conducts less than the lower or more than the upper asymptote.", "quantifier": "for all admissible parameters and potentials", "why_tests_cant": "Order statement over all pairs of reals.", "anchors": ["simcats/support_functions/_generalized_logistic_function.py:glf", "simcats/sensor/barrier_function/_barrier_function_glf.py:get_value"]}
{"id": "C17", "title": "Rotation helper is an isometry with inverse", "statement": "rotate_points preserves distances, rotating by a then by b equals rotating by a+b, and rotating back by -a restores every point.", "quantifier": "for all points and angles", "why_tests_cant": "All reals.", "anchors": ["simcats/support_functions/_rotate_points.py:rotate_points"]}
{"id": "C18", "title": "Signed point-line distance is a distance with the right sign", "statement": "The absolute value of the signed distance is the Euclidean distance to the line (minimal over all points of the line), its sign tells the side of the line, it vanishes exactly on the line, and it does not change when points and line are rotated together.", "quantifier": "for all points and all lines through two different points", "why_tests_cant": "All reals; minimality quantifies over the whole line.", "anchors": ["simcats/support_functions/_signed_dist_points_line.py:signed_dist_points_line"]}
{"id": "C19", "title": "Line intersection results lie on both lines", "statement": "line_line_intersection returns a point of both lines, the result does not depend on the argument order, and no result is returned exactly when the lines are parallel.", "quantifier": "for all lines (sloped or vertical)", "why_tests_cant": "All reals including the degenerate combinations.", "anchors": ["simcats/support_functions/_linear_algebra.py:line_line_intersection"]}
{"id": "C20", "title": "Line-circle intersection results are complete and correct", "statement": "line_circle_intersection returns exactly the points common to the line and the circle - none, one or two of them - and rejects non-positive radii.", "quantifier": "for all lines and circles", "why_tests_cant": "All reals including tangency.", "anchors": ["simcats/support_functions/_linear_algebra.py:line_circle_intersection"]}
{"id": "C21", "title": "Sampled parameters never leave their range", "statement": "Whatever the random numbers are, a value returned by any parameter sampler lies in the configured total range, and the narrowed sampling range is always a sub-range of the total range with the requested width.", "quantifier": "for all ranges with ordered ends, sampling widths and random draws", "why_tests_cant": "Quantifies over all random sequences.", "anchors": ["simcats/support_functions/_parameter_sampling.py"]}
{"id": "C22", "title": "Resetting the sensor offset hits the target potential", "statement": "After reset_offset_mu_sens the sensor potential at the given voltages with the given occupations equals the requested potential, and resetting again changes nothing.", "quantifier": "for all sensors, voltages and target potentials", "why_tests_cant": "All reals, history of two calls.", "anchors": ["simcats/support_functions/_reset_offset_mu_sens.py:reset_offset_mu_sens"]}
{"id": "C23", "title": "Sensor potential is the same in 1D and 2D scans", "statement": "The potential at a pixel depends only on that pixel's gate voltages and occupations: offset + lever-arm-weighted voltages + lever-arm-weighted occupations, so a 1D cut along a row, column or diagonal reproduces the values of the 2D scan, and adding one electron to dot k shifts it by alpha_dot[k].", "quantifier": "for all occupations, sweep ranges, resolutions and lever-arms", "why_tests_cant": "All pixel positions and array sizes.", "anchors": ["simcats/sensor/_sensor_generic.py:sensor_potential", "simcats/sensor/_sensor_scan_sensor_generic.py:sensor_potential"]}
{"id": "C24", "title": "Coulomb peak shapes are bounded and peak at mu0", "statement": "Gaussian and Lorentzian sensor peaks are symmetric around mu0, strictly decrease with the distance to mu0 (positive height), take their maximum offset+height exactly at mu0 and never go below the offset.", "quantifier": "for all peak parameters accepted by the setters and all potentials", "why_tests_cant": "Real function over an unbounded domain.", "anchors": ["simcats/sensor/_sensor_peak_gaussian.py", "simcats/sensor/_sensor_peak_lorentzian.py"]}
{"id": "C25", "title": "Sensor response is the order-independent sum of its peaks", "statement": "The response of a generic sensor is the sum over its peaks, hence independent of the order of the peaks; without peaks it returns the potential unchanged.", "quantifier": "for all peak lists, permutations and potentials", "why_tests_cant": "All permutations of arbitrarily long lists.", "anchors": ["simcats/sensor/_sensor_generic.py:sensor_response"]}
{"id": "C26", "title": "Series combination of sensor dot and barriers", "statement": "The response of the sensor-scan sensor is the series combination of the sensor dot and the two barrier conductances: for non-negative parts it lies between 0 and the smallest of the three, grows with each of them, is 0 as soon as one of them is 0, and equals 1/(1/s+1/b1+1/b2) if all are positive.", "quantifier": "for all non-negative sensor and barrier responses", "why_tests_cant": "All reals including the 0/0 corner.", "anchors": ["simcats/sensor/_sensor_scan_sensor_generic.py:sensor_response"]}
{"id": "C27", "title": "Pinch-off and fully conductive potentials of a GLF barrier are exact", "statement": "A GLF barrier evaluated at its pinch_off (fully_conductive) potential conducts exactly the configured percentage of its height above the lower asymptote, and (for rising barriers) potentials above the pinch-off are exactly those with a larger conductance.", "quantifier": "for all admissible barrier parameters and percentages strictly between 0 and 1", "why_tests_cant": "Real parameters.", "anchors": ["simcats/sensor/barrier_function/_barrier_function_glf.py"]}
{"id": "C28", "title": "Final rise is shifted to the fully conductive point", "statement": "The final sensor rise evaluated at the potential given as offset reaches exactly the configured fully conductive percentage of its height.", "quantifier": "for all rise parameters and offsets", "why_tests_cant": "Real parameters; the default configuration only exercises mu0 = 0.", "anchors": ["simcats/sensor/_sensor_rise_glf.py:sensor_function"]}
{"id": "C29", "title": "Voltage point for barrier potentials solves the barrier equations", "statement": "The sensor gate voltages computed for target barrier potentials really produce these barrier potentials for the current plunger voltages and occupations.", "quantifier": "for all lever-arms with independent barrier rows, offsets, plunger voltages and occupations", "why_tests_cant": "Linear algebra over all reals, including the special case of a vanishing cross lever-arm.", "anchors": ["simcats/sensor/_sensor_scan_sensor_generic.py:_calc_point_from_barrier_potentials", "simcats/sensor/_sensor_scan_sensor_generic.py:sensor_potential"]}
{"id": "C30", "title": "Sensor-scan label masks are consistent", "statement": "The conductive-area mask only contains 0, 1 and 2; a Coulomb-peak label only appears where the conductive-area mask is 1; every Coulomb-peak label is the id of a configured peak; and each peak marks at most one pixel per scan row.", "quantifier": "for all potentials, resolutions, peak lists and barrier thresholds", "why_tests_cant": "All array contents and sizes.", "anchors": ["simcats/sensor/_sensor_scan_sensor_generic.py:get_sensor_scan_labels"]}
{"id": "C31", "title": "Coulomb peaks are labelled with ascending values along the potential", "statement": "The documented numbering: of two Coulomb peaks, the one at the larger potential carries the larger label.", "quantifier": "for all peak lists", "why_tests_cant": "Depends on the order in which an arbitrary list was supplied.", "anchors": ["simcats/sensor/_sensor_scan_sensor_generic.py:get_sensor_scan_labels"]}
{"id": "C32", "title": "Peak deformations vanish on the middle line and are continuous", "statement": "A deformation does not move a peak on the middle line; the linear deformation is odd, the circular one even in the distance; both move the peak continuously with the distance, for either sign of the radius.", "quantifier": "for all distances, radii and angles", "why_tests_cant": "Real functions; discontinuity shows at one real distance only.", "anchors": ["simcats/sensor/deformation/_sensor_peak_deformation_circle.py:calc_mu", "simcats/sensor/deformation/_sensor_peak_deformation_linear.py:calc_mu"]}
{"id": "C33", "title": "Sensor response does not depend on earlier calls", "statement": "Calling sensor_response of the sensor-scan sensor twice with the same potential gives the same result twice.", "quantifier": "for all sensors, scans and potentials", "why_tests_cant": "Call histories; hidden state of the object.", "anchors": ["simcats/sensor/_sensor_scan_sensor_generic.py:sensor_response", "simcats/sensor/_sensor_scan_sensor_generic.py:sensor_potential"]}
{"id": "C34", "title": "Evaluating deformed peaks leaves the sensor unchanged", "statement": "After evaluating the response with deformations every peak has the mu0 it had before.", "quantifier": "for all peak lists, deformation dictionaries and pixels", "why_tests_cant": "Invariant over loops of arbitrary length.", "anchors": ["simcats/sensor/_sensor_scan_sensor_generic.py:_peak_func"]}
{"id": "C35", "title": "Blockwise dot jumps shift the structure by the noise value", "statement": "After blockwise dot jumps along an axis, pixel p of every line shows the original value of pixel max(0, p - noise[p]) of the same line (or keeps its own value where that one is NaN); no pixel is left uninitialised, nothing is read or written outside the array.", "quantifier": "for all array shapes, all non-negative noise vectors, both axes", "why_tests_cant": "The code is a triple loop with overlapping writes; its net effect for all noise vectors needs an invariant.", "anchors": ["simcats/distortions/_dot_jumps.py:dot_jumps_blockwise"]}
{"id": "C36", "title": "Pixelwise dot jumps shift the structure by the noise value", "statement": "After pixelwise dot jumps, each pixel shows the original value of the pixel its own noise value further left (clamped to the border); no pixel is left uninitialised and nothing outside the array is read.", "quantifier": "for all array shapes and noise arrays", "why_tests_cant": "Overlapping writes in loops; all sizes.", "anchors": ["simcats/distortions/_dot_jumps.py:dot_jumps_pixelwise"]}
{"id": "C37", "title": "Dot-jump noise consists of alternating quiet and jump blocks", "statement": "The generated jump pattern covers the whole axis, starts with an undisturbed block, alternates undisturbed blocks and blocks of constant jump height, and depends only on the random draws.", "quantifier": "for all axis lengths and all random draws", "why_tests_cant": "All random sequences and lengths.", "anchors": ["simcats/distortions/_dot_jumps.py:generate_dot_jumps_blockwise"]}
{"id": "C38", "title": "Random telegraph noise consists of alternating quiet and burst blocks", "statement": "RTN returns an array of the same shape in which the pixels of quiet blocks are unchanged and all pixels of a burst are shifted by the same amount; the first block is quiet; quiet and burst blocks alternate in scan order.", "quantifier": "for all array shapes and random draws", "why_tests_cant": "All random sequences and lengths.", "anchors": ["simcats/distortions/_random_telegraph_noise.py:random_telegraph_noise"]}
{"id": "C39", "title": "Inactive distortions change nothing", "statement": "If the activation draw of a jump or telegraph-noise distortion says inactive, its output equals its input and the latest-activation flag says so; a frozen replay of an inactive dot-jump distortion also changes nothing.", "quantifier": "for all inputs, parameters and histories of earlier calls", "why_tests_cant": "Histories of calls.", "anchors": ["simcats/distortions/_dot_jumps.py:noise_function", "simcats/distortions/_random_telegraph_noise.py:noise_function"]}
{"id": "C40", "title": "Frozen replays reuse the recorded noise", "statement": "A distortion called with freeze=True draws no random numbers and applies exactly the noise recorded by the latest unfrozen call, however many frozen calls happen in between.", "quantifier": "for all call histories", "why_tests_cant": "Histories of arbitrary length.", "anchors": ["simcats/distortions/_dot_jumps.py:noise_function", "simcats/distortions/_transition_blurring.py:noise_function", "simcats/_simulation.py:measure"]}
{"id": "C41", "title": "Blurring is an averaging filter", "statement": "Blurred occupations stay between the minimum and maximum of the unblurred ones, constant data stays constant, the total occupation is blurred exactly like the sum of the blurred dots, and blurring a reversed sweep is the reversed blurred sweep.", "quantifier": "for all data, lengths, filter radii and widths", "why_tests_cant": "All arrays, radii larger than the array with reflection at the border.", "anchors": ["simcats/distortions/_transition_blurring.py:noise_function", "simcats/support_functions/_fermi_filter1d.py:fermi_filter1d"]}
{"id": "C42", "title": "Noise widths given in volt are converted with the resolution of the swept gate", "statement": "Distortion lengths given in volt are applied in pixels as length * pixels_of_that_axis / voltage_range_of_that_axis for 2D and 1D scans.", "quantifier": "for all resolutions (also non-square) and sweep ranges", "why_tests_cant": "Square test images hide a swap of the axes.", "anchors": ["simcats/distortions/_transition_blurring.py:noise_function", "simcats/distortions/_dot_jumps.py:noise_function", "simcats/distortions/_random_telegraph_noise.py:noise_function"]}
{"id": "C43", "title": "White and pink noise are additive and shape preserving", "statement": "White and pink noise add one noise value per pixel and keep the shape; with zero strength they return the input.", "quantifier": "for all shapes and random draws", "why_tests_cant": "All shapes and draws.", "anchors": ["simcats/distortions/_white_noise.py", "simcats/distortions/_pink_noise.py"]}
{"id": "C44", "title": "measure rejects exactly the invalid requests", "statement": "Simulation.measure fails with ValueError if and only if a documented precondition is violated: no ideal CSD configuration, sweep ranges that are not pairs or leave the configured limits, exactly one sensor voltage given or a sensor voltage outside its limits, more than two resolution entries, a 2D scan with fixed voltage or a 2D resolution of 1 or less.", "quantifier": "for all simulation configurations and arguments", "why_tests_cant": "All combinations of conditions.", "anchors": ["simcats/_simulation.py:measure"]}
{"id": "C45", "title": "measure composes ideal data, potential, response and distortions in order", "statement": "The measured CSD is the response-distortions (in list order) of the sensor response of the potential-distortions (in list order) of the sensor potential of the occupation-distorted ideal occupations; without distortions it is exactly sensor_response(sensor_potential(ideal occupations)), and the returned occupations are the ones the potential was computed from.", "quantifier": "for all configurations, distortion lists of any length and stateful distortions", "why_tests_cant": "Lists of arbitrary length of arbitrary stateful user-supplied distortions.", "anchors": ["simcats/_simulation.py:measure"]}
{"id": "C46", "title": "Later distortions see earlier ones in generated data", "statement": "The data generator handed to the k-th occupation distortion produces ideal data with the first k-1 distortions replayed in order with frozen noise, and to no other distortion.", "quantifier": "for all lists of occupation distortions and all k", "why_tests_cant": "Closure chain of arbitrary depth.", "anchors": ["simcats/_simulation.py:measure"]}
{"id": "C47", "title": "Failed configuration updates leave the simulation unchanged", "statement": "Each setter either accepts the value and the next read returns it, or raises and leaves every property as it was; changing a limits array after it was set does not change the simulation.", "quantifier": "for all sequences of setter calls with arbitrary values and later mutations of the passed arrays", "why_tests_cant": "Histories of calls plus aliasing.", "anchors": ["simcats/_simulation.py:Simulation"]}
{"id": "C48", "title": "measure_sensor_scan validation and integer resolutions", "statement": "measure_sensor_scan accepts an integer resolution for a 1D scan with fixed plunger voltages and rejects exactly the documented invalid requests.", "quantifier": "for all configurations and arguments", "why_tests_cant": "All combinations of optional arguments.", "anchors": ["simcats/_simulation.py:measure_sensor_scan"]}
{"id": "C49", "title": "Sensor-scan distortions get the swept voltage ranges", "statement": "In a sensor scan all sensor potential and response distortions are given the actual sweep ranges of sensor gate 1 and sensor gate 2.", "quantifier": "for all sweep ranges and distortion lists", "why_tests_cant": "The passed values only matter for distortions depending on both ranges.", "anchors": ["simcats/_simulation.py:measure_sensor_scan"]}
{"id": "C50", "title": "Sampled dot lever-arms are consistent", "statement": "For every quality multiplier in (0,1] and all random draws, sampled dot lever-arms lie in the preset ranges, dot 2 is coupled at least half and at most twice as strongly as dot 1, the sampling intervals are never inverted, and an added electron shifts the potential by at least two pixels' worth of gate lever-arm.", "quantifier": "for all quality multipliers and random draws", "why_tests_cant": "All random draws; interplay of min/max fallbacks.", "anchors": ["simcats/config_samplers/_GaAs_v1_random_variations_v3_config_sampler.py:sample_SensorGeneric", "simcats/config_samplers/_GaAs_v1_random_variations_v3_config_sampler.py:sample_SensorScanSensorGeneric"]}
{"id": "C51", "title": "Sampled sensor peaks are ordered and have positive widths", "statement": "The sampled peak list of a sensor-scan sensor has non-decreasing mu0, positive width and non-negative height for every number of peaks, so that labels ascend with the potential.", "quantifier": "for all random draws and peak numbers", "why_tests_cant": "All random draws; list of unbounded length.", "anchors": ["simcats/config_samplers/_GaAs_v1_random_variations_v3_config_sampler.py:_sensor_peak_list_add_peak", "simcats/config_samplers/_GaAs_v1_random_variations_v3_config_sampler.py:_sample_sensor_peak_list"]}
{"id": "C52", "title": "Peak placement can always succeed and keeps the distance", "statement": "While sampling a generic sensor with n peaks there is always an admissible position for the next peak, and all accepted peaks are more than range/(2n) apart.", "quantifier": "for all n, all earlier positions and all random draws", "why_tests_cant": "A covering argument over the reals.", "anchors": ["simcats/config_samplers/_GaAs_v1_random_variations_v3_config_sampler.py:sample_SensorGeneric"]}
{"id": "C53", "title": "Sampled barrier pinch-off is where it was requested", "statement": "A sampled barrier function has its pinch-off exactly at the requested potential.", "quantifier": "for all random draws, heights, offsets and quality multipliers", "why_tests_cant": "Real parameters.", "anchors": ["simcats/config_samplers/_GaAs_v1_random_variations_v3_config_sampler.py:_sample_simple_barrier_function"]}
{"id": "C54", "title": "Quality multiplier restricts the sampled distortions", "statement": "The quality multiplier given to the config sampler is used for the distortion samplers, too.", "quantifier": "for all quality multipliers", "why_tests_cant": "Wiring over a real parameter.", "anchors": ["simcats/config_samplers/_GaAs_v1_random_variations_v3_config_sampler.py:sample_random_variations_v3_config"]}
{"id": "C55", "title": "Sampled CSD configurations cover the voltage range", "statement": "When the sampler returns a TCT list, no pixel of its test measurement lies above the last TCT needed, and every added TCT is the previous one shifted by the same vector.", "quantifier": "for all random draws and any number of loop iterations", "why_tests_cant": "Loop with unbounded iterations.", "anchors": ["simcats/config_samplers/_GaAs_v1_random_variations_v3_config_sampler.py:sample_IdealCSDGeometric", "simcats/config_samplers/_GaAs_v1_random_variations_v3_config_sampler.py:_add_one_tct"]}
{"id": "C56", "title": "Total occupation is exact in double precision", "statement": "In 64-bit floating point the sum of the two returned occupations of an n-electron pixel is exactly n, so rounding never creates spurious lead transitions in 1D scans.", "quantifier": "for all doubles a in [0,n] and all n below 2^53", "why_tests_cant": "All doubles.", "anchors": ["simcats/ideal_csd/geometric/_get_electron_occupation.py:_occupation_func", "simcats/ideal_csd/geometric/_generate_lead_transition_mask.py:generate_lead_transition_mask_1d"]}
{"id": "C57", "title": "Dot jumps of 1D scans show the shifted sweep", "statement": "In a 1D scan with a data generator, a pixel with jump height s shows the data of the same sweep shifted s pixel pitches to lower voltages along the jump axis, for both dots and the lead transitions; pixels without jump are unchanged.", "quantifier": "for all scans, jump patterns, axes, limits and data generators", "why_tests_cant": "All jump patterns and generators.", "anchors": ["simcats/distortions/_dot_jumps.py:_noise_function_1d"]}
{"id": "C58", "title": "Dot jumps of 2D scans continue the image on the pixel grid", "statement": "In a 2D scan with a data generator, a pixel with jump height s shows the pixel s positions lower along the axis, and where that lies outside the image, the data generated at the voltage s pixel pitches lower.", "quantifier": "for all images, jump patterns, limits and data generators", "why_tests_cant": "All jump patterns and generators.", "anchors": ["simcats/distortions/_dot_jumps.py:_noise_function_2d"]}
{"id": "C59", "title": "Dot jumps do not depend on the sweep direction", "statement": "For the same jump pattern, applying dot jumps to a scan taken in reversed sweep direction gives the reversed result.", "quantifier": "for all scans, both axes, all combinations of sweep directions", "why_tests_cant": "All images and patterns.", "anchors": ["simcats/distortions/_dot_jumps.py:noise_function"]}
{"id": "C60", "title": "Random telegraph noise works at every resolution", "statement": "An active random telegraph noise returns a distorted image of the same shape for every resolution and voltage range.", "quantifier": "for all images, limits and positive burst lengths", "why_tests_cant": "Real parameters, any resolution.", "anchors": ["simcats/distortions/_random_telegraph_noise.py:noise_function"]}
{"id": "C61", "title": "Jump heights are the drawn heights", "statement": "Every active block of a jump pattern has the height drawn for it from the Poisson distribution.", "quantifier": "for all random draws", "why_tests_cant": "Rare large draws.", "anchors": ["simcats/distortions/_dot_jumps.py:generate_dot_jumps_blockwise"]}
{"id": "C62", "title": "TCT slopes stay between the two gradients", "statement": "For an upward corner, all secant slopes of an explicitly evaluated TCT lie between its right and its left gradient.", "quantifier": "for all well-formed TCT parameters, all peak limits and all pairs of points", "why_tests_cant": "All pairs of reals.", "anchors": ["simcats/ideal_csd/geometric/_tct_bezier.py:tct_bezier"]}
{"id": "C63", "title": "Explicitly solved values lie on the bezier curve", "statement": "Without a lookup table, the value of the rounded part of a TCT at x is the y-coordinate of the bezier curve point with x-coordinate x, for upward and downward corners.", "quantifier": "for all corners and all x between the outer bezier anchors", "why_tests_cant": "Root selection over real parameters.", "anchors": ["simcats/ideal_csd/geometric/_tct_bezier.py:tct_bezier"]}
{"id": "C64", "title": "TCT arrays are evaluated pointwise, malformed TCTs rejected", "statement": "Evaluating a TCT on an array gives exactly the values of its entries evaluated one by one, independent of the other entries; parameters whose corner is outside its anchors or whose linear parts have negative length raise AssertionError for every input.", "quantifier": "for all parameters, arrays, lookup tables and peak limits", "why_tests_cant": "All arrays.", "anchors": ["simcats/ideal_csd/geometric/_tct_bezier.py:tct_bezier"]}
{"id": "C65", "title": "Raising gate voltages never lowers the electron number", "statement": "With the default rotation of -45 degrees, explicitly evaluated TCTs and gradients between -1 and 1, a point with higher or equal voltages on both gates never has fewer electrons, and stays above all TCTs if the lower point was.", "quantifier": "for all such TCT parameters and all pairs of voltage points", "why_tests_cant": "All pairs of reals and all TCT geometries.", "anchors": ["simcats/ideal_csd/geometric/_get_electron_occupation.py:get_electron_occupation"]}
{"id": "C66", "title": "Drawn lead transitions have no gaps", "statement": "In a 2D scan sampled finely enough, any two unlabelled pixels that are neighbours (including diagonal ones) are on the same side of every TCT; with the default rotation and gradients between -1 and 1 every scan whose pixels have an aspect ratio of at most 3 is sampled finely enough.", "quantifier": "for all TCTs with bounded slopes and all scans", "why_tests_cant": "All resolutions, windows and geometries.", "anchors": ["simcats/ideal_csd/geometric/_generate_lead_transition_mask.py:generate_lead_transition_mask_2d"]}
{"id": "C67", "title": "Zero interdot coupling is the limit of small coupling", "statement": "A configuration with vanishing interdot coupling distance assigns the electrons to the same dots as the same configuration with a very small coupling distance.", "quantifier": "for all configurations and pixels away from the transition", "why_tests_cant": "Limits over real parameters.", "anchors": ["simcats/support_functions/_cumulative_distribution_functions.py:sigmoid_cdf", "simcats/ideal_csd/geometric/_get_electron_occupation.py:get_electron_occupation"]}
{"id": "C68", "title": "Peak deformations have the documented geometry", "statement": "A linear deformation moves a peak along the straight line with the configured angle to the middle line; a circular deformation moves it along the circle with the configured radius (given in potential units) through mu0.", "quantifier": "for all lever-arms, radii, angles and distances", "why_tests_cant": "Real functions; the tests only use lever-arms of one size.", "anchors": ["simcats/sensor/deformation/_sensor_peak_deformation_circle.py:calc_mu", "simcats/sensor/deformation/_sensor_peak_deformation_linear.py:calc_mu"]}
{"id": "C69", "title": "Conductive areas use the potential of the fully conductive point", "statement": "A pixel of a sensor scan is labelled 0 if a barrier is at or below its pinch-off, 2 if both barriers are open and the sensor potential is above the one at the point where both barriers are fully conductive (for the plunger voltages of the scan), 1 otherwise.", "quantifier": "for all sensors, plunger voltages, occupations and scans", "why_tests_cant": "All reals; needs different voltages on the two plunger gates to fail.", "anchors": ["simcats/sensor/_sensor_scan_sensor_generic.py:get_sensor_scan_labels"]}
{"id": "C70", "title": "Sensor-scan response adds the peaks at their deformed positions", "statement": "In a sensor scan every pixel's dot response is the sum of all peaks evaluated at their (deformed) positions for the distance of the pixel from the middle line through the pinch-off point; without deformations at their mu0, with a final rise the larger of peaks and rise.", "quantifier": "for all sensors, deformation dictionaries, scans and resolutions", "why_tests_cant": "All array sizes and dictionaries; loops with temporary mutation.", "anchors": ["simcats/sensor/_sensor_scan_sensor_generic.py:sensor_response", "simcats/sensor/_sensor_scan_sensor_generic.py:_peak_func"]}
{"id": "C71", "title": "Coulomb labels agree with the response", "statement": "The pixels labelled as Coulomb peaks are those nearest to where the response of the same scan shows the peaks, also with deformations.", "quantifier": "for all sensors, peak lists, deformation dictionaries and scans", "why_tests_cant": "Depends on the order of arbitrary lists and on two separate computations of the same geometry.", "anchors": ["simcats/sensor/_sensor_scan_sensor_generic.py:get_sensor_scan_labels", "simcats/sensor/_sensor_scan_sensor_generic.py:sensor_response"]}
{"id": "C72", "title": "Lever-arm setters", "statement": "A pair of lever-arms is used for dot and both barriers, three pairs are used as given, None means no coupling and everything else is rejected; the sensor gates need three pairs.", "quantifier": "for all arguments", "why_tests_cant": "All arguments.", "anchors": ["simcats/sensor/_sensor_scan_sensor_generic.py:alpha_dot", "simcats/sensor/_sensor_scan_sensor_generic.py:alpha_gate", "simcats/sensor/_sensor_scan_sensor_generic.py:alpha_sensor_gate"]}
{"id": "C73", "title": "multi_glf is the sum of its curves", "statement": "multi_glf (and the multi-GLF barrier) accept exactly concatenations of complete seven-parameter tuples and return the sum of the single curves; rising curves sum up to a rising curve.", "quantifier": "for all parameter lists and potentials", "why_tests_cant": "All list lengths.", "anchors": ["simcats/support_functions/_generalized_logistic_function.py:multi_glf", "simcats/sensor/barrier_function/_barrier_function_multi_glf.py"]}
{"id": "C74", "title": "Pixels map uniformly onto the voltage range", "statement": "pixel_to_volt_1d maps pixel 0 to the first, the last of pixel_num pixels to the last voltage, with equal steps.", "quantifier": "for all pixel numbers and limits", "why_tests_cant": "All resolutions.", "anchors": ["simcats/support_functions/_pixel_volt_transformation.py:pixel_to_volt_1d"]}
{"id": "C75", "title": "Points below a line", "statement": "is_point_below_line answers true exactly for points strictly below the line, for every documented kind of line.", "quantifier": "for all points and lines", "why_tests_cant": "Real comparison; argument types.", "anchors": ["simcats/support_functions/_linear_algebra.py:is_point_below_line"]}
{"id": "C76", "title": "Generating labels overwrites the remembered scan", "statement": "After get_sensor_scan_labels the sensor remembers a single point at the fully conductive voltages with the first plunger voltage on both plunger gates, not the scan.", "quantifier": "for all sensors and scans", "why_tests_cant": "Hidden state of the object.", "anchors": ["simcats/sensor/_sensor_scan_sensor_generic.py:get_sensor_scan_labels", "simcats/sensor/_sensor_scan_sensor_generic.py:sensor_potential"]}
{"id": "C77", "title": "Samples of one sampler stay close together", "statement": "All values one range sampler returns during its lifetime lie in one interval of the sampling width, chosen when it was created, so any two of them differ by at most that width; last_sample is the value returned last.", "quantifier": "for all ranges with ordered ends, sampling widths, distributions and random draws, and any number of samples", "why_tests_cant": "Needs every sequence of random draws; the interval is hidden state.", "anchors": ["simcats/support_functions/_parameter_sampling.py:UniformSamplingRange", "simcats/support_functions/_parameter_sampling.py:NormalSamplingRange", "simcats/support_functions/_parameter_sampling.py:LogNormalSamplingRange", "simcats/support_functions/_parameter_sampling.py:ExponentialSamplingRange"]}
{"id": "C78", "title": "The default mean of a normal sampler is the centre of its total range", "statement": "If no mean is given, NormalSamplingRange draws around the centre of the total range.", "quantifier": "for all total ranges and sampling widths", "why_tests_cant": "The mean is not observable in single draws.", "anchors": ["simcats/support_functions/_parameter_sampling.py:NormalSamplingRange"]}
{"id": "C79", "title": "A sensor scan is computed from one occupation", "statement": "measure_sensor_scan uses the ideal occupation at the plunger voltages (zero if it is unknown) in every pixel of a scan of the requested shape, labels the undistorted potential, and applies the potential distortions, the response and the response distortions in order; occupation distortions are not applied.", "quantifier": "for all configurations, arguments, distortion lists of any length and stateful objects", "why_tests_cant": "Arbitrary user-supplied stateful objects; order of effects.", "anchors": ["simcats/_simulation.py:Simulation.measure_sensor_scan"]}
{"id": "C80", "title": "All measured voltages are within the configured limits", "statement": "Whenever measure or measure_sensor_scan returns data, every voltage of the swept ranges and every given fixed voltage lies within the limits of its gate.", "quantifier": "for all configurations, sweep directions and arguments", "why_tests_cant": "All real voltages.", "anchors": ["simcats/_simulation.py:Simulation.measure", "simcats/_simulation.py:Simulation.measure_sensor_scan"]}
{"id": "C81", "title": "Limits given as list", "statement": "The limit setters accept a list of two numbers, as their check suggests.", "quantifier": "for all lists", "why_tests_cant": "Not obvious from the code; one branch of four setters.", "anchors": ["simcats/_simulation.py:Simulation.volt_limits_g1", "simcats/_simulation.py:Simulation.volt_limits_g2", "simcats/_simulation.py:Simulation.volt_limits_sensor_g1", "simcats/_simulation.py:Simulation.volt_limits_sensor_g2"]}
{"id": "C82", "title": "Shape of a TCT", "statement": "One period of a TCT consists of the bezier curve, a straight line with the right gradient, the bezier curve rotated by 180 degrees about the middle of this line and a straight line with the left gradient; a TCT with limited peaks equals the unlimited one from the first to the last peak and is a straight line with the left gradient before and the right gradient after.", "quantifier": "for all admissible TCT parameters, numbers of peaks and real x", "why_tests_cant": "All reals; the pieces meet at boundary points with floor and comparisons.", "anchors": ["simcats/ideal_csd/geometric/_tct_bezier.py:tct_bezier"]}
{"id": "C83", "title": "A measurement without distortions", "statement": "A successful measurement of a simulation with geometric ideal data, a generic sensor and no distortions has the requested number of pixels at the requested voltages; each value is the sum of the sensor peaks at the linear combination of the pixel's voltages and occupations, the occupations are non-negative and add up to an integer, sweeping in the opposite direction gives the same values at the same voltages, and a well-formed request within the limits fails only with the error of the ideal data.", "quantifier": "for all geometric configurations, sensors with at least one peak, limits, directions and resolutions", "why_tests_cant": "Composition of five modules over real voltages; tests check single configurations.", "anchors": ["simcats/_simulation.py:Simulation.measure", "simcats/ideal_csd/geometric/_ideal_csd_geometric_class.py:IdealCSDGeometric.get_csd_data", "simcats/sensor/_sensor_generic.py:SensorGeneric.sensor_response"]}
{"id": "C84", "title": "A sampled generic sensor is complete and consistent", "statement": "A sampled generic sensor has three to six Lorentzian peaks with positive widths between the potentials of the ends of the plunger ranges, heights and offsets within 20 percent of those of the first peak, consistent lever-arms and no offset unless one was asked for; sampling raises no exception.", "quantifier": "for all quality multipliers in (0,1] and random draws", "why_tests_cant": "All random draws; the ranges depend on earlier draws.", "anchors": ["simcats/config_samplers/_GaAs_v1_random_variations_v3_config_sampler.py:sample_SensorGeneric"]}
{"id": "C85", "title": "The working point is the steepest sampled point", "statement": "If the sensor is to be set to the steepest point, its offset is the first of the million sampled potentials at which the central difference of the summed peaks is largest.", "quantifier": "for all quality multipliers and random draws", "why_tests_cant": "Maximum over a million samples for arbitrary peaks.", "anchors": ["simcats/config_samplers/_GaAs_v1_random_variations_v3_config_sampler.py:sample_SensorGeneric"]}
{"id": "C86", "title": "A sampled sensor-scan sensor works at its base point", "statement": "The larger lever-arm of the sensor dot is 0.1, both barriers are exactly at their pinch-off at the sampled base point and increase strictly between 0 and their height, and the first of the 20 to 30 peaks is 0.05 below the potential of the base point; only a draw of exactly zero raises an exception.", "quantifier": "for all quality multipliers in (0,1] and random draws", "why_tests_cant": "All random draws; several functions have to agree on the base point.", "anchors": ["simcats/config_samplers/_GaAs_v1_random_variations_v3_config_sampler.py:sample_SensorScanSensorGeneric", "simcats/config_samplers/_GaAs_v1_random_variations_v3_config_sampler.py:sample_barrier_function"]}
{"id": "C87", "title": "The final rise exceeds all peaks", "statement": "The sampled final rise of a sensor function ends 5 percent above the largest sampled response of its peaks, which is not negative.", "quantifier": "for all quality multipliers and random draws", "why_tests_cant": "Maximum over half a million samples for arbitrary peak lists.", "anchors": ["simcats/config_samplers/_GaAs_v1_random_variations_v3_config_sampler.py:sample_sensor_function"]}
{"id": "C88", "title": "Consecutive TCTs never touch", "statement": "If every TCT is at most as steep as the one before it and the first and last interdot vectors between the two rise by more than twice the lookup table error, the TCTs do not touch anywhere, so every point has passed exactly the first n of them for one n, which is its electron number unless the point lies above the last TCT.", "quantifier": "for all lists of admissible TCT parameters with these relations, table sizes, rotations and points", "why_tests_cant": "Infinitely many points of piecewise curves; single plots show a few configurations.", "anchors": ["simcats/ideal_csd/geometric/_initialize_tct_functions.py:initialize_tct_functions", "simcats/ideal_csd/geometric/_tct_bezier.py:tct_bezier", "simcats/ideal_csd/geometric/_get_electron_occupation.py:get_electron_occupation"]}
{"id": "C89", "title": "The TCTs of the default configurations do not touch", "statement": "All fourteen TCTs of the default configurations have admissible parameters and lie at least 1.6 mV, up to the table error, above the one before everywhere.", "quantifier": "for all points of the plane", "why_tests_cant": "Infinitely many points; the numbers have up to 17 digits.", "anchors": ["simcats/_default_configs.py:default_configs"]}
{"id": "C90", "title": "The default configurations can be measured everywhere within their limits", "statement": "Every voltage within the gate limits of the default configurations has an electron number, and every 2D measurement within the limits succeeds.", "quantifier": "for all sweeps within the limits and resolutions", "why_tests_cant": "Any pair of sweeps and resolutions; the failing ones are coarse scans of the complete range.", "anchors": ["simcats/_default_configs.py:default_configs", "simcats/_simulation.py:Simulation.measure", "simcats/ideal_csd/geometric/_generate_lead_transition_mask.py:generate_lead_transition_mask_2d"]}
{"id": "C91", "title": "The TCTs of sampled configurations do not touch", "statement": "The TCTs of a sampled configuration have admissible parameters and consecutive ones are separated by at least 1.4 mV, up to the table error.", "quantifier": "for all random draws", "why_tests_cant": "All random draws of eight real parameters and all points.", "anchors": ["simcats/config_samplers/_GaAs_v1_random_variations_v3_config_sampler.py:sample_IdealCSDGeometric"]}
{"id": "C92", "title": "Sampling a configuration ends without exception", "statement": "Sampling an ideal CSD raises no exception, and once the first TCT is sampled, the loop that adds TCTs ends after at most 91 test measurements.", "quantifier": "for all random draws", "why_tests_cant": "The loop has no explicit bound.", "anchors": ["simcats/config_samplers/_GaAs_v1_random_variations_v3_config_sampler.py:sample_IdealCSDGeometric", "simcats/config_samplers/_GaAs_v1_random_variations_v3_config_sampler.py:_add_one_tct"]}
{"id": "C93", "title": "A sensor scan shows the sensor at the scanned voltages", "statement": "A sensor scan has as many pixels as requested; without deformations and final rise each value is the series combination of the summed peaks and the two barriers at the potentials of the pixel's sensor voltages, the plunger voltages and the occupation at the plunger voltages; all pixels are labelled, and valid scans succeed whatever was measured before.", "quantifier": "for all configurations without distortions, sensors, ranges, plunger voltages, resolutions and remembered limits", "why_tests_cant": "Composition of the simulation, the ideal data and the stateful sensor over real voltages.", "anchors": ["simcats/_simulation.py:Simulation.measure_sensor_scan", "simcats/sensor/_sensor_scan_sensor_generic.py:SensorScanSensorGeneric.sensor_potential", "simcats/sensor/_sensor_scan_sensor_generic.py:SensorScanSensorGeneric.sensor_response", "simcats/sensor/_sensor_scan_sensor_generic.py:SensorScanSensorGeneric.get_sensor_scan_labels"]}
{"id": "C94", "title": "Deformations shape measured sensor scans", "statement": "In a sensor scan of a sensor with deformed peaks each pixel shows the peaks as deformed at the distance of its own voltages from the middle line.", "quantifier": "for all sensors with deformations and sensor scans", "why_tests_cant": "Needs the order of calls in the simulation and the state of the sensor together.", "anchors": ["simcats/_simulation.py:Simulation.measure_sensor_scan", "simcats/sensor/_sensor_scan_sensor_generic.py:SensorScanSensorGeneric.sensor_response", "simcats/sensor/_sensor_scan_sensor_generic.py:SensorScanSensorGeneric.get_sensor_scan_labels"]}
{"id": "C95", "title": "The final rise of a sensor scan starts at the fully conductive point", "statement": "With a final rise each pixel of a sensor scan shows the larger of peaks and rise, and the rise is shifted to the potential at the fully conductive point for the plunger voltages of the scan.", "quantifier": "for all sensors with a final rise and no deformations, sensor scans and plunger voltages", "why_tests_cant": "Needs the order of calls in the simulation and the state of the sensor together.", "anchors": ["simcats/_simulation.py:Simulation.measure_sensor_scan", "simcats/sensor/_sensor_scan_sensor_generic.py:SensorScanSensorGeneric.sensor_response", "simcats/sensor/_sensor_scan_sensor_generic.py:SensorScanSensorGeneric._calc_point_from_barrier_potentials"]}
{"id": "C96", "title": "A diagram measured with a sensor-scan sensor", "statement": "A charge stability diagram measured with a sensor-scan sensor has the shape of the ideal data, and without final rise each value is the series combination of the summed peaks and the two barriers at the potentials of the pixel's voltages and occupation and the fixed sensor voltages; valid measurements succeed if there are ideal data.", "quantifier": "for all configurations without distortions, sensors, ranges, sensor voltages, resolutions and remembered limits", "why_tests_cant": "Composition of the simulation, the ideal data and the stateful sensor over real voltages.", "anchors": ["simcats/_simulation.py:Simulation.measure", "simcats/sensor/_sensor_scan_sensor_generic.py:SensorScanSensorGeneric.sensor_potential", "simcats/sensor/_sensor_scan_sensor_generic.py:SensorScanSensorGeneric.sensor_response"]}
{"id": "C97", "title": "The value at a voltage point does not depend on the rest of the diagram", "statement": "Two diagrams that have a pixel with the same voltages and occupation show the same value there.", "quantifier": "for all pairs of undistorted diagrams with one sensor and the same sensor voltages", "why_tests_cant": "Pairs of arbitrary diagrams that share a point.", "anchors": ["simcats/_simulation.py:Simulation.measure", "simcats/sensor/_sensor_scan_sensor_generic.py:SensorScanSensorGeneric.sensor_response"]}
{"id": "C98", "title": "Scans agree where they meet", "statement": "Two 1D scans of a configuration give the same occupations at common voltages, whatever their ranges, directions and resolutions are; two finely sampled 2D scans do so in pixels without a lead transition label.", "quantifier": "for all configurations with proper TCTs and all pairs of scans", "why_tests_cant": "Pairs of arbitrary scans that share a point.", "anchors": ["simcats/ideal_csd/geometric/_ideal_csd_geometric.py:ideal_csd_geometric", "simcats/ideal_csd/geometric/_get_electron_occupation.py:get_electron_occupation"]}
{"id": "C99", "title": "Noise is superposed on potential and response", "statement": "In a simulation with pink, white and telegraph noise each measured value is the noiseless sensor function of (the noiseless potential of the pixel's voltages and occupations plus one number) plus another number; the numbers depend on the shape, the limits and the state of the generator only, not on the device or the data, so the same generator state gives all devices the same noise.", "quantifier": "for all configurations with geometric ideal data, generic sensors with peaks, lists of noise objects, random sources, ranges and resolutions", "why_tests_cant": "Arbitrary compositions of noise objects and arbitrary draws over real numbers.", "anchors": ["simcats/_simulation.py:Simulation.measure", "simcats/distortions/_white_noise.py:SensorResponseWhiteNoise.noise_function", "simcats/distortions/_pink_noise.py:SensorPotentialPinkNoise.noise_function", "simcats/distortions/_random_telegraph_noise.py:RandomTelegraphNoise.noise_function"]}
{"id": "C100", "title": "Inactive distortions change nothing", "statement": "Distortions of strength 0 and telegraph noise and dot jumps that are never activated change neither the data nor the exceptions of a measurement.", "quantifier": "for all configurations, lists of such distortions and measurements", "why_tests_cant": "Relates two runs with arbitrary configurations and arbitrary random states.", "anchors": ["simcats/_simulation.py:Simulation.measure", "simcats/distortions/_transition_blurring.py:OccupationTransitionBlurringGaussian.noise_function", "simcats/distortions/_dot_jumps.py:OccupationDotJumps.noise_function"]}
{"id": "C101", "title": "Frozen distortions replay the data", "statement": "The generator handed to an occupation distortion contains the distortions applied before with frozen parameters: asked for the same range and resolution it returns the distorted data again; likewise for the distortion objects after a measurement.", "quantifier": "for all undistorted generators, lists of distinct blurrings and dot jumps, ranges, resolutions and random sources", "why_tests_cant": "Arbitrary compositions of stateful objects and arbitrary draws.", "anchors": ["simcats/_simulation.py:Simulation.measure", "simcats/distortions/_dot_jumps.py:OccupationDotJumps.noise_function", "simcats/distortions/_transition_blurring.py:OccupationTransitionBlurringGaussian.noise_function"]}
{"id": "C102", "title": "Dot jumps along a gate keep data that does not depend on that gate", "statement": "Dot jumps along gate 2 do not change data that depend on the voltage of gate 1 only.", "quantifier": "for all such data, jumps, distortions applied before, ranges and resolutions", "why_tests_cant": "Arbitrary data and draws; the effect needs blurring and jumps together.", "anchors": ["simcats/distortions/_dot_jumps.py:OccupationDotJumps.noise_function", "simcats/distortions/_transition_blurring.py:OccupationTransitionBlurringGaussian.noise_function", "simcats/_simulation.py:Simulation.measure"]}
{"id": "C103", "title": "2D measurements of the default configuration with distortions never raise", "statement": "With the default configuration GaAs_v1 and all its distortions (blurring, dot jumps along both gates, pink, telegraph and white noise) a 2D measurement within the voltage limits, with pixels at most 4 mV apart, returns an image of the requested shape whatever the random generators draw: no generated strip, no replayed noise and no noise parameter fails.", "quantifier": "for all ranges within the limits, resolutions, states of the distortion objects, random sources, kernels", "why_tests_cant": "All draws of all distortion objects at once, over all real ranges and all resolutions.", "anchors": ["simcats/_simulation.py:Simulation.measure", "simcats/_default_configs.py:default_configs", "simcats/distortions/_dot_jumps.py:OccupationDotJumps.noise_function", "simcats/distortions/_random_telegraph_noise.py:RandomTelegraphNoise.noise_function"]}
{"id": "C104", "title": "1D measurements of the default configuration with distortions never raise", "statement": "With the default configurations GaAs_v1 and GaAs_v2_extended_sensor and all their distortions a 1D measurement of at least 7 pixels within the voltage limits returns a line of the requested length.", "quantifier": "for all ranges within the limits, resolutions, states of the distortion objects, random sources, kernels", "why_tests_cant": "The failing draw has probability 1 % (0.17 % along the second gate).", "anchors": ["simcats/_simulation.py:Simulation.measure", "simcats/_default_configs.py:default_configs", "simcats/distortions/_dot_jumps.py:OccupationDotJumps.noise_function"]}
{"id": "C105", "title": "1D scans with dot jumps are read back from the diagonal, independently of the numpy version", "statement": "The n pixels of a 1D scan with dot jumps are the entries of the working array at distance `added` from the diagonal.", "quantifier": "for all arrays, numbers of pixels and jump heights, with numpy 1 and numpy 2 arithmetic of uint8 numbers", "why_tests_cant": "Depends on the installed numpy version and needs scans of more than 256 pixels with an active jump (1 % of the measurements).", "anchors": ["simcats/distortions/_dot_jumps.py:OccupationDotJumps._noise_function_1d"]}
{"id": "C106", "title": "Jump heights stored as uint8 give the same pixel indices with all numpy versions", "statement": "The pixel shown at position j + k by a jump of height n is max(0, j - n + k).", "quantifier": "for all positions and heights below 256, with numpy 1 and numpy 2 arithmetic of uint8 numbers", "why_tests_cant": "Depends on the installed numpy version, on the position and on the drawn height.", "anchors": ["simcats/distortions/_dot_jumps.py:dot_jumps_blockwise", "simcats/distortions/_dot_jumps.py:dot_jumps_pixelwise"]}
{"id": "C107", "title": "Pixel voltages in double precision", "statement": "The float64 voltages of the pixels start and end exactly at the requested voltages, never leave the requested range, are sorted, differ from the exact ones by at most 2^-49 of the larger end, are distinct where the pixels are more than twice as far apart, and are the same for the reversed sweep.", "quantifier": "for all float64 ends and all numbers of pixels up to 2^50", "why_tests_cant": "All float64 ranges and pixel numbers; the violations are in the last bit or in the subnormal range.", "anchors": ["simcats/ideal_csd/geometric/_get_electron_occupation.py:get_electron_occupation", "simcats/sensor/_sensor_generic.py:SensorGeneric.sensor_potential", "simcats/sensor/_sensor_scan_sensor_generic.py:SensorScanSensorGeneric.sensor_potential"]}
{"id": "C108", "title": "Sampled parameters stay within their range in double precision", "statement": "A uniformly sampled float64 parameter, and a range narrowed by sampling_range, never leave the total range in spite of rounding.", "quantifier": "for all float64 ranges, widths and all random numbers of 53 bits", "why_tests_cant": "A violation needs one of 2^53 random numbers at the end of the range.", "anchors": ["simcats/support_functions/_parameter_sampling.py:UniformSamplingRange.__init__", "simcats/support_functions/_parameter_sampling.py:UniformSamplingRange.sample_parameter"]}
{"id": "C109", "title": "2D plots show values and ticks at the right voltages", "statement": "plot_csd shows every value of a 2D scan at its voltages, with the lowest voltages first if sorted, the ticks show the voltages of their positions, and the proportions are those of the voltage ranges.", "quantifier": "for all images of at least 2 by 2 pixels, ranges in both directions, numbers of ticks", "why_tests_cant": "Plots are not tested; all directions, shapes and numbers of ticks.", "anchors": ["simcats/support_functions/_plotting.py:_plot_csd_2d"]}
{"id": "C110", "title": "1D plots show values and ticks at the right voltages", "statement": "plot_csd shows every value of a 1D scan at its voltages, sorted by the voltage of gate 1 if asked for, and the ticks show the voltages of both gates at their positions.", "quantifier": "for all scans of at least 2 pixels, ranges in both directions, numbers of ticks", "why_tests_cant": "Plots are not tested; all directions and numbers of ticks.", "anchors": ["simcats/support_functions/_plotting.py:_plot_csd_1d"]}
{"id": "C111", "title": "Noise in sensor scans superposes", "statement": "In a sensor scan the potential distortions add a noise to each of the three potentials and the response distortions add one to the response; the noises depend only on the shape, the ranges and the random generator, and every pixel is the noiseless sensor function of the noisy potentials plus the response noise.", "quantifier": "for all sensors without deformations, plunger voltages, resolutions, lists of distortions and random generators", "why_tests_cant": "The noise is random; tests cannot separate it from the signal, nor check every combination of distortions.", "anchors": ["simcats/_simulation.py:Simulation.measure_sensor_scan", "simcats/sensor/_sensor_scan_sensor_generic.py:SensorScanSensorGeneric.sensor_response"]}
{"id": "C112", "title": "Labels of sensor scans carry no noise", "statement": "The labels of a sensor scan with distortions are those of the scan without distortions, and occupation distortions are neither used nor changed.", "quantifier": "for all sensors, requests, lists of distortions and random generators", "why_tests_cant": "Needs the same scan with and without noise for every seed.", "anchors": ["simcats/_simulation.py:Simulation.measure_sensor_scan", "simcats/sensor/_sensor_scan_sensor_generic.py:SensorScanSensorGeneric.get_sensor_scan_labels"]}
{"id": "C113", "title": "Noise in diagrams of a sensor-scan sensor superposes", "statement": "In a diagram measured with a SensorScanSensorGeneric sensor the noises superpose as in sensor scans, and the occupations are those of a measurement with any other sensor and any other potential and response distortions.", "quantifier": "for all sensors, requests, lists of distortions and random generators", "why_tests_cant": "The noise is random; all lists of distortions.", "anchors": ["simcats/_simulation.py:Simulation.measure"]}
{"id": "C114", "title": "Diagrams of GaAs_v2_extended_sensor never raise", "statement": "The default configuration GaAs_v2_extended_sensor is constructed without an error, and its 2D diagrams with pixels of at most 4 mV and its 1D diagrams along both gates never raise, whatever is drawn.", "quantifier": "for all sweeps within the limits, sensor voltages within the limits and all random draws", "why_tests_cant": "Rare draws (ratio 0.01) activate distortions that could raise.", "anchors": ["simcats/_default_configs.py", "simcats/_simulation.py:Simulation.measure"]}
{"id": "C115", "title": "Sensor scans of GaAs_v2_extended_sensor never raise", "statement": "Valid sensor scans of the default configuration GaAs_v2_extended_sensor return a scan of the requested shape, whatever is drawn.", "quantifier": "for all sweeps, plunger voltages and resolutions within the limits and all random draws", "why_tests_cant": "Depends on the draws and on the resolution.", "anchors": ["simcats/_default_configs.py", "simcats/_simulation.py:Simulation.measure_sensor_scan", "simcats/distortions/_random_telegraph_noise.py:RandomTelegraphNoise.noise_function"]}
{"id": "C116", "title": "Telegraph noise of the response works along either sensor gate", "statement": "A 1D sensor scan with telegraph noise of the sensor response succeeds along sensor gate 1 as well as along sensor gate 2.", "quantifier": "for all sensors, ranges, numbers of pixels and random draws", "why_tests_cant": "The default configurations have no such noise; it needs an active draw and a scan of gate 2 only.", "anchors": ["simcats/_simulation.py:Simulation.measure_sensor_scan", "simcats/distortions/_random_telegraph_noise.py:RandomTelegraphNoise.noise_function"]}
{"id": "C117", "title": "Measurements of sampled configurations never raise", "statement": "Every configuration returned by the sampler of random variations (version 3) can be measured: with voltages for the sensor gates, 2D measurements with pixels of at most 11.9 mV and lines along both gates with at least seven pixels return images of the requested shape, whatever was sampled and whatever is drawn.", "quantifier": "for all sampled configurations of both sensor types, all requests within the limits and all random draws", "why_tests_cant": "A test samples a few configurations; rare draws (ratio 0.01, 0.01/6) activate distortions that could raise.", "anchors": ["simcats/config_samplers/_GaAs_v1_random_variations_v3_config_sampler.py:sample_random_variations_v3_config", "simcats/_simulation.py:Simulation.measure"]}
{"id": "C118", "title": "Sampled configurations can be measured with the default arguments", "statement": "A simulation of a sampled configuration can be measured without passing voltages for the sensor gates.", "quantifier": "for all sampled configurations and all requests within the limits", "why_tests_cant": "All sampled configurations.", "anchors": ["simcats/config_samplers/_GaAs_v1_random_variations_v3_config_sampler.py:sample_random_variations_v3_config", "simcats/_simulation.py:Simulation.measure"]}
{"id": "C119", "title": "Lines along one gate of sampled configurations never raise", "statement": "Measurements of sampled configurations along gate 1 only or gate 2 only return lines of the requested length, whatever is drawn.", "quantifier": "for all sampled configurations, lines within the limits and all random draws", "why_tests_cant": "Only rare draws (ratio 0.01 and 0.01/6) activate the dot jumps that raise.", "anchors": ["simcats/_simulation.py:Simulation.measure", "simcats/distortions/_dot_jumps.py:OccupationDotJumps.noise_function"]}
{"id": "C120", "title": "Sensor scans of sampled configurations never raise", "statement": "Valid sensor scans of sampled configurations with pixels of at most 22 mV return scans of the requested shape, whatever is drawn.", "quantifier": "for all sampled configurations with a SensorScanSensorGeneric, all valid requests and all random draws", "why_tests_cant": "Only draws with probability 0.01 activate the telegraph noise that raises.", "anchors": ["simcats/_simulation.py:Simulation.measure_sensor_scan", "simcats/config_samplers/_GaAs_v1_random_variations_v3_config_sampler.py:sample_sensor_response_distortions"]}
{"id": "C121", "title": "Shifting the configuration and the voltages changes nothing", "statement": "If all TCTs and both scanned ranges are shifted by the same voltages, ideal_csd_geometric returns exactly the same occupations and lead transitions, or raises the same exception; this includes rotated TCTs (whose parameters are shifted by the rotated voltages), lookup tables, 1D and 2D scans and reversed ranges.", "quantifier": "for all TCT parameters with two different slopes, all shifts, rotations, ranges, resolutions, lookup tables and distribution functions", "why_tests_cant": "A test compares a few shifts; an absolute threshold or a forgotten origin matters only far away from the tested voltages.", "anchors": ["simcats/ideal_csd/geometric/_ideal_csd_geometric.py:ideal_csd_geometric", "simcats/ideal_csd/geometric/_tct_bezier.py:tct_bezier", "simcats/ideal_csd/geometric/_calculate_all_bezier_anchors.py:calculate_all_bezier_anchors"]}
{"id": "C122", "title": "The unit of the voltages does not matter for ideal data", "statement": "If all voltages of a configuration (lengths and positions of the TCTs) and the scanned ranges are multiplied by a positive factor, ideal_csd_geometric returns the same occupations and lead transitions.", "quantifier": "for all TCT parameters, factors, ranges and resolutions", "why_tests_cant": "The default configuration is the only one usually tested, always in volts.", "anchors": ["simcats/ideal_csd/geometric/_ideal_csd_geometric.py:ideal_csd_geometric", "simcats/support_functions/_cumulative_distribution_functions.py:sigmoid_cdf"]}
{"id": "C123", "title": "Measurements do not depend on unit and zero of the voltages", "statement": "If unit and zero of all voltages are changed (TCTs, limits, scanned ranges; lever arms and offset of the sensor, blurring width, jump length and amplitude and telegraph scale converted), Simulation.measure returns the same image, occupations and lead transitions, raises the same exceptions, uses the same random draws and leaves the distortions in corresponding states.", "quantifier": "for all configurations of IdealCSDGeometric, SensorGeneric and the distortions of the package whose interdot transitions are wider than 1e-8 in both units (no such condition for shifts), all requests and all random draws", "why_tests_cant": "Conversions between pixels and volts are spread over the distortions; tests use one unit and compare shapes or statistics.", "anchors": ["simcats/_simulation.py:Simulation.measure", "simcats/distortions/_dot_jumps.py:OccupationDotJumps.noise_function", "simcats/distortions/_transition_blurring.py:OccupationTransitionBlurringGaussian.noise_function", "simcats/distortions/_random_telegraph_noise.py:RandomTelegraphNoise.noise_function"]}
{"id": "C124", "title": "Transition points are drawn inside the image in double precision", "statement": "In generate_lead_transition_mask_2d every transition point that passes the check against the image limits gets valid pixel indices, those of the nearest pixel, although limits, step size and indices are computed with rounding errors.", "quantifier": "for all float64 limits (pixels not below 2^-40 of the larger limit), numbers of pixels and float64 transition points", "why_tests_cant": "The index is computed by another expression than the check; they disagree only for points within a rounding error of the edge of the image, which no test hits.", "anchors": ["simcats/ideal_csd/geometric/_generate_lead_transition_mask.py:generate_lead_transition_mask_2d"]}
{"id": "C125", "title": "TCT values in double precision", "statement": "The value of a TCT computed in double precision differs from the exact one by rounding errors only; in particular the position within the period (np.mod) and the number of the period (floor of the quotient) belong together.", "quantifier": "for all float64 TCT parameters and voltages", "why_tests_cant": "The two are computed independently and disagree only for isolated voltages at the end of a period.", "anchors": ["simcats/ideal_csd/geometric/_tct_bezier.py:tct_bezier"]}
{"id": "C126", "title": "Lorentzian peaks in double precision", "statement": "Computed in double precision, a Lorentzian sensor peak still falls on both sides of mu0, is highest at mu0, is never below its offset, and has the configured height at mu0.", "quantifier": "for all float64 potentials, positions, widths, non-negative heights and offsets", "why_tests_cant": "A test compares with a tolerance, which hides a violated order of neighbouring values.", "anchors": ["simcats/sensor/_sensor_peak_lorentzian.py:sensor_response_lorentz"]}
{"id": "C127", "title": "The series combination in double precision", "statement": "Computed in double precision, the combined response of sensor dot and barriers is that of three conductances in series up to 2^-49, is never negative, and is zero if one of the three is zero.", "quantifier": "for all non-negative float64 responses", "why_tests_cant": "The products of small responses underflow; tests use responses of ordinary size.", "anchors": ["simcats/sensor/_sensor_scan_sensor_generic.py:SensorScanSensorGeneric.sensor_response"]}
{"id": "C128", "title": "Charge is quantised between the interdot transitions", "statement": "Far from interdot transitions the number of electrons of a dot is an integer: at a distance c beyond the n-th and before the next interdot transition line the number deviates from n by at most an amount that decreases with c (exponentially for sigmoid, like 1/c for Cauchy distributions) and, for sigmoid, does not grow with the electron number.", "quantifier": "for all configurations, electron numbers n, and voltages between two transitions", "why_tests_cant": "Smooth distributions are never exactly 0 or 1, and the tails of all other transitions add up; tests compare with a tolerance for few electrons only.", "anchors": ["simcats/ideal_csd/geometric/_get_electron_occupation.py:get_electron_occupation", "simcats/support_functions/_cumulative_distribution_functions.py:sigmoid_cdf", "simcats/support_functions/_cumulative_distribution_functions.py:cauchy_cdf"]}
{"id": "C129", "title": "Growth rate and asymmetry of the GLF mean what is documented", "statement": "The generalized logistic function grows by the law of generalized logistic growth; it has exactly one steepest point, which lies above half of the height for asymmetry > 1 (gradual before the midpoint, sharp after it), below for asymmetry < 1 and at half height for asymmetry 1.", "quantifier": "for all admissible parameters with positive growth rate and left asymptote below the right one", "why_tests_cant": "The position of the steepest point is a statement about derivatives at all potentials; tests compare single values.", "anchors": ["simcats/support_functions/_generalized_logistic_function.py:glf"]}
{"id": "C130", "title": "The two dots are treated alike", "statement": "Exchanging the two gates and the two dots (reflecting every TCT) exchanges the two occupations at exchanged voltages and changes nothing else.", "quantifier": "for all TCT stacks, distributions, voltage ranges and resolutions, the default configurations and all sampled configurations", "why_tests_cant": "The TCT of n electrons is described by its first peak only, so the exchange replaces all anchor points; no test compares a configuration with its mirror image.", "anchors": ["simcats/ideal_csd/geometric/_tct_bezier.py:tct_bezier", "simcats/ideal_csd/geometric/_get_electron_occupation.py:get_electron_occupation", "simcats/ideal_csd/geometric/_ideal_csd_geometric.py:ideal_csd_geometric", "simcats/_default_configs.py:default_configs"]}
{"id": "C131", "title": "Interdot transitions connect the triple points", "statement": "All along the straight line from the k-th peak of TCT n to the k-th valley of TCT n + 1 the electron is shared equally: dot 1 holds k + 1/2 electrons up to the tails of the other transitions.", "quantifier": "for all configurations with sigmoid or Cauchy distribution, electron numbers n, transitions k < n and points of the line", "why_tests_cant": "Only the first interdot transition is constructed from the anchor points; the others are translated copies. Tests would have to locate the k-th transition for many electrons.", "anchors": ["simcats/ideal_csd/geometric/_get_electron_occupation.py:get_electron_occupation", "simcats/ideal_csd/geometric/_tct_bezier.py:tct_bezier", "simcats/_default_configs.py:default_configs", "simcats/config_samplers/_GaAs_v1_random_variations_v3_config_sampler.py:sample_IdealCSDGeometric"]}
{"id": "C132", "title": "Exponential samples are computed as documented", "statement": "A sample of an exponential sampler is min + e * (max - min) of its sampling range for an exponentially distributed number e, and the documented scale q / ln(1 / (1 - p)) puts the p quantile at the position q of the range.", "quantifier": "for all total ranges, sampling widths, scales, quantiles and random draws", "why_tests_cant": "Tests of random samplers can only check ranges and sample statistics; the direction of a reversed range and the effect of truncation on the quantile need a proof.", "anchors": ["simcats/support_functions/_parameter_sampling.py:ExponentialSamplingRange", "simcats/config_samplers/_GaAs_v1_random_variations_v3_config_sampler.py:sample_SensorGeneric"]}
{"id": "C133", "title": "Blurring keeps transitions in place", "statement": "Blurring replaces every occupation by the weighted mean of its surroundings, with the derivative of the Fermi-Dirac distribution (or a Gaussian) as weights and the line reflected at its ends. A transition keeps its position, nothing changes beyond the radius of the kernel, and rising or falling lines stay rising or falling.", "quantifier": "for all scans, both blurring classes, widths, radii, and both dots and their sum", "why_tests_cant": "Monotonicity and symmetry concern all lines and kernel lengths; the effect of kernels longer than the line is far below the tolerance of tests.", "anchors": ["simcats/support_functions/_fermi_filter1d.py:fermi_filter1d", "simcats/support_functions/_fermi_filter1d.py:fermi_dirac_derivative", "simcats/distortions/_transition_blurring.py:OccupationTransitionBlurringFermiDirac", "simcats/distortions/_transition_blurring.py:OccupationTransitionBlurringGaussian"]}
{"id": "C134", "title": "The sensor potential in double precision", "statement": "In double precision the potential of the generic sensor is the affine function of voltages and occupations up to 2^-50 of its terms, and rounding never reverses its direction: if no product of a lever-arm with its voltage or occupation falls, the computed potential does not fall - whichever of the products the dot products of the linear algebra library fuse with the addition.", "quantifier": "for all lever-arms, offsets, voltages, occupations and evaluation orders of the dot products, without overflow", "why_tests_cant": "Rounding depends on the linear algebra library numpy was built with and on all bits of the inputs; tests run one library with few inputs.", "anchors": ["simcats/sensor/_sensor_generic.py:SensorGeneric.sensor_potential"]}
{"id": "C135", "title": "Resetting the sensor offset in double precision", "statement": "After reset_offset_mu_sens the computed potential of the first pixel is the target, and resetting once more changes nothing.", "quantifier": "for all sensors, previous offsets, targets, voltages and occupations in double precision without overflow", "why_tests_cant": "Whether the target is hit exactly depends on rounding errors; tests compare with a tolerance and start from a sensor without offset.", "anchors": ["simcats/support_functions/_reset_offset_mu_sens.py:reset_offset_mu_sens", "simcats/sensor/_sensor_generic.py:SensorGeneric.sensor_potential"]}
{"id": "C136", "title": "Raising gate voltages with lookup tables", "statement": "In the default and in sampled configurations, whose TCTs are evaluated with lookup tables of 1000 entries, a point with higher voltages never has fewer electrons.", "quantifier": "for all pairs of voltage points, TCT parameters and sizes of lookup tables", "why_tests_cant": "The electron number only falls within steps of a lookup table that are far smaller than the distance of pixels in any test image.", "anchors": ["simcats/ideal_csd/geometric/_tct_bezier.py:tct_bezier", "simcats/ideal_csd/geometric/_get_electron_occupation.py:get_electron_occupation"]}
{"id": "C137", "title": "The rotation turns the whole diagram", "statement": "Turning the voltages about the origin and adding the same angle to the rotation of the configuration changes neither electron numbers nor occupations: line scans return the same arrays and exceptions, corresponding pixels of any two scans with the same total occupation have the same occupations, and a complete turn leaves everything unchanged.", "quantifier": "for all angles, TCT parameters, scans, lookup tables and CDFs", "why_tests_cant": "Only the rotation of -45 degrees occurs in the delivered configurations; tests check single values.", "anchors": ["simcats/ideal_csd/geometric/_ideal_csd_geometric.py:ideal_csd_geometric", "simcats/ideal_csd/geometric/_get_electron_occupation.py:get_electron_occupation", "simcats/ideal_csd/geometric/_calculate_all_bezier_anchors.py:calculate_all_bezier_anchors", "simcats/support_functions/_rotate_points.py:rotate_points"]}
{"id": "C138", "title": "At a constant number of electrons the occupations are continuous", "statement": "If the interdot transitions have a width of more than 1e-8 in the units of the distribution, two pixels (of any two scans) with the same total occupation n differ in the occupation of each dot by at most n times the largest slope of the distribution (gamma/2 for the sigmoid, gamma/pi for the Cauchy distribution, per transition width) times their distance; with the default TCTs, rotation and sigmoid by at most 3.05 electrons per millivolt.", "quantifier": "for all TCT parameters, scans, pixels, rotations, lookup tables and positive gamma factors; the default bound for all scans of the default configuration", "why_tests_cant": "A jump of the occupation between neighbouring voltages can only be found by a test that samples both sides of it; the statement is about arbitrarily close voltages.", "anchors": ["simcats/ideal_csd/geometric/_get_electron_occupation.py:get_electron_occupation", "simcats/support_functions/_cumulative_distribution_functions.py:sigmoid_cdf", "simcats/support_functions/_cumulative_distribution_functions.py:cauchy_cdf", "simcats/ideal_csd/geometric/_ideal_csd_geometric.py:ideal_csd_geometric"]}
{"id": "C139", "title": "Which dot gets the electron at a lead transition", "statement": "Crossing TCT n upwards adds one electron. Across the branch from a peak down to the next valley on the right it goes into dot 1, across the branch left of a peak into dot 2: a pixel with n electrons near the branch right (left) of the k-th peak of TCT n has k+1 (k) electrons in dot 1, a pixel with n-1 electrons near that point has k, up to the tails of the interdot transitions. With the default TCTs the jump of each dot is right within 1/3 electron in the middle third of every branch and within 1/10 at its middle; for every sampled configuration it is right within 0.49 at the middle of every branch. The straight parts of the branches belong to the TCT.", "quantifier": "for all TCT parameters (equal periods for the pixel below), scans, pixels, rotations, lookup tables, both distributions; the default and sampled bounds for all n, all branches, all scans and all pixels within 50 (10) microvolts", "why_tests_cant": "There are two branches per electron and TCT, each crossed at arbitrary points; a test that looks at single scans cannot tell that no branch anywhere assigns the electron to the wrong dot.", "anchors": ["simcats/ideal_csd/geometric/_get_electron_occupation.py:get_electron_occupation", "simcats/ideal_csd/geometric/_tct_bezier.py:tct_bezier", "simcats/ideal_csd/geometric/_ideal_csd_geometric.py:ideal_csd_geometric", "simcats/_default_configs.py:default_configs"]}
{"id": "C140", "title": "The numpy operations on windows and arrays are what their names say", "statement": "The transition lines are sampled at 4 (x_res + y_res) equidistant abscissae that reach from one pixel below to one pixel above the window as seen in the rotated frame. The pixel voltages start at the first limit, end at the second and have equal steps. The norm of the lever arms is Euclidean, sorting limits keeps the two numbers and orders them, the largest jump position is attained and an upper bound, the reference occupation is the first pixel, the size of an image is its number of pixels, and a scan is two-dimensional exactly if the resolution has two entries.", "quantifier": "for all windows, rotations, resolutions (at least 2 pixels), lever arms, jump positions, occupations and images", "why_tests_cant": "Real-valued windows and rotations and arbitrary array sizes; the sampled range has to cover the window for every rotation.", "anchors": ["simcats/ideal_csd/geometric/_generate_lead_transition_mask.py:generate_lead_transition_mask_2d", "simcats/ideal_csd/geometric/_get_electron_occupation.py:get_electron_occupation", "simcats/sensor/deformation/_sensor_peak_deformation_linear.py:calc_mu", "simcats/distortions/_dot_jumps.py", "simcats/_simulation.py:measure"]}
{"id": "C141", "title": "Sampled configurations have moderate distortions of the documented kinds", "statement": "A sampled configuration blurs the occupations, has dot jumps along both gates, pink and telegraph noise of the potential, telegraph and white noise of the response, in this order. All values drawn during its use stay within fixed bounds: the blurring is between a quarter and two pixels of 0.3 mV, pink and white noise between 1e-10 and 0.0005 and mostly weak (counted from the lower bound by an exponential number with 99% quantile 0.6), jumps occur with a ratio of at most 1/100 and telegraph noise with at most 1/6.", "quantifier": "for all random generators, sensor types, multipliers and all sequences of values drawn from the samplers of a sampled configuration", "why_tests_cant": "The bounds concern all random numbers of all later measurements.", "anchors": ["simcats/config_samplers/_GaAs_v1_random_variations_v3_config_sampler.py:sample_random_variations_v3_config", "simcats/support_functions/_parameter_sampling.py"]}
{"id": "C142", "title": "An electron that enters a dot lowers the sensor potential by the lever arm of this dot", "statement": "Between two noise-free measured pixels at about the same voltages, of which one has one electron more, the sensor potential behind the measured values differs by the lever arm of the dot that got the electron, up to the part of the electron in the other dot and the direct effect of the voltages. With the default configuration the drop is 0.375 to 0.521 mV for dot 1 and 0.219 to 0.365 mV for dot 2 in the middle third of every branch of every transition, so that the sensor tells the dots apart. For every sampled configuration with a generic sensor it is 0.4 to 1.6 times the lever arm, and more than 20 microvolts, at the middle of every branch.", "quantifier": "for all configurations, sensors with peaks, measurements (1D and 2D), pixels and electron numbers; the default and sampled bounds for all branches of all transitions and all pixels within 50 (10) microvolts", "why_tests_cant": "It concerns all pairs of pixels of all measurements near any of the infinitely many points of the transitions, and all random numbers of the sampler.", "anchors": ["simcats/_simulation.py:measure", "simcats/sensor/_sensor_generic.py:sensor_potential", "simcats/ideal_csd/geometric/_get_electron_occupation.py:get_electron_occupation", "simcats/_default_configs.py:default_configs", "simcats/config_samplers/_GaAs_v1_random_variations_v3_config_sampler.py:sample_random_variations_v3_config"]}
{"id": "C143", "title": "The areas marked in sensor scans conduct as documented", "statement": "The conductive-area mask of a sensor scan marks with 0 the pixels in which no current flows (a barrier is pinched off), with 2 the pixels in which both barriers are fully open, and the measured response agrees: pixels marked 0 conduct at most the pinch-off fraction of a barrier, pixels marked 2 conduct like open barriers in series with the fully risen sensor dot. For the default sensor: less than 0.0003 in the area 0, more than 0.0598 wherever both barriers are fully open.", "quantifier": "for all sensors with rising generalised logistic barriers and final rise, all plunger and sensor voltages, resolutions, pixels (1D and 2D), all ideal data", "why_tests_cant": "The agreement of mask and response concerns all voltages and all barrier parameters; a test compares a few masks with stored images.", "anchors": ["simcats/sensor/_sensor_scan_sensor_generic.py:get_sensor_scan_labels", "simcats/sensor/_sensor_scan_sensor_generic.py:sensor_response", "simcats/sensor/barrier_function/_barrier_function_glf.py:BarrierFunctionGLF", "simcats/_default_configs.py:default_configs"]}
{"id": "C144", "title": "Measurements depend on earlier ones through the random generators only", "statement": "The values, occupations, lead transitions, labels and settings returned by measure and measure_sensor_scan, the exception raised, and the state in which the random generators are left are the same in any two states of a simulation in which the random generators are in the same state: nothing that earlier measurements left in the distortion objects (latest sigma, activation, recorded jumps) or in the sensor (remembered voltages and occupations) has an influence.", "quantifier": "for all configurations with objects of the package, with SensorGeneric or SensorScanSensorGeneric, all lists of distortions (also with repeated objects), all arguments and all pairs of states with equal random generators", "why_tests_cant": "The distortion objects keep their latest noise in order to replay it; a leak of this state into the next measurement needs particular sequences of activated and inactive distortions to show up.", "anchors": ["simcats/_simulation.py:measure", "simcats/_simulation.py:measure_sensor_scan", "simcats/distortions/_dot_jumps.py:OccupationDotJumps", "simcats/distortions/_transition_blurring.py", "simcats/sensor/_sensor_scan_sensor_generic.py:sensor_potential"]}
{"id": "C145", "title": "The Coulomb peaks of the default sensor are resolved and crossed", "statement": "The sensor of GaAs_v1 can be constructed and has five peaks, 5 mV apart, which are resolved (more than 0.026 above the base line at the peaks, less than 0.011 halfway between them); a sweep along the diagonal of the default voltage limits succeeds at every resolution and its potential crosses the centre of each peak between two neighbouring pixels; and all values of undistorted diagrams lie between the sum of the five offsets and 0.05 above.", "quantifier": "for all resolutions of the diagonal sweep; for all undistorted measurements of the default configuration and all their pixels", "why_tests_cant": "That the electrons entering the dots never pull the potential back below the last peak concerns all resolutions; the margin is smaller than 0.00001.", "anchors": ["simcats/_default_configs.py:default_configs", "simcats/sensor/_sensor_generic.py:sensor_response", "simcats/sensor/_sensor_peak_lorentzian.py:sensor_function"]}
{"id": "C146", "title": "Coulomb labels of sensor scans are at the peaks", "statement": "In sensor scans without deformations a pixel with the label of a peak lies in the oscillating area and less than one pixel step (of the potential, along the row) away from the peak; a pixel of this area less than half a step away from a peak has its label if the other peaks are at least one and a half steps away. In scans of GaAs_v2_extended_sensor without plunger voltages either gate alone blocks the sensor (label 0, below 0.0003), both together open it (label 2, above 0.0598); with pixel steps up to 0.0005 only the peaks 13 to 19 are labelled, and every scan of the whole range with at least 300x300 pixels has one row with the labels 13 to 18.", "quantifier": "for all sensors without deformations, ranges, plunger voltages, resolutions and pixels; for all scans of the default sensor without plunger voltages", "why_tests_cant": "Nearest pixels of all rows, ties and the ends of the rows concern every resolution and range.", "anchors": ["simcats/sensor/_sensor_scan_sensor_generic.py:get_sensor_scan_labels", "simcats/_simulation.py:measure_sensor_scan", "simcats/_default_configs.py:default_configs"]}
{"id": "C147", "title": "Which pixel decides about the electrons of an unlabelled region", "statement": "In a 2D scan all pixels of a connected unlabelled region get the total occupation that belongs to the voltages of its first pixel (lowest second gate voltage, then lowest first gate voltage, for all sweep directions). In scans of the default configuration with pixels of at least 25 microvolts and aspect ratio at most 3 this is the number of electrons at the voltages of the pixel itself. It is not so for all windows: for every resolution there is a flat window within the gate limits whose scan shows no transition and no electron although there is one at its right edge (a 1D scan along its lower edge shows it).", "quantifier": "for all configurations, limits, resolutions and unlabelled pixels; for all scans of the default configuration with the stated pixels; for every resolution some window", "why_tests_cant": "The samples of the transition lines miss windows that are flat compared with the sampling distance; windows of usual shapes never show it.", "anchors": ["simcats/ideal_csd/geometric/_get_electron_occupation.py:get_electron_occupation", "simcats/ideal_csd/geometric/_generate_lead_transition_mask.py:generate_lead_transition_mask_2d", "simcats/ideal_csd/geometric/_ideal_csd_geometric.py:ideal_csd_geometric"]}
{"id": "C148", "title": "Charge sensing with the extended sensor", "statement": "In charge stability diagrams measured with the sensor for sensor scans, an electron that enters a dot lowers the potentials of the sensor dot and of both barriers by the lever arms of this dot. In the default configuration GaAs_v2_extended_sensor the drop across the middle third of every branch of every transition is between 0.375 mV and 0.521 mV for dot 1 and between 0.219 mV and 0.365 mV for dot 2 at all three electrodes, so its size tells which dot got the electron. In sampled configurations it is 0.4 to 1.6 times the lever arm of this dot at the middle of every branch, more than 20 microvolts. The 19 Coulomb peaks of the default sensor are resolved: at each peak the conductance of the sensor dot is at least 0.09, halfway between neighbours it is below 0.05.", "quantifier": "for all diagrams, pairs of pixels, branches of all transitions, sensor voltages and earlier measurements", "why_tests_cant": "The values depend on the shift of the final rise, on all lever arms and on the shared electron; tests look at single pixels of a few diagrams.", "anchors": ["simcats/_default_configs.py", "simcats/sensor/_sensor_scan_sensor_generic.py:SensorScanSensorGeneric.sensor_potential", "simcats/sensor/_sensor_scan_sensor_generic.py:SensorScanSensorGeneric.sensor_response", "simcats/_simulation.py:Simulation.measure"]}
{"id": "C149", "title": "Infinities and not-a-number in the checks", "statement": "The checks of measure and measure_sensor_scan keep every voltage inside the configured limits for all float64 values: an accepted request has only voltages between the limits, so with finite limits no infinite and no undefined voltage is measured. The setters of widths and asymmetries accept exactly the positive numbers, the quality multiplier of the sampler is accepted exactly between 0 (excluded) and 1.", "quantifier": "for all float64 values of limits, sweep ranges and fixed voltages, infinities and NaN included, and all resolutions", "why_tests_cant": "Comparisons with NaN are false, so a check written as a test for violations lets NaN pass, while one written as a test for validity does not; tests use ordinary numbers.", "anchors": ["simcats/_simulation.py:Simulation.measure", "simcats/_simulation.py:Simulation.measure_sensor_scan", "simcats/sensor/_sensor_peak_lorentzian.py", "simcats/sensor/_sensor_peak_gaussian.py", "simcats/config_samplers/_GaAs_v1_random_variations_v3_config_sampler.py"]}
{"id": "C150", "title": "The text of an object is the call that creates it", "statement": "The text (__repr__) of a sensor peak, final rise, barrier function, peak deformation, sensor, geometric CSD, simulation, distortion or sampler is the call of its constructor, with every parameter under its name and in the order of the constructor. Objects with different parameters have different texts.", "quantifier": "for all classes with parameters named above and all values of the parameters", "why_tests_cant": "A parameter that is missing, or shown under the name of another one, goes unnoticed unless two objects that differ only there are compared.", "anchors": ["simcats/sensor/_sensor_peak_gaussian.py:SensorPeakGaussian.__repr__", "simcats/sensor/_sensor_peak_lorentzian.py:SensorPeakLorentzian.__repr__", "simcats/sensor/_sensor_rise_glf.py", "simcats/sensor/barrier_function/_barrier_function_glf.py", "simcats/sensor/barrier_function/_barrier_function_multi_glf.py", "simcats/sensor/_sensor_generic.py:SensorGeneric.__repr__", "simcats/sensor/_sensor_scan_sensor_generic.py:SensorScanSensorGeneric.__repr__", "simcats/_simulation.py:Simulation.__repr__", "simcats/distortions/_dot_jumps.py:OccupationDotJumps.__repr__", "simcats/support_functions/_parameter_sampling.py:UniformSamplingRange.__repr__"]}
{"id": "C151", "title": "Plunger voltages given as int", "statement": "A sensor scan gives the same result whether the plunger voltages are given as float or as int.", "quantifier": "for all simulations with SensorScanSensorGeneric, all sweep ranges, plunger voltages and resolutions", "why_tests_cant": "Tests use voltages with decimals or write 0.0; the type only matters in one check of the label generation.", "anchors": ["simcats/_simulation.py:Simulation.measure_sensor_scan", "simcats/sensor/_sensor_scan_sensor_generic.py:SensorScanSensorGeneric.get_sensor_scan_labels"]}
{"id": "C152", "title": "Sensors do not share state", "statement": "A sensor keeps the configuration passed to its constructor: changing the passed objects afterwards, or making another sensor with them, does not change the sensor.", "quantifier": "for all heaps of objects, constructor arguments and later changes to objects that existed before the sensor", "why_tests_cant": "Aliasing shows up only when an argument is reused or changed after construction; tests build each sensor from fresh literals.", "anchors": ["simcats/sensor/_sensor_generic.py:SensorGeneric.__init__", "simcats/sensor/_sensor_scan_sensor_generic.py:SensorScanSensorGeneric.__init__"]}
{"id": "C153", "title": "Simulations have independent noise", "statement": "The noise of a simulation is drawn from generators of its own: measuring with a simulation neither changes the generators of the caller nor depends on what happens to them afterwards, the distortions draw from their generators in turn, and the noise of two simulations is different.", "quantifier": "for all generators, all distortions that draw from them (also through samplers), all sequences of measurements", "why_tests_cant": "Whether two noise streams coincide can be seen only by comparing streams of several objects; tests look at one simulation at a time and at one seed.", "anchors": ["simcats/_simulation.py:Simulation.__init__", "simcats/_simulation.py:Simulation.occupation_distortions", "simcats/_simulation.py:Simulation.sensor_potential_distortions", "simcats/_simulation.py:Simulation.sensor_response_distortions"]}
{"id": "C154", "title": "TCTs with integers", "statement": "A TCT whose parameters or x-values are given as integers is the same curve as with the same numbers as floats.", "quantifier": "for all parameters, all combinations of int and float, all numbers of peaks, both ways of evaluating the curve, all x-values", "why_tests_cant": "Tests use floats for all parameters; the truncation to integers raises no error, so only a comparison with the float curve would show it.", "anchors": ["simcats/ideal_csd/geometric/_tct_bezier.py:tct_bezier"]}
{"id": "C155", "title": "Distortions with impossible parameters", "statement": "A distortion whose parameters no distribution has (a ratio outside [0, 1], a negative standard deviation, mean height, length or width) is rejected in every measurement; possible parameters never make the random generator raise.", "quantifier": "for all parameters, fixed or sampled, all scans, all draws of the random generator, frozen calls included", "why_tests_cant": "Constructors and setters store every parameter, so whether an error appears depends on the draws of a measurement.", "anchors": ["simcats/distortions/_random_telegraph_noise.py:RandomTelegraphNoise.noise_function", "simcats/distortions/_random_telegraph_noise.py:random_telegraph_noise", "simcats/distortions/_dot_jumps.py:OccupationDotJumps.noise_function", "simcats/distortions/_dot_jumps.py:generate_dot_jumps_blockwise", "simcats/distortions/_transition_blurring.py:OccupationTransitionBlurringGaussian.noise_function"]}
{"id": "C156", "title": "Sensor scans do not depend on unit and zero of the voltages", "statement": "If lever arms, offsets, deformations, TCTs, limits and requested voltages of a simulation with SensorScanSensorGeneric are converted to another unit and another zero of the voltages, sensor scans, labels and diagrams stay the same.", "quantifier": "for all sensors with distinguishable barriers, all factors, all shifts of plunger and sensor gates, all requests and resolutions, and everything the sensor remembers", "why_tests_cant": "Tests compare single scans in one unit; the places where one voltage is used for both gates show only with shifted zeros.", "anchors": ["simcats/sensor/_sensor_scan_sensor_generic.py:SensorScanSensorGeneric.sensor_potential", "simcats/sensor/_sensor_scan_sensor_generic.py:SensorScanSensorGeneric.sensor_response", "simcats/sensor/_sensor_scan_sensor_generic.py:SensorScanSensorGeneric._calc_point_from_barrier_potentials", "simcats/sensor/_sensor_scan_sensor_generic.py:SensorScanSensorGeneric.get_sensor_scan_labels", "simcats/_simulation.py:Simulation.measure_sensor_scan", "simcats/_simulation.py:Simulation.measure"]}
{"id": "C157", "title": "Warnings say what happened", "statement": "The warnings of SensorScanSensorGeneric and of measure_sensor_scan are given when what they describe happens: a negative response is never returned without one, deformations that are not applied are announced, a missing plunger voltage is announced together with the voltages of the call, and the default and sampled configurations measure without warnings.", "quantifier": "for all sensors, distortions, generators, requests and everything the objects remember", "why_tests_cant": "Tests with warnings switched off do not see them; those that check for a warning use single calls, and the text of a warning is not compared with the call.", "anchors": ["simcats/sensor/_sensor_scan_sensor_generic.py:SensorScanSensorGeneric.sensor_potential", "simcats/sensor/_sensor_scan_sensor_generic.py:SensorScanSensorGeneric.sensor_response", "simcats/_simulation.py:Simulation.measure_sensor_scan", "simcats/_simulation.py:Simulation.measure"]}
{"id": "C158", "title": "A measurement can be repeated from its metadata", "statement": "The metadata returned with a diagram or sensor scan contain the configuration and the arguments of the call, and measuring again with them gives the same data.", "quantifier": "for all configurations, requests, random generators and everything the objects remember", "why_tests_cant": "Tests compare single entries of the metadata with the arguments; none measures again with all of them, and each kind of resolution and each state of the generators is another case.", "anchors": ["simcats/_simulation.py:Simulation.measure", "simcats/_simulation.py:Simulation.measure_sensor_scan"]}
{"id": "C159", "title": "Dot jumps along both gates displace each pixel by both heights", "statement": "When a 2D measurement has two dot jump distortions, one along each plunger gate, and the undistorted occupations are a function of the two voltages, then in either order of the two objects the measurement succeeds and the pixel in row i and column j shows the occupations at the first voltage displaced by the height of the jump of column j and the second voltage displaced by the height of the jump of row i, including the pixels that have to show voltages below the swept ranges. The displaced voltage is that of the pixel as many pixels before it; below the range pixels are taken to be range / resolution apart.", "quantifier": "all functions of two voltages, resolutions of at least two pixels per axis, ascending limits, draws, heights, jump parameters, both orders of the objects, all worlds", "why_tests_cant": "The second object must regenerate its strip through the first one with the draws of the first one kept, for every combination of heights; a test sees a few seeds, and the corner where both strips meet is only a few pixels.", "anchors": ["simcats/distortions/_dot_jumps.py:OccupationDotJumps.noise_function", "simcats/distortions/_dot_jumps.py:dot_jumps_blockwise", "simcats/_simulation.py:Simulation.measure"]}
{"id": "C160", "title": "Two dot jump distortions along the same gate can be combined", "statement": "A 2D measurement with two dot jump distortions along the same plunger gate completes whatever is drawn, and each pixel shows the undistorted occupations at the voltage displaced first by the jump of the second object and then by that of the first one.", "quantifier": "all functions of two voltages, resolutions of at least two pixels per axis, ascending limits, draws, heights, jump parameters, both gates, all worlds", "why_tests_cant": "The failure needs the first object to be active and a highest jump of the second one that exceeds the number of lines, or is exactly one pixel in a scan with fewer lines along the jumps than across; random tests on square scans of usual size do not meet it.", "anchors": ["simcats/distortions/_dot_jumps.py:OccupationDotJumps.noise_function", "simcats/distortions/_dot_jumps.py:dot_jumps_blockwise", "simcats/_simulation.py:Simulation.measure"]}
{"id": "C161", "title": "Plots say what they show", "statement": "plot_csd draws every array given to it or raises an exception. The data are drawn once, the axes carry the names of the gates and the unit, the requested number of ticks is set, every tick text has three decimals and is within half a thousandth of the voltage of its position, the ticks of the value axis of a 1D plot span the range of the data, title, colour bar and file appear on request only, and the figure is shown once at the end. Ticks at different voltages have different texts. If an exception is raised nothing is shown or saved.", "quantifier": "all data, limits, sweep directions, titles, labels, units, paths, numbers of ticks, sort_volts on and off", "why_tests_cant": "Plots are looked at, not tested; the wrong cases are windows of a few millivolts, where several ticks carry the same text, and arrays of other dimensions, for which nothing happens.", "anchors": ["simcats/support_functions/_plotting.py:plot_csd", "simcats/support_functions/_plotting.py:_plot_csd_2d", "simcats/support_functions/_plotting.py:_plot_csd_1d"]}
{"id": "C162", "title": "Resolutions of other types", "statement": "The resolution can be given as an integer of Python or numpy or as a sequence of such integers, with the same result; every resolution with a float is refused.", "quantifier": "all configurations, ranges and voltages; all resolutions that are numbers or sequences of integers and finite floats", "why_tests_cant": "Resolutions in tests are written as Python ints and integer arrays; resolutions computed with numpy are numpy integers or floats.", "anchors": ["simcats/_simulation.py:Simulation.measure", "simcats/_simulation.py:Simulation.measure_sensor_scan", "simcats/ideal_csd/geometric/_ideal_csd_geometric.py:ideal_csd_geometric"]}
