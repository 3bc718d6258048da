# Formal model of SimCATS - design

## What is verified

The Python package in /repo (SimCATS) is modelled by hand in Gallina, function by
function.  Each definition cites the file and lines it models, and says where it
simplifies.  Properties are listed in `properties.jsonl`; `MANIFEST.json` maps each
to theorems.  Property theorems live in `rocq/theories/Properties*.v`, each closed by
a lemma of the matching `Proofs*.v`, with `Print Assumptions` beneath.  `Spec*.v`
holds the small vocabulary the statements use besides the modelled functions.

## Modelling conventions

* Python exceptions are values: `result A := Ok a | Err e`. A raising call returns only
  the exception; state left behind by a failing call is modelled only where a property
  speaks about it.
* `float64` is modelled by the stdlib reals R, except in the float files (Flocq
  binary64) - rounding, overflow, inf and NaN are otherwise outside the model unless
  a definition says differently (e.g. NaN in dot jumps is an abstract test).
* numpy arrays are a shape and a cell function with bounds-checked access; in-place loops
  are folds with explicit `IndexError`. `np.empty` is an arbitrary array.
* Random generators are an abstract state with draw functions; what numpy promises about
  a draw (length, positivity, interval) is a hypothesis of the theorem that needs it.
* Unbounded rejection loops use fuel; theorems speak about runs that return.
* User-supplied objects (ideal CSD config, sensor, distortions, data generators) are
  abstract functions, i.e. universally quantified.

## Trusted base

* Coq 8.16.1 kernel; the hand translation from Python documented in comments.
* Axioms: only those of the standard library's reals, as printed by `Print Assumptions`
  beneath every property theorem: `ClassicalDedekindReals.sig_forall_dec`,
  `ClassicalDedekindReals.sig_not_dec`, `FunctionalExtensionality.functional_extensionality_dep`
  (and `Classical_Prop.classic` where listed). Discrete theorems are closed.
* numpy/scipy/diplib/sympy/colorednoise primitives behave as their modelled counterparts.

## Not modelled

Docstrings, the filters and the display of warnings (those of the scan sensor and of
measure_sensor_scan are in ModelWarnings.v, that of the dot jumps for the object alone), the statistical
quality of random draws, memory layout and dtype promotion (except the uint8 casts that
change values, and the indices of ModelPromotion.v, which depend on the numpy version), diplib's labelling algorithm (modelled by its specification), sympy's
solver (modelled by the roots it returns).

## Wrong programs

`seeded/LOG.jsonl` lists edits of the model and what they broke. A theorem counts as failed
when its proof, or the proof of a lemma it uses, does not compile for the edited model
(`proofs_broken` names these proofs). That a proof breaks does not show that its statement is
false of the edited model: another proof might still succeed. For entries with `stopped_early` the build
was stopped once a theorem of the named property was among the failed ones, so the list may be
incomplete; the use of lemmas was taken from the unedited development.

## Files

* `SpecFloatTct.v / ProofsFloatTct.v / ProofsFloatTct2.v / PropertiesFloatTct.v` - C125: accuracy of TCTs of ordinary size and of the default configuration in double precision
* `ProofsAreas3.v / ExamplesAreas.v / PropertiesAreas2.v` - C143: areas in sensor scans of sampled sensors
* `ProofsOffset.v / PropertiesOffset.v` - C27: barriers with any denominator offset
* `ModelResolution.v / SpecResolution.v / ProofsResolution.v / PropertiesResolution.v` - C162: resolutions of other types
* `SpecZero.v / ProofsZero.v / PropertiesZero.v` - C67: occupations without interdot coupling and with narrow coupling
* `ProofsTight.v / PropertiesTight.v` - C25, C38, C48, C72: refused arguments; C145: the peaks of the default sensor for sensor scans
* `ModelPlotText.v / SpecPlotText.v / ProofsPlotText.v / PropertiesPlotText.v` - C161: calls of matplotlib and texts of plots
* `ProofsSame.v / ExamplesSame.v / PropertiesSame.v` - C160: two dot jump distortions along the same plunger gate
* `SpecBoth.v / ProofsBoth.v / ExamplesBoth.v / PropertiesBoth.v` - C159: dot jumps along both plunger gates in one measurement
* `SpecRepeat.v / ProofsRepeat.v / ExamplesRepeat.v / PropertiesRepeat.v` - metadata, and measurements repeated from them
* `ModelWarnings.v / SpecWarnings.v / ProofsWarnings.v / ProofsWarnings2.v / ProofsWarnings3.v / ProofsWarnings4.v / ExamplesWarnings.v / PropertiesWarnings.v` - the warnings of simulations with a scan sensor
* `SpecSimilarScan.v / ProofsSimilarScan.v / ProofsSimilarScan2.v / ExamplesSimilarScan.v / PropertiesSimilarScan.v` - scan sensors in another unit and with another zero of the voltages
* `ModelNoiseChecks.v / ProofsNoiseChecks.v / PropertiesNoiseChecks.v` - distortions with parameters for which numpy raises
* `SpecHeights.v / ProofsHeights.v / PropertiesHeights.v` - lengths and heights of dot jumps and telegraph noise are the drawn ones, white and pink noise add sigma times the draws
* `SpecPossible.v / ProofsPossible.v / PropertiesPossible.v` - the distortions of default and sampled configurations have possible parameters
* `ModelTctTyped.v / ExamplesTctTyped.v / ProofsTctTyped.v / PropertiesTctTyped.v` - TCTs with integers as parameters or x-values
* `ModelNoiseText.v / SpecNoiseText.v / ProofsNoiseText.v / PropertiesNoiseText.v` - the texts of distortions and samplers (__repr__)
* `ProofsCdf.v / PropertiesCdf.v` - requests with an unknown distribution function
* `ModelGenerators.v / SpecGenerators.v / ExamplesGenerators.v / ProofsGenerators.v / PropertiesGenerators.v` - random generators of simulations
* `ProofsOpposite.v / PropertiesOpposite.v` - dot jumps of 1D scans with gates swept in opposite directions
* `ModelShared.v / SpecShared.v / ExamplesShared.v / ProofsShared.v / ProofsShared2.v / PropertiesShared.v` - objects shared by sensors
* `ModelNumbers.v / ProofsNumbers.v / PropertiesNumbers.v` - plunger voltages given as int
* `ModelText.v / SpecText.v / ProofsText.v / PropertiesText.v` - the texts of objects (__repr__)
* `ModelSpecial.v / SpecSpecial.v / ProofsSpecial.v / ExamplesSpecial.v / PropertiesSpecial.v` - the checks of voltages and parameters for all float64 values
* `SpecSenseScan.v / ProofsSenseScan.v / PropertiesSenseScan.v` - charge sensing and resolved peaks of the sensor for sensor scans
* `SpecFirst.v / ProofsFirst.v / ProofsFlat.v / PropertiesFirst.v` - which pixel decides about the electrons of an unlabelled region; flat windows
* `SpecCoulomb.v / ProofsCoulomb.v / ProofsCoulomb2.v / PropertiesCoulomb.v` - positions of the Coulomb labels in sensor scans
* `ProofsPeaks.v / PropertiesPeaks.v` - the sensor peaks of the default configuration GaAs_v1
* `SpecHistory.v / ProofsHistory.v / ExamplesHistory.v / PropertiesHistory.v` - measurements in two states of a simulation with equal random generators
* `SpecAreas.v / ProofsAreas.v / ProofsAreas2.v / PropertiesAreas.v` - label areas of sensor scans and measured conductance; bounds for the default barriers
* `SpecSense.v / ProofsSense.v / PropertiesSense.v` - charge sensing: the drop of the potential when an electron enters
* `SpecSampledNoise.v / ProofsSampledNoise.v / PropertiesSampledNoise.v` - kinds and strengths of the sampled distortions
* `ProofsHelpers.v / PropertiesHelpers.v` - characterisations of the array operations that other statements mention
* `SpecEnter.v / ProofsEnter.v / ProofsEnter2.v / ExamplesEnter.v / PropertiesEnter.v` - the dot that gets the electron at a lead transition
* `ProofsSmooth.v / PropertiesSmooth.v` - continuity of the occupations at constant electron number
* `ProofsTurn.v / PropertiesTurn.v` - turning configuration and voltages together
* `ProofsRaise.v / PropertiesRaise.v` - electron numbers of raised voltages for TCTs evaluated with lookup tables
* `ProofsLines.v` - outcome of lines along one gate for every draw (C104, C119)
* `ModelFloatPotential.v / ProofsFloatPotential.v / PropertiesFloatPotential.v` - the potential of the generic sensor and the reset of its offset in double precision
* `SpecBlur.v / ProofsBlur.v / PropertiesBlur.v` - weights, position and order of blurred transitions
* `ProofsExponential.v / PropertiesExponential.v` - exponential sampler, distributions of the samplers
* `SpecExchange.v / ProofsExchange.v / ProofsExchange2.v / ProofsTriple.v / PropertiesExchange.v` - exchange of the two dots; interdot transitions between triple points
* `SpecQuant.v / ProofsQuant.v / PropertiesQuant.v` - charge quantisation between interdot transitions
* `ProofsGlf.v / PropertiesGlf.v` - slope of the generalized logistic function
* `ModelFloatDraw.v / ProofsFloatDraw.v / PropertiesFloatDraw.v` - TCT values and drawn pixels in double precision
* `SpecFloatGrid.v / ProofsFloatGrid.v / PropertiesFloatGrid.v` - TCTs with few binary digits: the double precision evaluation is exact
* `ModelFloatSensor.v / SpecFloatSensor.v / ProofsFloatSensor.v / PropertiesFloatSensor.v` - Lorentzian peaks and the series combination in double precision
* `SpecSimilar.v / ProofsSimilar*.v / ExamplesSimilar.v / PropertiesSimilar.v` - configurations and measurements with another unit and zero of the voltages
* `ModelSampledSim.v / SpecSampledSim.v / ProofsSampledSim*.v / ExamplesSampledSim.v / PropertiesSampledSim.v` - simulations of configurations sampled by sample_random_variations_v3_config
* `ModelScanNoise.v / SpecScanNoise.v / ProofsScanNoise*.v / ExamplesScanNoise.v / PropertiesScanNoise.v` - simulation with SensorScanSensorGeneric and distortions; GaAs_v2_extended_sensor
* `ModelFloatRange.v / SpecFloatRange.v / ProofsFloatRange.v / PropertiesFloatRange.v` - pixel voltages and sampled parameters in double precision
* `ModelPlot.v / SpecPlot.v / ProofsPlot.v / PropertiesPlot.v` - plot_csd
* `ModelDefaultNoise.v / SpecDefaultNoise.v / ProofsSuccess.v / ProofsDefaultNoise.v / ExamplesDefaultNoise.v / PropertiesDefaultNoise.v` - the default configuration GaAs_v1 with its distortions: measurements that cannot fail
* `ModelPromotion.v / ProofsPromotion.v / PropertiesPromotion.v` - indices of the dot jumps with numpy 1 and numpy 2 arithmetic of uint8 numbers
* `ModelNoise.v / SpecNoise.v / ProofsNoise.v / ProofsReplay.v / ExamplesNoise.v / PropertiesNoise.v` - the simulation with geometric ideal data, a generic sensor and the distortions of the package
* `ModelScanInstance.v / SpecScanInstance.v / ProofsScanInstance.v / ProofsScanCsd.v / ExamplesScanInstance.v / PropertiesScanInstance.v` - the simulation with geometric ideal data and a sensor-scan sensor
* `ProofsAgree.v / PropertiesAgree.v` - agreement of scans with each other
* `ModelFloat.v / SpecFloat.v / ProofsFloat.v / PropertiesFloat.v` - occupations and 1D masks in double precision (Flocq)
* `SpecOrder.v / ProofsOrder.v / ProofsCover.v / ExamplesOrder.v / PropertiesOrder.v` - position of consecutive TCTs, scans of stacked TCTs
* `ModelConfigCsd.v / SpecConfigCsd.v / ProofsConfigCsd.v / ExamplesConfigCsd.v / PropertiesConfigCsd.v` - the sampler: sample_IdealCSDGeometric, _add_one_tct
* `ModelDefault.v / ProofsDefault.v / PropertiesDefault.v` - simcats/_default_configs.py: TCTs, limits, generic sensor of the default configuration
* `ModelConfig.v / SpecConfig.v / ProofsConfig.v / ExamplesConfig.v / PropertiesConfig.v` - simcats/config_samplers/_GaAs_v1_random_variations_v3_config_sampler.py without the ideal CSD
* `ModelInstance.v / SpecInstance.v / ProofsInstance.v / PropertiesInstance.v` - the simulation with IdealCSDGeometric and SensorGeneric plugged in, without distortions
* `ModelSimulation.v / SpecSimulation.v / ProofsSimulation.v / ExamplesSimulation.v / PropertiesSimulation.v` - simcats/_simulation.py: measure and measure_sensor_scan over arbitrary stateful sensors, distortions and ideal CSD objects (state-passing actions)
* `ModelSettings.v / SpecSettings.v / ProofsSettings.v / PropertiesSettings.v` - simcats/_simulation.py: constructor, setters and getters with a heap for objects passed by reference
* `ModelSampling.v / SpecSampling.v / ProofsSampling.v / PropertiesSampling.v` - simcats/support_functions/_parameter_sampling.py: the range samplers; random generator as abstract state, rejection loop with fuel
* `ModelSensor.v / SpecSensor.v / Proofs{Sensor,ScanSensor,LabelScan,SensorMore}.v / ExamplesSensor.v / PropertiesSensor.v` - simcats/sensor: peaks, rise and barrier functions, deformations, generic and sensor-scan sensor; support_functions/_reset_offset_mu_sens.py
* `ModelCsd.v / SpecCsd.v / Proofs{Csd,Occ,Regions,Mask,Driver,Fine,Scan,Label}.v / ExamplesCsd.v / PropertiesCsd.v` - simcats/ideal_csd/geometric: _ideal_csd_geometric.py, _get_electron_occupation.py, _generate_lead_transition_mask.py. diplib's labelling enters as a hypothesis (`is_labelling`), shown satisfiable by `ProofsLabel.component_labelling`
* `ModelTct.v / SpecTct.v / Proofs{Tct,TctShape}.v / PropertiesTct.v` - simcats/ideal_csd/geometric: _tct_bezier.py, _initialize_tct_functions.py, _calculate_all_bezier_anchors.py
* `Prelude.v, RPrelude.v, Arr.v` - exceptions, lists, reals, arrays
* `ModelSupport.v / SpecSupport.v / ProofsSupport.v / PropertiesSupport.v` - simcats/support_functions: CDFs, generalised logistic function, rotation, distances, intersections
* `ModelJumps.v / SpecJumps.v / ProofsJumps.v` - simcats/distortions/_dot_jumps.py
* `ModelDistortions.v / SpecDistortions.v / ProofsDistortions.v / PropertiesDistortions.v` - distortion classes: dot jumps, telegraph noise, white/pink noise, blurring

## Findings

Behaviour of the code that contradicts what a user would expect, found while modelling. Those with a theorem name are machine-checked on the model.

* C27: percentages of a GLF barrier are taken of asymptote_right - asymptote_left, although the right end of the function is asymptote_left + (asymptote_right - asymptote_left) / denominator_offset^(1/asymmetry). With denominator_offset 2 and asymmetry 1 the percentage 0.75 is never reached; fully_conductive is then nan (the logarithm of a negative number), without an exception (C27_offset_refuted).
* C162: measure and measure_sensor_scan compare type(resolution) with int: a numpy integer, for example the maximum of an integer array, raises a TypeError from len() (C162_number_refuted). A sensor scan with plunger voltages and the resolution [2.7] has 2 pixels (C162_truncated_refuted), everywhere else floats raise TypeError.
* C161: plot_csd writes tick texts with three decimals whatever the range: in a window of 1 mV the default five ticks show 0.000 0.000 ... (C161_distinct_refuted). An array with zero, three or more dimensions is ignored silently (C161_other_refuted). Small negative voltages are shown as -0.000 (C161_example).
* C160: two dot jump distortions along the same plunger gate can raise IndexError. The second object regenerates its strip through the first one, whose kept noise has one entry per line of the scan. It is too short when the highest jump of the second object exceeds the number of lines (C160_high_refuted), or when the highest jump is one pixel, so that a 1D strip of the other resolution is requested, and the scan has fewer lines along the jumps than across them, e.g. 2 columns and 3 rows (C160_single_refuted).
* C158: metadata of 1D sensor scans at given plunger voltages contain the resolution as int (_simulation.py:481-482 overwrites the argument), which measure_sensor_scan does not accept together with plunger voltages (TypeError, C158_scan_refuted); metadata hold the state of the noise generators after the measurement, so noise cannot be reproduced from them (C158_noise_refuted).
* C157: the warning of measure_sensor_scan for a missing plunger voltage shows volt_g2 in place of volt_g1 (_simulation.py:438), so with volt_g2 only it states a wrong voltage of gate 1 (C157_text_refuted); dot jumps of scans that are not square warn about long jumps and do not warn about short ones (C157_jumps_refuted, same cause as C42).
* C156: the final rise of a diagram or sensor scan depends on where zero volts are: sensor scans use the voltage of plunger gate 1 for both gates (line 830, C156_plunger_refuted), diagrams calculate the point of the rise in sensor voltages without the contribution of the plunger gates and with the sensor voltages counted twice (lines 612-632, C156_sensor_refuted).
* C155: the parameters of distortions are not checked when they are set. A negative standard deviation of telegraph noise raises in some measurements and not in others, depending on the draw that activates the noise (C155_inactive_refuted); a negative length of dot jumps is silently taken as one pixel (C155_length_refuted), a negative blurring width as none (C155_width_refuted).
* C154: tct_bezier stores the centre of the bezier curve in arrays made from the outer anchors (_tct_bezier.py:64-75). If these are integers, the centre is truncated without an error, and the curve is another one from the first peak on (C154_int_refuted) or is rejected (C154_rejected_refuted). An integer as x-value, which the documentation allows, raises TypeError in line 106 if the parameters are floats (C154_x_refuted).
* C150: the texts of pink noise and blurring contain the latest sigma behind the parameter, those of dot jumps and telegraph noise the activation behind the closing parenthesis (C150_noise_refuted); the texts of samplers show the last sample and the narrowed range instead of total_range and sampling_range (C150_samplers_refuted, _parameter_sampling.py:107-111, 164-165, 233-238, 318-322).
* C153: the setters of the three lists of distortions copy the generators with the distortions (_simulation.py:774, 805, 836), so all simulations made from the same distortions, for example from default_configs, have the same noise, although their distortions do not use a fixed seed (C153_same_refuted). A generator passed to a sensor potential and to a sensor response distortion gives both the same numbers (C153_in_turn_refuted).
* C57: for 1D scans with one gate swept upwards and the other downwards, _dot_jumps.py:203-204 sorts both ranges although the data lie on the other diagonal, so pixels with a jump show data of the wrong voltage (C57_opposite_refuted).
* C152: SensorScanSensorGeneric stores lever-arms of shape (3, 2), offset arrays, pairs of barrier functions and the rise without copying (C152_shared_refuted), so sensors made with the same (for example default) arrays share them (C152_two_refuted). A deformation object passed to two sensors uses the lever-arms of the second for both (C152_deformation_refuted, _sensor_scan_sensor_generic.py:95).
* C151: get_sensor_scan_labels (_sensor_scan_sensor_generic.py:821) accepts plunger voltages of type float only, so measure_sensor_scan(..., volt_g1=0, volt_g2=0) raises ValueError, as do np.float32 and numpy integers (C151_int_refuted).
* C150: BarrierFunctionMultiGLF.__repr__ (_barrier_function_multi_glf.py:153-157) returns a text without the closing parenthesis (C150_multi_refuted). In the texts of SensorScanSensorGeneric and Simulation one comma is not followed by a space.
* C149: the limit checks of measure and measure_sensor_scan (_simulation.py:160-205, 375-440) are written as tests for a violation. Every comparison with NaN is false, so sweep ranges and fixed voltages of NaN pass for all limits (C149_nan_refuted), and limits of NaN switch the checks off (C149_nan_limits). The setters of gamma, sigma and asymmetry accept NaN for the same reason; the check of quality_multiplier is written as a test for validity and refuses it (C149_parameters).
* C147: for every resolution there is a window within the gate limits of the default configuration (1 mV wide, very flat) whose 2D scan shows neither a transition nor an electron although half of it lies above the first transition: the points at which the transition is sampled are spread over the diagonal of the window only, so that none of them falls into a sufficiently flat window. The first pixel then decides for the whole image. A 1D scan along the edge of the window is right.
* C143: the area labelled as fully conductive is documented as the one with both barriers fully open, but only the potential of the sensor dot is compared: with the default sensor at sensor voltages (-0.7, 0.34) the first barrier is open to less than 4 percent, the response is below 0.01, and the label is 2.
* C136: between two entries of a lookup table the TCT is a step function (nearest entry, no interpolation). Where it jumps up, raising a gate voltage by an arbitrarily small amount takes the point back below the TCT and removes an electron. The steps of the default configuration are below 2.5 microvolts, so images with pixels at least 12.5 microvolts apart do not show them.
* C135: reset_offset_mu_sens subtracts the previous offset from a potential that was computed with it, so a previous offset that is large compared to the contribution of voltages and occupations (2^54 in the witness) swallows that contribution: the target is missed, and a second reset changes the offset again. Computing the potential with offset 0 would avoid this. With offsets of the size of the delivered configurations the error is below 2^-50.
* C133: if the radius of the blurring kernel (4 sigma) reaches the number of pixels of a line, a monotone line need not stay monotone: the reflected copies of the line at both ends are in reach at the same time. 0, 1, ..., 1 with 64 pixels and a width of 16 pixels falls between the last two pixels, for both filters. The effect is small (the weight at the end of the kernel); with widths up to 0.6 mV as in the delivered configurations it needs square scans of less than about 2.4 mV.
* C132: the documented formula min(sampling_range) + e * (max - min) of ExponentialSamplingRange holds only for ranges given as (min, max). For (max, min), which sample_SensorGeneric uses for the peak heights, the samples are max - e * (max - min). The documented quantile rule ignores that numbers outside of the range are drawn again; the share of samples in the first part of the range is always larger than p (0.909 instead of 0.9 in the documented example).
* C130/C131: only the interdot transition at the first peak of a TCT is constructed from the two anchor points. The others are translated copies, so with TCTs of different peak distances (all default configurations) the transition at the k-th peak does not end at the k-th valley of the next TCT. At the last transition of the region of 7 electrons, the first dot misses half an electron by more than 1/8 at a tenth of the way below the upper triple point. For the same reason exchanging the two dots of the default configurations changes the occupations (by more than 1/200 for 7 electrons). Configurations of the sampler consist of translated TCTs and are not affected.
* A transition point at the very edge of the image passes the check of `generate_lead_transition_mask_2d` but gets the index of a pixel behind the last one, so that the scan raises IndexError (`C124_edge_refuted`).
* `tct_bezier` computes position within the period (`np.mod`) and number of the period (`floor` of the rounded quotient) independently; directly before the end of a period they disagree and the value is wrong by the offset between two periods (`C125_value_refuted`).
* The occupations of interdot transitions change abruptly if the configuration is given in another unit: widths below 1e-8 count as zero (`np.isclose(gamma, 0)` is absolute), which exchanges the dots (`C122_scale_refuted`).
* sample_random_variations_v3_config sets limits for the sensor gates also with the default sensor type SensorGeneric, which has none; `Simulation.measure` then compares the default `volt_s_g1=None` with them and raises TypeError (`C118_generic_refuted`).
* Measurements of sampled configurations along one gate raise ValueError with probability 1 % (gate 1) and about 0.17 % (gate 2); sensor scans along sensor gate 2 with probability 1 % (`C119_*_refuted`, `C120_gate2_refuted`).
* `_simulation.py:543`: the response distortions of a sensor scan get the range of sensor gate 1 for both gates; telegraph noise of the response therefore raises ValueError in 1D scans of gate 2 only (`C116_gate2_refuted`).
* GaAs_v2_extended_sensor: sensor scans of the whole sensor range with at most 62 x 62 pixels raise ValueError in about 42 % of the cases, because a mean telegraph jump is shorter than a pixel (`C115_coarse_refuted`).
* np.linspace in double precision: a sweep from 1 V to 0 V and one from 0 V to 1 V with 4 pixels do not visit the same voltages (`C107_reverse_refuted`), so a reversed sweep is the reversed result (C05) only up to rounding.
* `_parameter_sampling.py:85-88` (and 150-153, 209-219, 296-303): rounding lets a narrowed range leave the total range; a parameter with total range (2^-60, 4) and sampling range 2 can be sampled as 0 (`C108_narrow_refuted`).
* `_default_configs.py:71-75` with `_dot_jumps.py:185-194`: a 1D measurement along one gate raises ValueError whenever the dot jumps along the other gate are activated (1 % of the scans along gate 1, 0.17 % along gate 2), because the jump length is divided by the zero voltage range of that gate (`C104_first_gate_refuted`, `C104_second_gate_refuted`; likewise for GaAs_v2_extended_sensor).
* `_dot_jumps.py:391-393` with numpy 2 (numpy is not pinned): `i + added_pixels` is uint8 arithmetic; a 1D scan of more than 256 pixels with a jump raises OverflowError, pixels beyond 256 - added are taken from the wrong entries (`C105_long_scan_refuted`, `C105_wrapped_refuted`).
* `_dot_jumps.py:662-679, 751` with numpy 2: called with uint8 heights (as generated), `j - noise[j] + k` raises OverflowError from pixel 256 on and wraps to 256 + j - n + k left of pixel n (`C106_large_image_refuted`, `C106_edge_refuted`). The distortion class passes int64 heights and is not affected.
* `_dot_jumps.py:478-494` with `_transition_blurring.py:99-116, 215-232`: the data generated for dot jumps of a 2D scan are a strip with as many rows as the largest jump; the blurring converts its width with the number of rows of the strip instead of the scan, so the strip is blurred more or less than the scan (`C102_blurred_refuted`).
* `_simulation.py:511-540` with `_sensor_scan_sensor_generic.py:463-513,826-834`: get_sensor_scan_labels calls sensor_potential for a single point, which overwrites the remembered sensor limits that sensor_response reads afterwards; so deformations do not shape measured sensor scans, all pixels use one distance (`C94_deformations_refuted`).
* `_sensor_scan_sensor_generic.py:826-834`: the same call passes the limits of plunger gate 1 for both plunger gates, so the final rise of a sensor scan is misplaced when the plunger voltages differ (`C95_rise_refuted`).
* `_sensor_scan_sensor_generic.py:530-560`: in a charge stability diagram the final rise is shifted according to the voltages and the occupation of the first pixel; diagrams disagree about common points (`C97_value_refuted`).
* `_default_configs.py`: a scan of the complete voltage limits of the default configuration with 25 by 25 pixels raises IndexError, because the mask is computed on a window that is half a pixel larger and then shows the last TCT (`C90_coarse_refuted`).
* `_GaAs_v1_random_variations_v3_config_sampler.py:83-85`: the distortions are sampled with the default multiplier, so quality_multiplier has no effect on them; sample_occupation_distortions ignores it anyway (`C54_multiplier_refuted`, `C54_occupation_refuted`).
* `_GaAs_v1_random_variations_v3_config_sampler.py:315-352`: uncompensated lever arms can make the potentials of both ends of the range equal; the placement loop then never ends (`C52_degenerate_refuted`); the preferred distance of the peaks is sometimes impossible and costs 1000 draws (`C52_preferred_refuted`).
* `_GaAs_v1_random_variations_v3_config_sampler.py:718-722`: a lever arm ratio drawn as exactly 0, which its range includes, divides by zero (`C86_zero_ratio`); a first peak width of exactly 0 raises ValueError (`C51_zero_width`).
* `_simulation.py:185-198`: with configured sensor limits, measure compares the default None with the limits and raises TypeError instead of accepting the scan (`C44_missing_voltage_refuted`).
* `_simulation.py:252`: the data returned by occupation distortions is ignored; only in-place changes have an effect, which the interface does not demand (`C45_returned_data_refuted`).
* `_simulation.py:481`: `len(resolution)` of an integer raises TypeError, so sensor scans with integer resolution and plunger voltages are impossible (`C48_int_resolution_refuted`); line 470 reads `resolution[1]` of one-entry arrays (`C48_single_entry_refuted`).
* `_simulation.py:543`: response distortions of sensor scans get the range of sensor gate 1 for both gates (`C49_response_ranges_refuted`).
* `_simulation.py:588` and the other limit setters: the check allows lists but reads `.size`, so lists raise AttributeError (`C81_list_limits_refuted`).
* `_parameter_sampling.py:93`: the default mean is the centre of the narrowed range, not of the total range as documented (`C78_narrowed_mean_refuted`); ranges with reversed ends are accepted but the normal sampler never returns (`C21_reversed_never_returns`).
* `_reset_offset_mu_sens.py:43`: for a sensor-scan sensor the function always raises ValueError (`C22_reset_scan_sensor_refuted`).
* `_sensor_rise_glf.py:190-219`: mu0 enters with the wrong sign, so the rise reaches its percentage at offset - mu0 (`C28_rise_shift_refuted`).
* `_sensor_scan_sensor_generic.py:623`: the occupation of dot 1 is used for both dots in the barrier 1 equation (`C29_point_error_refuted`); line 616 uses the first sensor voltage for both gates and lines 612-617 leave out the plunger voltages for charge stability diagrams (`C29_point_csd_refuted`).
* `_sensor_scan_sensor_generic.py:833`: the fully conductive potential is computed with volt_limits_g1 for both plunger gates (`C69_threshold_refuted`); this also changes the remembered voltages that the label's deformation centre uses (`C76_labels_overwrite_state`).
* `_sensor_scan_sensor_generic.py:884-887`: deformations are looked up by the position in the sorted list, the response uses the position in the given list (`C71_unsorted_refuted`); labels are positions in the given list, so not ascending for unsorted lists (`C31_unsorted_refuted`).
* `_sensor_scan_sensor_generic.py:549-555`: evaluating a response with final rise overwrites the remembered scan; a second evaluation gives other values (`C33_repeat_refuted`).
* `_sensor_scan_sensor_generic.py:481-513`: deformed scans with a single pixel along an axis raise ZeroDivisionError (`C70_single_pixel_refuted`).
* `_sensor_peak_deformation_circle.py:94-95`: the displacement is computed in volts but subtracted from a potential (`C68_circle_refuted`); for negative radii the displacement jumps to the other side outside of the circle (`C32_circle_negative_radius_refuted`).
* `_sensor_generic.py:179`: an empty peak list gives the number 0.0 instead of an image (`C25_empty_list`).
* `_pixel_volt_transformation.py:24`: with the documented meaning of pixel_num the last pixel misses the last voltage (`C74_last_pixel_refuted`).
* `_linear_algebra.py:27`: is_point_below_line rejects horizontal lines given as float although documented (`C75_float_rejected_refuted`).
* `_get_electron_occupation.py` 1D loop: pixels above the last TCT silently keep occupation (0, 0), whereas the 2D code raises IndexError (`C04_above_all_1d_refuted`).
* 2D scans that merely show the last TCT raise IndexError, although every voltage on it could be assigned (`C04_scan_2d_fails`).
* `_ideal_csd_geometric.py`: malformed 2D limits with fewer than two entries raise IndexError; an empty resolution array passes the checks and ends in UnboundLocalError (`C13_empty_resolution`).
* `_cumulative_distribution_functions.py:24-28,64-68` with `_get_electron_occupation.py:222-232`: the interdot width is negative for the usual geometry and flips the CDF; for (almost) zero width the step function is not flipped, so the two dots are exchanged (`C67_zero_coupling_refuted`).
* `_tct_bezier.py:148-158`: the explicit solution takes the larger root, which is the wrong branch when slope_left < slope_right (`C63_valley_refuted`).
* `_dot_jumps.py:186-191`, `_random_telegraph_noise.py:141-149`, `_transition_blurring.py:107,223`: `shape[0]` (rows, the g2 axis) is combined with the g1 range and `shape[1]` with the g2 range, so volt-based lengths are wrong by rows/cols for non-square scans (`C42_conversion_refuted`).
* `_dot_jumps.py:346`: the step of 1D jumps along g2 is computed from the g1 limits; scans along g2 at fixed g1 are never shifted (`C57_vertical_scan_refuted`).
* `_dot_jumps.py:320,346,468,484`: the step size is range/pixels although pixels are range/(pixels-1) apart, so generated data is off the pixel grid (`C58_grid_refuted`).
* `_dot_jumps.py:230-237`: for 2D scans with both gates descending the second flip discards the first one, so jumps along g2 go to higher instead of lower voltages (`C59_both_descending_refuted`).
* `_dot_jumps.py:606`: jump heights are cast to uint8; a drawn height of 256 pixels becomes 0 (`C61_jump_height_refuted`).
* `_random_telegraph_noise.py:302`: unlike dot jumps, a burst length below one pixel is not clamped; `rng.geometric` raises ValueError (`C60_low_resolution_refuted`).
* `dot_jumps_pixelwise` has no NaN exception although `dot_jumps_blockwise` has one (stated as C35/C36).

## Per property

* **C01** Total electron number is conserved per pixel. ModelCsd.v: the occupation function (distances, parameter list, multi-CDF) over R. Proof: occ2 is n minus occ1 and the parameter list has exactly n pairs. *Status: proved* (`C01_total_occupation`). For every pixel of every 1D and 2D scan of a usable configuration (`csd_config`); `assigned` says which number belongs to a pixel.
* **C02** Occupations stay between 0 and the electron number. Same model; bounds of each CDF summed over the list by induction. *Status: proved* (`C02_occupation_bounds`).
* **C03** Dot 1 occupation grows monotonically away from the reference line. Same model; monotonicity of tanh / atan, induction over the list. *Status: proved* (`C03_occupation_monotone`, `C03_signed_distance`). The first theorem is direction-aware (the widths are negative for the usual geometry), the second is the literal statement for widths that are not negative.
* **C04** 1D and 2D scans agree on the electron number of a voltage point. Region selection modelled for an abstract `le`-test per TCT, 2D loop and 1D loop separately; agreement by induction. Expected: the IndexError half is false for 1D (finding). *Status: partial* (`C04_scans_agree`, `C04_scan_2d_fails`, `C04_scan_1d`, `C04_above_all_1d_refuted`). Agreement is proved for unlabelled pixels of finely sampled scans. The IndexError half is true for 2D and false for 1D scans.
* **C05** Reversing a sweep only reverses the result. Driver modelled over abstract mask/occupation generators; list reversal laws. *Status: proved* (`C05_reverse_gate_1`, `C05_reverse_gate_2`, `C05_reverse_1d`). 1D scans with exactly one pixel are excluded (the pixel is the start of the sweep).
* **C06** Lead-transition labels of 2D scans land on the pixel containing the transition. Pixel-index formula over R and the write loop over lists with explicit out-of-range error; floor lemmas. *Status: proved* (`C06_pixel_index`, `C06_mask_labels`, `C06_scan_labels`).
* **C07** Lead-transition labels of 1D scans mark exactly the changes of the total occupation. mask loop over lists of Z with in-place writes in code order; loop invariant. *Status: proved* (`C07_mask_1d`, `C07_any_trace`). Electron numbers below 256 (uint8).
* **C08** TCT curves are continuous. tct_bezier over R with an abstract bezier evaluation through its end points; continuity (Coquelicot/stdlib continuity_pt) at joints and inside pieces. *Status: proved* (`C08_tct_continuous`, `C08_tct_lookup_table_close`). Continuity for explicit evaluation of upward corners; a lookup table is a step function, for which the distance to the continuous curve is bounded instead.
* **C09** TCT curves repeat with a fixed offset per period. Same model; mod/floor algebra. *Status: proved* (`C09_tct_periodic`, `C09_tct_periodic_limited`).
* **C10** Bezier anchors used for interdot transitions lie on the TCT. Anchor recurrence as iteration; closed form by induction; evaluated in the TCT model. *Status: proved* (`C10_anchors_on_tct`, `C10_anchor_lines`, `C10_keys`, `C10_dictionary`).
* **C11** Number of interdot transitions equals the electron number. Length of the anchor list; induction. *Status: proved* (`C11_n_transitions`, `C11_range`).
* **C12** Lookup-table evaluation returns a point of the bezier curve with nearest x. argmin over linspace list; real intermediate gap argument. *Status: proved* (`C12_lookup_nearest`, `C12_lookup_error`, `C12_tct`). At least two table entries.
* **C13** Ideal CSD argument validation. Validation function as exception-returning Gallina function; case analysis against an independent predicate. *Status: proved* (`C13_malformed_rejected`, `C13_well_formed_accepted`, `C13_unknown_cdf`, `C13_unknown_empty`, `C13_other_resolutions`). Malformed 2D requests with too short limits raise IndexError instead of ValueError.
* **C14** CDF building blocks are distribution functions. Real analysis of tanh and atan. *Status: proved* (`C14_cdf_laws`, `C14_multi_cdf_bound`, `C14_multi_cdf_odd_rejected`).
* **C15** Generalized logistic function and its inverse are mutually inverse. Rpower/ln/exp algebra. *Status: proved* (`C15_glf_inverse`, `C15_glf_inverse_default_denominator`).
* **C16** Generalized logistic function is strictly monotone between its asymptotes. Monotonicity of Rpower/exp. *Status: proved* (`C16_glf_growth`, `C16_glf_mirror`).
* **C17** Rotation helper is an isometry with inverse. Trigonometric identities. *Status: proved* (`C17_rotation`, `C17_rotation_arrays`).
* **C18** Signed point-line distance is a distance with the right sign. Cauchy-Schwarz and nsatz/nra. *Status: proved* (`C18_signed_distance`).
* **C19** Line intersection results lie on both lines. Field reasoning. *Status: proved* (`C19_line_line`).
* **C20** Line-circle intersection results are complete and correct. Quadratic formula, completeness and soundness. *Status: proved* (`C20_line_circle`).
* **C21** Sampled parameters never leave their range. Random draws as an input stream, rejection loop with fuel (diverging runs have no result). *Status: proved* (`C21_samples_in_range`, `C21_narrowed_range`, `C21_first_in_range`, `C21_reversed_never_returns`, `C21_distribution`, `C21_generator`). Ranges with ordered ends and sampling widths that are not negative.
* **C22** Resetting the sensor offset hits the target potential. State update on a record; sensor potential model of C23. *Status: partial* (`C22_reset_hits_target`, `C22_reset_scan_sensor_refuted`). True for the generic sensor; for the sensor-scan sensor the function always raises.
* **C23** Sensor potential is the same in 1D and 2D scans. linspace + affine form; index lemmas over lists. *Status: proved* (`C23_generic_1d`, `C23_generic_2d`, `C23_cuts`, `C23_electron`, `C23_empty`, `C23_scan_1d`, `C23_scan_2d`, `C23_scan_rejected`).
* **C24** Coulomb peak shapes are bounded and peak at mu0. Derivative-free monotonicity of exp and quotient. *Status: proved* (`C24_gauss`, `C24_lorentz`). Positive height.
* **C25** Sensor response is the order-independent sum of its peaks. Sum over list, Permutation. *Status: proved* (`C25_order`, `C25_sum`, `C25_no_peaks`, `C25_empty`). An empty list (as opposed to None) gives the number 0 instead of an image.
* **C26** Series combination of sensor dot and barriers. Field/nra. *Status: proved* (`C26_response_is_series`, `C26_series`).
* **C27** Pinch-off and fully conductive potentials of a GLF barrier are exact. C15 instantiated with the percentage formula. *Status: partial* (`C27_percentages`, `C27_rejected`, `C27_any_offset`, `C27_reachable`, `C27_reachable_falling`, `C27_offset_refuted`). True for denominator offset 1, the default (C27_percentages). For any other offset the reported potential is exact whenever the percentage is reached at all (C27_any_offset); C27_reachable and C27_reachable_falling say which percentages those are. False otherwise: with denominator offset 2 no percentage of 1/2 or more is reached, but the barrier is accepted (C27_offset_refuted).
* **C28** Final rise is shifted to the fully conductive point. C15 with the double shift; expected to need mu0=0 (finding). *Status: partial* (`C28_rise_reached`, `C28_rise_shift_refuted`). True only for mu0 = 0; otherwise the rise is shifted by mu0.
* **C29** Voltage point for barrier potentials solves the barrier equations. Cramer rule; expected to be false because of occupation index slip (finding), true for equal occupations or zero lever-arm. *Status: partial* (`C29_point_solves_partial`, `C29_point_error_refuted`, `C29_point_csd_refuted`). True in sensor scans if both dots hold equally many electrons or dot 2 does not couple to barrier 1; the exact error is given otherwise and for charge stability diagrams.
* **C30** Sensor-scan label masks are consistent. Mask algorithm over lists with argmin. *Status: proved* (`C30_masks`, `C30_total`, `C30_rejected`, `C30_positions`).
* **C31** Coulomb peaks are labelled with ascending values along the potential. Expected false for unsorted lists (finding); true for sorted lists. *Status: partial* (`C31_ascending_partial`, `C31_peaks_in_order`, `C31_unsorted_refuted`). True for peaks given in ascending order; labels are list positions, so false for unsorted lists.
* **C32** Peak deformations vanish on the middle line and are continuous. Real functions; expected false for negative radius (finding). *Status: partial* (`C32_linear`, `C32_circle`, `C32_circle_negative_radius_refuted`). Continuity of the circular deformation holds for positive radii only.
* **C33** Sensor response does not depend on earlier calls. State monad over the object's hidden fields; expected false (finding). *Status: partial* (`C33_repeat_partial`, `C33_repeat_refuted`). True for sensor scans and without final rise; false for charge stability diagrams with final rise.
* **C34** Evaluating deformed peaks leaves the sensor unchanged. Loop invariant with the temporary mutation. *Status: proved* (`C34_peaks_restored`, `C34_loop`).
* **C35** Blockwise dot jumps shift the structure by the noise value. Imperative triple loop over lists with explicit NaN test; closed form by loop invariant. *Status: proved* (`C35_blockwise`).
* **C36** Pixelwise dot jumps shift the structure by the noise value. same *Status: proved* (`C36_pixelwise`).
* **C37** Dot-jump noise consists of alternating quiet and jump blocks. Stream of draws, block loop; invariant. *Status: proved* (`C37_jump_pattern`).
* **C38** Random telegraph noise consists of alternating quiet and burst blocks. same *Status: proved* (`C38_rtn`, `C38_heights`, `C38_generator`, `C38_generator_two_scales`, `C38_rtn_two_scales`, `C38_heights_two_scales`, `C38_two_scales_refused`). numpy's promise that geometric draws are positive is a hypothesis.
* **C39** Inactive distortions change nothing. noise_function control flow over a state record. *Status: proved* (`C39_inactive`, `C39_rtn_inactive`).
* **C40** Frozen replays reuse the recorded noise. State record with recorded noise; induction on the number of frozen calls. *Status: proved* (`C40_jump_replay`, `C40_jump_frozen_pure`, `C40_blur_replay`).
* **C41** Blurring is an averaging filter. convolve1d with half-sample reflection, modelled by index function; linear algebra over finite sums. *Status: proved* (`C41_blur_averages`, `C41_blur_reverse`, `C41_sigma`). For both filter kernels and every kernel radius.
* **C42** Noise widths given in volt are converted with the resolution of the swept gate. Scale formulas over R; expected false for non-square scans (finding). *Status: partial* (`C42_conversion_partial`, `C42_conversion_refuted`). False for non-square 2D scans (rows and columns are swapped); true for square and single-gate 1D scans.
* **C43** White and pink noise are additive and shape preserving. zip with addition. *Status: proved* (`C43_white`, `C43_white_draws`, `C43_pink`, `C43_pink_draws`).
* **C44** measure rejects exactly the invalid requests. Validation function against independent predicate. *Status: partial* (`C44_invalid_rejected`, `C44_valid_accepted_partial`, `C44_missing_voltage_refuted`). False with configured sensor limits: leaving out the sensor voltages raises TypeError.
* **C45** measure composes ideal data, potential, response and distortions in order. measure as state-passing higher-order function over abstract interfaces. *Status: partial* (`C45_composition`, `C45_returned_data_refuted`). Composition proved for distortions that change their arrays in place; the returned arrays of occupation distortions are ignored.
* **C46** Later distortions see earlier ones in generated data. Closure chain as fold; induction. *Status: proved* (`C46_generator`, `C46_same_data`, `C45_composition`). Which generator is handed to which distortion is part of `measured` in C45_composition.
* **C47** Failed configuration updates leave the simulation unchanged. Heap model for arrays, object record; setter sequence induction. *Status: proved* (`C47_failed_unchanged`, `C47_exceptions`, `C47_accepts`, `C47_read_back`, `C47_isolated`, `C47_constructor`, `C47_constructor_accepts`, `C47_constructor_refused`). References obtained from getters are the documented exception: they are the stored objects.
* **C48** measure_sensor_scan validation and integer resolutions. Validation function; expected false for integer resolution with plunger voltages (finding). *Status: partial* (`C48_invalid_rejected`, `C48_accepted_partial`, `C48_int_resolution_refuted`, `C48_single_entry_refuted`, `C48_negative`, `C48_negative_known`). False: integer resolutions fail with plunger voltages, one-entry arrays fail without.
* **C49** Sensor-scan distortions get the swept voltage ranges. Argument record passed to abstract distortion; expected false for response distortions (finding). *Status: partial* (`C49_response_ranges_refuted`, `C79_composition`). True for potential distortions (part of C79_composition), false for response distortions.
* **C50** Sampled dot lever-arms are consistent. Real arithmetic with Rmin/Rmax, draws as arbitrary reals in the requested interval. *Status: proved* (`C50_lever_arms`).
* **C51** Sampled sensor peaks are ordered and have positive widths. List recursion, draws as arbitrary reals in range. *Status: proved* (`C51_peak_list`, `C51_strictly_sorted`, `C51_no_exception`).
* **C52** Peak placement can always succeed and keeps the distance. Covering argument by induction on the list of forbidden intervals. *Status: partial* (`C52_distance`, `C52_admissible`, `C52_terminates`, `C52_preferred`, `C52_preferred_refuted`, `C52_degenerate_refuted`, `C52_compensated`). distance, admissible interval and termination proved; an admissible position exists only if the range is not a single point, which nothing excludes for uncompensated sensors
* **C53** Sampled barrier pinch-off is where it was requested. GLF shift lemma. *Status: proved* (`C53_pinch_off`, `C53_no_exception`). for positive heights and percentages strictly between 0 and 1
* **C54** Quality multiplier restricts the sampled distortions. Call-wiring model; expected false (finding). *Status: partial* (`C54_multiplier_refuted`, `C54_occupation_refuted`, `C54_checked`, `C54_unknown_sensor`, `C54_sensor`). false: the distortions are always sampled with multiplier 1; proved what the multiplier is used for
* **C55** Sampled CSD configurations cover the voltage range. Loop with fuel; postcondition. *Status: proved* (`C55_translates`, `C55_minimal`, `C55_covers`, `C55_scans`). over the reals; `label` is any correct labelling
* **C56** Total occupation is exact in double precision. Flocq binary64 rounding: the error of the complement is at most half an ulp of n, and n has an even mantissa, so ties return to n. *Status: partial* (`C56_complement_partial`, `C56_large_refuted`, `C56_sigmoid`, `C56_cauchy`, `C56_total`, `C56_mask`). proved up to 2^52 electrons, false between 2^52 and 2^53; binary64 without overflow, tanh and arctan of numpy enter by their ranges only
* **C57** Dot jumps of 1D scans show the shifted sweep. Embedding in a NaN image, diagonal pushes and the blockwise loop composed; closed form by induction over the pushes. *Status: partial* (`C57_jump_1d`, `C57_vertical_scan_refuted`, `C57_opposite_partial`, `C57_opposite_refuted`). True with a step of (g1 range)/pixels; false with the pixel pitch, scans along g2 are not shifted at all, and scans with gates swept in opposite directions show the wrong voltage of gate 1.
* **C58** Dot jumps of 2D scans continue the image on the pixel grid. Stacked strip and the blockwise loop composed. *Status: partial* (`C58_jump_2d_axis_1`, `C58_jump_2d_axis_0`, `C58_strip_position`, `C58_grid_refuted`). The continuation is exact, but the generated strip uses the step range/pixels instead of the pixel pitch range/(pixels-1).
* **C59** Dot jumps do not depend on the sweep direction. Flip algebra around the component functions. *Status: partial* (`C59_direction_partial`, `C59_both_descending_refuted`). True when one 2D gate or a whole 1D sweep is reversed; false for 2D scans with both gates descending.
* **C60** Random telegraph noise works at every resolution. Case analysis on the rescaled burst length. *Status: partial* (`C60_rtn_active`, `C60_active_draws`, `C60_generator`, `C60_low_resolution_refuted`). Holds exactly when the burst length is at least one pixel (or zero).
* **C61** Jump heights are the drawn heights. The uint8 cast of the pattern is part of the model. *Status: partial* (`C37_jump_pattern`, `C61_heights`, `C61_heights_partial`, `C61_call`, `C61_generator`, `C61_call_generator`, `C61_jump_height_refuted`). Heights are the draws modulo 256 (C61_heights), hence the draws themselves if these are less than 256 (C61_heights_partial).
* **C62** TCT slopes stay between the two gradients. Secant bounds of each piece glued together. *Status: proved* (`C62_tct_slopes`).
* **C63** Explicitly solved values lie on the bezier curve. Quadratic formula against the curve parameter. *Status: partial* (`C63_explicit_on_curve`, `C63_tct`, `C63_valley_refuted`). True for upward corners; false for downward corners, where the maximum of the two roots is the wrong branch.
* **C64** TCT arrays are evaluated pointwise, malformed TCTs rejected. Array evaluation reduced to the pointwise function. *Status: proved* (`C64_array_pointwise`, `C64_malformed_rejected`).
* **C65** Raising gate voltages never lowers the electron number. Slope bounds of the TCTs; both coordinates of the rotated frame. *Status: proved* (`C65_raising_voltages`, `C65_stays_above_all`).
* **C66** Drawn lead transitions have no gaps. Each crossing between neighbouring pixels is within one of the sampled columns of the drawn transition; case analysis on the crossing direction. *Status: proved* (`C66_gap_free`, `C66_default`).
* **C67** Zero interdot coupling is the limit of small coupling. A two-TCT example with coupling e evaluated for small e and for 0; then for all configurations the sum over the transitions with the step function (no coupling) and with the tails of the distribution functions (narrow coupling). *Status: partial* (`C67_zero_coupling_refuted`, `C67_zero_partial`, `C67_narrow_partial`, `C67_exchanged_partial`, `C67_default_places`). False: the dots are exchanged. In general a pixel past m of n transitions has (n - m, m) electrons without coupling, and close to (m, n - m) with a narrow coupling of positive width (close to (n - m, m) if the width is negative). The width is positive wherever the valley lies above both edges of the peak (C67_exchanged_partial), as in the default configuration (C67_default_places).
* **C68** Peak deformations have the documented geometry. Closed form of the circular displacement; sqrt algebra. *Status: partial* (`C68_linear_line`, `C68_circle_partial`, `C68_circle_refuted`). Linear: true. Circular: true only if the lever-arms of the sensor dot have norm 1.
* **C69** Conductive areas use the potential of the fully conductive point. Pixelwise characterisation of the label loops. *Status: partial* (`C69_areas_partial`, `C69_threshold`, `C69_threshold_refuted`). True for equal plunger voltages or if plunger gate 2 does not act on the sensor dot.
* **C70** Sensor-scan response adds the peaks at their deformed positions. Loops with temporarily changed peaks reduced to a sum by induction. *Status: partial* (`C70_deformed_response`, `C70_plain_response`, `C70_rise_response`, `C70_single_pixel_refuted`). True for at least two pixels along each axis (deformed scans with one pixel raise ZeroDivisionError); deformed scans ignore the final rise. First lever-arm of the sensor dot positive.
* **C71** Coulomb labels agree with the response. Both computations related through the remembered state. *Status: partial* (`C71_labels_match_response_partial`, `C71_unsorted_refuted`, `C30_positions`). True for ascending peaks and equal plunger voltages.
* **C72** Lever-arm setters. Case analysis. *Status: proved* (`C72_alpha`, `C72_alpha_sensor`, `C72_refused`).
* **C73** multi_glf is the sum of its curves. Induction over tuples. *Status: proved* (`C73_multi_glf_sum`, `C73_multi_glf_rejected`, `C73_multi_glf_rises`, `C73_barrier`).
* **C74** Pixels map uniformly onto the voltage range. Field arithmetic. *Status: partial* (`C74_pixel_to_volt`, `C74_last_pixel_refuted`). True if pixel_num is the number of pixels minus one (as all callers pass it).
* **C75** Points below a line. Case analysis. *Status: partial* (`C75_below_line`, `C75_float_rejected_refuted`). Horizontal lines given as float are rejected although documented.
* **C76** Generating labels overwrites the remembered scan. Closed form of the label function. *Status: proved* (`C76_labels_overwrite_state`).
* **C77** Samples of one sampler stay close together. Invariant of the sampler state over any number of samples. *Status: proved* (`C77_samples_close`, `C77_last_sample`).
* **C78** The default mean of a normal sampler is the centre of its total range. The mean of the new sampler compared with the centre of the total range; expected false for narrowed ranges (finding). *Status: partial* (`C78_default_mean_partial`, `C78_narrowed_mean_refuted`). True only if the range is not narrowed; otherwise the centre of the narrowed range is used.
* **C79** A sensor scan is computed from one occupation. As C45. *Status: proved* (`C79_composition`).
* **C80** All measured voltages are within the configured limits. Convexity of the limits. *Status: proved* (`C80_measure`, `C80_sensor_scan`).
* **C81** Limits given as list. Evaluation; expected false (finding). *Status: partial* (`C81_list_limits_refuted`). False: lists have no attribute size.
* **C82** Shape of a TCT. Case analysis of the period at the joints. *Status: proved* (`C82_one_period`, `C82_outer_lines`).
* **C83** A measurement without distortions.  *Status: proved* (`C83_pixels`, `C83_shape`, `C83_outcome`, `C83_reversed`). IdealCSDGeometric and SensorGeneric plugged into Simulation.measure; 1D scans with one pixel are left out of the reversal (the single pixel is then at the other end)
* **C84** A sampled generic sensor is complete and consistent.  *Status: proved* (`C84_generic_sensor`, `C84_no_exception`). exceptions other than running out of fuel
* **C85** The working point is the steepest sampled point.  *Status: proved* (`C85_steepest`). over the reals
* **C86** A sampled sensor-scan sensor works at its base point.  *Status: proved* (`C86_scan_sensor`, `C86_no_exception`).
* **C87** The final rise exceeds all peaks.  *Status: proved* (`C87_rise`). over the reals
* **C88** Consecutive TCTs never touch. Bezier curves are between their end lines and convex hull; piecewise comparison of the two periodic curves by peaks and valleys. *Status: proved* (`C88_gap`, `C88_parallel`, `C88_counting`). over the reals; `C88_steeper` shows that steeper upper TCTs do cross
* **C89** The TCTs of the default configurations do not touch. Numeric instance of C88; corners computed exactly, lra. *Status: proved* (`C89_stacked`). the decimals of the default configuration as exact reals
* **C90** The default configurations can be measured everywhere within their limits. Points within the limits are below the last TCT (C89 and its outer lines); mask window as in C04; the coarse scan shows the last TCT. *Status: partial* (`C90_electrons`, `C90_measure_partial`, `C90_coarse_refuted`). false for coarse scans: 25 by 25 pixels over the complete range raise IndexError; proved for pixels at most 4 mV apart
* **C91** The TCTs of sampled configurations do not touch. Interdot vector rises because its angle with both lead transitions is bounded away from 0. *Status: proved* (`C91_ordered`).
* **C92** Sampling a configuration ends without exception. A scan of 10 by 10 pixels whose window is below the last TCT succeeds; every TCT adds at least 1.4 mV. *Status: proved* (`C92_no_exception`, `C92_loop_ends`). the rejection loops for the first TCT end with probability one only; they are modelled with fuel
* **C93** A sensor scan shows the sensor at the scanned voltages. Unfold the simulation with the sensor as its object; the world is the remembered limits. *Status: proved* (`C93_pixels`, `C93_labels`, `C93_outcome`). conductive areas for equal plunger voltages only (see C95)
* **C94** Deformations shape measured sensor scans. The labels overwrite the remembered sensor limits with a single point before the response reads them; evaluate the response there; witness: one peak deformed along a line at 45 degrees. *Status: partial* (`C94_one_distance`, `C94_deformations_refuted`). false: every pixel shows the peaks as deformed at one and the same distance, that of the fully conductive point; proved which
* **C95** The final rise of a sensor scan starts at the fully conductive point. As C94 with the fully conductive point; witness: exponential rise, plunger voltages 0 and 9. *Status: partial* (`C95_rise_partial`, `C95_rise`, `C95_rise_refuted`). false for different plunger voltages: the rise is shifted to the point for the voltage of plunger gate 1 on both gates; proved for equal ones
* **C96** A diagram measured with a sensor-scan sensor. As C93 for measure. *Status: proved* (`C96_pixels`, `C96_outcome`). deformed sensors: one of the plunger gates is swept
* **C97** The value at a voltage point does not depend on the rest of the diagram. Values are determined by C96; witness: exponential rise, two scans along gate 2 that share an end. *Status: partial* (`C97_value_partial`, `C97_rise`, `C97_value_refuted`). false with a final rise, which is shifted according to the first pixel of the diagram; proved without one
* **C98** Scans agree where they meet. The region of a point is unique, the occupation is a function of region and voltages. *Status: proved* (`C98_lines_agree`, `C98_images_agree`).
* **C99** Noise is superposed on potential and response. Each noise object adds a list drawn from shape, limits and generator; induction over the loops of the simulation. *Status: proved* (`C99_superposition`, `C99_sums`, `C99_common_noise`).
* **C100** Inactive distortions change nothing. As C99 with lists of zeros; the occupation loop returns its argument. *Status: proved* (`C100_silent`). the sensor must have a peak or none configured (not an empty list)
* **C101** Frozen distortions replay the data. Invariant of the occupation loop: the new generator reads only the states of the objects applied so far, which later objects do not change. *Status: proved* (`C101_replay`, `C101_measure`).
* **C102** Dot jumps along a gate keep data that does not depend on that gate. C58 with the generator of the simulation; witness: an edge in gate 1, Gaussian blurring, one jump of two rows. *Status: partial* (`C102_unblurred_partial`, `C102_blurred_refuted`). false if the data are blurred before: the generated strip is blurred with another width; proved for undistorted data and ascending limits
* **C103** 2D measurements of the default configuration with distortions never raise. The set of requests below the upper limits with pixels at most 4 mV apart is closed under the requests of the dot jumps; on it the ideal data exist (C90), and with them the data with frozen blurring and frozen jumps; the telegraph noise has at least 45 pixels per volt. *Status: proved* (`C103_measure_2d`). pixels at most 4 mV apart (coarser scans: C90)
* **C104** 1D measurements of the default configuration with distortions never raise. As C103; a zero voltage range makes the number of pixels per volt infinite and the geometric distribution invalid. *Status: partial* (`C104_both_gates_partial`, `C104_first_gate_refuted`, `C104_second_gate_refuted`, `C104_extended_first_gate_refuted`, `C104_extended_second_gate_refuted`). false along one gate: raises ValueError whenever the dot jumps along the other gate are activated; and only then, for GaAs_v1 and GaAs_v2_extended_sensor; proved if both gates are swept
* **C105** 1D scans with dot jumps are read back from the diagonal, independently of the numpy version. Arithmetic of a Python int and a uint8 number for both kinds of promotion (NEP 50); induction over the comprehension. *Status: partial* (`C105_numpy1_partial`, `C105_numpy2_partial`, `C105_long_scan_refuted`, `C105_wrapped_refuted`). true with numpy 1; false with numpy 2 for more than 256 pixels (OverflowError) and for pixels beyond 256 - added (wrong entries)
* **C106** Jump heights stored as uint8 give the same pixel indices with all numpy versions. As C105. *Status: partial* (`C106_numpy1_partial`, `C106_numpy2_partial`, `C106_large_image_refuted`, `C106_edge_refuted`). true with numpy 1; false with numpy 2 beyond pixel 255 (OverflowError) and within the jump height of the edge (index modulo 256)
* **C107** Pixel voltages in double precision. Differences and integer multiples of float64 numbers have relative error 2^-53; at most three of these roundings are below the distance of one pixel to the end; rounding is monotone and keeps the ends. *Status: partial* (`C107_ends`, `C107_in_range_partial`, `C107_sorted_partial`, `C107_error_partial`, `C107_distinct_partial`, `C107_in_range_refuted`, `C107_reverse_refuted`). reversed sweeps visit voltages that differ in the last bits; ranges narrower than 2^-900 can be left; everything else proved; binary64 without overflow
* **C108** Sampled parameters stay within their range in double precision. The rounded range times 1 - 2^-53 is rounded to at most its predecessor, which is not above the exact range. *Status: partial* (`C108_uniform`, `C108_narrow_partial`, `C108_narrow_refuted`). proved without sampling_range; with sampling_range the total range can be left by up to 2^-51 of its larger end; width such that its half is a float64 number
* **C109** 2D plots show values and ticks at the right voltages. Case distinction on the flips; a flipped axis has the voltage of the mirrored pixel. *Status: proved* (`C109_pixels`, `C109_ticks`, `C109_aspect`). what is handed to matplotlib; shown texts as rounded numbers
* **C110** 1D plots show values and ticks at the right voltages. As C109. *Status: proved* (`C110_points`, `C110_ticks`). what is handed to matplotlib; shown texts as rounded numbers
* **C111** Noise in sensor scans superposes. The loops over the distortions add lists of noises that depend only on the shape and the generator (as C99), three at a time; the response acts per pixel. *Status: proved* (`C111_superposition`, `C111_sums`). sensors without deformations; for deformed sensors C94 gives the noiseless scan
* **C112** Labels of sensor scans carry no noise. The labels are computed from the noiseless potentials; the sensor's memory after the scan does not depend on the noise. *Status: proved* (`C112_labels`). that the noiseless scan succeeds as well is proved for sensors without deformations
* **C113** Noise in diagrams of a sensor-scan sensor superposes. As C111, after the occupation loop, which is the one of C99. *Status: proved* (`C113_diagrams`, `C113_sums`, `C113_occupations`). pixel values for sensors without deformations or with a swept plunger gate
* **C114** Diagrams of GaAs_v2_extended_sensor never raise. The parameters satisfy the checks of the constructors (interval arithmetic is not needed); success as C103 with three potentials. *Status: proved* (`C114_constructed`, `C114_limits`, `C114_measure_2d`, `C114_measure_1d`). kernels, strengths of pink noise and all draws arbitrary; sampled strengths of white noise within their ranges; 1D diagrams along one gate fail as in C104
* **C115** Sensor scans of GaAs_v2_extended_sensor never raise. The mean jump length is at least one pixel for pixels of at most 22.37 mV; otherwise the geometric distribution is refused as soon as the noise is active. *Status: partial* (`C115_fine_partial`, `C115_limits`, `C115_coarse_refuted`). true for pixels of at most 22 mV; coarser 2D scans raise exactly if telegraph noise is active for one of the three potentials (probability 1 - (5/6)^3 = 42 %)
* **C116** Telegraph noise of the response works along either sensor gate. The response distortions get the range of gate 1 twice. *Status: partial* (`C116_gate1_partial`, `C116_gate2_refuted`). true along gate 1; along gate 2 every scan in which the noise is active raises
* **C117** Measurements of sampled configurations never raise. C83-C90 give the parameters and the ideal data of a sampled configuration; its distortions are those of C103 with other parameters, its jumps and telegraph noises are long enough. *Status: proved* (`C117_generic_2d`, `C117_scan_2d`, `C117_constructed`, `C117_generic_line`, `C117_scan_line`). any random generators satisfying their ranges; parameters drawn at every measurement are arbitrary values of their range
* **C118** Sampled configurations can be measured with the default arguments. The limits of the sensor gates are checked before anything is measured. *Status: partial* (`C118_generic_refuted`, `C118_scan_refuted`). refuted for every sampled configuration and every request within the limits: the limits of the sensor gates are compared with None
* **C119** Lines along one gate of sampled configurations never raise. As C104: an active jump along a gate that is not swept has infinitely many pixels per volt. *Status: partial* (`C119_generic_gate1_refuted`, `C119_scan_gate1_refuted`, `C119_generic_gate2_refuted`, `C119_scan_gate2_refuted`). refuted; the measurements that raise are described exactly by the draw that activates the jumps along the gate that is not swept
* **C120** Sensor scans of sampled configurations never raise. As C115 and C116 with the distortions of the sampler. *Status: partial* (`C120_gate1_partial`, `C120_gate2_refuted`). true if sensor gate 1 is swept; along gate 2 only, scans with active telegraph noise of the response raise (C116)
* **C121** Shifting the configuration and the voltages changes nothing. Every step of the model commutes with the stretching x -> k x + d: Bezier curves, lookup tables, waves, masks, regions, anchors, signed distances. *Status: proved* (`C121_shift`, `C121_tct`). equality of results including exceptions; C121_tct also for stretched TCTs
* **C122** The unit of the voltages does not matter for ideal data. As C121; the only comparison with an absolute number is isclose(gamma, 0). *Status: partial* (`C122_scale_partial`, `C122_scale_refuted`). refuted: widths below 1e-8 count as zero (np.isclose with absolute tolerance), and then the dots are exchanged (C67); true if all widths exceed 1e-8 in both units
* **C123** Measurements do not depend on unit and zero of the voltages. Generators and distortion objects commute with the conversion (world: latest_sigma is converted, the rest is equal); then induction over the lists of distortions. *Status: proved* (`C123_measure`). all occupation, potential and response distortions in any number and order
* **C124** Transition points are drawn inside the image in double precision. A float above a rounded bound is above the exact bound; error of the index expression at most 2^-49 of the limits; np.floor_divide (npy_divmod) proved exact; witness with 101 pixels evaluated with Flocq. *Status: partial* (`C124_pixel_partial`, `C124_edge_refuted`, `C124_floor_divide`, `C124_mod`). refuted at the upper edge: a point accepted by the check can get an index equal to the number of pixels (IndexError); indices are never negative, and right for all points not within 2^-47 of the edge; binary64 without overflow
* **C125** TCT values in double precision. fmod is exact, rounding is monotone: the rounded quotient reaches at most the next integer; witness with exactly representable intermediate results. Accuracy: errors of all operations in multiples of 2^-53; each flank is compared with its straight line, and the exact TCT with that line next to its ends, because gradients are at most 1. *Status: partial* (`C125_period_partial`, `C125_period_no`, `C125_value_refuted`, `C125_short_partial`, `C125_error_partial`, `C125_outer_error`, `C125_below`, `C125_default`). for parameters and voltages with few binary digits no operation rounds and the value is exact; in general refuted: the number of the period can be one too large, which shifts the value by the offset between two periods; otherwise position and number belong together, and up to such a shift directly before the end of a period the value of a TCT of ordinary size (all TCTs of the default configuration) is exact up to a multiple of 2^-53 and the error of the evaluation of the bezier curve, which is not modelled in double precision
* **C126** Lorentzian peaks in double precision. All operations are monotone and so is rounding; two roundings for the height. *Status: partial* (`C126_falling`, `C126_bounds`, `C126_height_partial`, `C126_height_refuted`). all proved except the exact height: it can be exceeded in the last bit (height 0.015, gamma 3); squares taken to be rounded products
* **C127** The series combination in double precision. Relative errors of products, sums of positive numbers and quotient. *Status: partial* (`C127_series_partial`, `C127_blocked`, `C127_tiny_refuted`). accuracy proved for responses of at least 2^-300; below the product can underflow to zero
* **C128** Charge is quantised between the interdot transitions. Write the occupation as a sum of cdf values of signed distances; bound the tails by a geometric series (sigmoid) or by n times the Cauchy tail; evaluate the default configuration numerically. *Status: proved* (`C128_sigmoid`, `C128_cauchy`, `C128_equidistant`, `C128_default`). bounds stated with the distance to the two neighbouring transition lines and the smallest pitch; exact real arithmetic
* **C129** Growth rate and asymmetry of the GLF mean what is documented. Derivative by Coquelicot's auto_derive; with z = C/base the slope is a constant times z^(1/nu)(1-z), whose unique maximum follows from 1+t <= exp t; 2^nu versus 1+nu decides the side. *Status: proved* (`C129_growth`, `C129_asymmetry`). exact real arithmetic
* **C130** The two dots are treated alike. In the coordinates of the TCTs the exchange is the reflection at the y-axis; the reflected curve starts with the last peak, the reflected k-th step is the (n-1-k)-th one; cdfs are symmetric about 1/2. For the default configurations evaluate the seventh region next to the last peak. *Status: partial* (`C130_tct`, `C130_pixels_partial`, `C130_line_partial`, `C130_sampled_partial`, `C130_default_refuted`). holds for TCTs with a common distance between peaks (all sampled configurations), refuted for the default configurations; with a lookup table stated for pixels with the same number of electrons in both scans; exact real arithmetic
* **C131** Interdot transitions connect the triple points. The signed distance to the k-th transition vanishes on the line if the upper TCT has the same period; tails of the other steps as in C128. For the default configurations evaluate a point of the last line of the seventh region. *Status: partial* (`C131_sigmoid_partial`, `C131_cauchy_partial`, `C131_sampled_partial`, `C131_default_refuted`). holds for the first transition and for TCTs with a common distance between peaks (all sampled configurations, deviation at most 1/300); refuted for the default configurations; exact real arithmetic
* **C132** Exponential samples are computed as documented. Induction over the rejected draws; quantile by exp and ln; the truncated share is p divided by the share within the range. *Status: partial* (`C132_formula_partial`, `C132_reversed_refuted`, `C132_draws_partial`, `C132_quantile`, `C132_config`). formula proved for ranges with ordered ends, refuted for exchanged ends (samples start at the maximum, as the sampler of peak heights wants it); quantile stated with the cumulative distribution function, no measure theory; exact real arithmetic
* **C133** Blurring keeps transitions in place. Write a line as a sum of unit steps; a blurred step is a difference of partial sums of the symmetric, decreasing weights, so consecutive pixels differ by three weights of which at most two are in reach. *Status: partial* (`C133_derivative`, `C133_weights`, `C133_in_place`, `C133_order_partial`, `C133_order_refuted`). order proved for kernels shorter than the line, refuted for kernels as long as the line; scipy's convolution modelled from its documentation; exact real arithmetic
* **C134** The sensor potential in double precision. Rounding is monotone; absolute error of each operation is 2^-53 relative plus 2^-1074. *Status: proved* (`C134_monotone`, `C134_accurate`). binary64 without overflow; the dot products may round both products or fuse one of them with the addition
* **C135** Resetting the sensor offset in double precision. Four rounded additions; Sterbenz for the exact case; offset 2^54 swallows a potential of 1 for the refutation. *Status: partial* (`C135_bound_partial`, `C135_exact_partial`, `C135_stale_refuted`). hit up to 2^-50 of previous offset, target and terms; exactly without previous offset and a target within a factor of two of the potential (Sterbenz); exactness in general refuted
* **C136** Raising gate voltages with lookup tables. The table differs by at most eps from a function with gradients up to L, so a step with L |d1 - d2| + 2 sqrt 2 eps <= d1 + d2 keeps every TCT passed; at the middle between the first two entries of a table the TCT jumps up. *Status: partial* (`C136_tables_partial`, `C136_above_all_partial`, `C136_default_partial`, `C136_sampled_partial`, `C136_step_refuted`, `C136_scan_refuted`). never fewer electrons if one gate is raised by 12.5 microvolts (default configuration) or 32 microvolts (sampled configurations) or more; refuted for smaller steps, also in a scan of two pixels
* **C137** The rotation turns the whole diagram. Points are only used through the rotated view and through signed distances, both of which are unchanged by a common turn. *Status: proved* (`C137_lines`, `C137_electrons`, `C137_pixels`, `C137_images`, `C137_full_turn`). line scans: equality of the complete results; 2D scans: occupations of corresponding pixels (the drawn labels depend on the pixel grid)
* **C138** At a constant number of electrons the occupations are continuous. Positions relative to all transitions change by the same affine amount; tanh and atan have slopes of at most 1 (mean value theorem); Cauchy-Schwarz for the perpendicular distance. *Status: proved* (`C138_sigmoid`, `C138_cauchy`, `C138_default`). the bound grows with n although only one transition is near a pixel (sum of the slopes of all n transitions)
* **C139** Which dot gets the electron at a lead transition. A branch point has a known position relative to all transitions of both adjacent regions (linear in the position along the branch); C128 then gives the occupations on both sides; bounds for the default TCTs by linear arithmetic per TCT, for sampled ones from the sampled angles, lengths and widths. *Status: proved* (`C139_on_tct`, `C139_above`, `C139_below`, `C139_default`, `C139_sampled`). the pixel below the branch needs TCTs with equal periods in general; the default TCTs, whose periods differ, are treated separately
* **C140** The numpy operations on windows and arrays are what their names say. Statements of other properties mention these operations of the model; each is pinned here by a characterisation that does not use it, so that an error in one of them cannot hide on both sides of an equation. *Status: proved* (`C140_norm`, `C140_grid`, `C140_samples`, `C140_sort`, `C140_max`, `C140_first_1d`, `C140_first_2d`, `C140_size`, `C140_two_dimensional`).
* **C141** Sampled configurations have moderate distortions of the documented kinds. The lists of distortions are determined by config_result; bounds from C21, preference for weak noise from C132. *Status: proved* (`C141_moderate`, `C141_objects`).
* **C142** An electron that enters a dot lowers the sensor potential by the lever arm of this dot. C83 gives the potential of measured pixels, C139 the change of the occupations, C50 the lever arms of sampled sensors. *Status: proved* (`C142_drop`, `C142_default`, `C142_sampled`).
* **C143** The areas marked in sensor scans conduct as documented. Labels and response are computed from the same potentials; with equal plunger voltages also from the same fully conductive point. Refuted with the default sensor by a pixel with one nearly closed barrier. *Status: partial* (`C143_areas`, `C143_default`, `C143_sampled`, `C143_fully_open_refuted`). area 0 is exact, also for all sampled sensors (C143_sampled); everything with fully open barriers is in area 2 and area 2 has the fully risen sensor dot (equal plunger voltages); but area 2 also contains pixels with nearly closed barriers
* **C144** Measurements depend on earlier ones through the random generators only. Relational reasoning over actions: two runs from worlds with equal generators; an occupation distortion makes its own recorded state equal in both runs, the frozen calls read only such states, sensor_potential overwrites what the sensor remembers. *Status: proved* (`C144_measure`, `C144_measure_scan_sensor`, `C144_sensor_scan`). if an exception is raised, only the exception is compared
* **C145** The Coulomb peaks of the default sensor are resolved and crossed. Bounds for sums of Lorentzians near and far from their centres; discrete intermediate value theorem along the sweep, with the potential at both ends bounded by the number of electrons (C83, C90). *Status: proved* (`C145_made`, `C145_resolved`, `C145_crossed`, `C145_values`, `C145_extended_peaks`, `C145_extended_resolved`). the offsets of the peaks add up: the base line is five times the offset of a peak
* **C146** Coulomb labels of sensor scans are at the peaks. Rows are evenly spaced in the potential, so nearest pixels are within half a step, first or last ones within the mean step; pinch-off and full conduction of the default barriers enclosed by bounds of exponentials. *Status: proved* (`C146_near`, `C146_shown`, `C146_regions`, `C146_numbers`, `C146_row`). 12 of the 19 configured peaks never get a label in scans without plunger voltages
* **C147** Which pixel decides about the electrons of an unlabelled region. The region loop takes the first pixel in row-major order; the row-major list of pixels is strongly sorted, flips translated to voltages. Default: fine_sampling with slopes up to 0.43 and table error 2.5 microvolts. Witness: a window of 1 mV times 0.2 mV / (4 (nx + ny)) centred at a point of the outer linear part of TCT 1, halfway between two samples. *Status: partial* (`C147_first`, `C147_default_partial`, `C147_flat_refuted`). false for windows that are flat compared with the distance of the sampled transition points (C147_flat_refuted, for every resolution)
* **C148** Charge sensing with the extended sensor. C97 gives the potentials of both pixels with the same shift of the rise; the difference of two affine potentials is bounded as in C142. Peaks: every Lorentzian is bounded at the 18 midpoints by linear arithmetic on constants. *Status: proved* (`C148_drop`, `C148_default`, `C148_sampled`, `C148_resolved`).
* **C149** Infinities and not-a-number in the checks. The checks again as functions on Flocq's binary64 numbers with infinities and NaN; for finite numbers they are proved to end like the checks of ModelSimulation.v on real numbers. The order of all numbers but NaN is shown to be total and transitive by cases. What is computed afterwards from NaN is not modelled. *Status: partial* (`C149_exact`, `C149_limits_partial`, `C149_infinite`, `C149_nan_refuted`, `C149_nan_limits`, `C149_parameters`, `C149_parameters_error`). NaN voltages pass all checks for every choice of limits, and NaN is accepted as width and asymmetry; without NaN the property holds, infinities included
* **C150** The text of an object is the call that creates it. Texts as strings; the text of a number is an arbitrary function that is injective on the numbers considered and free of commas, so that commas separate the arguments. Parentheses are counted for the refutation. *Status: partial* (`C150_calls`, `C150_distinct`, `C150_balanced`, `C150_multi_refuted`, `C150_multi_closed`, `C150_noise_partial`, `C150_noise_refuted`, `C150_samplers_partial`, `C150_samplers_refuted`). refuted for the distortions (except white noise) and samplers, whose texts also show recorded values and do not show the total range, and for BarrierFunctionMultiGLF, whose text lacks the closing parenthesis; different texts only for classes whose parameters are numbers (numpy shows arrays with eight digits); texts of numbers are left open
* **C151** Plunger voltages given as int. Numbers with their type; the check of get_sensor_scan_labels in front of the existing model; the calls before it are the same for both types. *Status: partial* (`C151_float_partial`, `C151_int_refuted`). refuted: every sensor scan with an int as plunger voltage that would be possible with floats raises ValueError
* **C152** Sensors do not share state. A heap of cells; the constructors with their copies; which attributes point to new cells and which to those of the caller. *Status: partial* (`C152_generic_holds`, `C152_generic`, `C152_holds`, `C152_accepted`, `C152_generic_accepted`, `C152_peaks`, `C152_copied_partial`, `C152_shared_refuted`, `C152_two_refuted`, `C152_deformation_refuted`). true of SensorGeneric and of the peaks; refuted for arrays of shape (3, 2), offset arrays, pairs of barrier functions, the rise and the deformations of SensorScanSensorGeneric
* **C153** Simulations have independent noise. A heap of generators with abstract states; distortions as programs that ask generators; deepcopy with its memo; renaming of generators as proof method. *Status: partial* (`C153_callers`, `C153_apart`, `C153_in_turn_partial`, `C153_in_turn_refuted`, `C153_same_refuted`). true of the generators of the caller; refuted for a generator used in two of the three lists (both lists get the same numbers) and for two simulations made from the same distortions (they have the same noise)
* **C154** TCTs with integers. The model of tct_bezier with the types of anchors and x-values; storing in an array of ints truncates. *Status: partial* (`C154_float_partial`, `C154_int_partial`, `C154_int_refuted`, `C154_rejected_refuted`, `C154_x_refuted`, `C154_parallel`). true if the straight sides of the first peak meet in a point with integer coordinates; otherwise integer parameters give another curve or are rejected, and integer x-values raise TypeError if the parameters are floats
* **C155** Distortions with impossible parameters. The distortions with a random generator that can raise; equal to the distortions of the other properties for possible parameters. *Status: partial* (`C155_possible_rtn`, `C155_possible_jumps`, `C155_default`, `C155_sampled`, `C155_ratio`, `C155_std_partial`, `C155_lam_partial`, `C155_inactive_refuted`, `C155_length_refuted`, `C155_width_refuted`). true of possible parameters and of the ratio; negative standard deviations and mean heights are rejected only in measurements in which the distortion is active; negative lengths of jumps and negative blurring widths are accepted; not-a-number left out
* **C156** Sensor scans do not depend on unit and zero of the voltages. All functions of the sensor with converted voltages return the same potentials, responses and labels; two witnesses in which the final rise is at another place. *Status: partial* (`C156_scan_partial`, `C156_csd_partial`, `C156_plunger_refuted`, `C156_sensor_refuted`). true of another unit (lever arms on the same side of 2^-52); of another zero: sensor scans if both plunger gates are shifted alike, diagrams if there is no final rise; otherwise refuted; simulations without distortions
* **C157** Warnings say what happened. The world gets a list of warnings; a simulation argument shows that nothing else changes, then each place that warns is followed through measure and measure_sensor_scan. *Status: partial* (`C157_same`, `C157_negative`, `C157_quiet`, `C157_default`, `C157_sampled`, `C157_deformed`, `C157_request`, `C157_text_refuted`, `C157_potential`, `C157_jumps_partial`, `C157_jumps_fixed`, `C157_jumps_length`, `C157_jumps_refuted`). true except for the text of the warning of measure_sensor_scan, which shows volt_g2 in both places, and for the warning of dot jumps in scans that are not square, which counts the pixels of the wrong axis
* **C158** A measurement can be repeated from its metadata. The record of metadata is compared with the call; measuring again is reduced to C144 (same generators, same data). *Status: partial* (`C158_metadata`, `C158_scan_metadata_partial`, `C158_diagram_partial`, `C158_diagram_scan_sensor_partial`, `C158_scan_partial`, `C158_clean`, `C158_scan_refuted`, `C158_noise_refuted`). true without distortions (and whenever the generators are not used) except for 1D sensor scans at given plunger voltages, whose metadata hold a resolution that raises TypeError; with noise the metadata hold the generators after the measurement; deepcopy taken as a copy of the state
* **C159** Dot jumps along both gates displace each pixel by both heights. Each object with its drawn noise equals the frozen object in the world after the draw (drawn). A frozen object along one axis displaces that axis of any data that is given by functions of the pixels (step_1, step_0), strips included; composing both in either order gives the result. A highest jump of one pixel makes the code request a 1D strip, which is never shown because the first block is quiet (pattern_first); the strip only has to exist (frozen_line). *Status: proved* (`C159_first_gate_first`, `C159_second_gate_first`). For undistorted data whose 2D occupations are a function of the two voltages (samples_2d); the ideal data are such a function away from transitions (C98). Lead transition labels are not part of the statement.
* **C160** Two dot jump distortions along the same gate can be combined. As C159, but the first object keeps a noise of as many entries as the scan has lines, while the strip of the second object has as many lines as its highest jump. If the strip is longer than the kept noise the indexing raises; a highest jump of one pixel requests a 1D strip of the other resolution, whose length is compared with the kept noise instead. Both cases and the success case are proved for all draws (same_1, same_0). *Status: partial* (`C160_first_gate_partial`, `C160_second_gate_partial`, `C160_high_refuted`, `C160_single_refuted`). False as stated: IndexError for some draws (C160_high_refuted, C160_single_refuted). The partial theorems give the exact condition on the drawn jumps (too_short) and, whenever it does not hold, the voltage shown by every pixel; in the strip below the range the first object displaces strip pixel q by the height of scan line q.
* **C161** Plots say what they show. The calls of matplotlib are recorded in order, up to the first exception. Tick texts are strings: numpy's rounding to three decimals is the nearest integer (ties to even) of 1000 x, and the text is read back by the standard library's reader of decimal numbers (unsigned_text), so the shown number is within 1/2000 of the voltage. The figure is that of C109 and C110 (calls_2d_figure, calls_1d_figure). *Status: partial* (`C161_plot_2d`, `C161_plot_1d`, `C161_raises`, `C161_silent`, `C161_other_refuted`, `C161_distinct_partial`, `C161_distinct_refuted`). Everything but two parts is proved. Different voltages can share a text: ticks are distinct if they are more than a thousandth apart (C161_distinct_partial), not so in a window of 1 mV (C161_distinct_refuted). Arrays that have neither one nor two dimensions are ignored without exception (C161_other_refuted). Calls of matplotlib are assumed to succeed.
* **C162** Resolutions of other types. The checks and the uses of the resolution are modelled again for numbers that are no int and for sequences whose entries are integers or floats; np.zeros and np.ones need integers (operator.index). For integers this is the earlier model. *Status: partial* (`C162_ints_ideal`, `C162_ints_measure`, `C162_ints_scan`, `C162_number_refuted`, `C162_floats_partial`, `C162_floats_kind`, `C162_truncated_refuted`). Sequences of integers behave alike. False for single numbers: everything but a Python int, also an integer of numpy, raises TypeError (C162_number_refuted). Floats are refused, except for the single entry of a sensor scan with plunger voltages, which is truncated silently (C162_truncated_refuted). nan, infinities and bools are left out.
