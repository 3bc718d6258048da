(** Properties of Simulation.measure and Simulation.measure_sensor_scan. *)
From Verif Require Import RPrelude Arr ModelCsd ModelSensor ModelSimulation SpecSimulation ProofsSimulation ExamplesSimulation.
Local Open Scope R_scope.

(** C44: requests that violate a documented precondition are rejected before any object is used. *)
Theorem C44_invalid_rejected : forall {W L I K} (c : config W L I K) s1 s2 v1 v2 res w,
  ~ valid_request c s1 s2 v1 v2 res ->
  exists e, measure c s1 s2 v1 v2 res w = (Err e, w) /\
    (e = ValueError \/ (e = TypeError /\ sensor_voltage_missing c v1 v2)).
Proof. exact @measure_invalid. Qed.
Print Assumptions C44_invalid_rejected.

(** C44: all other requests succeed if no object raises, unless sensor limits are configured and the
    sensor voltages are left out. *)
Theorem C44_valid_accepted_partial : forall {W L I K} (c : config W L I K) s1 s2 v1 v2 res w,
  valid_request c s1 s2 v1 v2 res -> ~ sensor_voltage_missing c v1 v2 -> objects_total c ->
  exists m w', measure c s1 s2 v1 v2 res w = (Ok m, w').
Proof. exact @measure_total. Qed.
Print Assumptions C44_valid_accepted_partial.

(** C44: in that case the documented default None raises a TypeError. *)
Theorem C44_missing_voltage_refuted : forall {W L I K} (c : config W L I K) s1 s2 v1 v2 res w,
  valid_request c s1 s2 v1 v2 res -> sensor_voltage_missing c v1 v2 ->
  measure c s1 s2 v1 v2 res w = (Err TypeError, w).
Proof. exact @measure_missing. Qed.
Print Assumptions C44_missing_voltage_refuted.

(** C45: a measurement is the ideal data with the occupation distortions in order, the potential of
    these occupations with the potential distortions in order, and its response with the response
    distortions in order. *)
Theorem C45_composition : forall {W L I K} (c : config W L I K) s1 s2 v1 v2 res w m w',
  measure c s1 s2 v1 v2 res w = (Ok m, w') <->
  valid_request c s1 s2 v1 v2 res /\ ~ sensor_voltage_missing c v1 v2 /\
  exists gen l1 l2, ideal_csd_config c = Some gen /\ s1 = [fst l1; snd l1] /\ s2 = [fst l2; snd l2] /\
    measured c gen l1 l2 v1 v2 res w m w'.
Proof. exact @measure_ok. Qed.
Print Assumptions C45_composition.

(** C45: an occupation distortion that returns its data, as its interface demands, without changing
    the arrays it was given has no effect. *)
Theorem C45_returned_data_refuted : forall {W L I K} (c : config W L I K) gen s1 s2 v1 v2 res w m w'
    (returned : occupation -> L -> occupation * L),
  ideal_csd_config c = Some gen ->
  occupation_distortions c = Some [mk_occ_distortion (fun o l _ _ _ _ => ret ((o, l), returned o l))] ->
  measure c s1 s2 v1 v2 res w = (Ok m, w') ->
  exists l1 l2 w1, s1 = [fst l1; snd l1] /\ s2 = [fst l2; snd l2] /\
    gen l1 l2 res w = (Ok (m_occ m, m_lead m), w1).
Proof. exact @returned_ignored. Qed.
Print Assumptions C45_returned_data_refuted.

Example C45_example : exists m,
  measure (ex_config None None false) [0; 1] [0; 1] None None (ResInt 3) [] = (Ok m, [0; 1; 0; 11; 2; 3; 5; 4; 6]%nat) /\
  m_csd m = 144%nat /\ m_lead m = 11%nat /\ m_occ m = ones.
Proof. eexists. split; [reflexivity|]. repeat split. Qed.

Example C44_example : measure (ex_config None (Some (0, 1)) false) [0; 1] [0; 1] None None (ResInt 3) [] = (Err TypeError, []).
Proof. reflexivity. Qed.
Example C44_example_limits : forall w,
  measure (ex_config (Some (0, 1)) None false) [0; 2] [0; 1] None None (ResInt 3) w = (Err ValueError, w).
Proof. exact ex_outside. Qed.

(** C46: the generator handed to the k-th distortion ([generator_with gen (firstn k ds)], see
    [measured] in C45) generates ideal data and replays the distortions before it in order with
    frozen noise, each with the generator it was itself given. *)
Theorem C46_generator : forall {W L} (gen : generator W L) ds l1 l2 res w ol w',
  generator_with gen ds l1 l2 res w = (Ok ol, w') <->
  exists ideal w1, gen l1 l2 res w = (Ok ideal, w1) /\
    in_order (acts_in_place gen ds l1 l2 true) ds ideal w1 ol w'.
Proof. exact @generator_with_ok. Qed.
Print Assumptions C46_generator.

(** C46: for distortions without randomness, each one is handed a generator that reproduces exactly
    the data it was given. *)
Theorem C46_same_data : forall {W L} (gen : generator W L) ds l1 l2 res ideal w ol w',
  (forall w, gen l1 l2 res w = (Ok ideal, w)) -> (forall d, In d ds -> exists f, pure_noise d f) ->
  in_order (acts_in_place gen ds l1 l2 false) ds ideal w ol w' ->
  w' = w /\ exists data : nat -> occupation * L, data 0%nat = ideal /\ data (length ds) = ol /\
    forall k d, nth_error ds k = Some d ->
      acts_in_place gen ds l1 l2 false k d (data k) w (data (S k)) w /\
      forall w2, generator_with gen (firstn k ds) l1 l2 res w2 = (Ok (data k), w2).
Proof. exact @same_data. Qed.
Print Assumptions C46_same_data.

Example C46_example :
  generator_with ex_generator [ex_first; ex_second] (0, 1) (0, 1) (ResInt 1) [] =
  (Ok (ones, 11%nat), [0; 11; 0; 11; 2]%nat).
Proof. reflexivity. Qed.

(** C48: invalid sensor scans are rejected before any object is used. *)
Theorem C48_invalid_rejected : forall {W L I K} (c : config W L I K) s1 s2 v1 v2 res w,
  ~ valid_scan c s1 s2 v1 v2 res -> measure_sensor_scan c s1 s2 v1 v2 res w = (Err ValueError, w).
Proof. exact @scan_invalid. Qed.
Print Assumptions C48_invalid_rejected.

(** C48: valid ones succeed, except for the two kinds of resolution below. *)
Theorem C48_accepted_partial : forall {W L I K} (c : config W L I K) s1 s2 v1 v2 res w,
  valid_scan c s1 s2 v1 v2 res -> plain_resolution c v1 v2 res -> nonnegative res -> objects_total c -> point_data c ->
  exists m w', measure_sensor_scan c s1 s2 v1 v2 res w = (Ok m, w').
Proof. exact @scan_total. Qed.
Print Assumptions C48_accepted_partial.

(** C48: an integer resolution with plunger voltages always raises a TypeError. *)
Theorem C48_int_resolution_refuted : forall {W L I K} (c : config W L I K) s1 s2 x1 x2 n w gen r w',
  valid_scan c s1 s2 (Some x1) (Some x2) (ResInt n) -> ideal_csd_config c = Some gen ->
  gen (x1, x1) (x2, x2) (ResInt 1) w = (Ok r, w') ->
  measure_sensor_scan c s1 s2 (Some x1) (Some x2) (ResInt n) w = (Err TypeError, w').
Proof. exact @scan_int_fails. Qed.
Print Assumptions C48_int_resolution_refuted.

(** C48: a resolution array with one entry without plunger voltages always raises an IndexError. *)
Theorem C48_single_entry_refuted : forall {W L I K} (c : config W L I K) s1 s2 v1 v2 n w,
  valid_scan c s1 s2 v1 v2 (ResArray [n]) -> ~ knows_occupation c v1 v2 ->
  measure_sensor_scan c s1 s2 v1 v2 (ResArray [n]) w = (Err IndexError, w).
Proof. exact @scan_single_fails. Qed.
Print Assumptions C48_single_entry_refuted.

Example C48_example_int :
  fst (measure_sensor_scan (ex_config None None true) [0; 1] [0; 1] (Some 0) (Some 0) (ResInt 3) []) = Err TypeError.
Proof. reflexivity. Qed.
Example C48_example_array : exists m,
  measure_sensor_scan (ex_config None None true) [0; 1] [0; 1] (Some 0) (Some 0) (ResArray [3%Z]) [] = (Ok m, [0; 3; 3; 7; 5; 4; 6]%nat).
Proof. eexists. reflexivity. Qed.

(** C49: the sensor response distortions are given the range of sensor gate 1 twice. *)
Theorem C49_response_ranges_refuted : forall {W L I K} (c : config W L I K) s1 s2 v1 v2 res w m w' d,
  sensor_response_distortions c = Some [d] -> measure_sensor_scan c s1 s2 v1 v2 res w = (Ok m, w') ->
  exists l1 x w1, s1 = [fst l1; snd l1] /\ d x l1 l1 w1 = (Ok (sc_scan m), w').
Proof. exact @response_ranges. Qed.
Print Assumptions C49_response_ranges_refuted.

Example C49_example : exists m,
  measure_sensor_scan ranges_config [0; 1] [2; 3] None None (ResInt 3) tt = (Ok m, tt) /\ sc_scan m = ((0, 1), (0, 1)).
Proof. eexists. split; reflexivity. Qed.

(** C79: a sensor scan is computed from the same occupation in every pixel, the occupation at the
    plunger voltages. Occupation distortions are not applied, potential distortions are given the
    two sweep ranges (C49), labels belong to the undistorted potential. *)
Theorem C79_composition : forall {W L I K} (c : config W L I K) s1 s2 v1 v2 res w m w',
  measure_sensor_scan c s1 s2 v1 v2 res w = (Ok m, w') ->
  valid_scan c s1 s2 v1 v2 res /\ plain_resolution c v1 v2 res /\
  exists l1 l2, s1 = [fst l1; snd l1] /\ s2 = [fst l2; snd l2] /\ scanned c l1 l2 l1 l1 v1 v2 res w m w'.
Proof. exact @scan_ok. Qed.
Print Assumptions C79_composition.
Example C79_example : exists m,
  measure_sensor_scan (ex_config None None true) [0; 1] [0; 1] (Some 0) (Some 0) (ResArray [3%Z]) [] = (Ok m, [0; 3; 3; 7; 5; 4; 6]%nat) /\
  sc_scan m = 144%nat.
Proof. eexists. split; reflexivity. Qed.

(** C80: every voltage between the ends of a sweep range is within the configured limits. *)
Theorem C80_measure : forall {W L I K} (c : config W L I K) s1 s2 v1 v2 res w m w' t,
  measure c s1 s2 v1 v2 res w = (Ok m, w') -> 0 <= t <= 1 ->
  let r1 := md_range1 (m_meta m) in let r2 := md_range2 (m_meta m) in
  within_limits (volt_limits_g1 c) (fst r1 + t * (snd r1 - fst r1)) /\
  within_limits (volt_limits_g2 c) (fst r2 + t * (snd r2 - fst r2)) /\
  (forall x, v1 = Some x -> within_limits (volt_limits_sensor_g1 c) x) /\
  (forall x, v2 = Some x -> within_limits (volt_limits_sensor_g2 c) x).
Proof. exact @measure_voltages. Qed.
Print Assumptions C80_measure.
Theorem C80_sensor_scan : forall {W L I K} (c : config W L I K) s1 s2 v1 v2 res w m w' t,
  measure_sensor_scan c s1 s2 v1 v2 res w = (Ok m, w') -> 0 <= t <= 1 ->
  let r1 := md_range1 (sc_meta m) in let r2 := md_range2 (sc_meta m) in
  within_limits (volt_limits_sensor_g1 c) (fst r1 + t * (snd r1 - fst r1)) /\
  within_limits (volt_limits_sensor_g2 c) (fst r2 + t * (snd r2 - fst r2)) /\
  (forall x, v1 = Some x -> within_limits (volt_limits_g1 c) x) /\
  (forall x, v2 = Some x -> within_limits (volt_limits_g2 c) x).
Proof. exact @scan_voltages. Qed.
Print Assumptions C80_sensor_scan.
Example C80_example : exists m w,
  measure (ex_config (Some (0, 1)) None false) [1; 0] [0; 1] None None (ResInt 3) [] = (Ok m, w) /\
  md_range1 (m_meta m) = (1, 0) /\ within_limits (Some (0, 1)) (1 + 1/2 * (0 - 1)).
Proof.
  unfold measure, check_measure, range_outside. cbn -[Rltb Rmin Rmax Rle Rplus Rmult Rminus Rdiv].
  rewrite ?Rmin_right, ?Rmax_left, ?(Rltb_false 0 0), ?(Rltb_false 1 1), ?(Rltb_false 1 0), ?(Rltb_false 0 1) by lra.
  eexists _, _. split; [reflexivity|]. split; [reflexivity|lra].
Qed.
