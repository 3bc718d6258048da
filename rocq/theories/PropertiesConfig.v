(** Properties of the configuration sampler. *)
From Verif Require Import RPrelude Arr ModelSupport SpecSupport ModelCsd ModelDistortions ModelSampling ModelSensor ModelSimulation ModelConfig
  SpecCsd SpecSampling SpecSensor SpecConfig ProofsSampling ProofsConfig ProofsShape ExamplesConfig.
Local Open Scope R_scope.

(** C50: sampled lever arms lie in the preset ranges, dot 2 couples half to twice as strongly as dot 1, an
    electron shifts the potential by at least two pixels' worth of the gate lever arm, and no draw fails
    because of an inverted interval. *)
Theorem C50_lever_arms {G} (r : rng G) q compensated g : uniform_ok r -> 0 < q <= 1 -> exists gates dots g',
  sample_lever_arms r q compensated g = (Ok (gates, dots), g') /\ consistent_arms q compensated gates dots.
Proof. intros U. exact (lever_arms_spec r U q compensated g). Qed.
Print Assumptions C50_lever_arms.

Example C50_example : exists gates dots g', sample_lever_arms middle 0.5 true tt = (Ok (gates, dots), g') /\ consistent_arms 0.5 true gates dots.
Proof. apply C50_lever_arms; [exact middle_ok|lra]. Qed.
(** A run with concrete numbers, and lever arms that are not consistent. *)
Example C50_run : sample_lever_arms relative_tape 1 false [0; 0; 0; 0] = (Ok ((0.02805, 0.014025), (-0.0007994, -0.0005214)), []).
Proof. exact (lever_arms_low []). Qed.
Example C50_not_all : ~ consistent_arms 1 false (0.1, 0.1) (-0.0005, -0.0001).
Proof. unfold consistent_arms. cbn. lra. Qed.

(** C51: the peaks of a sensor-scan sensor do not descend, all widths are positive and no height is
    negative; consecutive distances after the first one are 88.7 % to 106 % of the first distance. *)
Theorem C51_peak_list {G} (r : rng G) fuel n h base g ps g' : uniform_ok r ->
  add_scan_peaks r fuel n h base [] g = (Ok ps, g') -> length ps = n /\ scan_peaks_ok base ps.
Proof. intros U E. exact (add_scan_peaks_inv r fuel U n h base [] g ps g' E (no_peaks base)). Qed.
Print Assumptions C51_peak_list.

(** The peaks ascend strictly unless the first distance was drawn as zero. *)
Theorem C51_strictly_sorted {G} (r : rng G) fuel n h base g ps g' : uniform_ok r -> (2 <= n)%nat ->
  add_scan_peaks r fuel n h base [] g = (Ok ps, g') ->
  sorted_peaks (map lorentz_peak ps) <->
  (forall p q, nth_error ps 0 = Some p -> nth_error ps 1 = Some q -> lz_mu0 p <> lz_mu0 q).
Proof.
  intros U L E. destruct (add_scan_peaks_inv r fuel U n h base [] g ps g' E (no_peaks base)) as [N K].
  apply (scan_peaks_sorted base); [exact K|]. cbn in N. lia.
Qed.
Print Assumptions C51_strictly_sorted.

(** If the normal distribution never returns exactly zero, sampling the list never raises an exception. *)
Theorem C51_no_exception {G} (r : rng G) fuel n h base g e g' : uniform_ok r ->
  (forall m s g, fst (r_normal r m s g) <> 0) ->
  add_scan_peaks r fuel n h base [] g = (Err e, g') -> e = OutOfFuel.
Proof. intros U N E. exact (add_scan_peaks_err r fuel U n h base [] g e g' N E (no_peaks base)). Qed.
Print Assumptions C51_no_exception.

Example C51_example : exists ps, add_scan_peaks middle 1 25 0.07 (-0.1) [] tt = (Ok ps, tt) /\ length ps = 25%nat /\ scan_peaks_ok (-0.1) ps.
Proof.
  destruct (middle_peaks 25 0.07 (-0.1) [] ltac:(lra) (no_peaks _)) as (ps & E). exists ps. split; [exact E|].
  exact (C51_peak_list middle 1 25 0.07 (-0.1) tt ps tt middle_ok E).
Qed.
(** A width drawn as exactly zero is rejected by the peak. *)
Example C51_zero_width : fst (add_scan_peaks tape 1 1 0.07 (-0.1) [] [0; 0]) = Err ValueError.
Proof.
  unfold add_scan_peaks, add_scan_peak, normal_above, mbind, normal_above_loop. cbn. rewrite Rltb_false by lra. cbn. rewrite Rltb_false by lra.
  unfold lift, new_lorentz, raise_if. rewrite Rleb_true by lra. reflexivity.
Qed.

(** C52: all peaks of a generic sensor are more than range / (2 n) apart. *)
Theorem C52_distance {G} (r : rng G) choice fuel q compensated g gates dots lim ps g' : uniform_ok r -> choice_ok choice -> 0 < q <= 1 ->
  sample_generic_peaks r choice fuel q compensated g = (Ok (gates, dots, lim, ps), g') ->
  Forall (fun p => between_ends gates dots (lz_mu0 p)) ps /\
  apart (end_distance gates dots / (2 * INR (length ps))) (map lz_mu0 ps).
Proof.
  intros U C Q E. destruct (generic_peaks_spec r choice fuel U q compensated g gates dots lim ps g' C Q E) as (_ & _ & _ & A & B & _).
  split; [exact A|exact B].
Qed.
Print Assumptions C52_distance.

(** If the range is not a single point, then wherever fewer than n peaks are, admissible positions for
    another one fill an interval that is at least the fraction 1 / (4 n (n - 1)) of the range. *)
Theorem C52_admissible lo hi n earlier : lo < hi -> (2 <= n)%nat -> (length earlier < n)%nat ->
  exists a b, lo <= a /\ b <= hi /\ b - a = (hi - lo) / (4 * INR n * (INR n - 1)) /\
    forall x, a <= x <= b -> away ((hi - lo) / (2 * INR n)) earlier x.
Proof. exact (free_interval lo hi n earlier). Qed.
Print Assumptions C52_admissible.

(** The loop ends as soon as a draw after the first 999 is admissible. *)
Theorem C52_terminates {G} (r : rng G) fuel lo hi n earlier x g k : lo <= hi -> earlier <> [] -> (0 < n)%nat ->
  (999 <= k < fuel)%nat ->
  away ((hi - lo) / (2 * INR n)) earlier (fst (r_uniform r lo hi (after_draws r lo hi k g))) ->
  exists y g', place r fuel 0 lo hi n earlier x g = (Ok y, g').
Proof. intros L N P [K1 K2]. exact (place_live r (fun _ _ g => (0%nat, g)) 0 fuel 0 lo hi n earlier x g k L N P K2 K1). Qed.
Print Assumptions C52_terminates.

(** A peak is more than range / (1.5 n) away from the earlier ones unless 1000 positions were rejected. *)
Theorem C52_preferred {G} (r : rng G) fuel (draws : G -> nat) lo hi scale n ps g ps' p g' : ps <> [] ->
  (forall lo hi g, draws (snd (r_uniform r lo hi g)) = S (draws g)) ->
  add_generic_peak r fuel lo hi scale n ps g = (Ok (ps' ++ [p]), g') ->
  ps' = ps /\ (away ((hi - lo) / (INR n * 1.5)) (map lz_mu0 ps) (lz_mu0 p) \/ (draws g + 1004 <= draws g')%nat).
Proof. intros N D E. exact (preferred_distance r (fun _ _ g => (0%nat, g)) fuel draws lo hi scale n ps g ps' p g' N D E). Qed.
Print Assumptions C52_preferred.

(** The preferred distance cannot always be reached: these three of four peaks keep the required distance,
    but no fourth position is at the preferred one. *)
Theorem C52_preferred_refuted : apart ((1 - 0) / (INR 4 * 2)) [1 / 6; 1 / 2; 5 / 6] /\
  forall x, 0 <= x <= 1 -> ~ away ((1 - 0) / (INR 4 * 1.5)) [1 / 6; 1 / 2; 5 / 6] x.
Proof. exact (conj thirds_apart no_preferred). Qed.
Print Assumptions C52_preferred_refuted.

(** Nothing excludes lever arms for which both ends of the range have the same potential; sampling never
    returns then. *)
Theorem C52_degenerate_refuted : exists g gates dots g1,
  sample_lever_arms relative_tape 1 false g = (Ok (gates, dots), g1) /\ end_distance gates dots = 0 /\
  forall fuel choice, choice_ok choice -> fst (sample_generic_peaks relative_tape choice fuel 1 false g) = Err OutOfFuel.
Proof.
  exists [0; 0; 294 / 7033; 1133 / 1364]. do 3 eexists. split; [exact (lever_arms_degenerate [])|].
  assert (D : end_distance (0.02805, 0.014025) (-0.00077, -0.0004081) = 0).
  { rewrite end_distance_spec. unfold end_potentials. cbn [fst snd]. rewrite Rmax_left, Rmin_left by lra. lra. }
  split; [exact D|]. intros fuel choice C.
  exact (degenerate_never relative_tape choice fuel relative_ok 1 false _ _ _ _ C (lever_arms_degenerate []) D).
Qed.
Print Assumptions C52_degenerate_refuted.

(** The range of a compensated sensor is never a single point. *)
Theorem C52_compensated q gates dots : 0 < q <= 1 -> consistent_arms q true gates dots -> 0.0005 < end_distance gates dots.
Proof. exact (compensated_range q gates dots). Qed.
Print Assumptions C52_compensated.

Example C52_run : exists gates dots lim ps t,
  sample_generic_peaks relative_tape choose_first 1 1 false generic_tape = (Ok (gates, dots, lim, ps), t) /\
  map lz_mu0 ps = [fst lim; (fst lim + snd lim) / 2; snd lim].
Proof. exact run_generic. Qed.
Example C52_distance_example : exists gates dots ps, length ps = 3%nat /\ 0 < end_distance gates dots /\
  apart (end_distance gates dots / (2 * INR (length ps))) (map lz_mu0 ps).
Proof.
  destruct run_generic as (gates & dots & lim & ps & t & E & M). exists gates, dots, ps.
  destruct (C52_distance relative_tape choose_first 1 1 false _ _ _ _ _ _ relative_ok choose_first_ok ltac:(lra) E) as [_ A].
  assert (L : length ps = 3%nat) by (rewrite <- (map_length lz_mu0), M; reflexivity). split; [exact L|]. split; [|exact A].
  destruct (Rle_lt_dec (end_distance gates dots) 0) as [K|K]; [exfalso|exact K].
  assert (Z : end_distance gates dots = 0) by (apply Rle_antisym; [exact K|unfold end_distance, width; apply Rabs_pos]).
  unfold sample_generic_peaks in E. apply bind_ok in E. destruct E as ([ga dt] & g1 & E1 & E).
  assert (Eg : gates = ga /\ dots = dt).
  { apply bind_ok in E. destruct E as ([lo hi] & g2 & _ & E). apply bind_ok in E. destruct E as (n & g3 & _ & E).
    apply bind_ok in E. destruct E as (ps1 & g4 & _ & E). apply ret_inv in E. destruct E as [E _].
    apply pair_equal_spec in E. destruct E as [E _]. apply pair_equal_spec in E. destruct E as [E _].
    apply pair_equal_spec in E. destruct E as [<- <-]. split; reflexivity. }
  destruct Eg as [-> ->]. pose proof (degenerate_never relative_tape choose_first 1 relative_ok 1 false _ _ _ _ choose_first_ok E1 Z) as D.
  unfold sample_generic_peaks in D. rewrite (bind_go _ _ _ _ _ E1), E in D. discriminate.
Qed.
Example C52_admissible_example : exists a b, 0 <= a /\ b <= 1 /\ b - a = (1 - 0) / (4 * INR 4 * (INR 4 - 1)) /\
  forall x, a <= x <= b -> away ((1 - 0) / (2 * INR 4)) [1 / 6; 1 / 2; 5 / 6] x.
Proof. apply C52_admissible; [lra|lia|cbn; lia]. Qed.

(** C53: a sampled barrier has its pinch-off exactly at the requested potential. There it has the requested
    percentage of its height, it is strictly increasing and stays between 0 and its height. *)
Theorem C53_pinch_off {G} (r : rng G) fuel off height q pinch full g p b g' : uniform_ok r ->
  0 < height * q -> 0 < pinch < 1 -> 0 < full < 1 ->
  sample_simple_barrier r fuel off height q pinch full g = (Ok (p, b), g') ->
  pinch_off b = off /\ get_value b off = pinch * (height * q) /\
  get_value b (fully_conductive b) = full * (height * q) /\ (pinch < full -> off < fully_conductive b) /\
  (forall x, 0 < get_value b x < height * q) /\ (forall x y, x < y -> get_value b x < get_value b y).
Proof.
  intros U H P F E. destruct (barrier_spec r fuel U off height q pinch full g p b g' H P F E) as (A1 & A2 & A3 & A4 & A5 & A6 & _).
  split; [exact A1|]. split; [exact A2|]. split; [exact A3|]. split; [exact A4|]. split; [exact A5|exact A6].
Qed.
Print Assumptions C53_pinch_off.

(** Sampling a barrier never raises an exception. *)
Theorem C53_no_exception {G} (r : rng G) fuel off height q pinch full g e g' : uniform_ok r ->
  sample_simple_barrier r fuel off height q pinch full g = (Err e, g') -> e = OutOfFuel.
Proof. intros U. exact (barrier_err r fuel U off height q pinch full g e g'). Qed.
Print Assumptions C53_no_exception.

Example C53_example : exists p b, sample_simple_barrier middle 1 (-0.6) 0.25 1 0.001 0.999 tt = (Ok (p, b), tt) /\
  pinch_off b = -0.6 /\ -0.6 < fully_conductive b.
Proof.
  destruct (middle_barrier (-0.6) 0.25 1 0.001 0.999) as (p & b & E). exists p, b. split; [exact E|].
  destruct (C53_pinch_off middle 1 (-0.6) 0.25 1 0.001 0.999 tt p b tt middle_ok ltac:(lra) ltac:(lra) ltac:(lra) E) as (A & _ & _ & B & _).
  split; [exact A|]. apply B. lra.
Qed.

(** C54: every sampled configuration contains the distortions sampled with multiplier 1, whatever the
    multiplier, so the multiplier does not restrict them. *)
Theorem C54_multiplier_refuted {G C} (r : rng G) choice fuel (sample_csd : action G C) kind q compensated steepest g csd c g' :
  sample_config r choice fuel sample_csd kind q compensated steepest g = (Ok (csd, c), g') ->
  sc_occupation c = sample_occupation_distortions 1 /\ sc_potential c = sample_potential_distortions 1 /\
  sc_response c = sample_response_distortions 1 /\
  (q <> 1 -> sc_potential c <> sample_potential_distortions q /\ sc_response c <> sample_response_distortions q).
Proof.
  intros E. destruct (config_result r choice fuel sample_csd kind q compensated steepest g csd c g' E) as (_ & _ & _ & _ & _ & _ & A & B & D).
  split; [exact A|]. split; [exact B|]. split; [exact D|]. rewrite B, D. intros N. split; intros K; apply N.
  - apply potential_multiplier. symmetry. exact K.
  - apply response_multiplier. symmetry. exact K.
Qed.
Print Assumptions C54_multiplier_refuted.

(** The sampler of the occupation distortions ignores its multiplier altogether. *)
Theorem C54_occupation_refuted q : sample_occupation_distortions q = sample_occupation_distortions 1.
Proof. reflexivity. Qed.
Print Assumptions C54_occupation_refuted.

(** Everything else of the configuration: the multiplier is checked, it is used for the sensor, an unknown
    sensor type is rejected, and the voltage limits are the preset ones. *)
Theorem C54_checked {G C} (r : rng G) choice fuel (sample_csd : action G C) kind q compensated steepest g : ~ 0 < q <= 1 ->
  sample_config r choice fuel sample_csd kind q compensated steepest g = (Err ValueError, g).
Proof. exact (config_range r choice fuel sample_csd kind q compensated steepest g). Qed.
Print Assumptions C54_checked.
Theorem C54_unknown_sensor {G C} (r : rng G) choice fuel (sample_csd : action G C) q compensated steepest g csd g1 :
  0 < q <= 1 -> sample_csd g = (Ok csd, g1) ->
  sample_config r choice fuel sample_csd ChooseOther q compensated steepest g = (Err ValueError, g1).
Proof. exact (config_unknown r choice fuel sample_csd q compensated steepest g csd g1). Qed.
Print Assumptions C54_unknown_sensor.
Theorem C54_sensor {G C} (r : rng G) choice fuel (sample_csd : action G C) kind q compensated steepest g csd c g' :
  sample_config r choice fuel sample_csd kind q compensated steepest g = (Ok (csd, c), g') ->
  (exists g1 g2, sample_csd g = (Ok csd, g1) /\
    match sc_sensor c with
    | SampledGeneric s => kind = ChooseGeneric /\ sample_sensor_generic r choice fuel q compensated steepest g1 = (Ok s, g2)
    | SampledScan s => kind = ChooseScan /\ sample_scan_sensor r fuel q compensated g1 = (Ok s, g2)
    end) /\
  sc_limits_g1 c = (-0.2, -0.06) /\ sc_limits_g2 c = (-0.2, -0.06) /\
  sc_limits_sensor_g1 c = (-1, 0) /\ sc_limits_sensor_g2 c = (-1, 0).
Proof.
  intros E. destruct (config_result r choice fuel sample_csd kind q compensated steepest g csd c g' E) as (_ & A & B1 & B2 & B3 & B4 & _).
  split; [exact A|]. split; [exact B1|]. split; [exact B2|]. split; [exact B3|exact B4].
Qed.
Print Assumptions C54_sensor.

Example C54_example : exists c, sample_config middle (fun a _ g => (a, g)) 1 (ret tt) ChooseScan 0.5 true false tt = (Ok (tt, c), tt) /\
  sc_potential c <> sample_potential_distortions 0.5.
Proof.
  destruct (run_config 0.5 true ltac:(lra)) as (c & E). exists c. split; [exact E|].
  destruct (C54_multiplier_refuted middle _ 1 (ret tt) ChooseScan 0.5 true false tt tt c tt E) as (_ & _ & _ & K). apply K. lra.
Qed.

(** C84: a sampled generic sensor has three to six peaks between the potentials of the ends of the plunger
    range, with heights and offsets within 20 % of those of the first peak. *)
Theorem C84_generic_sensor {G} (r : rng G) choice fuel q compensated steepest g s g' : uniform_ok r -> choice_ok choice -> 0 < q <= 1 ->
  sample_sensor_generic r choice fuel q compensated steepest g = (Ok s, g') ->
  exists ps ks, gs_peaks s = Some ks /\ Forall2 has_shape ps ks /\ consistent_arms q compensated (gs_gate s) (gs_dot s) /\
    (3 <= length ps <= 6)%nat /\ similar_peaks ps /\ Forall (fun p => between_ends (gs_gate s) (gs_dot s) (lz_mu0 p)) ps /\
    apart (end_distance (gs_gate s) (gs_dot s) / (2 * INR (length ps))) (map lz_mu0 ps) /\
    (steepest = false -> gs_offset s = 0).
Proof. exact (generic_shape r choice fuel q compensated steepest g s g'). Qed.
Print Assumptions C84_generic_sensor.

(** Sampling a generic sensor never raises an exception. *)
Theorem C84_no_exception {G} (r : rng G) choice fuel q compensated steepest g e g' : uniform_ok r -> choice_ok choice -> 0 < q <= 1 ->
  sample_sensor_generic r choice fuel q compensated steepest g = (Err e, g') -> e = OutOfFuel.
Proof. exact (sensor_generic_err r choice fuel q compensated steepest g e g'). Qed.
Print Assumptions C84_no_exception.

Example C84_example : exists s ps, gs_peaks s = Some (map lorentz_peak ps) /\ length ps = 3%nat /\ gs_offset s = 0 /\ similar_peaks ps /\
  exists t, sample_sensor_generic relative_tape choose_first 1 1 false false generic_tape = (Ok s, t).
Proof.
  destruct run_generic as (gates & dots & [lo hi] & ps & t & E & M).
  assert (R : sample_sensor_generic relative_tape choose_first 1 1 false false generic_tape =
    (Ok (mk_generic (Some (map lorentz_peak ps)) dots gates 0), t)).
  { unfold sample_sensor_generic. rewrite (bind_go _ _ _ _ _ E). reflexivity. }
  exists (mk_generic (Some (map lorentz_peak ps)) dots gates 0), ps. split; [reflexivity|].
  split; [rewrite <- (map_length lz_mu0), M; reflexivity|]. split; [reflexivity|].
  destruct (generic_peaks_spec relative_tape choose_first 1 relative_ok 1 false _ _ _ _ _ _ choose_first_ok ltac:(lra) E) as (_ & _ & S & _).
  split; [exact S|]. exists t. exact R.
Qed.

(** C85: with the final voltage, the offset is the first sample at which the sampled response rises most. *)
Theorem C85_steepest {G} (r : rng G) choice fuel q compensated g s g' : uniform_ok r -> choice_ok choice -> 0 < q <= 1 ->
  sample_sensor_generic r choice fuel q compensated true g = (Ok s, g') ->
  exists ps, gs_peaks s = Some ps /\
  let e := end_potentials (gs_gate s) (gs_dot s) in let m := 0.2 * end_distance (gs_gate s) (gs_dot s) in
  let n := Z.to_nat 1000000 in
  let x := pixel_voltage (Rmin (fst e) (snd e) - m, Rmax (fst e) (snd e) + m) n in
  let slope := sample_slope (fun i => Rsum (map (fun p => peak_fun p (mu0 p) (x i)) ps)) n in
  exists k, (k < n)%nat /\ gs_offset s = x k /\ (forall i, (i < n)%nat -> slope i <= slope k) /\
    forall i, (i < k)%nat -> slope i < slope k.
Proof. exact (sensor_steepest_spec r choice fuel q compensated g s g'). Qed.
Print Assumptions C85_steepest.

Example C85_example : exists s t, sample_sensor_generic relative_tape choose_first 1 1 false true generic_tape = (Ok s, t).
Proof.
  destruct run_generic as (gates & dots & [lo hi] & ps & t & E & M). eexists. exists t.
  unfold sample_sensor_generic. rewrite (bind_go _ _ _ _ _ E). reflexivity.
Qed.
(** The sample with the largest slope of five samples. *)
Example C85_slopes : np_argmax (np_gradient (fun i => nth i [0; 1; 3; 4; 0] 0) 5) 4 = 1%nat.
Proof.
  unfold np_argmax, np_gradient. cbn [nth Nat.eqb Nat.sub Nat.add].
  rewrite !(Rltb_true (1 - 0) ((3 - 0) / 2)) by lra. cbn [nth Nat.eqb Nat.sub Nat.add].
  rewrite !(Rltb_false ((3 - 0) / 2) ((4 - 1) / 2)) by lra. cbn [nth Nat.eqb Nat.sub Nat.add].
  rewrite !(Rltb_false ((3 - 0) / 2) ((0 - 3) / 2)) by lra. cbn [nth Nat.eqb Nat.sub Nat.add].
  rewrite !(Rltb_false ((3 - 0) / 2) (0 - 4)) by lra. reflexivity.
Qed.

(** C86: a sampled sensor-scan sensor: the larger lever arm of the sensor dot is 0.1, both barriers are at
    their pinch-off at the base point, and the first of 20 to 30 peaks is 0.05 below the potential there. *)
Theorem C86_scan_sensor {G} (r : rng G) fuel q compensated g s g' : uniform_ok r -> 0 < q <= 1 ->
  sample_scan_sensor r fuel q compensated g = (Ok s, g') ->
  let b := sp_base s in
  scan_lever_arms (sp_sensor_gate s) /\ consistent_arms q compensated (sp_gates s) (sp_dots s) /\
  (-0.688 <= fst b <= -0.509 /\ -0.688 <= snd b <= -0.509) /\
  scan_peaks_ok (gate_potential (row0 (sp_sensor_gate s)) b - 0.05) (sp_peaks s) /\ (20 <= length (sp_peaks s) <= 30)%nat /\
  (forall bar row, (bar, row) = (sp_barrier1 s, row1 (sp_sensor_gate s)) \/ (bar, row) = (sp_barrier2 s, row2 (sp_sensor_gate s)) ->
     pinch_off bar = gate_potential row b /\ get_value bar (gate_potential row b) = 0.00025 * q /\
     pinch_off bar < fully_conductive bar /\ get_value bar (fully_conductive bar) = 0.24975 * q /\
     (forall x, 0 < get_value bar x < 0.25 * q) /\ (forall x y, x < y -> get_value bar x < get_value bar y)).
Proof. intros U. exact (scan_sensor_spec r fuel U q compensated g s g'). Qed.
Print Assumptions C86_scan_sensor.

(** If the normal distribution never returns exactly zero, sampling the sensor never raises an exception. *)
Theorem C86_no_exception {G} (r : rng G) fuel q compensated g e g' : uniform_ok r -> 0 < q <= 1 ->
  (forall m s g, fst (r_normal r m s g) <> 0) ->
  sample_scan_sensor r fuel q compensated g = (Err e, g') -> e = OutOfFuel.
Proof. intros U. exact (scan_sensor_err r fuel U q compensated g e g'). Qed.
Print Assumptions C86_no_exception.

Example C86_example : exists s, sample_scan_sensor middle 1 0.5 true tt = (Ok s, tt) /\
  pinch_off (sp_barrier1 s) = gate_potential (row1 (sp_sensor_gate s)) (sp_base s).
Proof.
  destruct (run_scan 0.5 true ltac:(lra)) as (s & E). exists s. split; [exact E|].
  destruct (C86_scan_sensor middle 1 0.5 true tt s tt middle_ok ltac:(lra) E) as (_ & _ & _ & _ & _ & K).
  exact (proj1 (K _ _ (or_introl eq_refl))).
Qed.
(** A ratio of the lever arms that is drawn as exactly zero ends in a division by zero. *)
Example C86_zero_ratio : fst (sample_scan_sensor tape 1 1 true [0]) = Err ZeroDivisionError.
Proof.
  unfold sample_scan_sensor, mbind, sample, sample_parameter. cbn. rewrite !Rltb_false by lra. cbn.
  destruct (Reqb_spec 0 0); [reflexivity|lra].
Qed.

(** C87: the final rise of the sensor function ends 5 % above the largest sampled response of the peaks. *)
Theorem C87_rise {G} (r : rng G) fuel off q g ps rise g' : uniform_ok r ->
  sample_sensor_function r fuel off q g = (Ok (ps, rise), g') ->
  (20 <= length ps <= 30)%nat /\
  (let n := Z.to_nat 500000 in let y i := Rsum (map (fun p => lorentz_value p (pixel_voltage (-5, 5) n i)) ps) in
   (forall i, (i < n)%nat -> 1.05 * y i <= asymptote_right (rise_glf rise)) /\
   exists i, (i < n)%nat /\ asymptote_right (rise_glf rise) = 1.05 * y i) /\
  asymptote_left (rise_glf rise) = 0 /\ 0 <= asymptote_right (rise_glf rise) /\ denominator_offset (rise_glf rise) = 1 /\
  400 <= growth_rate (rise_glf rise) <= 600 /\ 0.01 <= asymmetry (rise_glf rise) <= 1 /\
  0.01 <= shape_factor (rise_glf rise) <= 100 /\ rise_percentage rise = 0.95.
Proof. exact (rise_shape r fuel off q g ps rise g'). Qed.
Print Assumptions C87_rise.

Example C87_example : exists ps rise, sample_sensor_function middle 1 (-0.1) 0.5 tt = (Ok (ps, rise), tt) /\ asymptote_left (rise_glf rise) = 0.
Proof.
  destruct (middle_function (-0.1) 0.5 ltac:(lra)) as (ps & rise & E). exists ps, rise. split; [exact E|].
  destruct (C87_rise middle 1 (-0.1) 0.5 tt ps rise tt middle_ok E) as (_ & _ & K & _). exact K.
Qed.
