(** Properties of the warnings of simulations with a SensorScanSensorGeneric sensor. *)
From Verif Require Import RPrelude Arr ModelSupport ModelTct ModelCsd ModelJumps ModelDistortions ModelSampling ModelConfig ModelConfigCsd ModelSensor ModelSimulation ModelInstance ModelNoise
  ModelScanInstance ModelDefault ModelDefaultNoise ModelScanNoise ModelSampledSim ModelWarnings SpecSupport SpecSensor SpecSimulation SpecSampling SpecConfig SpecConfigCsd SpecSampledSim SpecWarnings SpecDistortions
  ProofsLabel ProofsAreas2 ProofsSampledSim2 ProofsScanNoise4 ProofsScanNoise5 ProofsWarnings ProofsWarnings2 ProofsWarnings3 ProofsWarnings4 ExamplesSensor ExamplesCsd ExamplesNoise ExamplesScanInstance ExamplesScanNoise ExamplesSampledSim ExamplesWarnings.
Local Open Scope R_scope.

(** C157 Keeping a list of the warnings changes nothing: calls return the same, raise the same and leave
    generator and objects in the same state. *)
Theorem C157_same {W L I K} (c : config W L I K) pot resp s1 s2 v1 v2 res w log :
  (same_outcome same_diagram (fst (measure (logged_config c pot resp) s1 s2 v1 v2 res (w, log))) (fst (measure c s1 s2 v1 v2 res w)) /\
   fst (snd (measure (logged_config c pot resp) s1 s2 v1 v2 res (w, log))) = snd (measure c s1 s2 v1 v2 res w)) /\
  (same_outcome same_scan (fst (logged_sensor_scan (logged_config c pot resp) s1 s2 v1 v2 res (w, log))) (fst (measure_sensor_scan c s1 s2 v1 v2 res w)) /\
   fst (snd (logged_sensor_scan (logged_config c pot resp) s1 s2 v1 v2 res (w, log))) = snd (measure_sensor_scan c s1 s2 v1 v2 res w)).
Proof. exact (same_results c pot resp s1 s2 v1 v2 res w log). Qed.
Print Assumptions C157_same.

(** A response with a negative pixel is never returned without a warning; *)
Theorem C157_negative s h p im ps h' i j x : scan_response s h p = Ok (im, ps, h') -> img_pix im i j x -> x < 0 -> In NegativeResponse (response_warnings s h p).
Proof. exact (warned_negative s h p im ps h' i j x). Qed.
Print Assumptions C157_negative.
(** sensors whose peaks and barriers are nonnegative never give this warning, and without deformations
    no warning at all, except that of a missing plunger voltage. *)
Theorem C157_quiet {G} (src : sources G) label lim1 lim2 lims1 lims2 x s occs pots resps s1 s2 v1 v2 res w : nonnegative_sensor s ->
  let conf := with_warnings s (noisy_scan_config src label lim1 lim2 lims1 lims2 x s occs pots resps) in
  (ss_deform s = [] -> snd (snd (measure conf s1 s2 v1 v2 res w)) = snd w) /\
  (x = None \/ (v1 <> None /\ v2 <> None) -> snd (snd (logged_sensor_scan conf s1 s2 v1 v2 res w)) = snd w).
Proof. exact (quiet_cases src label lim1 lim2 lims1 lims2 x s occs pots resps s1 s2 v1 v2 res w). Qed.
Print Assumptions C157_quiet.
(** So are the default configuration *)
Theorem C157_default {G} (src : sources G) label kernel radius pink white s s1 s2 v1 v2 res w : default_sensor_v2 = Ok s ->
  let conf := with_warnings s (default_noisy_v2 src label kernel radius pink white s) in
  snd (snd (measure conf s1 s2 v1 v2 res w)) = snd w /\ (v1 <> None -> v2 <> None -> snd (snd (logged_sensor_scan conf s1 s2 v1 v2 res w)) = snd w).
Proof. exact (default_log src label kernel radius pink white s s1 s2 v1 v2 res w). Qed.
Print Assumptions C157_default.
(** and all sampled ones. *)
Theorem C157_sampled {G} (r : rng G) choice (src : sources G) label draw kernel radius x c p s s1 s2 v1 v2 res w :
  uniform_ok r -> sampled r choice label x c -> sc_sensor c = SampledScan p -> sensor_of p = Ok s ->
  let conf := with_warnings s (sampled_scan src label draw kernel radius x c s) in
  snd (snd (measure conf s1 s2 v1 v2 res w)) = snd w /\ (v1 <> None -> v2 <> None -> snd (snd (logged_sensor_scan conf s1 s2 v1 v2 res w)) = snd w).
Proof. exact (sampled_log r choice src label draw kernel radius x c p s s1 s2 v1 v2 res w). Qed.
Print Assumptions C157_sampled.

(** Every returned diagram of a sensor with deformations comes with a warning; the one that they are not
    applied is given exactly if a plunger gate is really swept. *)
Theorem C157_deformed {G} (src : sources G) label lim1 lim2 lims1 lims2 x s occs pots resps a1 b1 a2 b2 v1 v2 res w m w' : ss_deform s <> [] ->
  measure (with_warnings s (noisy_scan_config src label lim1 lim2 lims1 lims2 x s occs pots resps)) [a1; b1] [a2; b2] v1 v2 res w = (Ok m, w') ->
  exists rest, snd w' = snd w ++ DeformedPlunger :: rest /\ (a1 <> b1 \/ a2 <> b2 <-> In DeformedSweep rest) /\
    (nonnegative_sensor s -> rest = [] \/ rest = [DeformedSweep]).
Proof. exact (measure_deformed src label lim1 lim2 lims1 lims2 x s occs pots resps a1 b1 a2 b2 v1 v2 res w m w'). Qed.
Print Assumptions C157_deformed.

(** A valid sensor scan warns exactly if there is an ideal CSD and the plunger voltages are missing; then it
    is the scan of a simulation without ideal CSD. *)
Theorem C157_request {G} (src : sources G) label lim1 lim2 lims1 lims2 x s occs pots resps s1 s2 v1 v2 res w : nonnegative_sensor s ->
  let plain := noisy_scan_config src label lim1 lim2 lims1 lims2 x s occs pots resps in
  let conf := with_warnings s plain in
  valid_scan plain s1 s2 v1 v2 res ->
  (snd (snd (logged_sensor_scan conf s1 s2 v1 v2 res w)) = snd w <-> x = None \/ v1 <> None) /\
  (x <> None -> v1 = None -> snd (snd (logged_sensor_scan conf s1 s2 v1 v2 res w)) = snd w ++ [IgnoredCsd None None] /\
     forall w0, same_outcome same_scan (fst (measure_sensor_scan plain s1 s2 v1 v2 res w0)) (fst (measure_sensor_scan (without_csd plain) s1 s2 v1 v2 res w0))).
Proof. exact (request_scan src label lim1 lim2 lims1 lims2 x s occs pots resps s1 s2 v1 v2 res w). Qed.
Print Assumptions C157_request.

(** The text of that warning does not show the voltages of the call: with the voltage of plunger gate 2
    only, it states that gate 1 is at this voltage (and the call raises ValueError afterwards). *)
Theorem C157_text_refuted {G} (src : sources G) label kernel radius pink white s a1 b1 a2 b2 y n w :
  -1 <= a1 <= 0.4 -> -1 <= b1 <= 0.4 -> -1 <= a2 <= 0.4 -> -1 <= b2 <= 0.4 -> -0.2 <= y <= -0.047 ->
  logged_sensor_scan (with_warnings s (default_noisy_v2 src label kernel radius pink white s)) [a1; b1] [a2; b2] None (Some y) (ResInt n) w =
  (Err ValueError, (fst w, snd w ++ [IgnoredCsd (Some y) (Some y)])).
Proof. exact (wrong_text src label kernel radius pink white s a1 b1 a2 b2 y n w). Qed.
Print Assumptions C157_text_refuted.

(** A sensor used alone warns exactly if it has deformations, the occupations are an array it accepts and at
    least one of the plunger voltages is a sweep. *)
Theorem C157_potential s occ v1 v2 :
  In DeformedPlunger (potential_warnings s occ v1 v2) <-> ss_deform s <> [] /\ occ <> OccOther /\ (is_sweep v1 = true \/ is_sweep v2 = true).
Proof. exact (potential_warned s occ v1 v2). Qed.
Print Assumptions C157_potential.

(** Dot jumps of a square scan warn exactly if they are drawn anew, occur, and their mean length is less
    than a pixel; *)
Theorem C157_jumps_partial {G} (binomial : G -> bool * G) sample_scale axis freeze sh lim1 lim2 g :
  square sh -> (axis = 0 \/ axis = 1)%Z -> (if (axis =? 1)%Z then fst lim1 <> snd lim1 else fst lim2 <> snd lim2) ->
  jump_warning binomial sample_scale axis freeze sh lim1 lim2 g = true <->
  freeze = false /\ fst (binomial g) = true /\ fst (sample_scale (snd (binomial g))) * px_per_volt sh lim1 lim2 axis < 1.
Proof. exact (jump_warned binomial sample_scale axis freeze sh lim1 lim2 g). Qed.
Print Assumptions C157_jumps_partial.
(** without a range of the gate there is an exception (C104) and no warning; *)
Theorem C157_jumps_fixed {G} (binomial : G -> bool * G) sample_scale axis freeze sh lim1 lim2 g : (axis = 0 \/ axis = 1)%Z ->
  (if (axis =? 1)%Z then fst lim1 = snd lim1 else fst lim2 = snd lim2) -> jump_warning binomial sample_scale axis freeze sh lim1 lim2 g = false.
Proof. exact (jump_fixed binomial sample_scale axis freeze sh lim1 lim2 g). Qed.
Print Assumptions C157_jumps_fixed.
(** after this warning no two neighbouring lines jump, as its text says; *)
Theorem C157_jumps_length {A G} isnan nan junk have_gen gen1 gen2 binomial sample_scale sample_lam geometric poisson axis freeze st (g : G) (s : scan A) lim1 lim2 s' st' g' :
  (forall n g0, fst (geometric 1 n g0) = repeat 1%nat n) ->
  jump_warning binomial sample_scale axis freeze (scan_shape s) lim1 lim2 g = true ->
  jump_noise_function isnan nan junk have_gen gen1 gen2 binomial sample_scale sample_lam geometric poisson axis freeze st g s lim1 lim2 = Ok (s', st', g') ->
  exists noise, js_noise st' = Some noise /\ forall i, Nat.even i = true -> nth i noise 0%nat = 0%nat.
Proof. exact (jump_lengths isnan nan junk have_gen gen1 gen2 binomial sample_scale sample_lam geometric poisson axis freeze st g s lim1 lim2 s' st' g'). Qed.
Print Assumptions C157_jumps_length.
(** but for other scans the rows are counted instead of the columns: jumps of more than 25 pixels are warned
    about and shortened, and jumps of less than a pixel are not warned about. *)
Theorem C157_jumps_refuted {G} (binomial : G -> bool * G) g : fst (binomial g) = true ->
  exists lim1 lim2 v, fst lim1 < snd lim1 /\ fst lim2 < snd lim2 /\
    (jump_warning binomial (fun g => (v, g)) 1 false (Shape2 2 100) lim1 lim2 g = true /\ 25 < v * px_per_volt (Shape2 2 100) lim1 lim2 1) /\
    (jump_warning binomial (fun g => (v, g)) 1 false (Shape2 100 2) lim1 lim2 g = false /\ v * px_per_volt (Shape2 100 2) lim1 lim2 1 < 1).
Proof. exact (jump_nonsquare binomial g). Qed.
Print Assumptions C157_jumps_refuted.

(** A diagram with a deformed sensor; a sensor with a negative peak; a scan without plunger voltages. *)
Example C157_example_deformed : exists m w',
  measure (with_warnings bent bent_csd) [0; 1] [0; 0] None None (ResInt 4) (start, []) = (Ok m, (w', [DeformedPlunger; DeformedSweep])).
Proof. exact bent_warned. Qed.
Example C157_example_negative : response_warnings (demo 0 [dip] []) (demo_hidden 0) (demo_pots 0 0) = [NegativeResponse].
Proof. exact dip_warned. Qed.
Example C157_example_request : snd (snd (logged_sensor_scan (with_warnings bent bent_csd) [0; 3] [0; 0] None None (ResInt 4) (start, []))) = [IgnoredCsd None None].
Proof. apply (C157_request demo_src component_label None None None None (Some default_csd) bent [] [] [] [0; 3] [0; 0] None None (ResInt 4) (start, []) bent_nonnegative); [apply bent_valid|discriminate|reflexivity]. Qed.
Example C157_example_sensor : exists s, default_sensor_v2 = Ok s /\ nonnegative_sensor s /\ ss_deform s = [].
Proof. destruct default_v2_made as [s E]. exists s. split; [exact E|exact (default_nonnegative s E)]. Qed.
Example C157_example_sampled : exists x c p s, sampled middle (fun a _ g => (a, g)) component_label x c /\ sc_sensor c = SampledScan p /\ sensor_of p = Ok s.
Proof. destruct sampled_scan_exists as (x & c & p & Smp & Hs). destruct (sensor_made p) as (s & _ & Made & _). exists x, c, p, s. auto. Qed.
Example C157_example_potential : In DeformedPlunger (potential_warnings bent (Occ1 (mk_arr1 2 (fun _ => (1, 0)))) (VSweep 0 1) (VFix 0)).
Proof. apply C157_potential. repeat split; [discriminate|discriminate|now left]. Qed.
Example C157_example_jumps : jump_warning (fun g : nat => (true, g)) (fun g => (1 / 100, g)) 0 false (Shape2 10 10) (0, 1) (0, 2) 0%nat = true.
Proof.
  apply C157_jumps_partial; [reflexivity|now left|cbn [Z.eqb fst snd]; lra|]. cbn [fst snd]. repeat split.
  unfold px_per_volt, pixels_along, range_along. cbn [Z.eqb fst snd]. rewrite INR_IZR_INZ, Rabs_pos_eq by lra. cbn [Z.of_nat Pos.of_succ_nat Pos.succ]. lra.
Qed.
