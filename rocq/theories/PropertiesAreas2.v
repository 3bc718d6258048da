(** C143 for sampled sensors. *)
From Verif Require Import RPrelude Arr ModelSupport ModelTct ModelCsd ModelSampling ModelSensor ModelSimulation ModelInstance ModelScanInstance ModelConfig ModelSampledSim
  SpecSupport SpecCsd SpecSampling SpecSensor SpecInstance SpecScanInstance SpecConfig SpecAreas ProofsAreas3 ExamplesConfig ExamplesAreas.
Local Open Scope R_scope.

(** Sampled sensor-scan sensors with at least one visible peak: area 0 is where a barrier is not above its pinch-off, and conducts less than a
    thousandth of a barrier; with equal plunger voltages and occupations and lever arms of similar size everything with fully open barriers is in
    area 2 and conducts like open barriers in series with the risen sensor dot. *)
Theorem C143_sampled {G} (r : rng G) fuel label lim1 lim2 lims1 lims2 x q compensated g p g' s pk a1 b1 a2 b2 v1 v2 res st m st' w y c k :
  uniform_ok r -> 0 < q <= 1 -> sample_scan_sensor r fuel q compensated g = (Ok p, g') -> sensor_of p = Ok s -> In pk (sp_peaks p) -> 0 < lz_height pk ->
  measure_sensor_scan (scan_config label lim1 lim2 lims1 lims2 x s) [a1; b1] [a2; b2] v1 v2 res st = (Ok m, st') ->
  labelled_value (sc_scan m) (sc_labels m) (a1, b1) (a2, b2) w y c k ->
  0 < y < 0.25 * q /\ (c = 0%nat -> y < 0.00025 * q) /\
  exists o po, plunger_occupation label x v1 v2 o /\ pot_spec s o (plunger v1, plunger v2) w po /\
    (c = 0%nat <-> at_barrier1 po <= pinch_off (ss_barrier1 s) \/ at_barrier2 po <= pinch_off (ss_barrier2 s)) /\
    (plunger v1 = plunger v2 -> fst o = snd o -> 0.31 <= snd (row0 (ss_sensor s)) / fst (row0 (ss_sensor s)) <= 1 / 0.31 ->
     fully_conductive (ss_barrier1 s) < at_barrier1 po -> fully_conductive (ss_barrier2 s) < at_barrier2 po ->
     c = 2%nat /\ 1 / (1 / (0.95 * asymptote_right (rise_glf (sp_rise p))) + 2 / (0.24975 * q)) < y).
Proof. intros U. exact (sampled_areas r fuel U label lim1 lim2 lims1 lims2 x q compensated g p g' s pk a1 b1 a2 b2 v1 v2 res st m st' w y c k). Qed.
Print Assumptions C143_sampled.

Example C143_sampled_example : exists p s pk, sample_scan_sensor middle 1 0.5 true tt = (Ok p, tt) /\ sensor_of p = Ok s /\
  In pk (sp_peaks p) /\ 0 < lz_height pk.
Proof. apply middle_visible. lra. Qed.
