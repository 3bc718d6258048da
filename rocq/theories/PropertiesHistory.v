(** Properties of measurements that follow other measurements. *)
From Verif Require Import RPrelude Arr ModelSupport ModelTct ModelCsd ModelJumps ModelDistortions ModelSensor ModelSimulation ModelInstance
  ModelNoise ModelScanInstance ModelDefault ModelDefaultNoise ModelScanNoise SpecNoise SpecHistory ProofsLabel ProofsHistory ExamplesNoise ExamplesHistory.
Local Open Scope R_scope.

(** C144 What earlier measurements left in the distortion objects and in the sensor does not matter *)
Theorem C144_measure {G} (src : sources G) label lim1 lim2 x s occs pots resps s1 s2 v1 v2 res (w w' : noise_world G) :
  w_rng w = w_rng w' ->
  let c := noisy_config src label lim1 lim2 x s occs pots resps in
  same_diagram w_rng (measure c s1 s2 v1 v2 res w) (measure c s1 s2 v1 v2 res w').
Proof. exact (measure_twin src label lim1 lim2 x s occs pots resps s1 s2 v1 v2 res w w'). Qed.
Print Assumptions C144_measure.
Theorem C144_measure_scan_sensor {G} (src : sources G) label lim1 lim2 lims1 lims2 x s occs pots resps s1 s2 v1 v2 res (w w' : scan_world G) :
  w_rng (fst w) = w_rng (fst w') ->
  let c := noisy_scan_config src label lim1 lim2 lims1 lims2 x s occs pots resps in
  same_diagram (fun w => w_rng (fst w)) (measure c s1 s2 v1 v2 res w) (measure c s1 s2 v1 v2 res w').
Proof. exact (scan_measure_twins src label lim1 lim2 lims1 lims2 x s occs pots resps s1 s2 v1 v2 res w w'). Qed.
Print Assumptions C144_measure_scan_sensor.
Theorem C144_sensor_scan {G} (src : sources G) label lim1 lim2 lims1 lims2 x s occs pots resps s1 s2 v1 v2 res (w w' : scan_world G) :
  w_rng (fst w) = w_rng (fst w') ->
  let c := noisy_scan_config src label lim1 lim2 lims1 lims2 x s occs pots resps in
  same_sensor_scan (fun w => w_rng (fst w)) (measure_sensor_scan c s1 s2 v1 v2 res w) (measure_sensor_scan c s1 s2 v1 v2 res w').
Proof. exact (sensor_scan_twins src label lim1 lim2 lims1 lims2 x s occs pots resps s1 s2 v1 v2 res w w'). Qed.
Print Assumptions C144_sensor_scan.

(** The default configuration: fresh, and after jumps and blurring were drawn. *)
Example C144_example :
  let c := default_noisy demo_src component_label gaussian_kernel gaussian_radius (fixed_param 0.00005) (fixed_param 0.001) in
  used_world <> fresh_world /\ exists m w m' w',
  measure c [-0.2; -0.087] [-0.2; -0.047] None None (ResArray [100; 100]%Z) fresh_world = (Ok m, w) /\
  measure c [-0.2; -0.087] [-0.2; -0.047] None None (ResArray [100; 100]%Z) used_world = (Ok m', w') /\
  m_csd m' = m_csd m /\ m_occ m' = m_occ m /\ m_lead m' = m_lead m.
Proof. exact used_whole_range. Qed.
