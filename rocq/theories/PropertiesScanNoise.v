(** Properties of measurements with a SensorScanSensorGeneric sensor and distortions, and of the default
    configuration GaAs_v2_extended_sensor. *)
From Verif Require Import RPrelude Arr ModelSupport ModelTct ModelCsd ModelJumps ModelDistortions ModelSensor ModelSimulation ModelInstance
  ModelNoise ModelScanInstance ModelDefault ModelDefaultNoise ModelScanNoise SpecDistortions SpecTct SpecCsd SpecSensor SpecSimulation SpecInstance SpecNoise SpecScanInstance
  SpecDefaultNoise SpecScanNoise ProofsLabel ProofsDefaultNoise ProofsScanNoise2 ProofsScanNoise4 ProofsScanNoise5 ProofsLines ExamplesSensor ExamplesCsd ExamplesNoise
  ExamplesDefaultNoise ExamplesScanInstance ExamplesScanNoise.
Local Open Scope R_scope.

(** C111 In a sensor scan the potential distortions add noise to each of the three potentials and the response
    distortions add noise to the response. The noises depend only on the shape, the ranges and the generator,
    not on the sensor, the plunger voltages or the ideal data; those of the response get the range of
    sensor gate 1 for both gates (C116). *)
Theorem C111_superposition {G} (src : sources G) label (pots resps : list (image_noise G)) : sources_ok src ->
  exists (np : shape -> limits -> limits -> G -> result (list R * list R * list R * G)) (nr : shape -> limits -> limits -> G -> result (list R * G)),
  (forall sh l1 l2 g g' z0 z1 z2, np sh l1 l2 g = Ok (z0, z1, z2, g') ->
     length z0 = shape_size sh /\ length z1 = shape_size sh /\ length z2 = shape_size sh) /\
  (forall sh l1 l2 g g' z, nr sh l1 l2 g = Ok (z, g') -> length z = shape_size sh) /\
  forall lim1 lim2 lims1 lims2 x s occs a1 b1 a2 b2 v1 v2 res w w' m, ss_deform s = [] ->
  measure_sensor_scan (noisy_scan_config src label lim1 lim2 lims1 lims2 x s occs pots resps) [a1; b1] [a2; b2] v1 v2 res w = (Ok m, w') ->
  exists z0 z1 z2 g zr o off, let sh := image_shape (sc_scan m) in
    requested res sh /\ np sh (a1, b1) (a2, b2) (w_rng (fst w)) = Ok (z0, z1, z2, g) /\ nr sh (a1, b1) (a1, b1) g = Ok (zr, w_rng (fst w')) /\
    plunger_occupation label x v1 v2 o /\
    (ss_rise s <> None -> exists full q, (points_exist s o -> full_point s o (plunger v1, plunger v1) full) /\
       pot_spec s o (plunger v1, plunger v1) full q /\ off = at_sensor q) /\
    forall k u y, scan_pixel (sc_scan m) (a1, b1) (a2, b2) k u y -> exists q, pot_spec s o (plunger v1, plunger v2) u q /\
      noisy_value s off q (nth k z0 0) (nth k z1 0) (nth k z2 0) (nth k zr 0) y.
Proof. intros Sok. exact (noisy_scan_values src Sok label pots resps). Qed.
Print Assumptions C111_superposition.

(** All noises are 1: the dot conducts 1/2 instead of 1 and the pixel shows 1/4 + 1 instead of 1/3 (C93). *)
Example C111_example : exists m w', measure_sensor_scan one_noise [0; 3] [0; 0] None None (ResInt 4) start = (Ok m, w') /\
  scan_pixel (sc_scan m) (0, 3) (0, 0) 0 (0, 0) (5 / 4).
Proof. exact ones_measured. Qed.

(** C112 The labels of a sensor scan do not depend on the noise: they are those of the scan without
    distortions, which succeeds whenever the noisy one does; occupation distortions are not used in sensor scans. *)
Theorem C112_labels {G} (src : sources G) label lim1 lim2 lims1 lims2 x s occs pots resps s1 s2 v1 v2 res w w' m : sources_ok src ->
  measure_sensor_scan (noisy_scan_config src label lim1 lim2 lims1 lims2 x s occs pots resps) s1 s2 v1 v2 res w = (Ok m, w') ->
  (forall st m0 st', measure_sensor_scan (scan_config label lim1 lim2 lims1 lims2 x s) s1 s2 v1 v2 res st = (Ok m0, st') -> sc_labels m0 = sc_labels m) /\
  (ss_deform s = [] -> forall st, exists m0, measure_sensor_scan (scan_config label lim1 lim2 lims1 lims2 x s) s1 s2 v1 v2 res st = (Ok m0, snd w') /\
     image_shape (sc_scan m0) = image_shape (sc_scan m)) /\
  w_sigma (fst w') = w_sigma (fst w) /\ w_jump (fst w') = w_jump (fst w).
Proof. intros Sok. exact (noisy_scan_labels src Sok label lim1 lim2 lims1 lims2 x s occs pots resps s1 s2 v1 v2 res w w' m). Qed.
Print Assumptions C112_labels.

(** The scan of C111 has the labels of the one of C93. *)
Example C112_example : exists m w' m0 st', measure_sensor_scan one_noise [0; 3] [0; 0] None None (ResInt 4) start = (Ok m, w') /\
  measure_sensor_scan (scan_config component_label None None None None None (demo 0 [lorentz_peak] [])) [0; 3] [0; 0] None None (ResInt 4) None = (Ok m0, st') /\
  sc_labels m0 = sc_labels m.
Proof.
  destruct ones_measured as (m & w' & E & _). destruct (C112_labels _ _ _ _ _ _ _ _ _ _ _ _ _ _ _ _ _ _ _ demo_src_ok E) as (H & F & _).
  destruct (F eq_refl None) as (m0 & E0 & _). exists m, w', m0, (snd w'). split; [exact E|]. split; [exact E0|]. exact (H _ _ _ E0).
Qed.

(** C113 In a diagram likewise; the occupations are those of a measurement with a SensorGeneric sensor and any
    other potential and response distortions. *)
Theorem C113_diagrams {G} (src : sources G) label (pots resps : list (image_noise G)) : sources_ok src ->
  exists (np : shape -> limits -> limits -> G -> result (list R * list R * list R * G)) (nr : shape -> limits -> limits -> G -> result (list R * G)),
  (forall sh l1 l2 g g' z0 z1 z2, np sh l1 l2 g = Ok (z0, z1, z2, g') ->
     length z0 = shape_size sh /\ length z1 = shape_size sh /\ length z2 = shape_size sh) /\
  (forall sh l1 l2 g g' z, nr sh l1 l2 g = Ok (z, g') -> length z = shape_size sh) /\
  forall lim1 lim2 lims1 lims2 x s occs a1 b1 a2 b2 v1 v2 res w w' m, config_ok label x -> ss_deform s = [] \/ a1 <> b1 \/ a2 <> b2 ->
  measure (noisy_scan_config src label lim1 lim2 lims1 lims2 (Some x) s occs pots resps) [a1; b1] [a2; b2] v1 v2 res w = (Ok m, w') ->
  exists sh g0 z0 z1 z2 g zr off,
    requested res sh /\ image_shape (m_csd m) = sh /\ shape_of_occ (m_occ m) = Some sh /\ (occs = [] -> g0 = w_rng (fst w)) /\
    np sh (a1, b1) (a2, b2) g0 = Ok (z0, z1, z2, g) /\ nr sh (a1, b1) (a2, b2) g = Ok (zr, w_rng (fst w')) /\
    (ss_rise s <> None -> exists o1 pt q, first_occ (m_occ m) = Ok o1 /\ pot_spec s o1 (a1, a2) pt q /\
       (points_exist s o1 -> a1 = b1 \/ a2 = b2 -> full_point s o1 (a1, a2) pt) /\ off = at_sensor q) /\
    forall k v o y, csd_pixel (m_csd m) (m_occ m) (a1, b1) (a2, b2) k v o y -> exists q, pot_spec s o v (plunger v1, plunger v2) q /\
      noisy_value s off q (nth k z0 0) (nth k z1 0) (nth k z2 0) (nth k zr 0) y.
Proof. intros Sok. exact (noisy_csd_values src Sok label pots resps). Qed.
Print Assumptions C113_diagrams.
Theorem C113_occupations {G} (src : sources G) label lim1 lim2 lims1 lims2 x s occs pots resps lim1' lim2' s' pots' resps' s1 s2 v1 v2 v1' v2' res w w' m m' n' :
  sources_ok src ->
  measure (noisy_scan_config src label lim1 lim2 lims1 lims2 (Some x) s occs pots resps) s1 s2 v1 v2 res w = (Ok m, w') ->
  measure (noisy_config src label lim1' lim2' x s' occs pots' resps') s1 s2 v1' v2' res (fst w) = (Ok m', n') ->
  m_occ m = m_occ m' /\ m_lead m = m_lead m'.
Proof. intros Sok. exact (same_occupations src Sok label lim1 lim2 lims1 lims2 x s occs pots resps lim1' lim2' s' pots' resps' s1 s2 v1 v2 v1' v2' res w w' m m' n'). Qed.
Print Assumptions C113_occupations.

(** The dot conducts 1/5 with the noise of the potential. *)
Example C113_example : exists m w', measure one_csd [0; 0] [0; 1] None None (ResInt 2) start = (Ok m, w') /\
  exists o, csd_pixel (m_csd m) (m_occ m) (0, 0) (0, 1) 1 (0, 1) o (1 / 7 + 1).
Proof. exact ones_csd. Qed.

(** C114 GaAs_v2_extended_sensor: the sensor is constructed, *)
Theorem C114_constructed : exists s, default_sensor_v2 = Ok s.
Proof. exact default_v2_made. Qed.
Print Assumptions C114_constructed.
(** and diagrams never raise: 2D ones with pixels of at most 4 mV *)
Theorem C114_measure_2d {G} (src : sources G) label kernel radius pink white s a1 b1 a2 b2 u1 u2 nx ny w :
  sources_ok src -> (forall m, is_labelling m (label m)) -> white_range white -> default_sensor_v2 = Ok s ->
  a1 <> b1 -> a2 <> b2 -> (2 <= nx)%nat -> (2 <= ny)%nat ->
  sweep_within (Some limits_g1) a1 b1 -> sweep_within (Some limits_g2) a2 b2 -> sensor_within u1 -> sensor_within u2 ->
  Rabs (b1 - a1) <= 0.004 * INR (nx - 1) -> Rabs (b2 - a2) <= 0.004 * INR (ny - 1) ->
  returned_csd (measure (default_noisy_v2 src label kernel radius pink white s) [a1; b1] [a2; b2] (Some u1) (Some u2) (ResArray [Z.of_nat nx; Z.of_nat ny]) w)
    (Shape2 ny nx).
Proof. exact (v2_diagram src label kernel radius pink white s a1 b1 a2 b2 u1 u2 nx ny w). Qed.
Print Assumptions C114_measure_2d.
(** and 1D ones along both gates (along one gate: C104). *)
Theorem C114_measure_1d {G} (src : sources G) label kernel radius pink white s a1 b1 a2 b2 u1 u2 res n w :
  sources_ok src -> (forall m, is_labelling m (label m)) -> white_range white -> default_sensor_v2 = Ok s ->
  res_list res = [Z.of_nat n] -> (7 <= n)%nat -> a1 <> b1 -> a2 <> b2 ->
  sweep_within (Some limits_g1) a1 b1 -> sweep_within (Some limits_g2) a2 b2 -> sensor_within u1 -> sensor_within u2 ->
  returned_csd (measure (default_noisy_v2 src label kernel radius pink white s) [a1; b1] [a2; b2] (Some u1) (Some u2) res w) (Shape1 n).
Proof. exact (v2_line src label kernel radius pink white s a1 b1 a2 b2 u1 u2 res n w). Qed.
Print Assumptions C114_measure_1d.

(** Along one gate they raise, as those of GaAs_v1 (C104), if the dot jumps along the other gate are active. *)
Theorem C104_extended_first_gate_refuted {G} (src : sources G) label kernel radius pink white s a1 b1 v2 u1 u2 res n w :
  sources_ok src -> (forall m, is_labelling m (label m)) -> white_range white -> default_sensor_v2 = Ok s ->
  sweep_within (Some limits_g1) a1 b1 -> sweep_within (Some limits_g2) v2 v2 -> a1 <> b1 -> sensor_within u1 -> sensor_within u2 ->
  res_list res = [Z.of_nat n] -> (7 <= n)%nat ->
  let m := measure (default_noisy_v2 src label kernel radius pink white s) [a1; b1] [v2; v2] (Some u1) (Some u2) res w in
  if fst (src_binomial src 0.01 (w_rng (fst w))) then raised m ValueError else returned_csd m (Shape1 n).
Proof. intros Sok Lab Wht Made. exact (v2_first src Sok label Lab kernel radius pink white Wht s Made a1 b1 v2 u1 u2 res n w). Qed.
Print Assumptions C104_extended_first_gate_refuted.
Theorem C104_extended_second_gate_refuted {G} (src : sources G) label kernel radius pink white s v1 a2 b2 u1 u2 res n w :
  sources_ok src -> (forall m, is_labelling m (label m)) -> white_range white -> default_sensor_v2 = Ok s ->
  sweep_within (Some limits_g1) v1 v1 -> sweep_within (Some limits_g2) a2 b2 -> a2 <> b2 -> sensor_within u1 -> sensor_within u2 ->
  res_list res = [Z.of_nat n] -> (7 <= n)%nat ->
  let m := measure (default_noisy_v2 src label kernel radius pink white s) [v1; v1] [a2; b2] (Some u1) (Some u2) res w in
  exists g, (fst (src_binomial src 0.01 (w_rng (fst w))) = false -> g = snd (src_binomial src 0.01 (w_rng (fst w)))) /\
    if fst (src_binomial src (0.01 / 6) g) then raised m ValueError else returned_csd m (Shape1 n).
Proof. intros Sok Lab Wht Made. exact (v2_second src Sok label Lab kernel radius pink white Wht s Made v1 a2 b2 u1 u2 res n w). Qed.
Print Assumptions C104_extended_second_gate_refuted.

(** The whole plunger range, every distortion active. *)
Example C114_example s : default_sensor_v2 = Ok s ->
  returned_csd (measure (default_noisy_v2 demo_src component_label gaussian_kernel gaussian_radius (fixed_param 0.00005) (fixed_param 0.001) s)
    [-0.2; -0.087] [-0.2; -0.047] (Some (-0.5)) (Some (-0.5)) (ResArray [100; 100]%Z) start) (Shape2 100 100).
Proof. exact (v2_whole s). Qed.

(** C115 "Valid sensor scans of GaAs_v2_extended_sensor never raise": true for pixels of at most 22 mV, *)
Theorem C115_fine_partial {G} (src : sources G) label kernel radius pink white s a1 b1 a2 b2 v1 v2 res sh w :
  sources_ok src -> (forall m, is_labelling m (label m)) -> white_range white -> default_sensor_v2 = Ok s ->
  let cfg := default_noisy_v2 src label kernel radius pink white s in
  valid_scan cfg [a1; b1] [a2; b2] v1 v2 res -> scannable (Some default_csd) v1 v2 res -> requested res sh -> fine_scan a1 b1 a2 b2 res ->
  returned_scan (measure_sensor_scan cfg [a1; b1] [a2; b2] v1 v2 res w) sh.
Proof. exact (v2_fine_scan src label kernel radius pink white s a1 b1 a2 b2 v1 v2 res sh w). Qed.
Print Assumptions C115_fine_partial.
(** false for coarser ones: they raise exactly if the telegraph noise is active for one of the three
    potentials (three draws with probability 1/6). *)
Theorem C115_coarse_refuted {G} (src : sources G) label kernel radius pink white s a1 b1 a2 b2 v1 v2 nx ny w :
  sources_ok src -> (forall m, is_labelling m (label m)) -> white_range white -> default_sensor_v2 = Ok s ->
  let cfg := default_noisy_v2 src label kernel radius pink white s in
  let res := ResArray [Z.of_nat nx; Z.of_nat ny] in
  valid_scan cfg [a1; b1] [a2; b2] v1 v2 res -> coarse_scan a1 b1 a2 b2 nx ny ->
  let r := measure_sensor_scan cfg [a1; b1] [a2; b2] v1 v2 res w in
  if one_of_three src (1 / 6) (after_pink3 src pink (ny * nx) (w_rng (fst w))) then raised r ValueError else returned_scan r (Shape2 ny nx).
Proof. exact (v2_coarse_scan src label kernel radius pink white s a1 b1 a2 b2 v1 v2 nx ny w). Qed.
Print Assumptions C115_coarse_refuted.

(** The whole range of the sensor gates: 100 x 100 pixels never raise, 50 x 50 depend on the draws. *)
Example C115_example s : default_sensor_v2 = Ok s ->
  let run (src : sources unit) n := measure_sensor_scan (default_noisy_v2 src component_label gaussian_kernel gaussian_radius (fixed_param 0.00005) (fixed_param 0.001) s)
    [-1; 0.4] [-1; 0.4] (Some (-0.1)) (Some (-0.1)) (ResArray [n; n]%Z) start in
  returned_scan (run demo_src 100%Z) (Shape2 100 100) /\ raised (run demo_src 50%Z) ValueError /\ returned_scan (run quiet_src 50%Z) (Shape2 50 50).
Proof. exact (v2_scans s). Qed.

(** C116 "Telegraph noise of the response works in 1D sensor scans along either sensor gate": true along gate
    1 (with jumps at least a pixel long on average), *)
Theorem C116_gate1_partial {G} (src : sources G) label lim1 lim2 lims1 lims2 x s occs ratio scale std height a1 b1 a2 b2 v1 v2 res n st m0 st' w :
  sources_ok src -> ss_deform s = [] ->
  measure_sensor_scan (scan_config label lim1 lim2 lims1 lims2 x s) [a1; b1] [a2; b2] v1 v2 res st = (Ok m0, st') ->
  image_shape (sc_scan m0) = Shape1 n -> a1 <> b1 -> (forall g, 1 <= fst (scale g) * (INR n / Rabs (b1 - a1))) ->
  returned_scan (measure_sensor_scan (noisy_scan_config src label lim1 lim2 lims1 lims2 x s occs [] [Telegraph ratio scale std height]) [a1; b1] [a2; b2] v1 v2 res w)
    (Shape1 n).
Proof. intros Sok Hd M Sh. exact (proj1 (response_telegraph src Sok label lim1 lim2 lims1 lims2 x s occs ratio scale std height a1 b1 a2 b2 v1 v2 res n st m0 st' w Hd M Sh)). Qed.
Print Assumptions C116_gate1_partial.
(** false along gate 2 only: its range is replaced by that of gate 1, which is zero, so that active noise
    raises. *)
Theorem C116_gate2_refuted {G} (src : sources G) label lim1 lim2 lims1 lims2 x s occs ratio scale std height a a2 b2 v1 v2 res n st m0 st' w :
  sources_ok src -> ss_deform s = [] ->
  measure_sensor_scan (scan_config label lim1 lim2 lims1 lims2 x s) [a; a] [a2; b2] v1 v2 res st = (Ok m0, st') ->
  image_shape (sc_scan m0) = Shape1 n ->
  let r := measure_sensor_scan (noisy_scan_config src label lim1 lim2 lims1 lims2 x s occs [] [Telegraph ratio scale std height]) [a; a] [a2; b2] v1 v2 res w in
  if fst (src_binomial src ratio (w_rng (fst w))) then raised r ValueError else returned_scan r (Shape1 n).
Proof. intros Sok Hd M Sh. exact (proj2 (response_telegraph src Sok label lim1 lim2 lims1 lims2 x s occs ratio scale std height a a a2 b2 v1 v2 res n st m0 st' w Hd M Sh) eq_refl). Qed.
Print Assumptions C116_gate2_refuted.

(** The same sensor and noise, along gate 1 and along gate 2. *)
Example C116_example :
  returned_scan (measure_sensor_scan telegraph_scan [0; 3] [0; 0] None None (ResInt 4) start) (Shape1 4) /\
  raised (measure_sensor_scan telegraph_scan [0; 0] [0; 3] None None (ResInt 4) start) ValueError.
Proof. exact telegraph_lines. Qed.
