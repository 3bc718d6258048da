(** Properties of simulations of sampled configurations (C117-C120): Simulation( **sample_random_variations_v3_config(...) ).
    The ideal data [x] and the configuration [c] are any pair returned by the sampler, the distortions draw
    their parameters from their ranges. *)
From Verif Require Import RPrelude Arr ModelSupport ModelTct ModelCsd ModelJumps ModelDistortions ModelSampling ModelSensor ModelSimulation ModelInstance
  ModelNoise ModelConfig ModelConfigCsd ModelScanInstance ModelDefault ModelDefaultNoise ModelScanNoise ModelSampledSim
  SpecSupport SpecTct SpecCsd SpecSensor SpecSampling SpecConfig SpecConfigCsd SpecSimulation SpecDistortions SpecInstance SpecNoise SpecDefaultNoise SpecScanInstance SpecScanNoise SpecSampledSim
  ProofsSampledSim2 ProofsSampledSim3 ProofsLines ProofsLabel ExamplesSensor ExamplesCsd ExamplesConfig ExamplesNoise ExamplesDefaultNoise ExamplesScanInstance ExamplesScanNoise ExamplesSampledSim.
Local Open Scope R_scope.

(** C117 Measurements of sampled configurations with voltages for the sensor gates never raise: 2D ones with
    pixels of at most 11.9 mV, with a SensorGeneric *)
Theorem C117_generic_2d {G H} (src : sources G) label (r : rng H) choice draw kernel radius x c s a1 b1 a2 b2 u1 u2 nx ny w :
  sources_ok src -> (forall m, is_labelling m (label m)) -> uniform_ok r -> choice_ok choice -> drawn_within draw -> sampled r choice label x c ->
  sc_sensor c = SampledGeneric s ->
  a1 <> b1 -> a2 <> b2 -> (2 <= nx)%nat -> (2 <= ny)%nat -> in_range (a1, a2) -> in_range (b1, b2) -> sensor_volt u1 -> sensor_volt u2 ->
  Rabs (b1 - a1) <= 0.0119 * INR (nx - 1) -> Rabs (b2 - a2) <= 0.0119 * INR (ny - 1) ->
  returned (measure (sampled_generic src label draw kernel radius x c s) [a1; b1] [a2; b2] (Some u1) (Some u2) (ResArray [Z.of_nat nx; Z.of_nat ny]) w) (Shape2 ny nx).
Proof. intros Sok Lab Uok Cok Dok Smp. exact (generic_2d src label r choice draw kernel radius x c Sok Lab Uok Cok Dok Smp s a1 b1 a2 b2 u1 u2 nx ny w). Qed.
Print Assumptions C117_generic_2d.
(** or with a SensorScanSensorGeneric *)
Theorem C117_scan_2d {G H} (src : sources G) label (r : rng H) choice draw kernel radius x c p s a1 b1 a2 b2 u1 u2 nx ny w :
  sources_ok src -> (forall m, is_labelling m (label m)) -> uniform_ok r -> choice_ok choice -> drawn_within draw -> sampled r choice label x c ->
  sc_sensor c = SampledScan p -> sensor_of p = Ok s ->
  a1 <> b1 -> a2 <> b2 -> (2 <= nx)%nat -> (2 <= ny)%nat -> in_range (a1, a2) -> in_range (b1, b2) -> sensor_volt u1 -> sensor_volt u2 ->
  Rabs (b1 - a1) <= 0.0119 * INR (nx - 1) -> Rabs (b2 - a2) <= 0.0119 * INR (ny - 1) ->
  returned_csd (measure (sampled_scan src label draw kernel radius x c s) [a1; b1] [a2; b2] (Some u1) (Some u2) (ResArray [Z.of_nat nx; Z.of_nat ny]) w) (Shape2 ny nx).
Proof. intros Sok Lab Uok Cok Dok Smp. intros _ Made. exact (scan_2d src label r choice draw kernel radius x c Sok Lab Uok Cok Dok Smp s a1 b1 a2 b2 u1 u2 nx ny w (proj1 (sensor_parts p s Made))). Qed.
Print Assumptions C117_scan_2d.
(** (which can be constructed), and lines along both gates with at least seven pixels. *)
Theorem C117_constructed p : exists s ks, sensor_of p = Ok s /\
  ss_peaks s = Some ks /\ (Forall (fun k => 0 < lz_gamma k) (sp_peaks p) -> Forall2 has_shape (sp_peaks p) ks) /\ ss_barrier1 s = sp_barrier1 p /\ ss_barrier2 s = sp_barrier2 p /\
  ss_sensor s = sp_sensor_gate p /\ ss_gate s = mk_rows3 (sp_gates p) (sp_gates p) (sp_gates p) /\
  ss_dot s = mk_rows3 (sp_dots p) (sp_dots p) (sp_dots p) /\ ss_offset s = mk_three 0 0 0 /\
  ss_rise s = Some (rise_function (sp_rise p)) /\ ss_deform s = [].
Proof. exact (sensor_made p). Qed.
Print Assumptions C117_constructed.
Theorem C117_generic_line {G H} (src : sources G) label (r : rng H) choice draw kernel radius x c s a1 b1 a2 b2 u1 u2 res n w :
  sources_ok src -> (forall m, is_labelling m (label m)) -> uniform_ok r -> choice_ok choice -> drawn_within draw -> sampled r choice label x c ->
  sc_sensor c = SampledGeneric s ->
  res_list res = [Z.of_nat n] -> (7 <= n)%nat -> a1 <> b1 -> a2 <> b2 -> in_range (a1, a2) -> in_range (b1, b2) -> sensor_volt u1 -> sensor_volt u2 ->
  returned (measure (sampled_generic src label draw kernel radius x c s) [a1; b1] [a2; b2] (Some u1) (Some u2) res w) (Shape1 n).
Proof. intros Sok Lab Uok Cok Dok Smp. exact (generic_diagonal src label r choice draw kernel radius x c Sok Lab Uok Cok Dok Smp s a1 b1 a2 b2 u1 u2 res n w). Qed.
Print Assumptions C117_generic_line.
Theorem C117_scan_line {G H} (src : sources G) label (r : rng H) choice draw kernel radius x c p s a1 b1 a2 b2 u1 u2 res n w :
  sources_ok src -> (forall m, is_labelling m (label m)) -> uniform_ok r -> choice_ok choice -> drawn_within draw -> sampled r choice label x c ->
  sc_sensor c = SampledScan p -> sensor_of p = Ok s ->
  res_list res = [Z.of_nat n] -> (7 <= n)%nat -> a1 <> b1 -> a2 <> b2 -> in_range (a1, a2) -> in_range (b1, b2) -> sensor_volt u1 -> sensor_volt u2 ->
  returned_csd (measure (sampled_scan src label draw kernel radius x c s) [a1; b1] [a2; b2] (Some u1) (Some u2) res w) (Shape1 n).
Proof. intros Sok Lab Uok Cok Dok Smp. intros _ Made. exact (scan_diagonal src label r choice draw kernel radius x c Sok Lab Uok Cok Dok Smp s a1 b1 a2 b2 u1 u2 res n w (proj1 (sensor_parts p s Made))). Qed.
Print Assumptions C117_scan_line.

(** A configuration of either kind is sampled and measured in 50 x 50 pixels over the whole range, every noise active. *)
Example C117_example :
  (exists x c s, sampled relative_tape choose_first component_label x c /\ sc_sensor c = SampledGeneric s /\
    returned (measure (sampled_generic demo_src component_label centre gaussian_kernel gaussian_radius x c s) [-0.2; -0.06] [-0.2; -0.06] (Some (-0.5)) (Some (-0.5))
      (ResArray [50; 50]%Z) fresh_world) (Shape2 50 50)) /\
  (exists x c p s, sampled middle (fun a _ g => (a, g)) component_label x c /\ sc_sensor c = SampledScan p /\ sensor_of p = Ok s /\
    returned_csd (measure (sampled_scan demo_src component_label centre gaussian_kernel gaussian_radius x c s) [-0.2; -0.06] [-0.2; -0.06] (Some (-0.5)) (Some (-0.5))
      (ResArray [50; 50]%Z) start) (Shape2 50 50)).
Proof.
  split.
  - destruct sampled_generic_exists as (x & c & s & Smp & Hs). exists x, c, s. split; [exact Smp|]. split; [exact Hs|]. exact (proj1 (generic_runs x c s Smp Hs)).
  - destruct sampled_scan_exists as (x & c & p & Smp & Hs). destruct (sensor_made p) as (s & _ & Made & _). exists x, c, p, s. split; [exact Smp|]. split; [exact Hs|]. split; [exact Made|].
    exact (proj1 (scan_runs x c p s Smp Hs Made)).
Qed.

(** C118 "A sampled configuration can be measured with the default arguments": false, every one raises a
    TypeError in any valid range unless a voltage is passed for sensor gate 1, also with the default sensor
    type SensorGeneric, which has no sensor gates. *)
Theorem C118_generic_refuted {G H} (src : sources G) label (r : rng H) choice draw kernel radius x c s a1 b1 a2 b2 v2 res w : uniform_ok r -> choice_ok choice -> sampled r choice label x c ->
  in_range (a1, a2) -> in_range (b1, b2) ->
  measure (sampled_generic src label draw kernel radius x c s) [a1; b1] [a2; b2] None v2 res w = (Err TypeError, w).
Proof. intros Uok Cok Smp. exact (sampled_without src label r choice Uok Cok draw kernel radius x c Smp s a1 b1 a2 b2 v2 res w). Qed.
Print Assumptions C118_generic_refuted.
Theorem C118_scan_refuted {G H} (src : sources G) label (r : rng H) choice draw kernel radius x c s a1 b1 a2 b2 v2 res w : uniform_ok r -> choice_ok choice -> sampled r choice label x c ->
  in_range (a1, a2) -> in_range (b1, b2) ->
  measure (sampled_scan src label draw kernel radius x c s) [a1; b1] [a2; b2] None v2 res w = (Err TypeError, w).
Proof. intros Uok Cok Smp. exact (sampled_scan_without src label r choice Uok Cok draw kernel radius x c Smp s a1 b1 a2 b2 v2 res w). Qed.
Print Assumptions C118_scan_refuted.

(** The configuration of C117, without any active noise. *)
Example C118_example : exists x c s, sampled relative_tape choose_first component_label x c /\ sc_sensor c = SampledGeneric s /\
  raised (measure (sampled_generic quiet_src component_label centre gaussian_kernel gaussian_radius x c s) [-0.2; -0.06] [-0.2; -0.06] None None
    (ResArray [50; 50]%Z) fresh_world) TypeError.
Proof.
  destruct sampled_generic_exists as (x & c & s & Smp & Hs). exists x, c, s. split; [exact Smp|]. split; [exact Hs|]. exact (proj2 (proj2 (proj2 (generic_runs x c s Smp Hs)))).
Qed.

(** C119 "Lines along one gate never raise": along gate 1 exactly those in which the dot jumps along gate 2 are
    active raise; *)
Theorem C119_generic_gate1_refuted {G H} (src : sources G) label (r : rng H) choice draw kernel radius x c s a1 b1 v2 u1 u2 res n w :
  sources_ok src -> (forall m, is_labelling m (label m)) -> uniform_ok r -> choice_ok choice -> drawn_within draw -> sampled r choice label x c ->
  sc_sensor c = SampledGeneric s ->
  res_list res = [Z.of_nat n] -> (7 <= n)%nat -> a1 <> b1 -> in_range (a1, v2) -> in_range (b1, v2) -> sensor_volt u1 -> sensor_volt u2 ->
  let m := measure (sampled_generic src label draw kernel radius x c s) [a1; b1] [v2; v2] (Some u1) (Some u2) res w in
  if jumps_g2 src draw (w_rng w) then raised m ValueError else returned m (Shape1 n).
Proof. intros Sok Lab Uok Cok Dok Smp. exact (generic_line1 src label r choice draw kernel radius x c Sok Lab Uok Cok Dok Smp s a1 b1 v2 u1 u2 res n w). Qed.
Print Assumptions C119_generic_gate1_refuted.
Theorem C119_scan_gate1_refuted {G H} (src : sources G) label (r : rng H) choice draw kernel radius x c p s a1 b1 v2 u1 u2 res n w :
  sources_ok src -> (forall m, is_labelling m (label m)) -> uniform_ok r -> choice_ok choice -> drawn_within draw -> sampled r choice label x c ->
  sc_sensor c = SampledScan p -> sensor_of p = Ok s ->
  res_list res = [Z.of_nat n] -> (7 <= n)%nat -> a1 <> b1 -> in_range (a1, v2) -> in_range (b1, v2) -> sensor_volt u1 -> sensor_volt u2 ->
  let m := measure (sampled_scan src label draw kernel radius x c s) [a1; b1] [v2; v2] (Some u1) (Some u2) res w in
  if jumps_g2 src draw (w_rng (fst w)) then raised m ValueError else returned_csd m (Shape1 n).
Proof. intros Sok Lab Uok Cok Dok Smp. intros _ Made. exact (scan_line1 src label r choice draw kernel radius x c Sok Lab Uok Cok Dok Smp s a1 b1 v2 u1 u2 res n w (proj1 (sensor_parts p s Made))). Qed.
Print Assumptions C119_scan_gate1_refuted.
(** along gate 2 exactly those in which the dot jumps along gate 1 are active, which is drawn with the generator
    the dot jumps along gate 2 leave behind. *)
Theorem C119_generic_gate2_refuted {G H} (src : sources G) label (r : rng H) choice draw kernel radius x c s v1 a2 b2 u1 u2 res n w :
  sources_ok src -> (forall m, is_labelling m (label m)) -> uniform_ok r -> choice_ok choice -> drawn_within draw -> sampled r choice label x c ->
  sc_sensor c = SampledGeneric s ->
  res_list res = [Z.of_nat n] -> (7 <= n)%nat -> a2 <> b2 -> in_range (v1, a2) -> in_range (v1, b2) -> sensor_volt u1 -> sensor_volt u2 ->
  let m := measure (sampled_generic src label draw kernel radius x c s) [v1; v1] [a2; b2] (Some u1) (Some u2) res w in
  exists g, (jumps_g2 src draw (w_rng w) = false -> g = snd (src_binomial src 0.01 (after_blur draw (w_rng w)))) /\
    if fst (src_binomial src (0.01 / 6) g) then raised m ValueError else returned m (Shape1 n).
Proof. intros Sok Lab Uok Cok Dok Smp. exact (generic_second src Sok label Lab r choice Uok Cok draw Dok kernel radius x c Smp s v1 a2 b2 u1 u2 res n w). Qed.
Print Assumptions C119_generic_gate2_refuted.
Theorem C119_scan_gate2_refuted {G H} (src : sources G) label (r : rng H) choice draw kernel radius x c p s v1 a2 b2 u1 u2 res n w :
  sources_ok src -> (forall m, is_labelling m (label m)) -> uniform_ok r -> choice_ok choice -> drawn_within draw -> sampled r choice label x c ->
  sc_sensor c = SampledScan p -> sensor_of p = Ok s ->
  res_list res = [Z.of_nat n] -> (7 <= n)%nat -> a2 <> b2 -> in_range (v1, a2) -> in_range (v1, b2) -> sensor_volt u1 -> sensor_volt u2 ->
  let m := measure (sampled_scan src label draw kernel radius x c s) [v1; v1] [a2; b2] (Some u1) (Some u2) res w in
  exists g, (jumps_g2 src draw (w_rng (fst w)) = false -> g = snd (src_binomial src 0.01 (after_blur draw (w_rng (fst w))))) /\
    if fst (src_binomial src (0.01 / 6) g) then raised m ValueError else returned_csd m (Shape1 n).
Proof. intros Sok Lab Uok Cok Dok Smp. intros _ Made. exact (scan_second src Sok label Lab r choice Uok Cok draw Dok kernel radius x c Smp s v1 a2 b2 u1 u2 res n w (proj1 (sensor_parts p s Made))). Qed.
Print Assumptions C119_scan_gate2_refuted.

(** The same line with every noise active and with none. *)
Example C119_example : exists x c s, sampled relative_tape choose_first component_label x c /\ sc_sensor c = SampledGeneric s /\
  let run (src : sources unit) := measure (sampled_generic src component_label centre gaussian_kernel gaussian_radius x c s) [-0.2; -0.06] [-0.1; -0.1]
    (Some (-0.5)) (Some (-0.5)) (ResInt 50) fresh_world in
  raised (run demo_src) ValueError /\ returned (run quiet_src) (Shape1 50).
Proof.
  destruct sampled_generic_exists as (x & c & s & Smp & Hs). exists x, c, s. split; [exact Smp|]. split; [exact Hs|].
  destruct (generic_runs x c s Smp Hs) as (_ & E & Q & _). exact (conj E Q).
Qed.

(** C120 "Valid sensor scans of sampled configurations with pixels of at most 22 mV never raise": true if
    sensor gate 1 is swept, *)
Theorem C120_gate1_partial {G H} (src : sources G) label (r : rng H) choice draw kernel radius x c p s a1 b1 a2 b2 v1 v2 res sh w :
  sources_ok src -> (forall m, is_labelling m (label m)) -> uniform_ok r -> choice_ok choice -> drawn_within draw -> sampled r choice label x c ->
  sensor_of p = Ok s ->
  let cfg := sampled_scan src label draw kernel radius x c s in
  valid_scan cfg [a1; b1] [a2; b2] v1 v2 res -> scannable (Some x) v1 v2 res -> requested res sh -> fine_scan a1 b1 a2 b2 res -> a1 <> b1 ->
  returned_scan (measure_sensor_scan cfg [a1; b1] [a2; b2] v1 v2 res w) sh.
Proof. intros Sok Lab Uok Cok Dok Smp Made. exact (scan_gate1 src Sok label Lab r choice Uok Cok draw Dok kernel radius x c Smp p s Made a1 b1 a2 b2 v1 v2 res sh w). Qed.
Print Assumptions C120_gate1_partial.
(** false along gate 2: those with active telegraph noise of the response raise. *)
Theorem C120_gate2_refuted {G H} (src : sources G) label (r : rng H) choice draw kernel radius x c p s a a2 b2 v1 v2 res n w (b : bool) :
  sources_ok src -> (forall m, is_labelling m (label m)) -> uniform_ok r -> choice_ok choice -> drawn_within draw -> sampled r choice label x c ->
  sensor_of p = Ok s ->
  let cfg := sampled_scan src label draw kernel radius x c s in
  valid_scan cfg [a; a] [a2; b2] v1 v2 res -> scannable (Some x) v1 v2 res -> requested res (Shape1 n) -> fine_scan a a a2 b2 res ->
  (forall g, fst (src_binomial src 0.01 g) = b) ->
  let m := measure_sensor_scan cfg [a; a] [a2; b2] v1 v2 res w in
  if b then raised m ValueError else returned_scan m (Shape1 n).
Proof. intros Sok Lab Uok Cok Dok Smp Made. exact (scan_gate2 src Sok label Lab r choice Uok Cok draw Dok kernel radius x c Smp p s Made a a2 b2 v1 v2 res n w b). Qed.
Print Assumptions C120_gate2_refuted.

(** Sensor scans of a sampled configuration along gate 1, and along gate 2 with every noise active and with none. *)
Example C120_example : exists x c p s, sampled middle (fun a _ g => (a, g)) component_label x c /\ sc_sensor c = SampledScan p /\ sensor_of p = Ok s /\
  let run (src : sources unit) s1 s2 := measure_sensor_scan (sampled_scan src component_label centre gaussian_kernel gaussian_radius x c s) s1 s2
    (Some (-0.1)) (Some (-0.1)) (ResArray [100]%Z) start in
  returned_scan (run demo_src [-1; 0] [-0.5; -0.5]) (Shape1 100) /\ raised (run demo_src [-0.5; -0.5] [-1; 0]) ValueError /\
  returned_scan (run quiet_src [-0.5; -0.5] [-1; 0]) (Shape1 100).
Proof.
  destruct sampled_scan_exists as (x & c & p & Smp & Hs). destruct (sensor_made p) as (s & _ & Made & _). exists x, c, p, s. split; [exact Smp|]. split; [exact Hs|]. split; [exact Made|].
  exact (proj2 (scan_runs x c p s Smp Hs Made)).
Qed.
