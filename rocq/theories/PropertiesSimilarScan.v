(** Property theorems about SensorScanSensorGeneric in another unit and with another zero of the voltages. *)
From Verif Require Import RPrelude Arr ModelSupport ModelTct ModelCsd ModelDistortions ModelSensor ModelSimulation ModelInstance ModelScanInstance ModelScanNoise
  SpecTct SpecCsd SpecSimilar SpecSimilarScan ProofsLabel ProofsSimilarScan2 ExamplesCsd ExamplesScanInstance ExamplesSimilarScan.
Local Open Scope R_scope.

(** C156 "Sensor scans are the same in another unit and with another zero of the voltages": true if the zeros of both plunger gates are shifted
    by the same amount. *)
Theorem C156_scan_partial k t u s label lim1 lim2 lims1 lims2 x r1 r2 v1 v2 res w :
  0 < k -> clear_lever_arms k s -> (forall y, x = Some y -> convertible k y) ->
  fst t = snd t -> zero_kept (fst t) v1 -> zero_kept (snd t) v2 ->
  same_scan k t u
    (measure_sensor_scan
       (scan_config label (option_map (stretch_lims k (fst t)) lim1) (option_map (stretch_lims k (snd t)) lim2)
          (option_map (stretch_lims k (fst u)) lims1) (option_map (stretch_lims k (snd u)) lims2) (option_map (stretch_csd k t) x) (stretch_scan k t u s))
       (map (stretch k (fst u)) r1) (map (stretch k (snd u)) r2) (option_map (stretch k (fst t)) v1) (option_map (stretch k (snd t)) v2) res
       (option_map (stretch_hidden k t u) w))
    (measure_sensor_scan (scan_config label lim1 lim2 lims1 lims2 x s) r1 r2 v1 v2 res w).
Proof. intros Hk Hc HX T Z1 Z2. exact (sensor_scan_stretch k t u s label Hk Hc lim1 lim2 lims1 lims2 x r1 r2 v1 v2 res w T Z1 Z2 HX). Qed.
Print Assumptions C156_scan_partial.

(** Diagrams: true for another unit; for another zero if there is no final rise. *)
Theorem C156_csd_partial k t u s label lim1 lim2 lims1 lims2 x r1 r2 v1 v2 res w :
  0 < k -> clear_lever_arms k s -> (forall y, x = Some y -> convertible k y) ->
  t = (0, 0) /\ u = (0, 0) \/ ss_rise s = None -> zero_kept (fst u) v1 -> zero_kept (snd u) v2 ->
  same_csd k t u
    (measure
       (scan_config label (option_map (stretch_lims k (fst t)) lim1) (option_map (stretch_lims k (snd t)) lim2)
          (option_map (stretch_lims k (fst u)) lims1) (option_map (stretch_lims k (snd u)) lims2) (option_map (stretch_csd k t) x) (stretch_scan k t u s))
       (map (stretch k (fst t)) r1) (map (stretch k (snd t)) r2) (option_map (stretch k (fst u)) v1) (option_map (stretch k (snd u)) v2) res
       (option_map (stretch_hidden k t u) w))
    (measure (scan_config label lim1 lim2 lims1 lims2 x s) r1 r2 v1 v2 res w).
Proof. intros Hk Hc HX T Z1 Z2. exact (scan_measure_stretch k t u s label Hk Hc lim1 lim2 lims1 lims2 x r1 r2 v1 v2 res w T Z1 Z2 HX). Qed.
Print Assumptions C156_csd_partial.

(** Another zero of plunger gate 2 alone changes sensor scans: the point of the final rise is calculated with the voltage of gate 1. *)
Theorem C156_plunger_refuted : exists s t m n st1 st2, clear_lever_arms 1 s /\
  measure_sensor_scan (scan_config component_label None None None None None (stretch_scan 1 t (0, 0) s))
    (map (stretch 1 0) [0; 3]) (map (stretch 1 0) [0; 0]) (Some (stretch 1 (fst t) 0)) (Some (stretch 1 (snd t) 0)) (ResInt 4) None = (Ok m, st1) /\
  measure_sensor_scan (scan_config component_label None None None None None s) [0; 3] [0; 0] (Some 0) (Some 0) (ResInt 4) None = (Ok n, st2) /\
  sc_scan m <> sc_scan n.
Proof.
  destruct zero_plunger as (m & n & st1 & st2 & H). exists (rising 1), (0, 9), m, n, st1, st2. split; [exact rising_clear|exact H].
Qed.
Print Assumptions C156_plunger_refuted.

(** Another zero of the sensor gates changes diagrams with a final rise, even the same shift of both gates. *)
Theorem C156_sensor_refuted : exists s x e m n st1 st2, clear_lever_arms 1 s /\ convertible 1 x /\
  measure (scan_config component_label None None None None (Some x) (stretch_scan 1 (0, 0) (e, e) s))
    [0; 1] [0; 1] (Some (stretch 1 e 0)) (Some (stretch 1 e 0)) (ResInt 2) None = (Ok m, st1) /\
  measure (scan_config component_label None None None None (Some x) s) [0; 1] [0; 1] (Some 0) (Some 0) (ResInt 2) None = (Ok n, st2) /\
  m_csd m <> m_csd n.
Proof.
  destruct zero_sensor as (m & n & st1 & st2 & H). exists (risen 0), couple_data, 1, m, n, st1, st2. split; [apply risen_clear|]. split; [exact couple_convertible|exact H].
Qed.
Print Assumptions C156_sensor_refuted.

(** The default sensor in millivolts. *)
Example C156_example s : default_sensor_v2 = Ok s -> clear_lever_arms 1000 s.
Proof. exact (default_clear s). Qed.
Example C156_example_scan v2 : exists m st',
  measure_sensor_scan (scan_config component_label None None None None None (rising 1)) [0; 3] [0; 0] (Some 0) (Some v2) (ResInt 4) None = (Ok m, st').
Proof. exact (rising_measured v2). Qed.
