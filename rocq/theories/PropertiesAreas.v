(** C143: the areas marked in sensor scans conduct as their labels say. *)
From Verif Require Import RPrelude Arr ModelSupport ModelTct ModelCsd ModelSensor ModelSimulation ModelInstance ModelScanInstance ModelDefault ModelScanNoise
  SpecSupport SpecCsd SpecSensor SpecInstance SpecScanInstance SpecAreas ProofsAreas ProofsAreas2 PropertiesScanNoise.
Local Open Scope R_scope.

(** Every pixel: the value is positive and below both barriers; it is labelled 0 exactly if a barrier is not above its pinch-off fraction; a pixel
    labelled 2 conducts as if the sensor dot had reached the configured part of the final rise; pixels with both barriers fully open are labelled 2. *)
Theorem C143_areas label lim1 lim2 lims1 lims2 x p1 p2 x1 f1 x2 f2 r s a1 b1 a2 b2 v1 v2 res st m st' w y c k :
  conducting p1 p2 x1 f1 x2 f2 r s ->
  measure_sensor_scan (scan_config label lim1 lim2 lims1 lims2 x s) [a1; b1] [a2; b2] v1 v2 res st = (Ok m, st') ->
  labelled_value (sc_scan m) (sc_labels m) (a1, b1) (a2, b2) w y c k ->
  exists o q, plunger_occupation label x v1 v2 o /\ pot_spec s o (plunger v1, plunger v2) w q /\
    let g1 := glf p1 (at_barrier1 q) in let g2 := glf p2 (at_barrier2 q) in
    0 < y < Rmin g1 g2 /\
    (c = 0%nat <-> g1 <= x1 * asymptote_right p1 \/ g2 <= x2 * asymptote_right p2) /\
    (plunger v1 = plunger v2 -> c = 2%nat ->
       1 / (1 / (rise_percentage r * asymptote_right (rise_glf r)) + 1 / g1 + 1 / g2) < y) /\
    (plunger v1 = plunger v2 -> points_exist s o -> dot_between_barriers s ->
       f1 * asymptote_right p1 < g1 -> f2 * asymptote_right p2 < g2 -> x1 < f1 -> x2 < f2 -> c = 2%nat).
Proof. exact (areas label lim1 lim2 lims1 lims2 x p1 p2 x1 f1 x2 f2 r s a1 b1 a2 b2 v1 v2 res st m st' w y c k). Qed.
Print Assumptions C143_areas.

(** Default configuration GaAs_v2_extended_sensor: what is labelled non-conductive conducts less than 0.0003; without plunger voltages everything
    with fully open barriers is labelled fully conductive and conducts more than 0.0598. *)
Theorem C143_default label lim1 lim2 lims1 lims2 x s a1 b1 a2 b2 v1 v2 res st m st' w y c k : default_sensor_v2 = Ok s ->
  measure_sensor_scan (scan_config label lim1 lim2 lims1 lims2 x s) [a1; b1] [a2; b2] v1 v2 res st = (Ok m, st') ->
  labelled_value (sc_scan m) (sc_labels m) (a1, b1) (a2, b2) w y c k ->
  0 < y < 0.3 /\ (c = 0%nat -> y < 0.0003) /\
  (v1 = None -> v2 = None -> forall q, pot_spec s (0, 0) (0, 0) w q ->
     fully_conductive (ss_barrier1 s) < at_barrier1 q -> fully_conductive (ss_barrier2 s) < at_barrier2 q -> c = 2%nat /\ 0.0598 < y).
Proof. exact (default_areas label lim1 lim2 lims1 lims2 x s a1 b1 a2 b2 v1 v2 res st m st' w y c k). Qed.
Print Assumptions C143_default.

(** But a pixel labelled fully conductive need not have fully open barriers. *)
Theorem C143_fully_open_refuted label s : (forall x, is_labelling x (label x)) -> default_sensor_v2 = Ok s ->
  exists m st' y k q,
    measure_sensor_scan (scan_config label (Some limits_g1) (Some limits_g2) (Some limits_sensor) (Some limits_sensor) (Some default_csd) s)
      [-0.7; -0.7] [-1; 0.34] None None (ResInt 2) None = (Ok m, st') /\
    labelled_value (sc_scan m) (sc_labels m) (-0.7, -0.7) (-1, 0.34) (-0.7, 0.34) y 2 k /\
    pot_spec s (0, 0) (0, 0) (-0.7, 0.34) q /\ at_barrier1 q < fully_conductive (ss_barrier1 s) /\ y < 0.01.
Proof. exact (half_open label s). Qed.
Print Assumptions C143_fully_open_refuted.

(** The default sensor is such a sensor. *)
Example C143_example : exists s, default_sensor_v2 = Ok s /\
  conducting default_barrier1 default_barrier2 0.001 0.999 0.001 0.999 default_rise s /\ dot_between_barriers s /\ points_exist s (0, 0).
Proof.
  destruct C114_constructed as [s Made]. exists s. split; [exact Made|]. destruct (default_conducting s Made) as (C & B & Es & Eo).
  split; [exact C|]. split; [exact B|]. unfold points_exist, barrier_det. rewrite Es. cbn. split; [lra|]. split; [right; rewrite Rabs_pos_eq; lra|left; reflexivity].
Qed.
