(** Properties of sensor scans and diagrams of a simulation with a SensorScanSensorGeneric object. *)
From Verif Require Import RPrelude Arr ModelSupport ModelTct ModelCsd ModelDistortions ModelSensor ModelSimulation ModelInstance
  ModelScanInstance SpecCsd SpecSensor SpecSimulation SpecInstance SpecScanInstance ProofsLabel ProofsScanInstance ProofsScanCsd ExamplesSensor ExamplesScanInstance.
Local Open Scope R_scope.

(** C93: a sensor scan has as many pixels as requested; without deformations and final rise every pixel
    is the series combination of the summed peaks and the barriers at the potentials of its voltages and
    of the occupation at the plunger voltages. *)
Theorem C93_pixels label lim1 lim2 lims1 lims2 x s a1 b1 a2 b2 v1 v2 res st m st' : ss_deform s = [] -> ss_rise s = None ->
  measure_sensor_scan (scan_config label lim1 lim2 lims1 lims2 x s) [a1; b1] [a2; b2] v1 v2 res st = (Ok m, st') ->
  requested_shape res (sc_scan m) /\
  exists o, plunger_occupation label x v1 v2 o /\
    shows s o (plunger v1, plunger v2) (fun _ mu => base_dot s mu) (sc_scan m) (a1, b1) (a2, b2).
Proof. exact (measured_plain label lim1 lim2 lims1 lims2 x s a1 b1 a2 b2 v1 v2 res st m st'). Qed.
Print Assumptions C93_pixels.
(** Every pixel is labelled; for equal plunger voltages the conductive areas are those of the potential
    at the fully conductive point. *)
Theorem C93_labels label lim1 lim2 lims1 lims2 x s a1 b1 a2 b2 v1 v2 res st m st' :
  measure_sensor_scan (scan_config label lim1 lim2 lims1 lims2 x s) [a1; b1] [a2; b2] v1 v2 res st = (Ok m, st') ->
  (forall w y, scan_value (sc_scan m) (a1, b1) (a2, b2) w y ->
     exists c k, labelled_value (sc_scan m) (sc_labels m) (a1, b1) (a2, b2) w y c k) /\
  (plunger v1 = plunger v2 ->
   exists o full qf, plunger_occupation label x v1 v2 o /\
    (points_exist s o -> full_point s o (plunger v1, plunger v2) full) /\ pot_spec s o (plunger v1, plunger v2) full qf /\
    forall w y c k, labelled_value (sc_scan m) (sc_labels m) (a1, b1) (a2, b2) w y c k ->
      exists q, pot_spec s o (plunger v1, plunger v2) w q /\ area_of s (at_sensor qf) q c).
Proof. exact (measured_labels label lim1 lim2 lims1 lims2 x s a1 b1 a2 b2 v1 v2 res st m st'). Qed.
Print Assumptions C93_labels.
(** Valid scans succeed (a deformed one needs at least two pixels along each axis), whatever was done
    with the sensor before. *)
Theorem C93_outcome label lim1 lim2 lims1 lims2 x s ps a1 b1 a2 b2 v1 v2 res st :
  valid_scan (scan_config label lim1 lim2 lims1 lims2 x s) [a1; b1] [a2; b2] v1 v2 res -> scannable x v1 v2 res ->
  (forall g, x = Some g -> config_ok label g) -> ss_peaks s = Some ps ->
  ss_deform s = [] \/ Forall (fun n => (2 <= n)%Z) (res_list res) ->
  exists m st', measure_sensor_scan (scan_config label lim1 lim2 lims1 lims2 x s) [a1; b1] [a2; b2] v1 v2 res st = (Ok m, st').
Proof. exact (measured_outcome label lim1 lim2 lims1 lims2 x s ps a1 b1 a2 b2 v1 v2 res st). Qed.
Print Assumptions C93_outcome.

Example C93_example : exists m st',
  measure_sensor_scan (scan_config component_label None None None None None (demo 0 [lorentz_peak] [])) [0; 3] [0; 0] None None (ResInt 4) None = (Ok m, st') /\
  scan_value (sc_scan m) (0, 3) (0, 0) (0, 0) (1 / 3).
Proof. exact plain_witness. Qed.

(** C94: with deformations all pixels of a measured scan show the peaks as deformed at one and the same
    distance: that of the fully conductive point from the middle line (drawn for the voltage of plunger
    gate 1 on both plunger gates), ... *)
Theorem C94_one_distance label lim1 lim2 lims1 lims2 x s ps a1 b1 a2 b2 v1 v2 res st m st' :
  ss_deform s <> [] -> ss_peaks s = Some ps -> 0 < fst (row0 (ss_sensor s)) ->
  measure_sensor_scan (scan_config label lim1 lim2 lims1 lims2 x s) [a1; b1] [a2; b2] v1 v2 res st = (Ok m, st') ->
  requested_shape res (sc_scan m) /\
  exists o mid full, plunger_occupation label x v1 v2 o /\
    (points_exist s o -> pinch_point s o (plunger v1, plunger v1) mid /\ full_point s o (plunger v1, plunger v2) full) /\
    shows s o (plunger v1, plunger v2)
      (fun _ mu => deformed_total (deform_of (ss_deform s)) (middle_distance (row0 (ss_sensor s)) mid full) ps mu)
      (sc_scan m) (a1, b1) (a2, b2).
Proof. exact (measured_deformed label lim1 lim2 lims1 lims2 x s ps a1 b1 a2 b2 v1 v2 res st m st'). Qed.
Print Assumptions C94_one_distance.
(** ... so the scan does not show the deformed peaks. *)
Theorem C94_deformations_refuted : exists s ps m st',
  ss_peaks s = Some ps /\ ss_deform s <> [] /\ points_exist s (0, 0) /\
  measure_sensor_scan (scan_config component_label None None None None None s) [0; 0] [0; 3] None None (ResInt 4) None = (Ok m, st') /\
  forall mid, pinch_point s (0, 0) (0, 0) mid ->
    ~ shows s (0, 0) (0, 0) (fun w mu => deformed_total (deform_of (ss_deform s)) (middle_distance (row0 (ss_sensor s)) mid w) ps mu)
        (sc_scan m) (0, 0) (0, 3).
Proof. exact bent_witness. Qed.
Print Assumptions C94_deformations_refuted.

Example C94_example d mu : deformed_total (deform_of (ss_deform bent)) d [lorentz_peak] mu = 1 / (1 + (mu - d) ^ 2).
Proof. exact (bent_total d mu). Qed.
Example C94_hypotheses : ss_deform bent <> [] /\ ss_peaks bent = Some [lorentz_peak] /\ 0 < fst (row0 (ss_sensor bent)).
Proof. split; [discriminate|]. split; [reflexivity|]. cbn. lra. Qed.

(** C95: with a final rise (no deformations) the larger of peaks and rise counts; for equal plunger
    voltages the rise is shifted to the potential at the fully conductive point, ... *)
Theorem C95_rise_partial label lim1 lim2 lims1 lims2 x s rise a1 b1 a2 b2 v1 v2 res st m st' :
  ss_deform s = [] -> ss_rise s = Some rise -> plunger v1 = plunger v2 ->
  measure_sensor_scan (scan_config label lim1 lim2 lims1 lims2 x s) [a1; b1] [a2; b2] v1 v2 res st = (Ok m, st') ->
  exists o full q, plunger_occupation label x v1 v2 o /\
    (points_exist s o -> full_point s o (plunger v1, plunger v2) full) /\ pot_spec s o (plunger v1, plunger v2) full q /\
    shows s o (plunger v1, plunger v2) (fun _ mu => Rmax (base_dot s mu) (rise mu (at_sensor q))) (sc_scan m) (a1, b1) (a2, b2).
Proof. exact (measured_rise_equal label lim1 lim2 lims1 lims2 x s rise a1 b1 a2 b2 v1 v2 res st m st'). Qed.
Print Assumptions C95_rise_partial.
(** ... in general to the one for the voltage of plunger gate 1 on both plunger gates, ... *)
Theorem C95_rise label lim1 lim2 lims1 lims2 x s rise a1 b1 a2 b2 v1 v2 res st m st' :
  ss_deform s = [] -> ss_rise s = Some rise ->
  measure_sensor_scan (scan_config label lim1 lim2 lims1 lims2 x s) [a1; b1] [a2; b2] v1 v2 res st = (Ok m, st') ->
  requested_shape res (sc_scan m) /\
  exists o full q, plunger_occupation label x v1 v2 o /\
    (points_exist s o -> full_point s o (plunger v1, plunger v1) full) /\ pot_spec s o (plunger v1, plunger v1) full q /\
    shows s o (plunger v1, plunger v2) (fun _ mu => Rmax (base_dot s mu) (rise mu (at_sensor q))) (sc_scan m) (a1, b1) (a2, b2).
Proof. exact (measured_rise label lim1 lim2 lims1 lims2 x s rise a1 b1 a2 b2 v1 v2 res st m st'). Qed.
Print Assumptions C95_rise.
(** ... which is wrong for other plunger voltages. *)
Theorem C95_rise_refuted : exists s rise m st',
  ss_deform s = [] /\ ss_rise s = Some rise /\ points_exist s (0, 0) /\
  measure_sensor_scan (scan_config component_label None None None None None s) [0; 3] [0; 0] (Some 0) (Some 9) (ResInt 4) None = (Ok m, st') /\
  forall full q, full_point s (0, 0) (0, 9) full -> pot_spec s (0, 0) (0, 9) full q ->
    ~ shows s (0, 0) (0, 9) (fun _ mu => Rmax (base_dot s mu) (rise mu (at_sensor q))) (sc_scan m) (0, 3) (0, 0).
Proof. exact rise_witness. Qed.
Print Assumptions C95_rise_refuted.

Example C95_example v2 : exists m st',
  measure_sensor_scan (scan_config component_label None None None None None (rising 1)) [0; 3] [0; 0] (Some 0) (Some v2) (ResInt 4) None = (Ok m, st').
Proof. exact (rising_measured v2). Qed.

(** C96: a charge stability diagram has the shape of the ideal data; without deformations (or with a
    plunger gate swept) and final rise every pixel is the series combination of the summed peaks and the
    barriers at the potentials of its voltages, of its occupation and of the fixed sensor voltages. *)
Theorem C96_pixels label lim1 lim2 lims1 lims2 g s a1 b1 a2 b2 v1 v2 res st m st' :
  ss_deform s = [] \/ a1 <> b1 \/ a2 <> b2 -> ss_rise s = None ->
  measure (scan_config label lim1 lim2 lims1 lims2 (Some g) s) [a1; b1] [a2; b2] v1 v2 res st = (Ok m, st') ->
  (exists d, ideal_csd_geometric label (g_tcts g) [a1; b1] [a2; b2] res (g_rotation g) (g_lut g) (g_cdf g) (g_gamma g) = Ok d /\
     (m_occ m, m_lead m) = csd_arrays d) /\
  same_shape_occ (m_csd m) (m_occ m) /\
  forall v o y, csd_value (m_csd m) (m_occ m) (a1, b1) (a2, b2) v o y ->
    exists q, pot_spec s o v (plunger v1, plunger v2) q /\
      series_of y (base_dot s (at_sensor q)) (get_value (ss_barrier1 s) (at_barrier1 q)) (get_value (ss_barrier2 s) (at_barrier2 q)).
Proof. exact (csd_pixels label lim1 lim2 lims1 lims2 g s a1 b1 a2 b2 v1 v2 res st m st'). Qed.
Print Assumptions C96_pixels.
(** Valid measurements for which there are ideal data succeed, also with a final rise. *)
Theorem C96_outcome label lim1 lim2 lims1 lims2 g s a1 b1 a2 b2 v1 v2 res st d :
  let c := scan_config label lim1 lim2 lims1 lims2 (Some g) s in
  valid_request c [a1; b1] [a2; b2] v1 v2 res -> ~ sensor_voltage_missing c v1 v2 ->
  Forall (fun n => (1 <= n)%Z) (res_list res) -> config_ok label g ->
  ideal_csd_geometric label (g_tcts g) [a1; b1] [a2; b2] res (g_rotation g) (g_lut g) (g_cdf g) (g_gamma g) = Ok d ->
  ss_deform s = [] \/ a1 <> b1 \/ a2 <> b2 ->
  exists m st', measure c [a1; b1] [a2; b2] v1 v2 res st = (Ok m, st') /\ (m_occ m, m_lead m) = csd_arrays d.
Proof. exact (csd_outcome label lim1 lim2 lims1 lims2 g s a1 b1 a2 b2 v1 v2 res st d). Qed.
Print Assumptions C96_outcome.

Example C96_example : exists m st' o o',
  measure (scan_config component_label None None None None (Some couple_data) (single 1)) [0; 0] [0; 1] None None (ResInt 2) None = (Ok m, st') /\
  csd_value (m_csd m) (m_occ m) (0, 0) (0, 1) (0, 0) o (1 / 3) /\ csd_value (m_csd m) (m_occ m) (0, 0) (0, 1) (0, 1) o' (1 / 4).
Proof. exact single_witness. Qed.

(** C97: the value of a pixel does not depend on the ranges and the resolution of the diagram, on the
    configured voltage limits or on earlier measurements, without a final rise ... *)
Theorem C97_value_partial label lim1 lim2 lims1 lims2 lim1' lim2' lims1' lims2' g g' s a1 b1 a2 b2 a1' b1' a2' b2' v1 v2 res res' st st1 m st' st1' m' v o y y' :
  ss_deform s = [] \/ (a1 <> b1 \/ a2 <> b2) /\ (a1' <> b1' \/ a2' <> b2') -> ss_rise s = None ->
  measure (scan_config label lim1 lim2 lims1 lims2 (Some g) s) [a1; b1] [a2; b2] v1 v2 res st = (Ok m, st') ->
  measure (scan_config label lim1' lim2' lims1' lims2' (Some g') s) [a1'; b1'] [a2'; b2'] v1 v2 res' st1 = (Ok m', st1') ->
  csd_value (m_csd m) (m_occ m) (a1, b1) (a2, b2) v o y -> csd_value (m_csd m') (m_occ m') (a1', b1') (a2', b2') v o y' -> y = y'.
Proof. exact (csd_pure label lim1 lim2 lims1 lims2 lim1' lim2' lims1' lims2' g g' s a1 b1 a2 b2 a1' b1' a2' b2' v1 v2 res res' st st1 m st' st1' m' v o y y'). Qed.
Print Assumptions C97_value_partial.
(** ... but with one it does: the rise is shifted to the potential at the fully conductive point found
    for the first pixel of the diagram, ... *)
Theorem C97_rise label lim1 lim2 lims1 lims2 g s rise a1 b1 a2 b2 v1 v2 res st m st' :
  ss_deform s = [] \/ a1 <> b1 \/ a2 <> b2 -> ss_rise s = Some rise ->
  measure (scan_config label lim1 lim2 lims1 lims2 (Some g) s) [a1; b1] [a2; b2] v1 v2 res st = (Ok m, st') ->
  same_shape_occ (m_csd m) (m_occ m) /\ exists o1 pt q1,
  first_occ (m_occ m) = Ok o1 /\ pot_spec s o1 (a1, a2) pt q1 /\
  (points_exist s o1 -> a1 = b1 \/ a2 = b2 -> full_point s o1 (a1, a2) pt) /\
  forall v o y, csd_value (m_csd m) (m_occ m) (a1, b1) (a2, b2) v o y ->
    exists q, pot_spec s o v (plunger v1, plunger v2) q /\
      series_of y (Rmax (base_dot s (at_sensor q)) (rise (at_sensor q) (at_sensor q1)))
        (get_value (ss_barrier1 s) (at_barrier1 q)) (get_value (ss_barrier2 s) (at_barrier2 q)).
Proof. exact (csd_rise label lim1 lim2 lims1 lims2 g s rise a1 b1 a2 b2 v1 v2 res st m st'). Qed.
Print Assumptions C97_rise.
(** ... so two diagrams disagree about a pixel they have in common. *)
Theorem C97_value_refuted : exists s m m' st1 st2 o y y',
  ss_deform s = [] /\
  measure (scan_config component_label None None None None (Some couple_data) s) [0; 0] [0; 3] None None (ResInt 2) None = (Ok m, st1) /\
  measure (scan_config component_label None None None None (Some couple_data) s) [0; 0] [3; 6] None None (ResInt 2) None = (Ok m', st2) /\
  csd_value (m_csd m) (m_occ m) (0, 0) (0, 3) (0, 3) o y /\ csd_value (m_csd m') (m_occ m') (0, 0) (3, 6) (0, 3) o y' /\ y <> y'.
Proof. exact two_scans. Qed.
Print Assumptions C97_value_refuted.

Example C97_example m st' a2 b2 v o y :
  measure (scan_config component_label None None None None (Some couple_data) (rising 1)) [0; 0] [a2; b2] None None (ResInt 2) None = (Ok m, st') ->
  csd_value (m_csd m) (m_occ m) (0, 0) (a2, b2) v o y -> series_of y (exp (snd v - (10 + a2))) 1 1.
Proof. exact (rising_value m st' a2 b2 v o y). Qed.
