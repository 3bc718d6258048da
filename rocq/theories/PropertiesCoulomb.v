(** Properties of the Coulomb peaks labelled in sensor scans. *)
From Verif Require Import RPrelude Arr ModelSupport ModelTct ModelCsd ModelDistortions ModelSensor ModelSimulation ModelInstance ModelScanInstance ModelDefault ModelScanNoise
  SpecSupport SpecCsd SpecSensor SpecInstance SpecScanInstance SpecCoulomb ProofsLabel ProofsCoulomb ProofsCoulomb2 PropertiesScanNoise.
Local Open Scope R_scope.

(** C146: a pixel with the label of a peak is in the area between pinch-off and full conduction, and its potential is less than
    a pixel step away from the peak. *)
Theorem C146_near label lim1 lim2 lims1 lims2 x s ps a1 b1 a2 b2 v1 v2 res st m st' w y c i :
  ss_deform s = [] -> ss_peaks s = Some ps ->
  measure_sensor_scan (scan_config label lim1 lim2 lims1 lims2 x s) [a1; b1] [a2; b2] v1 v2 res st = (Ok m, st') ->
  labelled_value (sc_scan m) (sc_labels m) (a1, b1) (a2, b2) w y c (S i) ->
  c = 1%nat /\ exists o q pk, plunger_occupation label x v1 v2 o /\ pot_spec s o (plunger v1, plunger v2) w q /\ nth_error ps i = Some pk /\
    Rabs (at_sensor q - mu0 pk) < Rabs (row_step s (sc_scan m) (a1, b1) (a2, b2)).
Proof. exact (label_near label lim1 lim2 lims1 lims2 x s ps a1 b1 a2 b2 v1 v2 res st m st' w y c i). Qed.
Print Assumptions C146_near.
(** A pixel of this area that is less than half a pixel step away from a peak has the label of this peak, if the others are at least
    one and a half steps away from it. *)
Theorem C146_shown label lim1 lim2 lims1 lims2 x s ps a1 b1 a2 b2 v1 v2 res st m st' w y k i pk o q :
  ss_deform s = [] -> ss_peaks s = Some ps ->
  measure_sensor_scan (scan_config label lim1 lim2 lims1 lims2 x s) [a1; b1] [a2; b2] v1 v2 res st = (Ok m, st') ->
  labelled_value (sc_scan m) (sc_labels m) (a1, b1) (a2, b2) w y 1 k -> nth_error ps i = Some pk ->
  plunger_occupation label x v1 v2 o -> pot_spec s o (plunger v1, plunger v2) w q ->
  Rabs (at_sensor q - mu0 pk) < Rabs (row_step s (sc_scan m) (a1, b1) (a2, b2)) / 2 ->
  (forall i' pk', i' <> i -> nth_error ps i' = Some pk' -> 3 / 2 * Rabs (row_step s (sc_scan m) (a1, b1) (a2, b2)) <= Rabs (mu0 pk' - mu0 pk)) ->
  k = S i.
Proof. exact (label_shown label lim1 lim2 lims1 lims2 x s ps a1 b1 a2 b2 v1 v2 res st m st' w y k i pk o q). Qed.
Print Assumptions C146_shown.

(** Sensor scans of GaAs_v2_extended_sensor without plunger voltages: each gate on its own blocks the sensor, both together open it. *)
Theorem C146_regions label lim1 lim2 lims1 lims2 x s a1 b1 a2 b2 res st m st' w y c k : default_sensor_v2 = Ok s ->
  measure_sensor_scan (scan_config label lim1 lim2 lims1 lims2 x s) [a1; b1] [a2; b2] None None res st = (Ok m, st') ->
  labelled_value (sc_scan m) (sc_labels m) (a1, b1) (a2, b2) w y c k -> -1 <= fst w <= 0.4 -> -1 <= snd w <= 0.4 ->
  (fst w <= -0.72 \/ snd w <= -0.79 -> c = 0%nat /\ y < 0.0003) /\
  (-0.35 <= fst w -> -0.35 <= snd w -> c = 2%nat /\ 0.0598 < y).
Proof. exact (default_regions label lim1 lim2 lims1 lims2 x s a1 b1 a2 b2 res st m st' w y c k). Qed.
Print Assumptions C146_regions.
(** Of the 19 peaks only the last seven can be labelled, ... *)
Theorem C146_numbers label lim1 lim2 lims1 lims2 x s a1 b1 a2 b2 res st m st' w y c k : default_sensor_v2 = Ok s ->
  measure_sensor_scan (scan_config label lim1 lim2 lims1 lims2 x s) [a1; b1] [a2; b2] None None res st = (Ok m, st') ->
  Rabs (row_step s (sc_scan m) (a1, b1) (a2, b2)) <= 0.0005 ->
  labelled_value (sc_scan m) (sc_labels m) (a1, b1) (a2, b2) w y c k -> k = 0%nat \/ (13 <= k <= 19)%nat.
Proof. exact (default_numbers label lim1 lim2 lims1 lims2 x s a1 b1 a2 b2 res st m st' w y c k). Qed.
Print Assumptions C146_numbers.
(** ... and a scan of the whole range has a row with the labels of the first six of these. *)
Theorem C146_row label s nx ny st : (forall i, is_labelling i (label i)) -> default_sensor_v2 = Ok s -> (300 <= nx)%nat -> (300 <= ny)%nat ->
  exists m st', measure_sensor_scan (scan_config label (Some limits_g1) (Some limits_g2) (Some limits_sensor) (Some limits_sensor) (Some default_csd) s)
      [-1; 0.4] [-1; 0.4] None None (ResArray [Z.of_nat nx; Z.of_nat ny]) st = (Ok m, st') /\
  exists u, forall k, (13 <= k <= 18)%nat -> exists w y, snd w = u /\ labelled_value (sc_scan m) (sc_labels m) (-1, 0.4) (-1, 0.4) w y 1 k.
Proof. exact (default_whole label s nx ny st). Qed.
Print Assumptions C146_row.

(** 300 columns are enough for [C146_numbers]. *)
Example C146_example a : cols a = 300%nat -> exists s, default_sensor_v2 = Ok s /\ Rabs (row_step s (Img2 a) (-1, 0.4) (-1, 0.4)) <= 0.0005.
Proof.
  intros Ea. destruct C114_constructed as [s Made]. exists s. split; [exact Made|]. destruct (ProofsAreas2.default_conducting s Made) as (_ & _ & Es & _).
  unfold row_step. rewrite Es, Ea. cbn [fst snd row0]. rewrite Rabs_pos_eq; rewrite INR_IZR_INZ; cbn; lra.
Qed.
