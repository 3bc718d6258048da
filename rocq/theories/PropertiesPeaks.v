(** Properties of the sensor peaks of the default configuration GaAs_v1. *)
From Verif Require Import RPrelude Arr ModelSupport ModelTct ModelCsd ModelDistortions ModelSensor ModelSimulation ModelInstance ModelConfig ModelDefault
  SpecTct SpecCsd SpecSensor SpecInstance SpecNoise ProofsLabel ProofsPeaks.
Local Open Scope R_scope.

(** C145 The five peaks can be constructed, they are resolved, *)
Theorem C145_made : Forall (fun p => new_lorentz (lz_mu0 p) (lz_gamma p) (lz_height p) (lz_offset p) = Ok p) default_peaks.
Proof. exact peaks_made. Qed.
Print Assumptions C145_made.
Theorem C145_resolved ps : gs_peaks default_sensor_v1 = Some ps ->
  let f := fun mu => Rsum (map (fun p => sensor_function p mu) ps) - 5 * (-0.253275) in
  (forall i, (i <= 4)%nat -> 0.026 < f (-0.12096 + 0.005 * INR i)) /\
  (forall i, (i <= 3)%nat -> f (-0.12096 + 0.005 * INR i + 0.0025) < 0.011).
Proof. exact (resolved ps). Qed.
Print Assumptions C145_resolved.
(** the sweep along the diagonal of the voltage limits crosses each of them, *)
Theorem C145_crossed {W} label n (w : W) : (forall m, is_labelling m (label m)) -> (2 <= n)%nat ->
  exists m, measure (plain_config label (Some limits_g1) (Some limits_g2) default_csd default_sensor_v1)
    [fst limits_g1; snd limits_g1] [fst limits_g2; snd limits_g2] None None (ResInt (Z.of_nat n)) w = (Ok m, w) /\
  forall i, (i <= 4)%nat -> exists k v v' o o' y y',
    numbered_pixel m limits_g1 limits_g2 k v o y /\ numbered_pixel m limits_g1 limits_g2 (S k) v' o' y' /\
    let pot := affine (gs_offset default_sensor_v1) (gs_gate default_sensor_v1) (gs_dot default_sensor_v1) in
    pot v o <= -0.12096 + 0.005 * INR i < pot v' o'.
Proof. intros Lab. exact (default_crossed label Lab n w). Qed.
Print Assumptions C145_crossed.
(** and all values lie between the sum of the five offsets and 0.05 above it. *)
Theorem C145_values {W} label a1 b1 a2 b2 v1 v2 res (w w' : W) m : (forall i, is_labelling i (label i)) ->
  measure (plain_config label (Some limits_g1) (Some limits_g2) default_csd default_sensor_v1) [a1; b1] [a2; b2] v1 v2 res w = (Ok m, w') ->
  forall v o lab y, measured_pixel m (a1, b1) (a2, b2) v o lab y -> 5 * (-0.253275) < y < 5 * (-0.253275) + 0.05.
Proof. intros Lab. exact (default_values label Lab a1 b1 a2 b2 v1 v2 res w w' m). Qed.
Print Assumptions C145_values.

Example C145_example : -0.2 = fst limits_g1 /\ affine (gs_offset default_sensor_v1) (gs_gate default_sensor_v1) (gs_dot default_sensor_v1) (-0.2, -0.2) (0, 0) < -0.12305 /\
  -0.10096 < affine (gs_offset default_sensor_v1) (gs_gate default_sensor_v1) (gs_dot default_sensor_v1) (-0.087, -0.047) (13, 0).
Proof. unfold affine. cbn. lra. Qed.
