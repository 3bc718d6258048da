(** C148: charge sensing with the sensor of GaAs_v2_extended_sensor. *)
From Verif Require Import RPrelude Arr ModelSupport ModelTct ModelCsd ModelSensor ModelSimulation ModelInstance ModelScanInstance ModelSampling ModelConfig ModelSampledSim ModelDefault ModelScanNoise
  SpecSupport SpecTct SpecCsd SpecSensor SpecScanInstance SpecSampling SpecConfig SpecEnter SpecSampledSim SpecSenseScan ProofsScanNoise4 ProofsSenseScan ProofsLabel ExamplesConfig ExamplesSampledSim.
Local Open Scope R_scope.

(** Any configuration: of two pixels of a diagram, the first with one electron more than the second, which is in dot 1 ([right]) or 2 up to [e], the
    second is measured at potentials that are higher by the lever arms of this dot on the sensor dot and on the barriers. *)
Theorem C148_drop label g lim1 lim2 lims1 lims2 s a1 b1 a2 b2 v1 v2 res st m st' : ss_deform s = [] \/ a1 <> b1 \/ a2 <> b2 ->
  measure (scan_config label lim1 lim2 lims1 lims2 (Some g) s) [a1; b1] [a2; b2] v1 v2 res st = (Ok m, st') ->
  exists off, forall v o y v' o' y' n delta e (right : bool),
  csd_value (m_csd m) (m_occ m) (a1, b1) (a2, b2) v o y -> csd_value (m_csd m) (m_occ m) (a1, b1) (a2, b2) v' o' y' ->
  fst o + snd o = n -> fst o' + snd o' = n - 1 -> Rabs (fst v - fst v') <= delta -> Rabs (snd v - snd v') <= delta ->
  Rabs (fst o - fst o' - (if right then 1 else 0)) <= e ->
  exists q q', measured_at s off q y /\ measured_at s off q' y' /\
    arm_step right e delta (row0 (ss_gate s)) (row0 (ss_dot s)) (at_sensor q) (at_sensor q') /\
    arm_step right e delta (row1 (ss_gate s)) (row1 (ss_dot s)) (at_barrier1 q) (at_barrier1 q') /\
    arm_step right e delta (row2 (ss_gate s)) (row2 (ss_dot s)) (at_barrier2 q) (at_barrier2 q').
Proof. exact (sense_any label g lim1 lim2 lims1 lims2 s a1 b1 a2 b2 v1 v2 res st m st'). Qed.
Print Assumptions C148_drop.

(** Default configuration: across the middle third of every branch of every transition the drop of all three potentials tells which dot got the electron. *)
Theorem C148_default label lim1 lim2 lims1 lims2 s a1 b1 a2 b2 v1 v2 res st m st' : (forall x, is_labelling x (label x)) -> default_sensor_v2 = Ok s ->
  measure (scan_config label lim1 lim2 lims1 lims2 (Some default_csd) s) [a1; b1] [a2; b2] v1 v2 res st = (Ok m, st') ->
  exists off, forall v o y v' o' y' n k (right : bool) t b,
  csd_value (m_csd m) (m_occ m) (a1, b1) (a2, b2) v o y -> csd_value (m_csd m) (m_occ m) (a1, b1) (a2, b2) v' o' y' ->
  fst o + snd o = INR n -> fst o' + snd o' = INR n - 1 -> on_branch default_tcts n k right t b ->
  dist2 (tct_view (- (PI / 4)) v) b <= 5/100000 -> dist2 (tct_view (- (PI / 4)) v') b <= 5/100000 ->
  1/3 <= t -> outer right n k \/ t <= 2/3 ->
  exists q q', measured_at s off q y /\ measured_at s off q' y' /\
    if right then rises 0.000375 0.000521 q q' else rises 0.000219 0.000365 q q'.
Proof. exact (sense_default label lim1 lim2 lims1 lims2 s a1 b1 a2 b2 v1 v2 res st m st'). Qed.
Print Assumptions C148_default.

(** Sampled configurations: at the middle of every branch all three potentials rise by 0.4 to 1.6 times the lever arm of this dot, which is more than 20 microvolts. *)
Theorem C148_sampled {G} label (r : rng G) choice x c p s lim1 lim2 lims1 lims2 a1 b1 a2 b2 v1 v2 res st m st' :
  uniform_ok r -> choice_ok choice -> (forall x, is_labelling x (label x)) -> sampled r choice label x c -> sc_sensor c = SampledScan p -> sensor_of p = Ok s ->
  measure (scan_config label lim1 lim2 lims1 lims2 (Some x) s) [a1; b1] [a2; b2] v1 v2 res st = (Ok m, st') ->
  exists off, forall v o y v' o' y' n k (right : bool) t b,
  csd_value (m_csd m) (m_occ m) (a1, b1) (a2, b2) v o y -> csd_value (m_csd m) (m_occ m) (a1, b1) (a2, b2) v' o' y' ->
  fst o + snd o = INR n -> fst o' + snd o' = INR n - 1 -> (n < length (g_tcts x))%nat -> on_branch (g_tcts x) n k right t b ->
  dist2 (tct_view (g_rotation x) v) b <= 1/100000 -> dist2 (tct_view (g_rotation x) v') b <= 1/100000 ->
  1/2 <= t -> outer right n k \/ t = 1/2 ->
  exists q q', measured_at s off q y /\ measured_at s off q' y' /\
    let arm := - (if right then fst (sp_dots p) else snd (sp_dots p)) in rises (0.4 * arm) (1.6 * arm) q q' /\ 0.00002 < 0.4 * arm.
Proof. exact (sense_sampled label r choice x c p s lim1 lim2 lims1 lims2 a1 b1 a2 b2 v1 v2 res st m st'). Qed.
Print Assumptions C148_sampled.

(** The 19 Coulomb peaks of the default sensor are resolved. *)
Theorem C148_resolved s : default_sensor_v2 = Ok s ->
  (forall i, (i <= 18)%nat -> 0.09 <= base_dot s (-0.151 + 0.003 * INR i)) /\
  (forall i, (i <= 17)%nat -> base_dot s (-0.151 + 0.003 * INR i + 0.0015) < 0.05).
Proof. exact (v2_resolved s). Qed.
Print Assumptions C148_resolved.

Example C148_example : exists s, default_sensor_v2 = Ok s /\ 0.09 <= base_dot s (-0.148) /\ base_dot s (-0.1465) < 0.05.
Proof.
  destruct default_v2_made as [s Hs]. exists s. split; [exact Hs|]. destruct (C148_resolved s Hs) as [Hi Lo].
  specialize (Hi 1%nat ltac:(lia)). specialize (Lo 1%nat ltac:(lia)). cbn [INR] in Hi, Lo.
  replace (-0.148) with (-0.151 + 0.003 * 1) by lra. replace (-0.1465) with (-0.151 + 0.003 * 1 + 0.0015) by lra. split; assumption.
Qed.
Example C148_example_arms : let s := mk_rows3 (1, 1) (1, 1) (1, 1) in
  arm_step true 0 0 (row0 s) (-0.00044775, -0.0002922) (affine_scan 0 (1, 1) (-0.00044775, -0.0002922) (1, 1) (0, 0) (1, 0) (0, 0))
    (affine_scan 0 (1, 1) (-0.00044775, -0.0002922) (1, 1) (0, 0) (0, 0) (0, 0)).
Proof. cbv zeta. unfold arm_step, affine_scan, affine. cbn [row0 fst snd]. rewrite Rabs_pos_eq by lra. lra. Qed.
(** Sampled configurations with such a sensor exist. *)
Example C148_example_sampled : exists x c p, sampled middle (fun a _ g => (a, g)) component_label x c /\ sc_sensor c = SampledScan p.
Proof. exact sampled_scan_exists. Qed.
