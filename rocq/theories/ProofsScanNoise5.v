(** Telegraph noise of the response in sensor scans; the theorems about the default configuration. *)
From Verif Require Import RPrelude Arr ModelSupport ModelTct ModelCsd ModelJumps ModelDistortions ModelSensor ModelSimulation ModelInstance
  ModelNoise ModelScanInstance ModelDefault ModelDefaultNoise ModelScanNoise SpecTct SpecCsd SpecSensor SpecSimulation SpecInstance SpecNoise SpecScanInstance SpecDefaultNoise SpecScanNoise
  ProofsSensor ProofsScanSensor ProofsSensorMore ProofsDistortions ProofsSimulation ProofsLabel ProofsInstance ProofsNoise ProofsSuccess ProofsDefaultNoise
  ProofsScanInstance ProofsScanCsd ProofsScanNoise ProofsScanNoise2 ProofsScanNoise3 ProofsScanNoise4.
Local Open Scope R_scope.

Section Response.
Context {G : Type}.
Variable src : sources G.
Hypothesis Sok : sources_ok src.
Variable label : arr2 nat -> arr2 nat.
Notation noisy := (noisy_scan_config src label).

Lemma response_telegraph lim1 lim2 lims1 lims2 x s occs ratio scale std height a1 b1 a2 b2 v1 v2 res n st m0 st' w : ss_deform s = [] ->
  measure_sensor_scan (scan_config label lim1 lim2 lims1 lims2 x s) [a1; b1] [a2; b2] v1 v2 res st = (Ok m0, st') ->
  image_shape (sc_scan m0) = Shape1 n ->
  let r := measure_sensor_scan (noisy lim1 lim2 lims1 lims2 x s occs [] [Telegraph ratio scale std height]) [a1; b1] [a2; b2] v1 v2 res w in
  (a1 <> b1 -> (forall g, 1 <= fst (scale g) * (INR n / Rabs (b1 - a1))) -> returned_scan r (Shape1 n)) /\
  (a1 = b1 -> if fst (src_binomial src ratio (w_rng (fst w))) then raised r ValueError else returned_scan r (Shape1 n)).
Proof.
  intros Hd M Sh r. pose proof (noisy_scan_outcome src Sok label lim1 lim2 lims1 lims2 x s occs [] [Telegraph ratio scale std height] a1 b1 a2 b2 v1 v2 res st m0 st' w Hd M) as O.
  cbv zeta in O. fold r in O. rewrite Sh in O. cbn [drawn3_all drawn_all] in O.
  split.
  - intros D F. assert (K : rtn_px_per_volt (Shape1 n) (a1, b1) (a1, b1) = Ok (INR n / Rabs (b1 - a1))).
    { cbn [rtn_px_per_volt]. rewrite !range_abs. cbn [fst snd]. rewrite Rmax_left by lra. rewrite Reqb_false; [reflexivity|]. apply Rabs_no_R0. lra. }
    destruct (telegraph_drawn src ratio scale std height (Shape1 n) (a1, b1) (a1, b1) (w_rng (fst w)) _ K F) as (z & g & E). rewrite E in O. cbn [bind fst snd] in O. exact O.
  - intros ->. cbn [drawn] in O. destruct (src_binomial src ratio (w_rng (fst w))) as [act g1]. cbn [fst]. destruct act; cbn [negb] in O.
    + destruct (scale g1) as [sv g2]. cbn [rtn_px_per_volt] in O. rewrite !range_abs in O. cbn [fst snd] in O.
      rewrite Rminus_diag_eq, Rabs_R0, Rmax_left in O by (try reflexivity; lra). rewrite Reqb_true in O by reflexivity. exact O.
    + cbn [bind fst snd] in O. exact O.
Qed.
End Response.

(** ** The default configuration, with the strengths of the noise as they are sampled *)
Lemma v2_diagram {G} (src : sources G) label kernel radius pink white s a1 b1 a2 b2 u1 u2 nx ny w :
  sources_ok src -> (forall m, is_labelling m (label m)) -> white_range white -> default_sensor_v2 = Ok s ->
  a1 <> b1 -> a2 <> b2 -> (2 <= nx)%nat -> (2 <= ny)%nat ->
  sweep_within (Some limits_g1) a1 b1 -> sweep_within (Some limits_g2) a2 b2 -> sensor_within u1 -> sensor_within u2 ->
  Rabs (b1 - a1) <= 0.004 * INR (nx - 1) -> Rabs (b2 - a2) <= 0.004 * INR (ny - 1) ->
  returned_csd (measure (default_noisy_v2 src label kernel radius pink white s) [a1; b1] [a2; b2] (Some u1) (Some u2) (ResArray [Z.of_nat nx; Z.of_nat ny]) w)
    (Shape2 ny nx).
Proof. intros H L W M. intros. apply (v2_csd_2d src H label L kernel radius pink white (white_positive _ W) s M); auto. Qed.
Lemma v2_line {G} (src : sources G) label kernel radius pink white s a1 b1 a2 b2 u1 u2 res n w :
  sources_ok src -> (forall m, is_labelling m (label m)) -> white_range white -> default_sensor_v2 = Ok s ->
  res_list res = [Z.of_nat n] -> (7 <= n)%nat -> a1 <> b1 -> a2 <> b2 ->
  sweep_within (Some limits_g1) a1 b1 -> sweep_within (Some limits_g2) a2 b2 -> sensor_within u1 -> sensor_within u2 ->
  returned_csd (measure (default_noisy_v2 src label kernel radius pink white s) [a1; b1] [a2; b2] (Some u1) (Some u2) res w) (Shape1 n).
Proof. intros H L W M. intros. apply (v2_csd_both src H label L kernel radius pink white (white_positive _ W) s M); auto. Qed.
Lemma v2_fine_scan {G} (src : sources G) label kernel radius pink white s a1 b1 a2 b2 v1 v2 res sh w :
  sources_ok src -> (forall m, is_labelling m (label m)) -> white_range white -> default_sensor_v2 = Ok s ->
  let cfg := default_noisy_v2 src label kernel radius pink white s in
  valid_scan cfg [a1; b1] [a2; b2] v1 v2 res -> scannable (Some default_csd) v1 v2 res -> requested res sh -> fine_scan a1 b1 a2 b2 res ->
  returned_scan (measure_sensor_scan cfg [a1; b1] [a2; b2] v1 v2 res w) sh.
Proof. intros H L W M cfg. intros. apply (v2_scan src H label L kernel radius pink white (white_positive _ W) s M); auto. Qed.
Lemma v2_coarse_scan {G} (src : sources G) label kernel radius pink white s a1 b1 a2 b2 v1 v2 nx ny w :
  sources_ok src -> (forall m, is_labelling m (label m)) -> white_range white -> default_sensor_v2 = Ok s ->
  let cfg := default_noisy_v2 src label kernel radius pink white s in
  let res := ResArray [Z.of_nat nx; Z.of_nat ny] in
  valid_scan cfg [a1; b1] [a2; b2] v1 v2 res -> coarse_scan a1 b1 a2 b2 nx ny ->
  let r := measure_sensor_scan cfg [a1; b1] [a2; b2] v1 v2 res w in
  if one_of_three src (1 / 6) (after_pink3 src pink (ny * nx) (w_rng (fst w))) then raised r ValueError else returned_scan r (Shape2 ny nx).
Proof. intros H L W M cfg res V C r. exact (v2_coarse src H label L kernel radius pink white (white_positive _ W) s M a1 b1 a2 b2 v1 v2 nx ny w V C). Qed.
