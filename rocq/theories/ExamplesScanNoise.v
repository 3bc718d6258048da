(** Concrete measurements with a SensorScanSensorGeneric sensor and distortions. *)
From Verif Require Import RPrelude Arr ModelSupport ModelTct ModelCsd ModelJumps ModelDistortions ModelSensor ModelSimulation ModelInstance
  ModelNoise ModelScanInstance ModelDefault ModelDefaultNoise ModelScanNoise SpecDistortions SpecTct SpecCsd SpecSensor SpecSimulation SpecInstance SpecNoise SpecScanInstance SpecDefaultNoise SpecScanNoise
  ProofsSensor ProofsScanSensor ProofsSensorMore ProofsDistortions ProofsSimulation ProofsLabel ProofsInstance ProofsNoise ProofsSuccess ProofsDefaultNoise
  ProofsScanInstance ProofsScanCsd ProofsScanNoise ProofsScanNoise2 ProofsScanNoise3 ProofsScanNoise4 ProofsScanNoise5
  ExamplesSensor ExamplesCsd ExamplesNoise ExamplesDefaultNoise ExamplesScanInstance.
Local Open Scope R_scope.

Definition start : scan_world unit := (fresh_world, None).
(** One peak; the noise of every potential and of the response is 1 at every pixel. *)
Definition one_noise : config (scan_world unit) lead_mask image labels :=
  noisy_scan_config demo_src component_label None None None None None (demo 0 [lorentz_peak] []) [] [Pink (fixed_param 1) 0] [White (fixed_param 1)].
Lemma ones_pots n l1 l2 g : drawn3_all demo_src [Pink (fixed_param 1) 0] (Shape1 n) l1 l2 g =
  let z := plus_pixels (map (fun x => x * 1) (repeat 1 n)) (repeat 0 n) in Ok (z, z, z, tt).
Proof. reflexivity. Qed.
Lemma ones_resp n l1 l2 g : drawn_all demo_src [White (fixed_param 1)] (Shape1 n) l1 l2 g =
  Ok (plus_pixels (map (fun x => 0 + 1 * x) (repeat 1 n)) (repeat 0 n), tt).
Proof. cbn [drawn_all drawn fixed_param demo_src src_standard]. rewrite Rltb_false by lra. reflexivity. Qed.
Lemma clean_line : exists m st', measure_sensor_scan (scan_config component_label None None None None None (demo 0 [lorentz_peak] [])) [0; 3] [0; 0] None None (ResInt 4) None = (Ok m, st') /\
  image_shape (sc_scan m) = Shape1 4.
Proof.
  destruct (measured_outcome component_label None None None None None (demo 0 [lorentz_peak] []) [lorentz_peak] 0 3 0 0 None None (ResInt 4) None) as (m & st' & E).
  { apply no_limits_valid. tauto. } { split; [repeat constructor; lia|auto]. } { discriminate. } { reflexivity. } { left. reflexivity. }
  destruct (measured_plain component_label None None None None None (demo 0 [lorentz_peak] []) 0 3 0 0 None None (ResInt 4) None m st' eq_refl eq_refl E) as (Rs & _).
  exists m, st'. split; [exact E|]. destruct (sc_scan m) as [c|c]; cbn in Rs |- *; [injection Rs as Rs; f_equal; lia|discriminate].
Qed.
Lemma clean_column : exists m st', measure_sensor_scan (scan_config component_label None None None None None (demo 0 [lorentz_peak] [])) [0; 0] [0; 3] None None (ResInt 4) None = (Ok m, st') /\
  image_shape (sc_scan m) = Shape1 4.
Proof.
  destruct (measured_outcome component_label None None None None None (demo 0 [lorentz_peak] []) [lorentz_peak] 0 0 0 3 None None (ResInt 4) None) as (m & st' & E).
  { apply no_limits_valid. tauto. } { split; [repeat constructor; lia|auto]. } { discriminate. } { reflexivity. } { left. reflexivity. }
  destruct (measured_plain component_label None None None None None (demo 0 [lorentz_peak] []) 0 0 0 3 None None (ResInt 4) None m st' eq_refl eq_refl E) as (Rs & _).
  exists m, st'. split; [exact E|]. destruct (sc_scan m) as [c|c]; cbn in Rs |- *; [injection Rs as Rs; f_equal; lia|discriminate].
Qed.
(** Without noise the pixel is 1/3; with it the dot conducts 1/2, the series combination is 1/4. *)
Lemma ones_measured : exists m w', measure_sensor_scan one_noise [0; 3] [0; 0] None None (ResInt 4) start = (Ok m, w') /\
  scan_pixel (sc_scan m) (0, 3) (0, 0) 0 (0, 0) (5 / 4).
Proof.
  destruct clean_line as (m0 & st & M & Sh).
  pose proof (noisy_scan_outcome demo_src demo_src_ok component_label None None None None None (demo 0 [lorentz_peak] []) [] [Pink (fixed_param 1) 0] [White (fixed_param 1)]
    0 3 0 0 None None (ResInt 4) None m0 st start eq_refl M) as O. cbv zeta in O. rewrite Sh in O.
  rewrite ones_pots in O. cbv zeta in O. cbn iota beta in O. rewrite ones_resp in O. destruct O as (m & w' & E & S4). exists m, w'. split; [exact E|].
  destruct (scan_values_drawn demo_src demo_src_ok component_label [Pink (fixed_param 1) 0] [White (fixed_param 1)] None None None None None (demo 0 [lorentz_peak] []) []
    0 3 0 0 None None (ResInt 4) start w' m eq_refl E) as (z0 & z1 & z2 & g & zr & o & off & _ & D & Dr & Ho & _ & Q).
  rewrite S4 in D, Dr. rewrite ones_pots in D. cbv zeta in D. injection D as <- <- <- <-. rewrite ones_resp in Dr. injection Dr as <-.
  cbn in Ho. subst o.
  destruct (scan_pixel_exists (sc_scan m) (0, 3) (0, 0) 0) as (u & y & Hy). { rewrite S4. cbn. lia. }
  assert (u = (0, 0)). { destruct (sc_scan m) as [c|c]; cbn in S4; [|discriminate]. injection S4 as S4. destruct Hy as (_ & -> & _). rewrite S4. unfold volt_at. cbn. f_equal; field. }
  subst u. destruct (Q _ _ _ Hy) as (q & Hq & x & S1 & Ey). cbn [plunger] in Hq. rewrite (pot_spec_unique _ _ _ _ _ _ Hq (demo_pot _ _ _ _ _)) in S1.
  unfold plus_pixels in S1, Ey. cbn [nth combine map fst snd] in S1, Ey.
  unfold dot_value, base_dot in S1. cbn [demo ss_rise ss_peaks ss_barrier1 ss_barrier2 get_value fst snd at_sensor] in S1. unfold peak_total in S1.
  cbn [map fold_right] in S1. rewrite lorentz_value in S1. replace (1 / (1 + (0 + 0 * 0 + (1 * 1 + 0) - mu0 lorentz_peak) ^ 2) + 0) with (1 / 2) in S1 by (cbn [lorentz_peak mu0]; field).
  destruct S1 as [A _]. rewrite A in Ey by lra. replace (5 / 4) with y; [exact Hy|]. rewrite Ey. field.
Qed.

(** A diagram with the same noise. *)
Definition one_csd : config (scan_world unit) lead_mask image labels :=
  noisy_scan_config demo_src component_label None None None None (Some couple_data) (single 1) [] [Pink (fixed_param 1) 0] [White (fixed_param 1)].
Lemma ones_csd : exists m w', measure one_csd [0; 0] [0; 1] None None (ResInt 2) start = (Ok m, w') /\
  exists o, csd_pixel (m_csd m) (m_occ m) (0, 0) (0, 1) 1 (0, 1) o (1 / 7 + 1).
Proof.
  destruct (line_measured (single 1) 0 1 eq_refl) as (o1 & o2 & l1 & l2 & m0 & st1 & E & M & A).
  pose proof (noisy_csd_outcome demo_src demo_src_ok component_label None None None None couple_data (single 1) [] [Pink (fixed_param 1) 0] [White (fixed_param 1)]
    0 0 0 1 None None (ResInt 2) start (Csd1 [o1; o2] [l1; l2]) (Ok (csd_arrays (Csd1 [o1; o2] [l1; l2]))) fresh_world (Shape1 2) (or_introl eq_refl)) as O.
  cbv zeta in O. cbn iota in O. rewrite ones_pots in O. cbv zeta in O. cbn iota beta in O. rewrite ones_resp in O.
  destruct O as (m & w' & Em & So & Si); try exact I.
  { exists 0, 0, 0, 1. split; [reflexivity|]. split; [reflexivity|]. split; [cbn; lia|]. discriminate. }
  { tauto. } { exact E. } { reflexivity. } { intros ol H. injection H as <-. split; reflexivity. } { cbn. lia. }
  exists m, w'. split; [exact Em|].
  destruct (csd_values_drawn demo_src demo_src_ok component_label [Pink (fixed_param 1) 0] [White (fixed_param 1)] None None None None couple_data (single 1) []
    0 0 0 1 None None (ResInt 2) start w' m couple_data_ok (or_introl eq_refl) Em) as (sh & g0 & z0 & z1 & z2 & g & zr & off & _ & Si' & _ & _ & D & Dr & _ & Q).
  rewrite Si in Si'. subst sh. rewrite ones_pots in D. cbv zeta in D. injection D as <- <- <- <-. rewrite ones_resp in Dr. injection Dr as <-.
  destruct (csd_pixel_exists (m_csd m) (m_occ m) (0, 0) (0, 1) 1 (Shape1 2) Si So) as (v & o & y & Hy). { cbn. lia. }
  assert (v = (0, 1)).
  { destruct (m_csd m) as [c|c]; cbn in Si; [|discriminate]. destruct (m_occ m) as [b|b|]; cbn in So; try discriminate. injection So as So.
    destruct Hy as (_ & _ & -> & _). rewrite So. unfold volt_at. cbn. f_equal; field. }
  subst v. exists o. destruct (Q _ _ _ _ Hy) as (q & Hq & x & S1 & Ey). cbn [plunger] in Hq. rewrite (pot_spec_unique _ _ _ _ _ _ Hq (single_any _ _ _ _)) in S1.
  unfold plus_pixels in S1, Ey. cbn [nth combine map fst snd] in S1, Ey.
  unfold dot_value, base_dot in S1. cbn [single ss_rise ss_peaks ss_barrier1 ss_barrier2 get_value fst snd at_sensor] in S1. unfold peak_total in S1.
  cbn [map fold_right] in S1. rewrite lorentz_value in S1. replace (1 / (1 + (0 + 1 * 1 + (1 * 1 + 0) - mu0 lorentz_peak) ^ 2) + 0) with (1 / 5) in S1 by (cbn [lorentz_peak mu0]; field).
  destruct S1 as [B _]. rewrite B in Ey by lra. replace (1 / 7 + 1) with y; [exact Hy|]. rewrite Ey. field.
Qed.

(** ** the default configuration *)
Lemma v2_whole s : default_sensor_v2 = Ok s ->
  returned_csd (measure (default_noisy_v2 demo_src component_label gaussian_kernel gaussian_radius (fixed_param 0.00005) (fixed_param 0.001) s)
    [-0.2; -0.087] [-0.2; -0.047] (Some (-0.5)) (Some (-0.5)) (ResArray [100; 100]%Z) start) (Shape2 100 100).
Proof.
  intros Hs. change (ResArray [100; 100]%Z) with (ResArray [Z.of_nat 100; Z.of_nat 100]).
  apply v2_diagram; [exact demo_src_ok|exact component_labelling|exact white_ok|exact Hs|lra|lra|lia|lia|unfold limits_g1; cbn [sweep_within]; lra|unfold limits_g2; cbn [sweep_within]; lra
    |unfold sensor_within, limits_sensor; cbn; lra|unfold sensor_within, limits_sensor; cbn; lra| |];
    rewrite hundred; apply Rabs_le; lra.
Qed.
Lemma v2_valid (src : sources unit) s n : (1 < n)%Z ->
  valid_scan (default_noisy_v2 src component_label gaussian_kernel gaussian_radius (fixed_param 0.00005) (fixed_param 0.001) s) [-1; 0.4] [-1; 0.4] (Some (-0.1)) (Some (-0.1)) (ResArray [n; n]).
Proof.
  intros Hn. assert (L : Forall (within_limits (Some limits_sensor)) [-1; 0.4]).
  { apply Forall_cons; [|apply Forall_cons; [|apply Forall_nil]]; unfold limits_sensor; cbn; lra. }
  assert (N : NoDup [-1; 0.4]).
  { apply NoDup_cons; [intros [E|[]]; lra|]. apply NoDup_cons; [intros []|apply NoDup_nil]. }
  constructor; cbn [default_noisy_v2 noisy_scan_config sensor scan_sensor_object so_scan volt_limits_sensor_g1 volt_limits_sensor_g2 volt_limits_g1 volt_limits_g2]; auto; try reflexivity.
  - intros x E. injection E as <-. unfold limits_g1. cbn. lra.
  - intros x E. injection E as <-. unfold limits_g2. cbn. lra.
  - intros l E. injection E as <-. cbn. lia.
  - intros a b E. injection E as <- <-. repeat split; auto.
Qed.
Lemma v2_scans s : default_sensor_v2 = Ok s ->
  let run (src : sources unit) n := measure_sensor_scan (default_noisy_v2 src component_label gaussian_kernel gaussian_radius (fixed_param 0.00005) (fixed_param 0.001) s)
    [-1; 0.4] [-1; 0.4] (Some (-0.1)) (Some (-0.1)) (ResArray [n; n]%Z) start in
  returned_scan (run demo_src 100%Z) (Shape2 100 100) /\ raised (run demo_src 50%Z) ValueError /\ returned_scan (run quiet_src 50%Z) (Shape2 50 50).
Proof.
  intros Hs run. assert (A : Rabs (0.4 - -1) = 1.4) by (rewrite Rabs_right; lra).
  assert (C : coarse_scan (-1) 0.4 (-1) 0.4 50 50).
  { unfold coarse_scan. rewrite A. replace (INR 50) with 50 by (rewrite INR_IZR_INZ; reflexivity). repeat split; try lia; lra. }
  split; [|split].
  - apply v2_fine_scan; [exact demo_src_ok|exact component_labelling|exact white_ok|exact Hs|apply v2_valid; lia| | |].
    + split; [|reflexivity]. cbn [res_list]. apply Forall_cons; [lia|]. apply Forall_cons; [lia|]. apply Forall_nil.
    + reflexivity.
    + unfold fine_scan. cbn [res_list]. rewrite A. lra.
  - exact (v2_coarse_scan demo_src component_label gaussian_kernel gaussian_radius (fixed_param 0.00005) (fixed_param 0.001) s (-1) 0.4 (-1) 0.4 _ _ 50 50 start
      demo_src_ok component_labelling white_ok Hs (v2_valid demo_src s 50 ltac:(lia)) C).
  - exact (v2_coarse_scan quiet_src component_label gaussian_kernel gaussian_radius (fixed_param 0.00005) (fixed_param 0.001) s (-1) 0.4 (-1) 0.4 _ _ 50 50 start
      quiet_src_ok component_labelling white_ok Hs (v2_valid quiet_src s 50 ltac:(lia)) C).
Qed.

(** Telegraph noise of the response with jumps every volt on average. *)
Definition telegraph_scan : config (scan_world unit) lead_mask image labels :=
  noisy_scan_config demo_src component_label None None None None None (demo 0 [lorentz_peak] []) [] []
    [Telegraph 1 (fixed_param 1) (fixed_param 1) (fixed_param 1)].
Lemma telegraph_lines :
  returned_scan (measure_sensor_scan telegraph_scan [0; 3] [0; 0] None None (ResInt 4) start) (Shape1 4) /\
  raised (measure_sensor_scan telegraph_scan [0; 0] [0; 3] None None (ResInt 4) start) ValueError.
Proof.
  split.
  - destruct clean_line as (m & st & M & Sh).
    apply (response_telegraph demo_src demo_src_ok component_label None None None None None (demo 0 [lorentz_peak] []) [] 1 (fixed_param 1) (fixed_param 1) (fixed_param 1)
      0 3 0 0 None None (ResInt 4) 4 None m st start eq_refl M Sh); [lra|]. intros g. cbn [fixed_param fst]. rewrite Rabs_right by lra. cbn. lra.
  - destruct clean_column as (m & st & M & Sh).
    exact (proj2 (response_telegraph demo_src demo_src_ok component_label None None None None None (demo 0 [lorentz_peak] []) [] 1 (fixed_param 1) (fixed_param 1) (fixed_param 1)
      0 0 0 3 None None (ResInt 4) 4 None m st start eq_refl M Sh) eq_refl).
Qed.
