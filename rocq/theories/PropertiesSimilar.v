(** Properties of configurations and measurements in other units and with another zero of the voltages. *)
From Verif Require Import RPrelude Arr ModelSupport ModelTct ModelCsd ModelJumps ModelDistortions ModelSensor ModelSimulation ModelInstance
  ModelNoise ModelDefault ModelDefaultNoise SpecSupport SpecTct SpecCsd SpecSensor SpecDistortions SpecInstance SpecNoise SpecDefaultNoise SpecSimilar
  ProofsLabel ProofsDefaultNoise ProofsSimilar ProofsSimilar2 ProofsSimilar3 ExamplesCsd ExamplesNoise ExamplesDefaultNoise ExamplesSimilar.
Local Open Scope R_scope.

(** C121 Shifting all TCTs and the scanned voltages by the same amount changes nothing: same arrays, same
    exceptions. *)
Theorem C121_shift label x t l1 l2 res : bent x ->
  ideal_csd_geometric label (g_tcts (stretch_csd 1 t x)) (map (stretch 1 (fst t)) l1) (map (stretch 1 (snd t)) l2) res (g_rotation x) (g_lut x) (g_cdf x) (g_gamma x)
  = ideal_csd_geometric label (g_tcts x) l1 l2 res (g_rotation x) (g_lut x) (g_cdf x) (g_gamma x).
Proof. exact (csd_shift label x t l1 l2 res). Qed.
Print Assumptions C121_shift.

(** A single TCT, stretched and shifted, has stretched and shifted values. *)
Theorem C121_tct k d p lut m xs : 0 < k ->
  tct_bezier (stretch_tct k d p) lut (Some m) (map (stretch k (fst d)) xs)
  = match tct_bezier p lut (Some m) xs with Ok ys => Ok (map (stretch k (snd d)) ys) | Err e => Err e end.
Proof. intros Hk. exact (tct_stretch k d Hk p lut m xs). Qed.
Print Assumptions C121_tct.

Example C121_example : bent default_csd /\ exists l l',
  ideal_csd_geometric component_label (map (stretch_tct 1 (tct_view 0 (5, 7))) (couple 0)) [1 * (-3/4) + 5; 1 * (3/4) + 5] [1 * 1 + 7; 1 * 1 + 7] (ResInt 2) 0 None Sigmoid None
  = Ok (Csd1 [(1, 0); (0, 1)] [l; l']).
Proof.
  split; [exact default_bent|]. destruct zero_swapped as (l & l' & E). exists l, l'. rewrite <- E. exact (csd_shift component_label (couple_csd 0) (5, 7) [-3/4; 3/4] [1; 1] (ResInt 2) (couple_bent 0)).
Qed.

(** C122 "The unit of the voltages does not matter": true as long as all interdot transitions are wider
    than 1e-8 in both units; *)
Theorem C122_scale_partial label k x t l1 l2 res : 0 < k -> Forall admissible (g_tcts x) -> visible_couplings k x ->
  ideal_csd_geometric label (g_tcts (stretch_csd k t x)) (map (stretch k (fst t)) l1) (map (stretch k (snd t)) l2) res (g_rotation x) (g_lut x) (g_cdf x) (g_gamma x)
  = ideal_csd_geometric label (g_tcts x) l1 l2 res (g_rotation x) (g_lut x) (g_cdf x) (g_gamma x).
Proof. exact (csd_scale label k x t l1 l2 res). Qed.
Print Assumptions C122_scale_partial.

(** a width below 1e-8 counts as zero, and then the dots are exchanged. *)
Theorem C122_scale_refuted : exists x k o o' p p' l l' m m',
  0 < k /\ bent x /\ csd_config component_label (g_tcts x) (g_lut x) (g_cdf x) (g_gamma x)
  /\ ideal_csd_geometric component_label (g_tcts x) [-3/4; 3/4] [1; 1] (ResInt 2) (g_rotation x) (g_lut x) (g_cdf x) (g_gamma x) = Ok (Csd1 [o; o'] [l; l'])
  /\ ideal_csd_geometric component_label (g_tcts (stretch_csd k (0, 0) x)) (map (stretch k 0) [-3/4; 3/4]) (map (stretch k 0) [1; 1]) (ResInt 2) (g_rotation x) (g_lut x) (g_cdf x) (g_gamma x)
     = Ok (Csd1 [p; p'] [m; m'])
  /\ fst o <= 1/10 /\ 9/10 <= fst o' /\ p = (1, 0) /\ p' = (0, 1).
Proof. exact scale_exchanges. Qed.
Print Assumptions C122_scale_refuted.

(** Volts to millivolts. *)
Example C122_example : Forall admissible (couple (1/100)) /\ visible_couplings 1000 (couple_csd (1/100)).
Proof. split; [apply couple_admissible; lra|apply couple_visible; lra]. Qed.

(** C123 The same for whole measurements: with lever arms, sensor offset, the parameters of the distortions
    that are voltages, and the limits converted, the measured arrays, the exceptions and all random draws are
    the same. *)
Theorem C123_measure {G} (src : sources G) label k t lims1 lims2 x s occs pots resps s1 s2 sv1 sv2 res w :
  0 < k -> bent x -> (k = 1 \/ Forall admissible (g_tcts x) /\ visible_couplings k x) ->
  same_measurement k
    (measure (noisy_config src label (option_map (stretch_lims k (fst t)) lims1) (option_map (stretch_lims k (snd t)) lims2) (stretch_csd k t x) (stretch_sensor k t s)
       (map (scale_occ_noise k) occs) (map (scale_image_noise k) pots) (map (scale_image_noise k) resps))
       (map (stretch k (fst t)) s1) (map (stretch k (snd t)) s2) sv1 sv2 res (scale_world k w))
    (measure (noisy_config src label lims1 lims2 x s occs pots resps) s1 s2 sv1 sv2 res w).
Proof. exact (measure_similar src label k t lims1 lims2 x s occs pots resps s1 s2 sv1 sv2 res w). Qed.
Print Assumptions C123_measure.

(** The default configuration with all distortions active, shifted by 10 mV and -20 mV. *)
Example C123_example : exists m,
  fst (measure (noisy_config demo_src component_label (option_map (stretch_lims 1 0.01) (Some limits_g1)) (option_map (stretch_lims 1 (-0.02)) (Some limits_g2))
    (stretch_csd 1 (0.01, -0.02) default_csd) (stretch_sensor 1 (0.01, -0.02) default_sensor_v1)
    (map (scale_occ_noise 1) (default_occupation gaussian_kernel gaussian_radius)) (map (scale_image_noise 1) (default_potential (fixed_param 0.00005)))
    (map (scale_image_noise 1) (default_response (fixed_param 0.001))))
    (map (stretch 1 0.01) [-0.2; -0.087]) (map (stretch 1 (-0.02)) [-0.2; -0.047]) None None (ResArray [100; 100]%Z) (scale_world 1 fresh_world)) = Ok m.
Proof.
  pose proof (measure_similar demo_src component_label 1 (0.01, -0.02) (Some limits_g1) (Some limits_g2) default_csd default_sensor_v1 (default_occupation gaussian_kernel gaussian_radius)
    (default_potential (fixed_param 0.00005)) (default_response (fixed_param 0.001)) [-0.2; -0.087] [-0.2; -0.047] None None (ResArray [100; 100]%Z) fresh_world ltac:(lra) default_bent (or_introl eq_refl)) as [_ E].
  pose proof whole_range as W. revert E W. unfold returned, default_noisy. cbn [fst snd].
  match goal with |- match fst ?a with _ => _ end -> _ => destruct (fst a) as [m|e]; [exists m; reflexivity|] end.
  match goal with |- match fst ?a with _ => _ end -> _ => destruct a as [[m|f] w'] end; [intros []|]. intros _ (x & im & w2 & E & _). discriminate.
Qed.
