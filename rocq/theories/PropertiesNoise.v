(** Properties of measurements of a simulation with geometric ideal data, a generic sensor and the
    distortions of the package. *)
From Verif Require Import RPrelude Arr ModelSupport ModelTct ModelCsd ModelJumps ModelDistortions ModelSensor ModelSimulation ModelInstance
  ModelNoise SpecSupport SpecTct SpecCsd SpecSensor SpecDistortions SpecInstance SpecNoise ProofsLabel ProofsInstance ProofsNoise ProofsReplay ExamplesCsd ExamplesNoise.
Local Open Scope R_scope.

(** C99: every measured value is the sensor response to the noiseless potential of the pixel plus one
    number, plus another number. The numbers are drawn for the whole image, first those of the potential,
    then those of the response; they depend on the shape, the limits and the generator only. *)
Theorem C99_superposition {G} (src : sources G) label : sources_ok src -> forall pots resps,
  exists np nr : shape -> limits -> limits -> G -> result (list R * G),
  (forall sh l1 l2 g z g', np sh l1 l2 g = Ok (z, g') \/ nr sh l1 l2 g = Ok (z, g') -> length z = shape_size sh) /\
  forall lim1 lim2 x s ps occs a1 b1 a2 b2 v1 v2 res w w' m,
  gs_peaks s = Some ps -> ps <> [] -> config_ok label x ->
  measure (noisy_config src label lim1 lim2 x s occs pots resps) [a1; b1] [a2; b2] v1 v2 res w = (Ok m, w') ->
  exists sh g1 g2 z1 z2, requested res sh /\ (occs = [] -> g1 = w_rng w) /\
    np sh (a1, b1) (a2, b2) g1 = Ok (z1, g2) /\ nr sh (a1, b1) (a2, b2) g2 = Ok (z2, w_rng w') /\
    (forall k, (k < shape_size sh)%nat -> exists v o y, numbered_pixel m (a1, b1) (a2, b2) k v o y) /\
    forall k v o y, numbered_pixel m (a1, b1) (a2, b2) k v o y ->
      y = peak_total ps (affine (gs_offset s) (gs_gate s) (gs_dot s) v o + nth k z1 0) + nth k z2 0.
Proof. exact (superposition src label). Qed.
Print Assumptions C99_superposition.

(** With the same generator, limits and resolution all devices get the same noise. *)
Theorem C99_common_noise {G} (src : sources G) label : sources_ok src -> forall pots resps a1 b1 a2 b2 res w,
  exists z1 z2 : list R, forall lim1 lim2 x s ps v1 v2 w' m,
  gs_peaks s = Some ps -> ps <> [] -> config_ok label x ->
  measure (noisy_config src label lim1 lim2 x s [] pots resps) [a1; b1] [a2; b2] v1 v2 res w = (Ok m, w') ->
  forall k v o y, numbered_pixel m (a1, b1) (a2, b2) k v o y ->
    y = peak_total ps (affine (gs_offset s) (gs_gate s) (gs_dot s) v o + nth k z1 0) + nth k z2 0.
Proof. exact (common_noise src label). Qed.
Print Assumptions C99_common_noise.

Example C99_example : exists m w',
  measure (noisy_config demo_src component_label None (Some (0, 2)) (mk_geometric (couple 0) 0 None Sigmoid None)
             (mk_generic (Some [mk_peak 0 (fun m x => x - m)]) (2, 3) (10, 20) 5) [] [Pink (fixed_param (1 / 4)) 0] [White (fixed_param (1 / 2))])
    [-3/4; 3/4] [1; 1] None None (ResInt 2) fresh_world = (Ok m, w') /\
  numbered_pixel m (-3/4, 3/4) (1, 1) 0 (-3/4, 1) (1, 0) (39/2 + 1/4 + 1/2) /\
  numbered_pixel m (-3/4, 3/4) (1, 1) 1 (3/4, 1) (0, 1) (71/2 + 1/4 + 1/2).
Proof. exact noisy_couple. Qed.

(** C100: distortions with strength 0, and telegraph noise and dot jumps that are never activated, change
    neither the measured data nor the exceptions. *)
Theorem C100_silent {G} (src : sources G) label : sources_ok src -> forall lim1 lim2 x s occs pots resps s1 s2 v1 v2 res w,
  gs_peaks s <> Some [] -> Forall (silent_occ src) occs -> Forall (silent_image src) pots -> Forall (silent_image src) resps ->
  match fst (measure (noisy_config src label lim1 lim2 x s occs pots resps) s1 s2 v1 v2 res w),
        fst (measure (W := noise_world G) (plain_config label lim1 lim2 x s) s1 s2 v1 v2 res w) with
  | Ok m, Ok m0 => same_response (m_csd m) (m_csd m0) /\ m_occ m = m_occ m0 /\ m_lead m = m_lead m0
  | Err e, Err e0 => e = e0
  | _, _ => False
  end.
Proof. exact (silent_measure src label). Qed.
Print Assumptions C100_silent.

Example C100_example : silent_image demo_src (White (fixed_param 0)) /\ silent_occ demo_src (Blur 0 (fixed_param 0) gaussian_kernel gaussian_radius) /\
  ~ silent_image demo_src (White (fixed_param (1 / 2))).
Proof. split; [intros g; reflexivity|]. split; [intros g; cbn; lra|]. intros H. specialize (H tt). cbn in H. lra. Qed.

(** C101: the generator handed to a distortion contains the distortions applied before with their frozen
    parameters: for the same request it returns the distorted data again. *)
Theorem C101_replay {G} (src : sources G) gen ds l1 l2 res ol w ol' w' :
  undistorted gen -> NoDup (map key_of ds) -> fst (gen l1 l2 res w) = Ok ol ->
  occupation_loop (map (occ_object src) ds) gen l1 l2 ol w = (Ok ol', w') ->
  noisy_generator src gen ds l1 l2 res w' = (Ok ol', w').
Proof. exact (replay src gen ds l1 l2 res ol w ol' w'). Qed.
Print Assumptions C101_replay.

(** ... and so do the distortion objects after a measurement. *)
Theorem C101_measure {G} (src : sources G) label lim1 lim2 x s occs pots resps a1 b1 a2 b2 v1 v2 res w w' m : NoDup (map key_of occs) ->
  measure (noisy_config src label lim1 lim2 x s occs pots resps) [a1; b1] [a2; b2] v1 v2 res w = (Ok m, w') ->
  fst (noisy_generator src (get_csd_data label x) occs (a1, b1) (a2, b2) res w') = Ok (m_occ m, m_lead m).
Proof. exact (measure_replay src label lim1 lim2 x s occs pots resps a1 b1 a2 b2 v1 v2 res w w' m). Qed.
Print Assumptions C101_measure.

Example C101_example : exists a lead w',
  occupation_loop (map (occ_object demo_src) [demo_blur; demo_jumps]) edge_data (0, 1) (0, 1)
    (Occ2 (edge_scan 3 2 (0, 1)), Lead2 (zero_lead 3 2)) fresh_world = (Ok (Occ2 a, lead), w') /\
  noisy_generator demo_src edge_data [demo_blur; demo_jumps] (0, 1) (0, 1) (ResArray [2; 3]%Z) w' = (Ok (Occ2 a, lead), w').
Proof.
  destruct demo_strips as (a & lead & w' & E & _). exists a, lead, w'. split; [exact E|].
  refine (C101_replay demo_src edge_data _ _ _ _ _ _ _ _ edge_undistorted _ _ E); [|reflexivity].
  constructor; [intros [H|[]]; discriminate|]. constructor; [intros []|constructor].
Qed.

(** C102: dot jumps along the second gate keep data that depends on the first gate only. This holds for
    jumps of undistorted data... *)
Theorem C102_unblurred_partial {G} (src : sources G) (gen : generator (noise_world G) lead_mask) f h : samples_g1 f h gen ->
  forall k ratio scale lam l1 l2 nc nr w a b w1 ol, sources_ok src ->
  fst l1 <= snd l1 -> fst l2 <= snd l2 ->
  fst (gen l1 l2 (ResArray [Z.of_nat nc; Z.of_nat nr]) w) = Ok ol ->
  od_noise (occ_object src (Jumps k 0 ratio scale lam)) (fst ol) (snd ol) l1 l2 gen false w = (Ok (a, b), w1) ->
  exists o t, a = (Occ2 o, Lead2 t) /\ rows o = nr /\ cols o = nc /\ same_shape t o /\
    forall i j, (i < nr)%nat -> (j < nc)%nat -> cell o i j = f (pixel_voltage l1 nc j) /\ cell t i j = h (pixel_voltage l1 nc j).
Proof. exact (columns_kept src f h gen). Qed.
Print Assumptions C102_unblurred_partial.

(** ... but not for jumps of blurred data: the generated strip is blurred with another width, because the
    number of pixels per volt is computed from the number of rows of the strip. *)
Theorem C102_blurred_refuted : exists a lead w',
  sources_ok demo_src /\ undistorted edge_data /\ ignores_g2 edge_data /\
  edge_data (0, 1) (0, 1) (ResArray [2; 3]%Z) fresh_world = (Ok (Occ2 (edge_scan 3 2 (0, 1)), Lead2 (zero_lead 3 2)), fresh_world) /\
  occupation_loop (map (occ_object demo_src) [demo_blur; demo_jumps]) edge_data (0, 1) (0, 1)
    (Occ2 (edge_scan 3 2 (0, 1)), Lead2 (zero_lead 3 2)) fresh_world = (Ok (Occ2 a, lead), w') /\ ~ constant_columns a.
Proof.
  destruct demo_strips as (a & lead & w' & E & H). exists a, lead, w'.
  split; [exact demo_src_ok|]. split; [exact edge_undistorted|]. split; [exact edge_ignores|]. split; [reflexivity|]. split; [exact E|exact H].
Qed.
Print Assumptions C102_blurred_refuted.

Example C102_example : samples_g1 edge (fun _ => 0%nat) edge_data /\ constant_columns (edge_scan 3 2 (0, 1)) /\ edge 0 <> edge 1.
Proof.
  split; [exact edge_samples|]. split; [intros i i' j _ _ _; reflexivity|].
  unfold edge. rewrite Rltb_false, Rltb_true by lra. intros E. injection E. lra.
Qed.
