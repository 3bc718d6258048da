(** Properties of the metadata of measurements. *)
From Verif Require Import RPrelude Arr ModelSupport ModelTct ModelCsd ModelJumps ModelDistortions ModelSensor ModelSimulation ModelInstance
  ModelNoise ModelScanInstance ModelDefault ModelScanNoise SpecNoise SpecHistory SpecRepeat ProofsLabel ProofsRepeat ExamplesCsd ExamplesNoise ExamplesSensor ExamplesScanInstance ExamplesScanNoise ExamplesRepeat.
Local Open Scope R_scope.

(** C158 The metadata of a diagram are the configuration, the arguments and the final state of the objects. *)
Theorem C158_metadata {W L I K} (c : config W L I K) s1 s2 v1 v2 res w m w' :
  measure c s1 s2 v1 v2 res w = (Ok m, w') -> records (m_meta m) c s1 s2 v1 v2 res w'.
Proof. exact (measure_metadata c s1 s2 v1 v2 res w m w'). Qed.
Print Assumptions C158_metadata.
(** Those of a sensor scan likewise, but a resolution with one entry becomes an integer in scans at given
    plunger voltages. *)
Theorem C158_scan_metadata_partial {W L I K} (c : config W L I K) s1 s2 v1 v2 res w m w' :
  measure_sensor_scan c s1 s2 v1 v2 res w = (Ok m, w') ->
  (records (sc_meta m) c s1 s2 v1 v2 res w' /\ forall n, ~ converted c v1 v2 res n) \/
  exists n, converted c v1 v2 res n /\ records (sc_meta m) c s1 s2 v1 v2 (ResInt n) w'.
Proof. exact (scan_metadata c s1 s2 v1 v2 res w m w'). Qed.
Print Assumptions C158_scan_metadata_partial.

(** Measuring again from the metadata gives the same diagram if the measurement did not use the random
    generators, *)
Theorem C158_diagram_partial {G} (src : sources G) label lim1 lim2 x s occs pots resps s1 s2 v1 v2 res (w w' : noise_world G) m :
  let c := noisy_config src label lim1 lim2 x s occs pots resps in
  measure c s1 s2 v1 v2 res w = (Ok m, w') -> w_rng w' = w_rng w ->
  same_diagram w_rng (Ok m, w') (measure_again (m_meta m) (md_world (m_meta m))).
Proof. exact (again src label lim1 lim2 x s occs pots resps s1 s2 v1 v2 res w w' m). Qed.
Print Assumptions C158_diagram_partial.
Theorem C158_diagram_scan_sensor_partial {G} (src : sources G) label lim1 lim2 lims1 lims2 x s occs pots resps s1 s2 v1 v2 res (w w' : scan_world G) m :
  let c := noisy_scan_config src label lim1 lim2 lims1 lims2 x s occs pots resps in
  measure c s1 s2 v1 v2 res w = (Ok m, w') -> w_rng (fst w') = w_rng (fst w) ->
  same_diagram (fun w => w_rng (fst w)) (Ok m, w') (measure_again (m_meta m) (md_world (m_meta m))).
Proof. exact (again_scan_sensor src label lim1 lim2 lims1 lims2 x s occs pots resps s1 s2 v1 v2 res w w' m). Qed.
Print Assumptions C158_diagram_scan_sensor_partial.
Theorem C158_scan_partial {G} (src : sources G) label lim1 lim2 lims1 lims2 x s occs pots resps s1 s2 v1 v2 res (w w' : scan_world G) m :
  let c := noisy_scan_config src label lim1 lim2 lims1 lims2 x s occs pots resps in
  measure_sensor_scan c s1 s2 v1 v2 res w = (Ok m, w') -> w_rng (fst w') = w_rng (fst w) -> (forall n, ~ converted c v1 v2 res n) ->
  same_sensor_scan (fun w => w_rng (fst w)) (Ok m, w') (scan_again (sc_meta m) (md_world (sc_meta m))).
Proof. exact (again_scan src label lim1 lim2 lims1 lims2 x s occs pots resps s1 s2 v1 v2 res w w' m). Qed.
Print Assumptions C158_scan_partial.
(** which holds if there are no distortions. *)
Theorem C158_clean {G} (src : sources G) label lim1 lim2 lims1 lims2 x y s t occs s1 s2 v1 v2 res (w : noise_world G) (u : scan_world G) :
  w_rng (snd (measure (noisy_config src label lim1 lim2 y t [] [] []) s1 s2 v1 v2 res w)) = w_rng w /\
  w_rng (fst (snd (measure (noisy_scan_config src label lim1 lim2 lims1 lims2 x s [] [] []) s1 s2 v1 v2 res u))) = w_rng (fst u) /\
  w_rng (fst (snd (measure_sensor_scan (noisy_scan_config src label lim1 lim2 lims1 lims2 x s occs [] []) s1 s2 v1 v2 res u))) = w_rng (fst u).
Proof.
  split; [exact (clean_keeps src label lim1 lim2 y t s1 s2 v1 v2 res w)|].
  split; [exact (clean_scan_sensor_keeps src label lim1 lim2 lims1 lims2 x s s1 s2 v1 v2 res u)|exact (clean_scan_keeps src label lim1 lim2 lims1 lims2 x s occs s1 s2 v1 v2 res u)].
Qed.
Print Assumptions C158_clean.

(** FINDING: no 1D sensor scan at given plunger voltages can be repeated from its metadata: the integer raises
    TypeError. *)
Theorem C158_scan_refuted {G} (src : sources G) label lim1 lim2 lims1 lims2 x s occs pots resps s1 s2 v1 v2 res n (w w' : scan_world G) m :
  let c := noisy_scan_config src label lim1 lim2 lims1 lims2 x s occs pots resps in
  converted c v1 v2 res n -> measure_sensor_scan c s1 s2 v1 v2 res w = (Ok m, w') -> forall u, scan_again (sc_meta m) u = (Err TypeError, u).
Proof. exact (again_raises src label lim1 lim2 lims1 lims2 x s occs pots resps s1 s2 v1 v2 res n w w' m). Qed.
Print Assumptions C158_scan_refuted.
(** FINDING: with noise the metadata give another diagram, as they hold the generators after the measurement. *)
Theorem C158_noise_refuted : exists m w' m2 w2,
  measure counting_config [-3/4; 3/4] [1; 1] None None (ResInt 2) (counted 0) = (Ok m, w') /\
  measure_again (m_meta m) (md_world (m_meta m)) = (Ok m2, w2) /\
  numbered_pixel m (-3/4, 3/4) (1, 1) 0 (-3/4, 1) (1, 0) (39/2) /\ numbered_pixel m2 (-3/4, 3/4) (1, 1) 0 (-3/4, 1) (1, 0) (39/2 + 1).
Proof. exact counted_again. Qed.
Print Assumptions C158_noise_refuted.

Example C158_example : exists m w', measure_sensor_scan scanned [0; 3] [0; 0] (Some 0) (Some 0) (ResArray [4%Z]) start = (Ok m, w') /\
  md_resolution (sc_meta m) = ResInt 4 /\ scan_again (sc_meta m) (md_world (sc_meta m)) = (Err TypeError, md_world (sc_meta m)).
Proof.
  assert (C : converted scanned (Some 0) (Some 0) (ResArray [4%Z]) 4%Z) by (repeat split; discriminate).
  destruct scanned_line as (m & w' & M). exists m, w'. split; [exact M|]. split.
  - destruct (C158_scan_metadata_partial _ _ _ _ _ _ _ _ _ M) as [[_ N]|(n & (_ & _ & _ & Cn) & Re)]; [destruct (N _ C)|]. injection Cn as <-. apply Re.
  - exact (C158_scan_refuted _ _ _ _ _ _ _ _ _ _ _ _ _ _ _ _ _ _ _ _ C M _).
Qed.
