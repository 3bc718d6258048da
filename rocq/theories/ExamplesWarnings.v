(** Concrete calls with warnings. *)
From Verif Require Import RPrelude Arr ModelSupport ModelTct ModelCsd ModelJumps ModelDistortions ModelSensor ModelSimulation ModelInstance
  ModelNoise ModelScanInstance ModelDefault ModelScanNoise ModelWarnings SpecDistortions SpecTct SpecCsd SpecSensor SpecSimulation SpecInstance SpecNoise SpecScanInstance
  SpecDefaultNoise SpecScanNoise SpecWarnings ProofsLabel ProofsInstance ProofsNoise ProofsSuccess ProofsDefaultNoise ProofsScanNoise ProofsScanNoise3 ProofsScanNoise4 ProofsWarnings ProofsWarnings2
  ExamplesSensor ExamplesCsd ExamplesNoise ExamplesDefaultNoise ExamplesScanInstance ExamplesScanNoise.
Local Open Scope R_scope.

(** A sensor with a deformation in a simulation with the default ideal data. *)
Definition bent_csd : config (scan_world unit) lead_mask image labels :=
  noisy_scan_config demo_src component_label None None None None (Some default_csd) bent [] [] [].
Lemma bent_nonnegative : nonnegative_sensor bent.
Proof.
  split; [|split]; [intros x; cbn; lra|intros x; cbn; lra|]. exists [lorentz_peak]. split; [reflexivity|]. constructor; [|constructor].
  intros m mu. rewrite lorentz_value. pose proof (pow2_ge_0 (mu - m)). unfold Rdiv. rewrite Rmult_1_l. left. apply Rinv_0_lt_compat. lra.
Qed.
Lemma bent_measured : exists m w', measure bent_csd [0; 1] [0; 0] None None (ResInt 4) start = (Ok m, w').
Proof.
  destruct (default_1d component_label component_labelling 0 1 0 0 (ResInt 4) 4 eq_refl) as [d E].
  assert (Ft : fits (csd_arrays d) (Shape1 4)) by (apply (ideal_fits component_label component_labelling _ _ _ _ _ _ _ E); reflexivity).
  pose proof (noisy_csd_outcome demo_src demo_src_ok component_label None None None None default_csd bent [] [] [] 0 1 0 0 None None (ResInt 4) start d
    (Ok (csd_arrays d)) (fst start) (Shape1 4) ltac:(right; left; lra) (request_1d 0 1 0 0 (ResInt 4) 4 eq_refl) I I I I ltac:(tauto) E eq_refl) as O. cbv zeta in O.
  specialize (O ltac:(intros ol [= <-]; exact Ft) ltac:(discriminate)). cbv beta iota delta [drawn3_all drawn_all] in O.
  destruct O as (m & w' & O & _). exists m, w'. exact O.
Qed.
Lemma bent_warned : exists m w', measure (with_warnings bent bent_csd) [0; 1] [0; 0] None None (ResInt 4) (start, []) = (Ok m, (w', [DeformedPlunger; DeformedSweep])).
Proof.
  destruct bent_measured as (m0 & w0 & E).
  destruct (same_measure (potential_warnings bent) (sensor_warnings bent) bent_csd [0; 1] [0; 0] None None (ResInt 4) start []) as [S1 S2].
  rewrite E in S1. fold (with_warnings bent bent_csd) in S1, S2.
  destruct (measure (with_warnings bent bent_csd) [0; 1] [0; 0] None None (ResInt 4) (start, [])) as [[m|e] [w' log]] eqn:M; [|contradiction].
  destruct (measure_deformed demo_src component_label None None None None (Some default_csd) bent [] [] [] 0 1 0 0 None None (ResInt 4) (start, []) m (w', log) ltac:(discriminate) M) as (rest & L & D & N).
  cbn [snd app] in L. destruct (N bent_nonnegative) as [->| ->]; [destruct (proj1 D ltac:(left; lra))|]. exists m, w'. rewrite L. reflexivity.
Qed.

(** A peak that is -1 everywhere. *)
Definition dip : ModelSensor.peak := mk_peak 0 (fun _ _ => -1).
Lemma dip_warned : response_warnings (demo 0 [dip] []) (demo_hidden 0) (demo_pots 0 0) = [NegativeResponse].
Proof.
  unfold response_warnings, dot_response. cbn. unfold negative. rewrite Rltb_true by lra. reflexivity.
Qed.
Lemma bent_valid : valid_scan bent_csd [0; 3] [0; 0] None None (ResInt 4).
Proof. constructor; cbn; auto; try (intros; exact I); try (intros; discriminate); try tauto; repeat constructor. Qed.
