(** Concrete measurements of the default configuration with its distortions. *)
From Verif Require Import RPrelude Arr ModelSupport ModelTct ModelCsd ModelJumps ModelDistortions ModelSensor ModelSimulation ModelInstance
  ModelNoise ModelDefault ModelDefaultNoise SpecSupport SpecTct SpecCsd SpecSensor SpecDistortions SpecInstance SpecNoise SpecDefaultNoise
  ProofsLabel ProofsDefaultNoise ExamplesCsd ExamplesNoise.
Local Open Scope R_scope.

(** No distortion object is ever active. *)
Definition quiet_src : sources unit :=
  mk_sources (fun _ _ => (false, tt)) (fun _ n _ => (repeat 1%nat n, tt)) (fun _ _ => (2%nat, tt)) (fun _ _ _ => (1, tt))
             (fun n _ => (repeat 1 n, tt)) (fun n _ _ => (repeat 1 n, tt)) (fun _ _ => None).
Lemma quiet_src_ok : sources_ok quiet_src.
Proof.
  split; [|split].
  - intros p n g. cbn. split; [apply repeat_length|]. intros l Hl. apply repeat_spec in Hl. lia.
  - intros n g. apply repeat_length.
  - intros n f g. apply repeat_length.
Qed.
Lemma white_ok : white_range (fixed_param 0.001).
Proof. intros g. cbn [fixed_param fst]. lra. Qed.
Lemma hundred : INR (100 - 1) = 99.
Proof. change (100 - 1)%nat with 99%nat. rewrite INR_IZR_INZ. reflexivity. Qed.
Lemma whole_range :
  returned (measure (default_noisy demo_src component_label gaussian_kernel gaussian_radius (fixed_param 0.00005) (fixed_param 0.001))
    [-0.2; -0.087] [-0.2; -0.047] None None (ResArray [100; 100]%Z) fresh_world) (Shape2 100 100).
Proof.
  change (ResArray [100; 100]%Z) with (ResArray [Z.of_nat 100; Z.of_nat 100]).
  apply measured_2d; [exact demo_src_ok|exact component_labelling|exact white_ok|lra|lra|lia|lia|cbn [sweep_within limits_g1]; unfold limits_g1; lra|unfold limits_g2; cbn [sweep_within]; lra| |];
    rewrite hundred; apply Rabs_le; lra.
Qed.
Lemma one_gate :
  raised (measure (default_noisy demo_src component_label gaussian_kernel gaussian_radius (fixed_param 0.00005) (fixed_param 0.001))
    [-0.2; -0.087] [-0.1; -0.1] None None (ResInt 100) fresh_world) ValueError /\
  returned (measure (default_noisy quiet_src component_label gaussian_kernel gaussian_radius (fixed_param 0.00005) (fixed_param 0.001))
    [-0.2; -0.087] [-0.1; -0.1] None None (ResInt 100) fresh_world) (Shape1 100).
Proof.
  assert (L1 : sweep_within (Some limits_g1) (-0.2) (-0.087)) by (unfold limits_g1; cbn [sweep_within]; lra).
  assert (L2 : sweep_within (Some limits_g2) (-0.1) (-0.1)) by (unfold limits_g2; cbn [sweep_within]; lra).
  split.
  - exact (measured_first demo_src component_label gaussian_kernel gaussian_radius _ _ (-0.2) (-0.087) (-0.1) (ResInt 100) 100 fresh_world
             demo_src_ok component_labelling white_ok eq_refl ltac:(lia) ltac:(lra) L1 L2).
  - exact (measured_first quiet_src component_label gaussian_kernel gaussian_radius _ _ (-0.2) (-0.087) (-0.1) (ResInt 100) 100 fresh_world
             quiet_src_ok component_labelling white_ok eq_refl ltac:(lia) ltac:(lra) L1 L2).
Qed.
