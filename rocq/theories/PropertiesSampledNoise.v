(** C141: the distortions of a sampled configuration are of the documented kinds and strengths. *)
From Verif Require Import RPrelude ModelSampling ModelSimulation ModelNoise ModelConfig ModelSampledSim SpecSampling SpecConfig SpecSampledNoise
  ProofsSampledNoise.
Local Open Scope R_scope.

Theorem C141_moderate {G C} (r : rng G) choice fuel (sample_csd : action G C) kind q compensated steepest g csd c g' :
  uniform_ok r -> sample_config r choice fuel sample_csd kind q compensated steepest g = (Ok (csd, c), g') ->
  Forall (moderate r) (sc_occupation c ++ sc_potential c ++ sc_response c) /\
  map kind_of (sc_occupation c) = [Blurring; Jumps 0; Jumps 1] /\
  map kind_of (sc_potential c) = [Pink1; Telegraphic] /\ map kind_of (sc_response c) = [Telegraphic; White1].
Proof. intros U. exact (config_moderate r U choice fuel sample_csd kind q compensated steepest g csd c g'). Qed.
Print Assumptions C141_moderate.

(** The objects of the simulation are those of the configuration, in the same order; each remembers its own state. *)
Theorem C141_objects {G H C} (draw : sampler_args -> R * R -> param G) kernel radius
  (r : rng H) choice fuel (sample_csd : action H C) kind q compensated steepest g csd c g' :
  sample_config r choice fuel sample_csd kind q compensated steepest g = (Ok (csd, c), g') ->
  Forall2 (occ_realised draw kernel radius) (sc_occupation c) (occupation_objects draw kernel radius 0 (sc_occupation c)) /\
  NoDup (map key_of (occupation_objects draw kernel radius 0 (sc_occupation c))) /\
  Forall2 (image_realised draw) (sc_potential c) (image_objects draw (sc_potential c)) /\
  Forall2 (image_realised draw) (sc_response c) (image_objects draw (sc_response c)).
Proof. exact (config_objects draw kernel radius r choice fuel sample_csd kind q compensated steepest g csd c g'). Qed.
Print Assumptions C141_objects.

(** An exponential number 0 yields the weakest noise. *)
Example C141_weakest : exists sm sm', new_sampler middle (AExponential (exponential_scale 1)) (1e-10, 0.0005) None tt = (sm, false, tt) /\
  sample_parameter middle 1 sm tt = Some (1e-10, sm', tt).
Proof.
  do 2 eexists. split; [reflexivity|].
  unfold sample_parameter; cbn [sm_dist sm_range draw_until draw middle r_exponential rejected fst snd].
  replace (1e-10 + 0 * (0.0005 - 1e-10)) with 1e-10 by lra. rewrite Rmin_left, Rmax_right by lra. rewrite !Rltb_false by lra. reflexivity.
Qed.
