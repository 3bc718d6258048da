(** C155: the distortions of the default configurations and of sampled ones have possible parameters, ... *)
From Verif Require Import RPrelude Arr ModelSampling ModelSensor ModelCsd ModelNoise ModelConfig ModelConfigCsd ModelDefaultNoise ModelSampledSim SpecSampling SpecConfig SpecSampledSim SpecPossible ProofsPossible.
Local Open Scope R_scope.

Theorem C155_default {G} kernel radius (pink white : param G) : nonnegative pink -> nonnegative white ->
  Forall possible_occupation (default_occupation (G := G) kernel radius) /\ Forall possible_image (default_potential pink ++ default_response white).
Proof. exact (default_possible kernel radius pink white). Qed.
Print Assumptions C155_default.
(** ... so that the generator never raises (C155_possible_rtn, C155_possible_jumps). *)
Theorem C155_sampled {G H} label (r : rng H) choice (draw : sampler_args -> R * R -> param G) kernel radius x c :
  uniform_ok r -> choice_ok choice -> drawn_within draw -> sampled r choice label x c ->
  Forall possible_occupation (occupation_objects draw kernel radius 0 (sc_occupation c)) /\
  Forall possible_image (image_objects draw (sc_potential c) ++ image_objects draw (sc_response c)).
Proof. exact (sampled_possible label r choice draw kernel radius x c). Qed.
Print Assumptions C155_sampled.

Example C155_example_default : nonnegative (given (G := unit) 0.0005) /\ ~ possible_image (G := unit) (Telegraph 2 (given 1) (given 1) (given 1)) /\
  ~ possible_occupation (G := unit) (Jumps 0 1 0.5 (given 1) (given (-1))).
Proof.
  split; [intros []; cbn; lra|]. split; [cbn; lra|]. intros (_ & _ & H). specialize (H tt). cbn in H. lra.
Qed.
