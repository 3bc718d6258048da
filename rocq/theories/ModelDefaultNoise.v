(** The default configuration GaAs_v1 with its distortions, simcats/_default_configs.py:59-87.

    Parameters that are sampled at every measurement (the strengths of the pink and of the white noise)
    are arbitrary functions of the generator here; see ModelSampling for the samplers. *)
From Verif Require Import RPrelude Arr ModelSupport ModelTct ModelCsd ModelJumps ModelDistortions ModelSensor ModelSimulation ModelInstance
  ModelNoise ModelDefault.
Local Open Scope R_scope.

Section DefaultNoise.
Context {G : Type}.
(** A number given instead of a sampler. *)
Definition given (x : R) : param G := fun g => (x, g).
(** Lines 69-75 (and 180-186): blurring with the Gaussian kernel, jumps along g2, jumps along g1 *)
Definition default_occupation (kernel : R -> Z -> R) (radius : R -> nat) : list (occ_noise G) :=
  [Blur 0 (given (0.75 * 0.03 / 100)) kernel radius;
   Jumps 1 0 0.01 (given (100 * 0.03 / 100)) (given (6 * 0.03 / 100));
   Jumps 2 1 (0.01 / 6) (given (100 * 0.03 / 100)) (given (6 * 0.03 / 100))].
(** Lines 76-81 (and 187-192) *)
Definition default_potential (sigma : param G) : list (image_noise G) :=
  [Pink sigma 0; Telegraph (1 / 6) (given (74.56704 * 0.03 / 100)) (given 3.491734e-05) (given 2.53855325e-05)].
(** Lines 82-87 *)
Definition default_response (sigma : param G) : list (image_noise G) :=
  [Telegraph 0.03 (given (10000 * 0.03 / 100)) (given 0.047453767599999995) (given 0.0152373696); White sigma].
(** Lines 23-88 *)
Definition default_noisy (src : sources G) (label : arr2 nat -> arr2 nat) (kernel : R -> Z -> R) (radius : R -> nat)
    (pink white : param G) : config (noise_world G) lead_mask response unit :=
  noisy_config src label (Some limits_g1) (Some limits_g2) default_csd default_sensor_v1
    (default_occupation kernel radius) (default_potential pink) (default_response white).
End DefaultNoise.
