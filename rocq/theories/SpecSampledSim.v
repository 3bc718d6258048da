(** Vocabulary for measurements of sampled configurations. *)
From Verif Require Import RPrelude Arr ModelSupport ModelTct ModelCsd ModelDistortions ModelSampling ModelSensor ModelSimulation ModelInstance
  ModelNoise ModelConfig ModelConfigCsd ModelSampledSim SpecInstance SpecSensor SpecNoise.
Local Open Scope R_scope.

(** Values that are drawn at every measurement lie in the range of their sampler (C21). *)
Definition drawn_within {G} (draw : sampler_args -> R * R -> param G) : Prop :=
  forall a total g, fst total <= snd total -> fst total <= fst (draw a total g) <= snd total.
(** The sampler returned the ideal data [x] and the configuration [c]. *)
Definition sampled {G} (r : rng G) (choice : nat -> nat -> G -> nat * G) (label : arr2 nat -> arr2 nat) (x : geometric) (c : sampled_config) : Prop :=
  exists fuel fuel' kind q compensated steepest g g1,
    sample_config r choice fuel (sample_ideal_csd r fuel' label) kind q compensated steepest g = (Ok (x, c), g1).
(** Voltages of the sensor gates in their limits. *)
Definition sensor_volt (v : R) : Prop := -1 <= v <= 0.
(** The generator after drawing the strength of the blurring; whether the dot jumps along gate 2 are active
    in a measurement. *)
Definition after_blur {G} (draw : sampler_args -> R * R -> param G) (g : G) : G :=
  snd (draw (ANormal ((2 * 0.03 / 100 - 0.25 * 0.03 / 100) / 6) None) (0.25 * 0.03 / 100, 2 * 0.03 / 100) g).
Definition jumps_g2 {G} (src : sources G) (draw : sampler_args -> R * R -> param G) (g : G) : bool :=
  fst (src_binomial src 0.01 (after_blur draw g)).
