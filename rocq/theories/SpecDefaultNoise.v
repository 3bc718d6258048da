(** Vocabulary for measurements of the default configuration with its distortions. *)
From Verif Require Import RPrelude Arr ModelSupport ModelTct ModelCsd ModelJumps ModelDistortions ModelSensor ModelSimulation ModelInstance
  ModelNoise SpecSupport SpecTct SpecCsd SpecSensor SpecDistortions SpecInstance SpecNoise.
Local Open Scope R_scope.

(** A measurement of the given shape was returned: occupations and image. *)
Definition returned {W} (r : result (@measurement W lead_mask response unit) * W) (sh : shape) : Prop :=
  exists m im w', r = (Ok m, w') /\ shape_of_occ (m_occ m) = Some sh /\ m_csd m = RImage im /\ image_shape im = sh.
Definition raised {W A} (r : result A * W) (e : exn) : Prop := exists w', r = (Err e, w').
(** The strength of the white noise lies in its range (NormalSamplingRange, C21). *)
Definition white_range {G} (white : param G) : Prop := forall g, 1e-10 <= fst (white g) <= 0.003.
