(** Simulations of sampled configurations: Simulation( **sample_random_variations_v3_config(...) ), see
    simcats/config_samplers/_GaAs_v1_random_variations_v3_config_sampler.py:38-86.

    Parameters that are drawn at every measurement ([Drawn]) are arbitrary functions of the generator here
    ([draw]); see ModelSampling for the samplers. *)
From Verif Require Import RPrelude Arr ModelSupport ModelTct ModelCsd ModelJumps ModelDistortions ModelSampling ModelSensor ModelSimulation ModelInstance
  ModelNoise ModelConfig ModelScanInstance ModelDefault ModelDefaultNoise ModelScanNoise.
Local Open Scope R_scope.

Section SampledSim.
Context {G : Type}.
Variable src : sources G.
Variable label : arr2 nat -> arr2 nat.
Variable draw : sampler_args -> R * R -> param G.
(** Kernel and radius of OccupationTransitionBlurringFermiDirac *)
Variables (kernel : R -> Z -> R) (radius : R -> nat).

Definition of_strength (s : strength) : param G := match s with Fixed x => given x | Drawn a total => draw a total end.
(** The distortion objects; those of other kinds do not occur in the lists and are left out. The number
    of the first object is [k]. *)
Fixpoint occupation_objects (k : nat) (ds : list distortion) : list (occ_noise G) :=
  match ds with
  | [] => []
  | FermiDirac sigma :: t => Blur k (of_strength sigma) kernel radius :: occupation_objects (S k) t
  | DotJumps ratio scale lam axis :: t => Jumps k (Z.of_nat axis) ratio (given scale) (given lam) :: occupation_objects (S k) t
  | _ :: t => occupation_objects k t
  end.
Fixpoint image_objects (ds : list distortion) : list (image_noise G) :=
  match ds with
  | [] => []
  | PinkNoise sigma :: t => Pink (of_strength sigma) 0 :: image_objects t
  | WhiteNoise sigma :: t => White (of_strength sigma) :: image_objects t
  | TelegraphNoise scale std height ratio :: t => Telegraph ratio (given scale) (given std) (given height) :: image_objects t
  | _ :: t => image_objects t
  end.

(** sensor_type "SensorGeneric" *)
Definition sampled_generic (x : geometric) (c : sampled_config) (s : generic_sensor) : config (noise_world G) lead_mask response unit :=
  mk_config (Some (sc_limits_g1 c)) (Some (sc_limits_g2 c)) (Some (sc_limits_sensor_g1 c)) (Some (sc_limits_sensor_g2 c))
    (Some (get_csd_data label x)) (generic_object s)
    (Some (map (occ_object src) (occupation_objects 0 (sc_occupation c))))
    (Some (map (image_object src) (image_objects (sc_potential c)))) (Some (map (image_object src) (image_objects (sc_response c)))).

(** sensor_type "SensorScanSensorGeneric", lines 835-856; offset_mu_sens is zero by default *)
Definition sensor_of (s : scan_sample) : result scan_sensor :=
  let? sens := set_alpha_sensor (AlphaRows (sp_sensor_gate s)) in
  let? dot := set_alpha (AlphaPair (sp_dots s)) in
  let? gate := set_alpha (AlphaPair (sp_gates s)) in
  Ok (mk_scan_sensor (sp_barrier1 s) (sp_barrier2 s) (Some (map lorentz_peak (sp_peaks s))) sens gate dot (mk_three 0 0 0)
        (Some (rise_function (sp_rise s))) []).
Definition sampled_scan (x : geometric) (c : sampled_config) (s : scan_sensor) : config (scan_world G) lead_mask image labels :=
  noisy_scan_config src label (Some (sc_limits_g1 c)) (Some (sc_limits_g2 c)) (Some (sc_limits_sensor_g1 c)) (Some (sc_limits_sensor_g2 c))
    (Some x) s (occupation_objects 0 (sc_occupation c)) (image_objects (sc_potential c)) (image_objects (sc_response c)).
End SampledSim.
