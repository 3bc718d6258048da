(** Properties of the default configuration GaAs_v1 with all its distortions. *)
From Verif Require Import RPrelude Arr ModelSupport ModelTct ModelCsd ModelJumps ModelDistortions ModelSensor ModelSimulation ModelInstance
  ModelNoise ModelDefault ModelDefaultNoise SpecSupport SpecTct SpecCsd SpecSensor SpecDistortions SpecInstance SpecNoise SpecDefaultNoise
  ProofsLabel ProofsDefaultNoise ProofsLines ExamplesCsd ExamplesNoise ExamplesDefaultNoise.
Local Open Scope R_scope.

(** C103 2D measurements never raise, whatever is drawn *)
Theorem C103_measure_2d {G} (src : sources G) label kernel radius pink white a1 b1 a2 b2 nx ny w :
  sources_ok src -> (forall m, is_labelling m (label m)) -> white_range white ->
  a1 <> b1 -> a2 <> b2 -> (2 <= nx)%nat -> (2 <= ny)%nat ->
  sweep_within (Some limits_g1) a1 b1 -> sweep_within (Some limits_g2) a2 b2 ->
  Rabs (b1 - a1) <= 0.004 * INR (nx - 1) -> Rabs (b2 - a2) <= 0.004 * INR (ny - 1) ->
  returned (measure (default_noisy src label kernel radius pink white) [a1; b1] [a2; b2] None None (ResArray [Z.of_nat nx; Z.of_nat ny]) w)
    (Shape2 ny nx).
Proof. exact (measured_2d src label kernel radius pink white a1 b1 a2 b2 nx ny w). Qed.
Print Assumptions C103_measure_2d.

(** The whole default range with 100 pixels per gate, every distortion active. *)
Example C103_example :
  returned (measure (default_noisy demo_src component_label gaussian_kernel gaussian_radius (fixed_param 0.00005) (fixed_param 0.001))
    [-0.2; -0.087] [-0.2; -0.047] None None (ResArray [100; 100]%Z) fresh_world) (Shape2 100 100).
Proof. exact whole_range. Qed.

(** C104 "1D measurements never raise": true if both gates are swept, or if the jumps along the other gate
    are not active; *)
Theorem C104_both_gates_partial {G} (src : sources G) label kernel radius pink white a1 b1 a2 b2 res n w :
  sources_ok src -> (forall m, is_labelling m (label m)) -> white_range white ->
  res_list res = [Z.of_nat n] -> (7 <= n)%nat -> a1 <> b1 -> a2 <> b2 ->
  sweep_within (Some limits_g1) a1 b1 -> sweep_within (Some limits_g2) a2 b2 ->
  returned (measure (default_noisy src label kernel radius pink white) [a1; b1] [a2; b2] None None res w) (Shape1 n).
Proof. exact (measured_both src label kernel radius pink white a1 b1 a2 b2 res n w). Qed.
Print Assumptions C104_both_gates_partial.

(** along the first gate the outcome is decided by the draw of the second distortion object (ratio 0.01):
    the voltage range of the second gate, by which the jump length is divided, is zero; *)
Theorem C104_first_gate_refuted {G} (src : sources G) label kernel radius pink white a1 b1 v2 res n w :
  sources_ok src -> (forall m, is_labelling m (label m)) -> white_range white ->
  res_list res = [Z.of_nat n] -> (7 <= n)%nat -> a1 <> b1 ->
  sweep_within (Some limits_g1) a1 b1 -> sweep_within (Some limits_g2) v2 v2 ->
  let r := measure (default_noisy src label kernel radius pink white) [a1; b1] [v2; v2] None None res w in
  if fst (src_binomial src 0.01 (w_rng w)) then raised r ValueError else returned r (Shape1 n).
Proof. exact (measured_first src label kernel radius pink white a1 b1 v2 res n w). Qed.
Print Assumptions C104_first_gate_refuted.

(** along the second gate by the draw of the third object (ratio 0.01 / 6), made with the generator the second
    object leaves behind. *)
Theorem C104_second_gate_refuted {G} (src : sources G) label kernel radius pink white v1 a2 b2 res n w :
  sources_ok src -> (forall m, is_labelling m (label m)) -> white_range white ->
  res_list res = [Z.of_nat n] -> (7 <= n)%nat -> a2 <> b2 ->
  sweep_within (Some limits_g1) v1 v1 -> sweep_within (Some limits_g2) a2 b2 ->
  let r := measure (default_noisy src label kernel radius pink white) [v1; v1] [a2; b2] None None res w in
  exists g, (fst (src_binomial src 0.01 (w_rng w)) = false -> g = snd (src_binomial src 0.01 (w_rng w))) /\
    if fst (src_binomial src (0.01 / 6) g) then raised r ValueError else returned r (Shape1 n).
Proof. intros Sok Lab Wht. exact (second_gate src Sok label Lab kernel radius pink white Wht v1 a2 b2 res n w). Qed.
Print Assumptions C104_second_gate_refuted.

(** The same sweep of the first gate: one draw, an error; another draw, a measurement. *)
Example C104_example :
  raised (measure (default_noisy demo_src component_label gaussian_kernel gaussian_radius (fixed_param 0.00005) (fixed_param 0.001))
    [-0.2; -0.087] [-0.1; -0.1] None None (ResInt 100) fresh_world) ValueError /\
  returned (measure (default_noisy quiet_src component_label gaussian_kernel gaussian_radius (fixed_param 0.00005) (fixed_param 0.001))
    [-0.2; -0.087] [-0.1; -0.1] None None (ResInt 100) fresh_world) (Shape1 100).
Proof. exact one_gate. Qed.
