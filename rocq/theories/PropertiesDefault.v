(** Property theorems about the default configuration. *)
From Verif Require Import RPrelude Arr ModelSupport ModelTct ModelCsd ModelSensor ModelSimulation ModelInstance ModelDefault
  SpecTct SpecCsd SpecOrder SpecInstance ProofsLabel ProofsDefault.
Local Open Scope R_scope.

(** C90: the default configuration has an electron number, at most 13, for all voltages within its limits
    (and below). *)
Theorem C90_electrons v : fst v <= snd limits_g1 -> snd v <= snd limits_g2 ->
  exists n, (n <= 13)%nat /\ electrons (g_tcts default_csd) (g_lut default_csd) (g_rotation default_csd) v n.
Proof. exact (default_electrons v). Qed.
Print Assumptions C90_electrons.

(** Every 2D measurement within the limits succeeds if its pixels are at most 4 mV apart. *)
Theorem C90_measure_partial {W} label s a1 b1 a2 b2 nx ny (w : W) : (forall m, is_labelling m (label m)) ->
  a1 <> b1 -> a2 <> b2 -> (2 <= nx)%nat -> (2 <= ny)%nat ->
  sweep_within (Some limits_g1) a1 b1 -> sweep_within (Some limits_g2) a2 b2 ->
  Rabs (b1 - a1) <= 0.004 * INR (nx - 1) -> Rabs (b2 - a2) <= 0.004 * INR (ny - 1) ->
  exists m, measure (plain_config label (Some limits_g1) (Some limits_g2) default_csd s)
    [a1; b1] [a2; b2] None None (ResArray [Z.of_nat nx; Z.of_nat ny]) w = (Ok m, w).
Proof. intros Lab. exact (default_measure_ok label Lab s a1 b1 a2 b2 nx ny w). Qed.
Print Assumptions C90_measure_partial.

(** With fewer pixels it may fail: the complete range with 25 by 25 pixels. *)
Theorem C90_coarse_refuted {W} label s (w : W) : (forall m, is_labelling m (label m)) ->
  measure (plain_config label (Some limits_g1) (Some limits_g2) default_csd s)
    [fst limits_g1; snd limits_g1] [fst limits_g2; snd limits_g2] None None (ResArray [25; 25]%Z) w = (Err IndexError, w).
Proof. intros Lab. exact (default_measure_coarse label Lab s w). Qed.
Print Assumptions C90_coarse_refuted.

(** The complete range with the default resolution of 100 by 100 pixels. *)
Example C90_example : exists m, measure (plain_config component_label (Some limits_g1) (Some limits_g2) default_csd default_sensor_v1)
    [fst limits_g1; snd limits_g1] [fst limits_g2; snd limits_g2] None None (ResArray [100; 100]%Z) tt = (Ok m, tt).
Proof.
  apply (C90_measure_partial component_label default_sensor_v1 (-0.2) (-0.087) (-0.2) (-0.047) 100 100 tt component_labelling);
    cbn [sweep_within limits_g1 limits_g2]; try lra; try lia; change (100 - 1)%nat with 99%nat; rewrite INR_IZR_INZ; simpl IZR;
    rewrite Rabs_pos_eq; lra.
Qed.
