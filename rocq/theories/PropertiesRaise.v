(** Property theorems about raising gate voltages when the TCTs are evaluated with lookup tables. *)
From Verif Require Import RPrelude Arr ModelSupport ModelTct ModelCsd ModelSensor ModelSampling ModelSimulation ModelInstance
  ModelConfig ModelConfigCsd ModelDefault SpecTct SpecCsd SpecOrder SpecSampling SpecInstance SpecConfig SpecConfigCsd
  ProofsLabel ProofsDefault ProofsConfig ProofsConfigCsd ProofsRaise.
Local Open Scope R_scope.

(** C136: with the default rotation, a step that raises the voltages by more than the gradients [L] and the
    error [eps] of the tables can compensate never lowers the electron number. *)
Theorem C136_tables_partial params lut L eps v v' n n' : 0 <= eps -> Forall (bounded_tct L eps lut) params ->
  L * Rabs ((fst v' - fst v) - (snd v' - snd v)) + 2 * sqrt 2 * eps <= (fst v' - fst v) + (snd v' - snd v) ->
  electrons params lut (- (PI / 4)) v n -> electrons params lut (- (PI / 4)) v' n' -> (n <= n')%nat.
Proof. exact (table_raise_electrons params lut L eps v v' n n'). Qed.
Print Assumptions C136_tables_partial.
Theorem C136_above_all_partial params lut L eps v v' : 0 <= eps -> Forall (bounded_tct L eps lut) params ->
  L * Rabs ((fst v' - fst v) - (snd v' - snd v)) + 2 * sqrt 2 * eps <= (fst v' - fst v) + (snd v' - snd v) ->
  above_all params lut (- (PI / 4)) v -> above_all params lut (- (PI / 4)) v'.
Proof. exact (table_raise_above_all params lut L eps v v'). Qed.
Print Assumptions C136_above_all_partial.

(** Default configuration: raising one gate by 12.5 microvolts or more without lowering the other. *)
Theorem C136_default_partial v v' n n' :
  fst v <= fst v' -> snd v <= snd v' -> 0.0000125 <= fst v' - fst v \/ 0.0000125 <= snd v' - snd v ->
  electrons (g_tcts default_csd) (g_lut default_csd) (g_rotation default_csd) v n ->
  electrons (g_tcts default_csd) (g_lut default_csd) (g_rotation default_csd) v' n' -> (n <= n')%nat.
Proof.
  exact (fun H1 H2 H => C136_tables_partial default_tcts (Some 1000%nat) 0.43 0.0000025 v v' n n' ltac:(lra) default_bounded
    (gate_step 0.43 0.0000025 0.0000125 v v' ltac:(lra) ltac:(lra) ltac:(lra) H1 H2 H)).
Qed.
Print Assumptions C136_default_partial.

(** Sampled configurations: the same for 32 microvolts. *)
Theorem C136_sampled_partial {G} (r : rng G) fuel label g x g1 v v' n n' : uniform_ok r -> (forall m, is_labelling m (label m)) ->
  sample_ideal_csd r fuel label g = (Ok x, g1) ->
  fst v <= fst v' -> snd v <= snd v' -> 0.000032 <= fst v' - fst v \/ 0.000032 <= snd v' - snd v ->
  electrons (g_tcts x) (g_lut x) (g_rotation x) v n -> electrons (g_tcts x) (g_lut x) (g_rotation x) v' n' -> (n <= n')%nat.
Proof. exact (sampled_raise r fuel label g x g1 v v' n n'). Qed.
Print Assumptions C136_sampled_partial.

(** Smaller steps may lower it: the default configuration has points within its limits at which raising gate
    1 by less than any given distance removes the only electron. *)
Theorem C136_step_refuted d : 0 < d -> exists v v',
  fst limits_g1 < fst v < fst v' /\ fst v' < snd limits_g1 /\ fst v' < fst v + d /\
  fst limits_g2 < snd v < snd limits_g2 /\ snd v' = snd v /\
  electrons (g_tcts default_csd) (g_lut default_csd) (g_rotation default_csd) v 1 /\
  electrons (g_tcts default_csd) (g_lut default_csd) (g_rotation default_csd) v' 0.
Proof. exact (default_step d). Qed.
Print Assumptions C136_step_refuted.
(** Such a step in a scan of two pixels along gate 1. *)
Theorem C136_scan_refuted label d : (forall m, is_labelling m (label m)) -> 0 < d -> exists a b v2 o o' lead,
  fst limits_g1 < a < b /\ b < snd limits_g1 /\ b < a + d /\ fst limits_g2 < v2 < snd limits_g2 /\
  ideal_csd_geometric label (g_tcts default_csd) [a; b] [v2; v2] (ResInt 2) (g_rotation default_csd) (g_lut default_csd)
    (g_cdf default_csd) (g_gamma default_csd) = Ok (Csd1 [o; o'] lead) /\
  fst o + snd o = 1 /\ fst o' + snd o' = 0.
Proof. intros Lab. exact (default_step_scan label Lab d). Qed.
Print Assumptions C136_scan_refuted.

(** Two neighbouring pixels of the default range of gate 1 at the default resolution of 100 pixels. *)
Example C136_example n n' : let a := -0.15 in let h := (0.2 - 0.087) / 99 in
  electrons (g_tcts default_csd) (g_lut default_csd) (g_rotation default_csd) (a, -0.1) n ->
  electrons (g_tcts default_csd) (g_lut default_csd) (g_rotation default_csd) (a + h, -0.1) n' -> (n <= n')%nat.
Proof. cbv zeta. apply C136_default_partial; cbn [fst snd]; lra. Qed.
