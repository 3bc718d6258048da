(** C132: exponential samples are computed as documented. C21: samplers draw from the requested distribution. *)
From Verif Require Import RPrelude ModelSampling SpecSampling ProofsSampling ModelConfig ProofsExponential.
Local Open Scope R_scope.

Theorem C21_distribution {G} (r : rng G) a total sr g s w g1 : new_sampler r a total sr g = (s, w, g1) ->
  match a with
  | ANormal std (Some mean) => sm_dist s = DNormal mean std
  | ANormal std None => sm_dist s = DNormal ((fst (sm_range s) + snd (sm_range s)) / 2) std
  | AUniform => sm_dist s = DUniform
  | ALogNormal mean sigma => sm_dist s = DLogNormal mean sigma
  | AExponential scale => sm_dist s = DExponential scale
  end.
Proof. apply sampler_distribution. Qed.
Print Assumptions C21_distribution.

(** Ranges with ordered ends: the documented formula. *)
Theorem C132_formula_partial {G} (r : rng G) scale total sr g s w g1 fuel g2 v s' g3 : uniform_ok r -> ordered total -> admissible_width sr ->
  new_sampler r (AExponential scale) total sr g = (s, w, g1) -> sample_parameter r fuel s g2 = Some (v, s', g3) ->
  let lo := Rmin (fst (sm_range s)) (snd (sm_range s)) in let hi := Rmax (fst (sm_range s)) (snd (sm_range s)) in
  exists g', v = lo + fst (r_exponential r scale g') * (hi - lo).
Proof. apply exponential_ordered. Qed.
Print Assumptions C132_formula_partial.

(** Ranges with exchanged ends: the samples are measured from the maximum. *)
Theorem C132_reversed_refuted {G} (r : rng G) scale total sr g s w g1 fuel g2 v s' g3 : uniform_ok r -> snd total <= fst total -> admissible_width sr ->
  new_sampler r (AExponential scale) total sr g = (s, w, g1) -> sample_parameter r fuel s g2 = Some (v, s', g3) ->
  let lo := Rmin (fst (sm_range s)) (snd (sm_range s)) in let hi := Rmax (fst (sm_range s)) (snd (sm_range s)) in
  exists g', v = hi - fst (r_exponential r scale g') * (hi - lo).
Proof. apply exponential_reversed. Qed.
Print Assumptions C132_reversed_refuted.

(** The documented scale places the share p of the exponential numbers within the first part q of the range; numbers outside of the
    range are drawn again, so the share of the samples is larger. *)
Theorem C132_quantile p q : 0 < p < 1 -> 0 < q ->
  let scale := q / ln (1 / (1 - p)) in
  0 < scale /\ exponential_cdf scale q = p /\ p < exponential_cdf scale q / exponential_cdf scale 1.
Proof. apply quantile. Qed.
Print Assumptions C132_quantile.

(** The scale used for sampled configurations with quality k. *)
Theorem C132_config k : 0 < k -> exponential_cdf (exponential_scale k) (0.6 * k) = 0.99.
Proof. apply config_quantile. Qed.
Print Assumptions C132_config.

(** The number 1/4 of the range from 0 to 8 yields 2, of the range from 8 to 0 it yields 6. *)
Example C132_example : exists s s' t t', new_sampler demo_rng (AExponential 1) (0, 8) None [1/4] = (s, false, [1/4]) /\
  sample_parameter demo_rng 1 s [1/4] = Some (2, s', []) /\
  new_sampler demo_rng (AExponential 1) (8, 0) None [1/4] = (t, false, [1/4]) /\ sample_parameter demo_rng 1 t [1/4] = Some (6, t', []).
Proof.
  do 4 eexists. split; [reflexivity|]. split; [|split; [reflexivity|]].
  all: unfold sample_parameter; cbn [sm_dist sm_range draw_until draw demo_rng r_exponential rejected fst snd].
  - replace (0 + 1 / 4 * 1 * (8 - 0)) with 2 by lra. rewrite Rmin_left, Rmax_right by lra. rewrite !Rltb_false by lra. reflexivity.
  - replace (8 + 1 / 4 * 1 * (0 - 8)) with 6 by lra. rewrite Rmin_right, Rmax_left by lra. rewrite !Rltb_false by lra. reflexivity.
Qed.
