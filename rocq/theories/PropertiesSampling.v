(** Property theorems about parameter sampling. *)
From Verif Require Import RPrelude ModelSampling SpecSampling ProofsSampling.
Local Open Scope R_scope.

(** C21: every sampled value lies in the total range; the narrowed range lies in the total range and
    has the requested width (or the total width if that is smaller, which is when a warning is given). *)
Theorem C21_samples_in_range {G} (r : rng G) a total sr g s w g1 fuel n g2 vs s' g3 :
  uniform_ok r -> admissible_range a total -> admissible_width sr ->
  new_sampler r a total sr g = (s, w, g1) -> sample_many r fuel n s g2 = Some (vs, s', g3) ->
  length vs = n /\ Forall (within total) vs.
Proof. exact (sampled_in_total r a total sr g s w g1 fuel n g2 vs s' g3). Qed.
Print Assumptions C21_samples_in_range.

Theorem C21_narrowed_range {G} (r : rng G) a total sr g s w g' :
  uniform_ok r -> admissible_range a total -> admissible_width sr ->
  new_sampler r a total sr g = (s, w, g') ->
  within total (fst (sm_range s)) /\ within total (snd (sm_range s)) /\
  width (sm_range s) = match sr with None => width total | Some x => Rmin x (width total) end /\
  (ordered total -> ordered (sm_range s)) /\ (ordered (snd total, fst total) -> ordered (snd (sm_range s), fst (sm_range s))) /\
  (w = true <-> exists x, sr = Some x /\ width total <= x) /\ last_sample s = None.
Proof. exact (new_sampler_spec r a total sr g s w g'). Qed.
Print Assumptions C21_narrowed_range.

(** Exactly the first number within the range is returned, and the call only goes on as long as there
    was none. *)
Theorem C21_first_in_range {G} (r : rng G) a total sr g s w g1 fuel g2 :
  uniform_ok r -> admissible_range a total -> admissible_width sr ->
  new_sampler r a total sr g = (s, w, g1) ->
  let drawn k := nth_draw r (sm_dist s) (sm_range s) k g2 in
  (forall v s' g3, sample_parameter r fuel s g2 = Some (v, s', g3) ->
     exists n, (n < fuel)%nat /\ v = drawn n /\ within (sm_range s) (drawn n) /\ forall k, (k < n)%nat -> ~ within (sm_range s) (drawn k)) /\
  (sample_parameter r fuel s g2 = None -> forall k, (k < fuel)%nat -> ~ within (sm_range s) (drawn k)).
Proof. exact (sampled_first r a total sr g s w g1 fuel g2). Qed.
Print Assumptions C21_first_in_range.

(** The order of the ends matters: with exchanged ends a normal sampler never returns. *)
Theorem C21_reversed_never_returns {G} (r : rng G) std mean a b g s w g1 fuel g2 : b < a ->
  new_sampler r (ANormal std mean) (a, b) None g = (s, w, g1) -> sample_parameter r fuel s g2 = None.
Proof. exact (reversed_never r std mean a b g s w g1 fuel g2). Qed.
Print Assumptions C21_reversed_never_returns.

Example C21_example : exists s g1 s' g',
  new_sampler demo_rng (ANormal 1 (Some 3)) (0, 10) (Some 4) [1 / 2; 5; 1] = (s, false, g1) /\ sm_range s = (3, 7) /\
  sample_parameter demo_rng 2 s g1 = Some (4, s', g') /\ last_sample s' = Some 4.
Proof.
  unfold new_sampler, narrow. cbn [fst snd]. rewrite Rleb_false by lra. cbn [r_uniform demo_rng].
  replace (Rmax 0 (Rmin 1 (1 / 2))) with (1 / 2) by (unfold Rmax, Rmin; repeat destruct Rle_dec; lra).
  do 2 eexists. exists (mk_sampler (DNormal 3 1) (3, 7) (Some 4)), [].
  split; [reflexivity|]. cbn [sm_range].
  replace (0 + 1 / 2 * 4 + 1 / 2 * (10 - 1 / 2 * 4 - (0 + 1 / 2 * 4)) - 1 / 2 * 4) with 3 by lra.
  replace (0 + 1 / 2 * 4 + 1 / 2 * (10 - 1 / 2 * 4 - (0 + 1 / 2 * 4)) + 1 / 2 * 4) with 7 by lra.
  split; [reflexivity|]. unfold sample_parameter. cbn [sm_dist sm_range draw_until draw r_normal demo_rng rejected fst snd].
  rewrite (Rltb_true 7) by lra. rewrite Bool.orb_true_r. rewrite (Rltb_false (3 + 1 * 1)), (Rltb_false 7) by lra. cbn [orb].
  replace (3 + 1 * 1) with 4 by lra. split; reflexivity.
Qed.

(** C77: during the lifetime of a sampler all values stay within one interval of the sampling range;
    the last sample is remembered. *)
Theorem C77_samples_close {G} (r : rng G) a total x g s w g1 fuel n g2 vs s' g3 :
  uniform_ok r -> admissible_range a total -> 0 <= x ->
  new_sampler r a total (Some x) g = (s, w, g1) -> sample_many r fuel n s g2 = Some (vs, s', g3) ->
  forall u v, In u vs -> In v vs -> Rabs (u - v) <= x.
Proof. exact (sampled_close r a total x g s w g1 fuel n g2 vs s' g3). Qed.
Print Assumptions C77_samples_close.

Theorem C77_last_sample {G} (r : rng G) a total sr g s w g1 fuel n g2 vs v s' g3 :
  uniform_ok r -> admissible_range a total -> admissible_width sr ->
  new_sampler r a total sr g = (s, w, g1) -> sample_many r fuel n s g2 = Some (vs ++ [v], s', g3) ->
  last_sample s' = Some v.
Proof. intros U O A H. exact (sampled_last r fuel n s g2 vs v s' g3 U (new_well_ordered r a total sr g s w g1 U O A H)). Qed.
Print Assumptions C77_last_sample.

Example C77_example : exists s g1 s' g3,
  new_sampler demo_rng AUniform (0, 10) None [0; 1] = (s, false, g1) /\
  sample_many demo_rng 1 2 s g1 = Some ([0; 10], s', g3) /\ last_sample s' = Some 10.
Proof.
  do 4 eexists. split; [reflexivity|].
  cbn -[Rmin Rmax]. replace (Rmax 0 (Rmin 1 0)) with 0 by (unfold Rmax, Rmin; repeat destruct Rle_dec; lra).
  replace (Rmax 0 (Rmin 1 1)) with 1 by (unfold Rmax, Rmin; repeat destruct Rle_dec; lra).
  replace (0 + 0 * (10 - 0)) with 0 by lra. replace (0 + 1 * (10 - 0)) with 10 by lra. split; reflexivity.
Qed.

(** C78: the mean of a normal sampler without given mean is the centre of the total range when the
    range is not narrowed; after narrowing it is the centre of the narrowed range instead. *)
Theorem C78_default_mean_partial {G} (r : rng G) std mean total g s w g1 m sd :
  new_sampler r (ANormal std mean) total None g = (s, w, g1) -> sm_dist s = DNormal m sd ->
  sd = std /\ m = match mean with Some m' => m' | None => (fst total + snd total) / 2 end.
Proof. exact (default_mean_total r std mean total g s w g1 m sd). Qed.
Print Assumptions C78_default_mean_partial.

Theorem C78_narrowed_mean_refuted {G} (r : rng G) std total x g s w g1 m sd : ordered total -> 0 <= x < width total ->
  new_sampler r (ANormal std None) total (Some x) g = (s, w, g1) -> sm_dist s = DNormal m sd ->
  sd = std /\ m = fst (r_uniform r (fst total + 1 / 2 * x) (snd total - 1 / 2 * x) g).
Proof. exact (default_mean_spec r std total x g s w g1 m sd). Qed.
Print Assumptions C78_narrowed_mean_refuted.

Example C78_counterexample : exists s g1 m, new_sampler demo_rng (ANormal 1 None) (0, 10) (Some 4) [0] = (s, false, g1) /\
  sm_dist s = DNormal m 1 /\ m = 2.
Proof.
  unfold new_sampler, narrow. cbn [fst snd]. rewrite Rleb_false by lra. cbn [r_uniform demo_rng].
  replace (Rmax 0 (Rmin 1 0)) with 0 by (unfold Rmax, Rmin; repeat destruct Rle_dec; lra).
  do 3 eexists. split; [reflexivity|]. split; [reflexivity|]. cbn. lra.
Qed.
