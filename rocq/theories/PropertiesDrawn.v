(** Which of the drawn numbers a sampler returns, and the state of the generator afterwards. *)
From Verif Require Import RPrelude SpecHeights ModelSampling SpecSampling ProofsSampling ProofsDrawn.
Local Open Scope R_scope.

(** C21: numbers are drawn until one is accepted, and no further ones; all earlier numbers lie outside of the range. *)
Theorem C21_generator {G} (r : rng G) fuel s g v s' g3 : sample_parameter r fuel s g = Some (v, s', g3) ->
  let number := one_draw r (sm_dist s) (sm_range s) in
  exists n, (n < fuel)%nat /\ v = SpecHeights.nth_draw number n g /\ g3 = SpecHeights.after_draws number (S n) g /\
    (sm_dist s = DUniform -> n = 0%nat) /\
    (sm_dist s <> DUniform -> ordered (sm_range s) -> forall k, (k < n)%nat -> ~ within (sm_range s) (SpecHeights.nth_draw number k g)).
Proof. exact (sampled_after r fuel s g v s' g3). Qed.
Print Assumptions C21_generator.

(** C132: the exponential number used is the first one of the generator's that lies between 0 and 1, and counts from the first end of the
    range in units of its width. *)
Theorem C132_draws_partial {G} (r : rng G) scale total sr g s w g1 fuel g2 v s' g3 :
  new_sampler r (AExponential scale) total sr g = (s, w, g1) -> sample_parameter r fuel s g2 = Some (v, s', g3) ->
  let first := fst (sm_range s) in let last := snd (sm_range s) in
  let number k := SpecHeights.nth_draw (r_exponential r scale) k g2 in
  exists n, (n < fuel)%nat /\ v = first + number n * (last - first) /\ g3 = SpecHeights.after_draws (r_exponential r scale) (S n) g2 /\
    (first <> last -> 0 <= number n <= 1 /\ forall k, (k < n)%nat -> ~ 0 <= number k <= 1).
Proof. exact (exponential_draws r scale total sr g s w g1 fuel g2 v s' g3). Qed.
Print Assumptions C132_draws_partial.

(** The numbers 3, 1/4, 1/8: the first is refused, the last stays with the generator. *)
Example C132_draws_example : exists s s', new_sampler demo_rng (AExponential 1) (0, 8) None [3; 1/4; 1/8] = (s, false, [3; 1/4; 1/8]) /\
  sample_parameter demo_rng 5 s [3; 1/4; 1/8] = Some (2, s', [1/8]).
Proof.
  do 2 eexists. split; [reflexivity|].
  unfold sample_parameter; cbn [sm_dist sm_range draw_until draw demo_rng r_exponential rejected fst snd].
  rewrite Rmin_left, Rmax_right by lra. replace (0 + 3 * 1 * (8 - 0)) with 24 by lra. rewrite (Rltb_true 8 24), Bool.orb_true_r by lra.
  replace (0 + 1 / 4 * 1 * (8 - 0)) with 2 by lra. rewrite !Rltb_false by lra. reflexivity.
Qed.
Example C21_generator_example : exists s s' n, sample_parameter demo_rng 5 s [3; 1/4; 1/8] = Some (2, s', [1/8]) /\
  2 = SpecHeights.nth_draw (one_draw demo_rng (sm_dist s) (sm_range s)) n [3; 1/4; 1/8].
Proof.
  destruct C132_draws_example as (s & s' & _ & E). destruct (C21_generator demo_rng 5 s _ _ _ _ E) as (n & _ & V & _). exists s, s', n. auto.
Qed.
